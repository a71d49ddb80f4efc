(** Model of the ownership of the WrapPolyInt objects of JanetPolyInt (ginv/poly_int.h 352-424, ginv/poly_int.cpp
    583-1446): the same functions as in JanetPolyModel.v and TQModel.v, but every WrapPolyInt has an address,
    [new] and [delete] act on a heap, and looking at an object that is not alive is [Undef], as is deleting it.
    What is computed from the polynomials is taken over from those files; what is new here is which object is
    looked at, created, moved and destroyed when.  Where a Janet tree is consulted or changed, all pointers in
    the trees have to be good (the code may follow any of them).
    Not modelled: the nodes of the lists and trees (C13, C20, C59), failure of [new]. *)
From Coq Require Import ZArith List Bool Arith.
From Verif Require Import Outcome MonomModel JanetModel PolyModel JanetPolyModel TQModel.
Import ListNotations.
Local Open Scope Z_scope.

(** The addresses in use, and the next one that operator new returns. *)
Record heap : Type := Heap { live : list nat; next : nat }.
Definition is_live (s : heap) (i : nat) : bool := existsb (Nat.eqb i) (live s).
(** new WrapPolyInt(...) *)
Definition h_new (s : heap) : nat * heap := (next s, Heap (next s :: live s) (S (next s))).
(** delete p *)
Definition h_del (i : nat) (s : heap) : outcome heap :=
  if is_live s i then Ok (Heap (remove Nat.eq_dec i (live s)) (next s)) else Undef.
Fixpoint h_del_all (l : list nat) (s : heap) : outcome heap :=
  match l with
  | [] => Ok s
  | i :: l' => do s' <- h_del i s; h_del_all l' s'
  end.
(** The objects at the listed addresses are looked at, then comes k. *)
Definition deref {A} (s : heap) (l : list nat) (k : outcome A) : outcome A := if forallb (is_live s) l then k else Undef.

(** A pointer to a WrapPolyInt with what it points to, outside and inside mT. *)
Notation own := (nat * wpoly)%type.
Notation owe := (nat * entry)%type.
Definition ids {A} (l : list (nat * A)) : list nat := map fst l.
Definition vals {A} (l : list (nat * A)) : list A := map snd l.

(** poly_int.h:353-366; [otid] are the pointers in the trees. *)
Record ojp : Type := OJ {
  oone : option own;
  oq : list own;
  ot : list owe;
  opos : Z;
  otrees : option (list janet);
  otid : list nat;
  oheap : heap
}.
(** poly_int.h:377-389 *)
Definition o_empty (s : heap) : ojp := OJ None [] [] (-2) None [] s.

(** poly_int.cpp:654-661 insert *)
Fixpoint o_place (dbg : bool) (s : heap) (l : list own) (w : own) : outcome (list own) :=
  match l with
  | [] => Ok [w]
  | u :: l' =>
      deref s [fst w; fst u]
        (do c <- p_cmp dbg (wpol (snd w)) (wpol (snd u));
         if 0 <? c then do r <- o_place dbg s l' w; Ok (u :: r) else Ok (w :: l))
  end.
Definition o_insert (dbg : bool) (s : heap) (l : list own) (w : own) : outcome (list own) :=
  deref s [fst w] (assert_ dbg (negb (is_zero (wpol (snd w)))) (o_place dbg s l w)).

(** poly_int.cpp:668-681 assertSort looks at every element *)
Definition o_assert_sort {A} (dbg : bool) (s : heap) (l : list own) (k : outcome A) : outcome A :=
  if dbg then deref s (ids l) (assert_ dbg (assertSort (vals l)) k) else k.

(** poly_int.h:399-404 comparable *)
Definition o_comparable (O : ojp) (a : poly) : outcome bool :=
  deref (oheap O) (match oq O with u :: _ => [fst u] | [] => [] end ++ match ot O with u :: _ => [fst u] | [] => [] end
                   ++ match oone O with Some u => [fst u] | None => [] end)
    (Ok (match oq O, ot O with [], [] => true | _, _ => false end ||
         match oq O with u :: _ => comparable (wpol (snd u)) a | [] => false end ||
         match ot O with u :: _ => comparable (snd (snd u)) a | [] => false end ||
         match oone O with Some u => comparable (wpol (snd u)) a | None => false end)).

(** poly_int.h:405-409 push *)
Definition o_push (dbg : bool) (O : ojp) (a : poly) : outcome ojp :=
  do b <- (if dbg then o_comparable O a else Ok true);
  assert_ dbg b
    match oone O with
    | Some _ => Ok O
    | None =>
        if is_zero a then Ok O
        else do m <- p_lm dbg a;
             do c <- p_copy dbg a;
             let (i, s) := h_new (oheap O) in
             do q <- o_insert dbg s (oq O) (i, WP (new_wrap m) c);
             Ok (OJ None q (ot O) (opos O) (otrees O) (otid O) s)
    end.

(** poly_int.cpp:583-599 setPos: the trees move to a new array with their pointers. *)
Definition o_set_pos (O : ojp) : outcome ojp :=
  deref (oheap O) (ids (oq O))
    (let p := q_pos (vals (oq O)) in
     if opos O <? p
     then let old := match otrees O with Some js => firstn (Z.to_nat (opos O + 2)) js | None => [] end in
          Ok (OJ (oone O) (oq O) (ot O) p (Some (old ++ repeat jempty (Z.to_nat (p + 2) - length old))) (otid O) (oheap O))
     else Ok O).

(** poly_int.cpp:601-613 setOne; [tmp] are the elements of the local list, deleted just before
    (poly_int.cpp:731-732, 946-947, 1131-1132, 1327-1328). *)
Definition o_set_one (dbg : bool) (t : pos_order) (o : base_order) (n : nat) (mpos : Z) (tmp q : list own) (T : list owe) (s : heap) : outcome ojp :=
  do s1 <- h_del_all (ids tmp) s;
  do s2 <- h_del_all (ids q) s1;
  do s3 <- h_del_all (ids T) s2;
  do p <- p_const dbg t o n 1;
  do m <- p_lm dbg p;
  let (i, s4) := h_new s3 in
  Ok (OJ (Some (i, WP (new_wrap m) p)) [] [] mpos None [] s4).

(** poly_int.h:391-398 ~JanetPolyInt *)
Definition o_destroy (O : ojp) : outcome heap :=
  do s <- match oone O with Some w => h_del (fst w) (oheap O) | None => Ok (oheap O) end;
  do s <- h_del_all (ids (oq O)) s;
  h_del_all (ids (ot O)) s.

(** poly_int.cpp:615-633 prolong(w); [i] is the address of w, [tid] the pointers in the trees. *)
Fixpoint o_prolong (dbg : bool) (mpos : Z) (cnt k : nat) (js : list janet) (tid : list nat) (i : nat) (w : wrap) (p : poly) (q : list own) (s : heap) :
    outcome (list janet * list own * heap) :=
  match cnt with
  | O => Ok (js, q, s)
  | S cnt' =>
      deref s [i]
        (do nm <- get_flag dbg (wnm w) k;
         do b <- get_flag dbg (wbuild w) k;
         if nm && negb b then
           let m := mul_var k (wlm w) in
           deref s tid
             (do d <- find_wrap dbg mpos (Some js) m;
              let skip := match d with
                          | Some d => (deg (wanc w) + deg (wanc d) <=? deg m)%nat
                                      || (lcm_deg (wanc w) (wanc d) <? deg m)%nat
                          | None => false
                          end in
              if skip then
                do w' <- set_build dbg w k;
                o_prolong dbg mpos cnt' (S k) (upd_trees (fun _ => w') (wlm w) js) tid i w' p q s
              else
                do r <- prolong_wrap dbg k w;
                let (v, w') := r in
                do pv <- p_mul_var dbg k p;
                let (i', s') := h_new s in
                do q' <- o_insert dbg s' q (i', WP v pv);
                o_prolong dbg mpos cnt' (S k) (upd_trees (fun _ => w') (wlm w) js) tid i w' p q' s')
         else o_prolong dbg mpos cnt' (S k) js tid i w p q s)
  end.
Definition o_prolong_if (dbg : bool) (mpos : Z) (dg : nat) (js : list janet) (tid : list nat) (e : owe) (q : list own) (s : heap) :
    outcome (list janet * list own * heap) :=
  deref s [fst e]
    (if (deg (fst (snd e)) <=? dg)%nat then
       match get_wrap js (fst (snd e)) with
       | Some w => o_prolong dbg mpos (size (wlm w)) 0 js tid (fst e) w (snd (snd e)) q s
       | None => Undef
       end
     else Ok (js, q, s)).

(* ------------------------------------------------------------------------------------------ *)
(** * algorithmBlockTQ *)

(** poly_int.cpp:716-749 *)
Fixpoint o_take_block (fuel : nat) (dbg : bool) (find : monom -> outcome (option poly)) (tid : list nat) (dg : nat)
    (q tmp : list own) (s : heap) : outcome (bool * list own * list own * heap) :=
  match q with
  | [] => Ok (false, [], tmp, s)
  | u :: q' =>
      deref s [fst u]
        (do m <- p_lm dbg (wpol (snd u));
         if (deg m <=? dg)%nat then
           deref s tid
             (do r <- p_nf fuel dbg find (wpol (snd u));
              let p := fst r in
              if is_zero p then do s' <- h_del (fst u) s; o_take_block fuel dbg find tid dg q' tmp s'
              else
                do m' <- p_lm dbg p;
                if (deg m' =? 0)%nat then Ok (true, q, tmp, s)
                else
                  do r2 <- p_nfTail fuel dbg find p;
                  let (p2, c) := r2 in
                  do p3 <- (if (c =? 0)%nat then Ok p2 else p_pp dbg p2);
                  do tmp' <- o_insert dbg s tmp (fst u, WP (wwrap (snd u)) p3);
                  o_take_block fuel dbg find tid dg q' tmp' s)
         else Ok (false, q, tmp, s))
  end.

(** poly_int.cpp:768-774 *)
Fixpoint o_same_deg (dbg : bool) (s : heap) (d : nat) (l : list own) : outcome (list own * list own) :=
  match l with
  | [] => Ok ([], [])
  | u :: l' =>
      deref s [fst u]
        (do m <- p_lm dbg (wpol (snd u));
         if (deg m =? d)%nat then do r <- o_same_deg dbg s d l'; Ok (u :: fst r, snd r) else Ok ([], l))
  end.

(** poly_int.cpp:787-793, 984-992, 1355-1374 *)
Fixpoint o_same_lm (dbg : bool) (s : heap) (m : monom) (l : list own) : outcome (list own * list own) :=
  match l with
  | [] => Ok ([], [])
  | u :: l' =>
      deref s [fst u]
        (do n <- p_lm dbg (wpol (snd u));
         if eqm n m then do r <- o_same_lm dbg s m l'; Ok (u :: fst r, snd r) else Ok ([], l))
  end.

(** poly_int.cpp:797-801 *)
Fixpoint o_red_all (dbg : bool) (s : heap) (a : own) (l : list own) : outcome (list own) :=
  match l with
  | [] => Ok []
  | u :: l' =>
      deref s [fst a; fst u]
        (do p <- p_redMaybe dbg (wpol (snd u)) (wpol (snd a));
         assert_ dbg (negb (is_zero p)) (do r <- o_red_all dbg s a l'; Ok ((fst u, WP (wwrap (snd u)) p) :: r)))
  end.

(** poly_int.cpp:784-806 *)
Fixpoint o_scan (cnt : nat) (dbg : bool) (s : heap) (pre l : list own) : outcome (list own * list own) :=
  match l with
  | [] => Ok (pre, [])
  | k :: l' =>
      match cnt with
      | O => OutOfFuel
      | S cnt' =>
          deref s [fst k]
            (do m <- p_lm dbg (wpol (snd k));
             do r <- o_same_lm dbg s m l';
             match r with
             | ([], _) => do l'' <- o_red_all dbg s k l'; o_scan cnt' dbg s (pre ++ [k]) l''
             | (eqs, j) => Ok (pre ++ j, k :: rev eqs)
             end)
      end
  end.

(** poly_int.cpp:815-827; every element is looked at, see [o_block_loop]. *)
Fixpoint o_min_norm (w : own) (skipped l : list own) : own * list own :=
  match l with
  | [] => (w, skipped)
  | u :: l' => if p_norm (wpol (snd u)) <? p_norm (wpol (snd w)) then
                 let (v, r) := o_min_norm u [] l' in (v, (w :: skipped) ++ r)
               else o_min_norm w (skipped ++ [u]) l'
  end.

(** poly_int.cpp:831-842 *)
Fixpoint o_red_by (dbg : bool) (a : own) (l tmp : list own) (s : heap) : outcome (list own * heap) :=
  match l with
  | [] => Ok (tmp, s)
  | u :: l' =>
      deref s [fst a; fst u]
        (do p <- p_reduction dbg (wpol (snd u)) (wpol (snd a));
         if is_zero p then do s' <- h_del (fst u) s; o_red_by dbg a l' tmp s'
         else do tmp' <- o_insert dbg s tmp (fst u, WP (wwrap (snd u)) p); o_red_by dbg a l' tmp' s)
  end.

(** poly_int.cpp:760-849 *)
Fixpoint o_block_loop (fuel : nat) (dbg : bool) (tmp q : list own) (s : heap) : outcome (list own * list own * nat * heap) :=
  match fuel, tmp with
  | O, _ => OutOfFuel
  | _, [] => null_head dbg
  | S fuel', u :: l =>
      deref s [fst u]
        (do m <- p_lm dbg (wpol (snd u));
         do r <- o_same_deg dbg s (deg m) l;
         let (blk, rest) := r in
         let q' := rest ++ q in
         o_assert_sort dbg s q' (o_assert_sort dbg s (u :: blk)
           (do c <- o_scan (S (length blk)) dbg s [] (u :: blk);
            match c with
            | (tmp', []) => Ok (tmp', q', deg m, s)
            | (tmp', w0 :: tmp2) =>
                deref s (ids (w0 :: tmp2))
                  (let (w, others) := o_min_norm w0 [] tmp2 in
                   do t1 <- o_insert dbg s tmp' w;
                   do t2 <- o_red_by dbg w others t1 s;
                   o_assert_sort dbg (snd t2) (fst t2) (o_block_loop fuel' dbg (fst t2) q' (snd t2)))
            end)))
  end.

(** poly_int.cpp:851-857: the new elements enter the trees. *)
Fixpoint o_enter (dbg : bool) (s : heap) (js : list janet) (tid : list nat) (l : list own) : outcome (list janet * list nat * list owe) :=
  match l with
  | [] => Ok (js, tid, [])
  | u :: l' =>
      deref s (fst u :: tid)
        (do m <- p_lm dbg (wpol (snd u));
         let w := update (wwrap (snd u)) m in
         do p <- p_pp dbg (wpol (snd u));
         let k := Z.to_nat (pos (wlm w) + 1) in
         do J <- tree_at dbg js (pos (wlm w));
         do J' <- insert dbg J w;
         do r <- o_enter dbg s (firstn k js ++ J' :: skipn (S k) js) (fst u :: tid) l';
         let '(js2, tid2, new) := r in
         Ok (js2, tid2, (fst u, (wlm w, p)) :: new))
  end.

(** poly_int.cpp:880-885, 903-908 *)
Definition o_tail_reduce (fuel : nat) (dbg : bool) (s : heap) (mpos : Z) (js : list janet) (tid : list nat) (others : list entry) (e : owe) : outcome owe :=
  deref s (fst e :: tid) (do e' <- tail_reduce fuel dbg mpos js others (snd e); Ok (fst e, e')).

(** poly_int.cpp:874-912 *)
Fixpoint o_merge_loop (cnt fuel : nat) (dbg : bool) (mpos : Z) (dg : nat) (js : list janet) (tid : list nat) (q : list own) (s : heap)
    (d j k : list owe) : outcome (list janet * list own * heap * list owe) :=
  match cnt with
  | O => match j, k with [], [] => Ok (js, q, s, d) | _, _ => OutOfFuel end
  | S cnt' =>
      let put e j' k' :=
        do b <- (if dbg then deref s (fst e :: tid) (p_isNf (find_poly dbg mpos (Some js) (vals (d ++ j ++ k))) (snd (snd e))) else Ok true);
        assert_ dbg b
          (do r <- o_prolong_if dbg mpos dg js tid e q s;
           let '(js', q', s') := r in
           o_merge_loop cnt' fuel dbg mpos dg js' tid q' s' (d ++ [e]) j' k') in
      let redu e k' :=
        do e' <- o_tail_reduce fuel dbg s mpos js tid (vals (d ++ j ++ k')) e;
        do r <- o_prolong_if dbg mpos dg js tid e' q s;
        let '(js', q', s') := r in
        o_merge_loop cnt' fuel dbg mpos dg js' tid q' s' (d ++ [e']) j k' in
      match j, k with
      | [], [] => Ok (js, q, s, d)
      | e :: j', [] => put e j' []
      | [], e :: k' => redu e k'
      | e :: j', e' :: k' =>
          deref s [fst e; fst e']
            (do c <- p_cmp dbg (snd (snd e)) (snd (snd e'));
             if c <? 0 then put e j' k else redu e' k')
      end
  end.

(** poly_int.cpp:635-652 assertT *)
Definition o_assertT (dbg : bool) (s : heap) (mpos : Z) (js : list janet) (tid : list nat) (T : list owe) : outcome bool :=
  if dbg then deref s (ids T ++ tid) (assertT dbg mpos js (vals T)) else Ok true.

(** poly_int.cpp:706-906 *)
Fixpoint o_block_tq (fuel : nat) (dbg : bool) (mpos : Z) (js : list janet) (tid : list nat) (q : list own) (T : list owe) (s : heap) : outcome ojp :=
  match q with
  | [] => Ok (OJ None [] T mpos (Some js) tid s)
  | u :: _ =>
      match fuel with
      | O => OutOfFuel
      | S fuel' =>
          deref s [fst u]
            (do m <- p_lm dbg (wpol (snd u));
             do r <- o_take_block fuel dbg (find_poly dbg mpos (Some js) (vals T)) tid (deg m) q [] s;
             match r with
             | (true, q1, tmp, s1) => o_set_one dbg (pto (wpol (snd u))) (pbo (wpol (snd u))) (psize (wpol (snd u))) mpos tmp q1 T s1
             | (false, q1, tmp, s1) =>
                 o_assert_sort dbg s1 q1 (o_assert_sort dbg s1 tmp
                   match tmp with
                   | [] => o_block_tq fuel' dbg mpos js tid q1 T s1
                   | _ =>
                       do c <- o_block_loop fuel dbg tmp q1 s1;
                       let '(tmp2, q2, dg, s2) := c in
                       do e <- o_enter dbg s2 js tid tmp2;
                       let '(js2, tid2, new) := e in
                       do x <- o_merge_loop (length new + length T) fuel dbg mpos dg js2 tid2 q2 s2 [] new T;
                       let '(js3, q3, s3, T3) := x in
                       do b <- o_assertT dbg s3 mpos js3 tid2 T3;
                       assert_ dbg b (o_block_tq fuel' dbg mpos js3 tid2 q3 T3 s3)
                   end)
             end)
      end
  end.

(** poly_int.cpp:698-704, poly_int.h:416-418 build *)
Definition o_build (fuel : nat) (dbg : bool) (O : ojp) : outcome ojp :=
  match oone O with
  | Some _ => Ok O
  | None =>
      do O' <- o_set_pos O;
      match otrees O' with
      | Some js => o_block_tq fuel dbg (opos O') js (otid O') (oq O') (ot O') (oheap O')
      | None => match oq O' with [] => Ok O' | _ => Undef end
      end
  end.

(* ------------------------------------------------------------------------------------------ *)
(** * algorithmTQ and algorithmTQ1 *)

(** poly_int.cpp:1313-1341, 932-961 (and 1116-1147 with tail = true) *)
Fixpoint o_take_tq (tail : bool) (fuel : nat) (dbg : bool) (find : monom -> outcome (option poly)) (tid : list nat) (dg : nat)
    (q tmp : list own) (s : heap) : outcome (bool * list own * list own * heap) :=
  match q with
  | [] => Ok (false, [], tmp, s)
  | u :: q' =>
      deref s [fst u]
        (do m <- p_lm dbg (wpol (snd u));
         if (deg m <=? dg)%nat then
           deref s tid
             (do r <- p_nf fuel dbg find (wpol (snd u));
              let (p, c) := r in
              if is_zero p then do s' <- h_del (fst u) s; o_take_tq tail fuel dbg find tid dg q' tmp s'
              else
                do m' <- p_lm dbg p;
                if (deg m' =? 0)%nat then Ok (true, q, tmp, s)
                else
                  do r2 <- (if tail then p_nfTail fuel dbg find p else Ok (p, 0%nat));
                  do p3 <- (if (c + snd r2 =? 0)%nat then Ok (fst r2) else p_pp dbg (fst r2));
                  do tmp' <- o_insert dbg s tmp (fst u, WP (wwrap (snd u)) p3);
                  o_take_tq tail fuel dbg find tid dg q' tmp' s)
         else Ok (false, q, tmp, s))
  end.

(** poly_int.cpp:1361-1374, 988-993, 1169-1183: w and an element change places. *)
Fixpoint o_swap_min (w : own) (l : list own) : own * list own :=
  match l with
  | [] => (w, [])
  | u :: l' => if p_norm (wpol (snd u)) <? p_norm (wpol (snd w))
               then let (v, r) := o_swap_min u l' in (v, w :: r)
               else let (v, r) := o_swap_min w l' in (v, u :: r)
  end.

(** poly_int.cpp:980-987 *)
Fixpoint o_tails (fuel : nat) (dbg : bool) (s : heap) (find : monom -> outcome (option poly)) (tid : list nat) (l : list own) : outcome (list own) :=
  match l with
  | [] => Ok []
  | u :: l' =>
      deref s (fst u :: tid)
        (do p <- tail_pp fuel dbg find (wpol (snd u));
         do r <- o_tails fuel dbg s find tid l';
         Ok ((fst u, WP (wwrap (snd u)) p) :: r))
  end.

(** poly_int.cpp:1000-1012 *)
Fixpoint o_red_eq (dbg : bool) (a : own) (l : list own) (s : heap) : outcome (list own * heap) :=
  match l with
  | [] => Ok ([], s)
  | u :: l' =>
      deref s [fst a; fst u]
        (do p <- p_reduction dbg (wpol (snd u)) (wpol (snd a));
         if is_zero p then do s' <- h_del (fst u) s; o_red_eq dbg a l' s'
         else do p' <- p_pp dbg p; do r <- o_red_eq dbg a l' s;
              Ok ((fst u, WP (wwrap (snd u)) p') :: fst r, snd r))
  end.
(** poly_int.cpp:1019-1024 *)
Fixpoint o_insert_all (dbg : bool) (s : heap) (q l : list own) : outcome (list own) :=
  match l with
  | [] => Ok q
  | u :: l' => do q' <- o_insert dbg s q u; o_insert_all dbg s q' l'
  end.

(** poly_int.cpp:1387-1388, 1038-1039, 1203-1204 *)
Definition o_enter_w (dbg : bool) (s : heap) (js : list janet) (tid : list nat) (u : own) : outcome (list janet * wrap * list nat) :=
  deref s (fst u :: tid) (do e <- enter_w dbg js (snd u); Ok (fst e, snd e, fst u :: tid)).

(** poly_int.cpp:1408-1430, 1059-1081 *)
Fixpoint o_walk (cnt fuel : nat) (dbg : bool) (mpos : Z) (dg : nat) (js : list janet) (tid : list nat) (q : list own) (s : heap)
    (d : list owe) (w : option owe) (k : list owe) : outcome (list janet * list own * heap * list owe) :=
  match cnt with
  | O => match w, k with None, [] => Ok (js, q, s, d) | _, _ => OutOfFuel end
  | S cnt' =>
      let redu e w' k' :=
        do e' <- o_tail_reduce fuel dbg s mpos js tid (vals (d ++ match w' with Some x => [x] | None => [] end ++ k')) e;
        do r <- o_prolong_if dbg mpos dg js tid e' q s;
        let '(js', q', s') := r in
        o_walk cnt' fuel dbg mpos dg js' tid q' s' (d ++ [e']) w' k' in
      match w, k with
      | None, [] => Ok (js, q, s, d)
      | Some e, [] => redu e None []
      | None, e :: k' => redu e None k'
      | Some e, e' :: k' =>
          deref s [fst e; fst e']
            (do c <- p_cmp dbg (snd (snd e)) (snd (snd e'));
             if c <? 0 then redu e None k else redu e' w k')
      end
  end.

(** poly_int.cpp:1303-1436 algorithmTQ (one = false) and 922-1087 algorithmTQ1 (one = true) *)
Fixpoint o_tq_loop (one : bool) (fuel : nat) (dbg : bool) (mpos : Z) (js : list janet) (tid : list nat) (q : list own) (T : list owe) (s : heap) : outcome ojp :=
  match q with
  | [] => Ok (OJ None [] T mpos (Some js) tid s)
  | u :: _ =>
      match fuel with
      | O => OutOfFuel
      | S fuel' =>
          let find := find_poly dbg mpos (Some js) (vals T) in
          deref s [fst u]
            (do m <- p_lm dbg (wpol (snd u));
             do r <- o_take_tq false fuel dbg find tid (deg m) q [] s;
             match r with
             | (true, q1, tmp, s1) => o_set_one dbg (pto (wpol (snd u))) (pbo (wpol (snd u))) (psize (wpol (snd u))) mpos tmp q1 T s1
             | (false, q1, tmp, s1) =>
                 o_assert_sort dbg s1 q1 (o_assert_sort dbg s1 tmp
                   match tmp with
                   | [] => o_tq_loop one fuel' dbg mpos js tid q1 T s1
                   | w0 :: tmp0 =>
                       deref s1 [fst w0]
                         (do m0 <- p_lm dbg (wpol (snd w0));
                          do c <- o_same_lm dbg s1 m0 tmp0;
                          let (eqs, rest) := c in
                          do w1 <- (if one then deref s1 (fst w0 :: tid) (do p <- tail_pp fuel dbg find (wpol (snd w0)); Ok (fst w0, WP (wwrap (snd w0)) p)) else Ok w0);
                          do eqs1 <- (if one then o_tails fuel dbg s1 find tid eqs else Ok eqs);
                          let (w, eqs2) := o_swap_min w1 eqs1 in
                          if one && negb (length eqs2 =? 0)%nat then
                            do c3 <- o_red_eq dbg w eqs2 s1;
                            let (eqs3, s2) := c3 in
                            do q2 <- o_insert dbg s2 (rest ++ q1) w;
                            do q3 <- o_insert_all dbg s2 q2 eqs3;
                            o_assert_sort dbg s2 q3 (o_tq_loop one fuel' dbg mpos js tid q3 T s2)
                          else
                            let q2 := (eqs2 ++ rest) ++ q1 in
                            o_assert_sort dbg s1 (eqs2 ++ rest) (o_assert_sort dbg s1 q2
                              (do e <- o_enter_w dbg s1 js tid w;
                               let '(js2, w', tid2) := e in
                               do x <- match T with
                                       | [] => Ok (js2, q2, s1, [(fst w, (wlm w', wpol (snd w)))])
                                       | _ => o_walk (S (length T)) fuel dbg mpos (deg m) js2 tid2 q2 s1 [] (Some (fst w, (wlm w', wpol (snd w)))) T
                                       end;
                               let '(js3, q3, s3, T3) := x in
                               do b <- o_assertT dbg s3 mpos js3 tid2 T3;
                               assert_ dbg b (o_tq_loop one fuel' dbg mpos js3 tid2 q3 T3 s3))))
                   end)
             end)
      end
  end.

(** poly_int.cpp:1296-1300, 915-919 *)
Definition o_tq (one : bool) (fuel : nat) (dbg : bool) (O : ojp) : outcome ojp :=
  match oone O with
  | Some _ => Ok O
  | None =>
      do O' <- o_set_pos O;
      match otrees O' with
      | Some js => o_tq_loop one fuel dbg (opos O') js (otid O') (oq O') (ot O') (oheap O')
      | None => match oq O' with [] => Ok O' | _ => Undef end
      end
  end.

(* ------------------------------------------------------------------------------------------ *)
(** * algorithmTQ2 *)
Notation oit := (nat * titem)%type.

(** poly_int.cpp:615-633 prolong(w) for an element outside the trees. *)
Fixpoint o_prolong_det (dbg : bool) (mpos : Z) (cnt k : nat) (js : list janet) (tid : list nat) (i : nat) (w : wrap) (p : poly) (q : list own) (s : heap) :
    outcome (wrap * list own * heap) :=
  match cnt with
  | O => Ok (w, q, s)
  | S cnt' =>
      deref s [i]
        (do nm <- get_flag dbg (wnm w) k;
         do b <- get_flag dbg (wbuild w) k;
         if nm && negb b then
           let m := mul_var k (wlm w) in
           deref s tid
             (do d <- find_wrap dbg mpos (Some js) m;
              let skip := match d with
                          | Some d => (deg (wanc w) + deg (wanc d) <=? deg m)%nat
                                      || (lcm_deg (wanc w) (wanc d) <? deg m)%nat
                          | None => false
                          end in
              if skip then
                do w' <- set_build dbg w k;
                o_prolong_det dbg mpos cnt' (S k) js tid i w' p q s
              else
                do r <- prolong_wrap dbg k w;
                let (v, w') := r in
                do pv <- p_mul_var dbg k p;
                let (i', s') := h_new s in
                do q' <- o_insert dbg s' q (i', WP v pv);
                o_prolong_det dbg mpos cnt' (S k) js tid i w' p q' s')
         else o_prolong_det dbg mpos cnt' (S k) js tid i w p q s)
  end.

(** poly_int.cpp:1232-1239 *)
Definition o_item_step (fuel : nat) (dbg : bool) (mpos : Z) (dg : nat) (js : list janet) (tid : list nat) (q : list own) (s : heap)
    (others : list entry) (x : oit) : outcome (list janet * list own * heap * oit) :=
  match snd x with
  | Att e =>
      do e' <- o_tail_reduce fuel dbg s mpos js tid others (fst x, e);
      do r <- o_prolong_if dbg mpos dg js tid e' q s;
      let '(js', q', s') := r in
      Ok (js', q', s', (fst x, Att (snd e')))
  | Det w =>
      deref s (fst x :: tid)
        (do p <- tail_pp fuel dbg (find_poly dbg mpos (Some js) others) (wpol w);
         if (deg (wlm (wwrap w)) <=? dg)%nat
         then do r <- o_prolong_det dbg mpos (size (wlm (wwrap w))) 0 js tid (fst x) (wwrap w) p q s;
              let '(w', q', s') := r in
              Ok (js, q', s', (fst x, Det (WP w' p)))
         else Ok (js, q, s, (fst x, Det (WP (wwrap w) p))))
  end.

(** poly_int.cpp:1225-1247 *)
Fixpoint o_walk2 (cnt fuel : nat) (dbg : bool) (mpos : Z) (dg : nat) (js : list janet) (tid : list nat) (q : list own) (s : heap)
    (d : list oit) (w : option owe) (k : list oit) : outcome (list janet * list own * heap * list oit) :=
  match cnt with
  | O => match w, k with None, [] => Ok (js, q, s, d) | _, _ => OutOfFuel end
  | S cnt' =>
      let redu x w' k' :=
        do r <- o_item_step fuel dbg mpos dg js tid q s (atts (vals d) ++ match w' with Some e => [snd e] | None => [] end ++ atts (vals k')) x;
        let '(js', q', s', x') := r in
        o_walk2 cnt' fuel dbg mpos dg js' tid q' s' (d ++ [x']) w' k' in
      match w, k with
      | None, [] => Ok (js, q, s, d)
      | Some e, [] => redu (fst e, Att (snd e)) None []
      | None, x :: k' => redu x None k'
      | Some e, x :: k' =>
          deref s [fst e; fst x]
            (do c <- p_cmp dbg (snd (snd e)) (item_poly (snd x));
             if c <? 0 then redu (fst e, Att (snd e)) None k else redu x w k')
      end
  end.

(** poly_int.cpp:1209-1212: mT goes back to mQ. *)
Fixpoint o_back (s : heap) (js : list janet) (T : list oit) (q : list own) : outcome (list own) :=
  match T with
  | [] => Ok q
  | x :: T' => deref s [fst x] (do u <- back_item js (snd x); o_back s js T' ((fst x, u) :: q))
  end.

(** The object after algorithmTQ2. *)
Record ojp2 : Type := OJ2 { o2one : option own; o2t : list oit; o2pos : Z; o2trees : option (list janet); o2tid : list nat; o2heap : heap }.

Definition o_assertT2 (dbg : bool) (s : heap) (mpos : Z) (js : list janet) (tid : list nat) (T : list oit) : outcome bool :=
  if dbg then deref s (ids T ++ tid) (assertT2 dbg mpos js (vals T)) else Ok true.

(** poly_int.cpp:1106-1253 *)
Fixpoint o_tq2_loop (fuel : nat) (dbg : bool) (mpos : Z) (pref : nat) (js : list janet) (tid : list nat) (q : list own) (T : list oit) (s : heap) : outcome ojp2 :=
  match q with
  | [] => Ok (OJ2 None T mpos (Some js) tid s)
  | u :: _ =>
      match fuel with
      | O => OutOfFuel
      | S fuel' =>
          let find := find_poly dbg mpos (Some js) (atts (vals T)) in
          deref s [fst u]
            (do m <- p_lm dbg (wpol (snd u));
             do r <- o_take_tq true fuel dbg find tid (deg m) q [] s;
             match r with
             | (true, q1, tmp, s1) =>
                 (* setOne deletes the elements of mT whether they are in a tree or not *)
                 do K <- o_set_one dbg (pto (wpol (snd u))) (pbo (wpol (snd u))) (psize (wpol (snd u))) mpos tmp q1
                           (map (fun x => (fst x, (item_lm (snd x), item_poly (snd x)))) T) s1;
                 Ok (OJ2 (oone K) [] (opos K) (otrees K) (otid K) (oheap K))
             | (false, q1, tmp, s1) =>
                 let pref1 := if (pref =? 0)%nat then deg m else pref in
                 o_assert_sort dbg s1 q1 (o_assert_sort dbg s1 tmp
                   match tmp with
                   | [] => o_tq2_loop fuel' dbg mpos pref1 js tid q1 T s1
                   | w0 :: tmp0 =>
                       deref s1 [fst w0]
                         (do m0 <- p_lm dbg (wpol (snd w0));
                          do c <- o_same_deg dbg s1 (deg m0) tmp0;
                          let (eqs, rest) := c in
                          let (w1, eqs2) := o_swap_min w0 eqs in
                          let q2 := (eqs2 ++ rest) ++ q1 in
                          o_assert_sort dbg s1 q2
                            (deref s1 (fst w1 :: tid)
                               (do p <- tail_pp fuel dbg find (wpol (snd w1));
                                let w := (fst w1, WP (wwrap (snd w1)) p) in
                                do e <- o_enter_w dbg s1 js tid w;
                                let '(js2, w', tid2) := e in
                                do x <- (if (deg m <? pref1)%nat
                                         then do q3 <- o_back s1 js2 T q2;
                                              match get_wrap js2 (wlm w') with
                                              | Some w'' => Ok (map (fun _ => jempty) js2, q3, s1, [(fst w, Det (WP w'' p))], [])
                                              | None => Undef
                                              end
                                         else do y <- match T with
                                                      | [] => Ok (js2, q2, s1, [(fst w, Att (wlm w', p))])
                                                      | _ => o_walk2 (S (length T)) fuel dbg mpos (deg m) js2 tid2 q2 s1 [] (Some (fst w, (wlm w', p))) T
                                                      end;
                                              let '(js3, q3, s3, T3) := y in Ok (js3, q3, s3, T3, tid2));
                                let '(js3, q3, s3, T3, tid3) := x in
                                do b <- o_assertT2 dbg s3 mpos js3 tid3 T3;
                                assert_ dbg b (o_tq2_loop fuel' dbg mpos (deg m) js3 tid3 q3 T3 s3))))
                   end)
             end)
      end
  end.

(** poly_int.cpp:1099-1104 *)
Definition o_tq2 (fuel : nat) (dbg : bool) (O : ojp) : outcome ojp2 :=
  match oone O with
  | Some _ => Ok (OJ2 (oone O) [] (opos O) (otrees O) (otid O) (oheap O))
  | None =>
      do O' <- o_set_pos O;
      match otrees O' with
      | Some js => o_tq2_loop fuel dbg (opos O') 0 js (otid O') (oq O') (map (fun x => (fst x, Att (snd x))) (ot O')) (oheap O')
      | None => match oq O' with
                | [] => Ok (OJ2 None (map (fun x => (fst x, Att (snd x))) (ot O')) (opos O') None (otid O') (oheap O'))
                | _ => Undef
                end
      end
  end.

(** poly_int.h:391-398 ~JanetPolyInt after algorithmTQ2 (mQ is empty then) *)
Definition o2_destroy (O : ojp2) : outcome heap :=
  do s <- match o2one O with Some w => h_del (fst w) (o2heap O) | None => Ok (o2heap O) end;
  h_del_all (ids (o2t O)) s.
