(** Model of class JanetPolyInt (ginv/poly_int.h 352-454, ginv/poly_int.cpp 583-913) with WrapPolyInt
    (ginv/poly_int.h 263-290).
    Sharing: a WrapPolyInt of the basis is reachable from mT and from one Janet tree.  The model keeps the
    Wrap part (leading monomial, ansector, flags) in the tree and the polynomial part in mT, and connects
    them by the leading monomial; looking up a polynomial that is not there is [Undef] (proved
    unreachable for ring polynomials).  Elements of mQ and of the local lists are wrap and polynomial
    together.  Not modelled here: timers, counters (see CntModel.v), output, reallocate() (copies the polynomial to another
    allocator), the int range of norm(). *)
From Coq Require Import ZArith List Bool Arith.
From Verif Require Import Outcome MonomModel JanetModel PolyModel.
Import ListNotations.
Local Open Scope Z_scope.

(** poly_int.h:263-283 WrapPolyInt *)
Record wpoly : Type := WP { wwrap : wrap; wpol : poly }.

(** An element of mT: the leading monomial of its Wrap and its polynomial. *)
Notation entry := (monom * poly)%type.

(** poly_int.h:353-366 *)
Record jpoly : Type := JP {
  jone : option wpoly;           (* mOneWrap *)
  jq : list wpoly;               (* mQ *)
  jt : list entry;               (* mT *)
  jpos : Z;                      (* mPos *)
  jtrees : option (list janet)   (* mJanet *)
}.

(** poly_int.h:377-389 *)
Definition jp_empty : jpoly := JP None [] [] (-2) None.

(* ------------------------------------------------------------------------------------------ *)
(** * Polynomials in lists *)

(** poly_int.h:165-169 PolyInt::cmp *)
Definition p_cmp (dbg : bool) (p a : poly) : outcome Z :=
  do m <- p_lm dbg p; do n <- p_lm dbg a; Ok (cmp1 (pto p) (pbo p) m n).

(** integer.h:117, 180 norm(): the number of 64-bit limbs; poly_int.cpp:109-117 norm() *)
Definition limbs (c : Z) : Z := if c =? 0 then 0 else Z.log2 (Z.abs c) / 64 + 1.
Definition p_norm (p : poly) : Z := fold_right (fun x s => limbs (snd x) + s) 0 (terms p).

(** poly_int.cpp:654-661 insert(lst, w) *)
Fixpoint place (dbg : bool) (l : list wpoly) (w : wpoly) : outcome (list wpoly) :=
  match l with
  | [] => Ok [w]
  | u :: l' =>
      do c <- p_cmp dbg (wpol w) (wpol u);
      if 0 <? c then do r <- place dbg l' w; Ok (u :: r) else Ok (w :: l)
  end.
Definition is_zero (p : poly) : bool := match terms p with [] => true | _ => false end.
Definition jp_insert (dbg : bool) (l : list wpoly) (w : wpoly) : outcome (list wpoly) :=
  assert_ dbg (negb (is_zero (wpol w))) (place dbg l w).

(** poly_int.cpp:668-681 assertSort *)
Fixpoint sorted_from (prev : wpoly) (l : list wpoly) : bool :=
  match l with
  | [] => true
  | u :: l' => match p_cmp false (wpol prev) (wpol u) with
               | Ok c => negb (0 <? c) && sorted_from u l'
               | _ => false
               end
  end.
Definition assertSort (l : list wpoly) : bool := match l with [] => true | u :: l' => sorted_from u l' end.

(* ------------------------------------------------------------------------------------------ *)
(** * Looking up reducers *)

(** The polynomial of the WrapPolyInt whose Wrap has leading monomial m. *)
Definition same_key (a b : monom) : bool := (pos a =? pos b) && eqv (vars a) (vars b).
Fixpoint lookup (l : list entry) (m : monom) : option poly :=
  match l with
  | [] => None
  | (k, p) :: l' => if same_key k m then Some p else lookup l' m
  end.

(** mJanet[p + 1] *)
Definition tree_at (dbg : bool) (js : list janet) (p : Z) : outcome janet :=
  if p <? -1 then oob dbg
  else match nth_error js (Z.to_nat (p + 1)) with Some J => Ok J | None => oob dbg end.

(** poly_int.h:426-433 find, the part without mOneWrap *)
Definition find_wrap (dbg : bool) (mpos : Z) (trees : option (list janet)) (m : monom) : outcome (option wrap) :=
  match trees with
  | None => Ok None
  | Some js => if mpos <? pos m then Ok None
               else do J <- tree_at dbg js (pos m); find dbg (jroot J) m
  end.
(** wrap->poly(); [objs] are the elements of the basis. *)
Definition find_poly (dbg : bool) (mpos : Z) (trees : option (list janet)) (objs : list entry) (m : monom) : outcome (option poly) :=
  do r <- find_wrap dbg mpos trees m;
  match r with
  | None => Ok None
  | Some u => match lookup objs (wlm u) with Some p => Ok (Some p) | None => Undef end
  end.
(** poly_int.h:426-433 find *)
Definition jp_find (dbg : bool) (J : jpoly) (m : monom) : outcome (option poly) :=
  match jone J with
  | Some w => Ok (Some (wpol w))
  | None => find_poly dbg (jpos J) (jtrees J) (jt J) m
  end.

(* ------------------------------------------------------------------------------------------ *)
(** * push, setPos, setOne *)

(** poly_int.h:399-404 comparable *)
Definition jp_comparable (J : jpoly) (a : poly) : bool :=
  match jq J, jt J with [], [] => true | _, _ => false end ||
  match jq J with u :: _ => comparable (wpol u) a | [] => false end ||
  match jt J with u :: _ => comparable (snd u) a | [] => false end ||
  match jone J with Some u => comparable (wpol u) a | None => false end.

(** poly_int.h:405-409 push *)
Definition jp_push (dbg : bool) (J : jpoly) (a : poly) : outcome jpoly :=
  assert_ dbg (jp_comparable J a)
    match jone J with
    | Some _ => Ok J
    | None =>
        if is_zero a then Ok J
        else do m <- p_lm dbg a;
             do c <- p_copy dbg a;
             do q <- jp_insert dbg (jq J) (WP (new_wrap m) c);
             Ok (JP None q (jt J) (jpos J) (jtrees J))
    end.

(** poly_int.cpp:583-599 setPos *)
Definition q_pos (q : list wpoly) : Z :=
  fold_left (fun r u => let p := p_maxPos (wpol u) in if r <? p then p else r) q (-1).
Definition set_pos (J : jpoly) : jpoly :=
  let p := q_pos (jq J) in
  if jpos J <? p
  then let old := match jtrees J with Some js => firstn (Z.to_nat (jpos J + 2)) js | None => [] end in
       JP (jone J) (jq J) (jt J) p (Some (old ++ repeat jempty (Z.to_nat (p + 2) - length old)))
  else J.

(** poly_int.cpp:601-613 setOne *)
Definition set_one (dbg : bool) (t : pos_order) (o : base_order) (n : nat) (mpos : Z) : outcome jpoly :=
  do p <- p_const dbg t o n 1;
  do m <- p_lm dbg p;
  Ok (JP (Some (WP (new_wrap m) p)) [] [] mpos None).

(* ------------------------------------------------------------------------------------------ *)
(** * prolong *)

(** Update of the wrap with leading monomial m (a store through the pointer w into the tree). *)
Fixpoint upd_tree (f : wrap -> wrap) (m : monom) (t : tree) : tree :=
  match t with
  | Nil => Nil
  | Node d ow nd nv =>
      Node d (match ow with Some u => Some (if same_key (wlm u) m then f u else u) | None => None end)
           (upd_tree f m nd) (upd_tree f m nv)
  end.
Definition upd_trees (f : wrap -> wrap) (m : monom) (js : list janet) : list janet :=
  map (fun J => JT (jsize J) (upd_tree f m (jroot J))) js.
Definition get_wrap (js : list janet) (m : monom) : option wrap :=
  List.find (fun u => same_key (wlm u) m) (concat (map (fun J => wraps (jroot J)) js)).

(** poly_int.cpp:615-633 prolong(w): variables k, k+1, ...; [w] is the wrap with its current flags. *)
Fixpoint jp_prolong (dbg : bool) (mpos : Z) (cnt k : nat) (js : list janet) (w : wrap) (p : poly) (q : list wpoly) :
    outcome (list janet * list wpoly) :=
  match cnt with
  | O => Ok (js, q)
  | S cnt' =>
      do nm <- get_flag dbg (wnm w) k;
      do b <- get_flag dbg (wbuild w) k;
      if nm && negb b then
        let m := mul_var k (wlm w) in
        do d <- find_wrap dbg mpos (Some js) m;
        let skip := match d with
                    | Some d => (deg (wanc w) + deg (wanc d) <=? deg m)%nat
                                || (lcm_deg (wanc w) (wanc d) <? deg m)%nat
                    | None => false
                    end in
        if skip then
          do w' <- set_build dbg w k;
          jp_prolong dbg mpos cnt' (S k) (upd_trees (fun _ => w') (wlm w) js) w' p q
        else
          do r <- prolong_wrap dbg k w;
          let (v, w') := r in
          do pv <- p_mul_var dbg k p;
          do q' <- jp_insert dbg q (WP v pv);
          jp_prolong dbg mpos cnt' (S k) (upd_trees (fun _ => w') (wlm w) js) w' p q'
      else jp_prolong dbg mpos cnt' (S k) js w p q
  end.
Definition prolong_entry (dbg : bool) (mpos : Z) (js : list janet) (e : entry) (q : list wpoly) : outcome (list janet * list wpoly) :=
  match get_wrap js (fst e) with
  | Some w => jp_prolong dbg mpos (size (wlm w)) 0 js w (snd e) q
  | None => Undef
  end.

(* ------------------------------------------------------------------------------------------ *)
(** * algorithmBlockTQ *)

(** poly_int.cpp:716-749: the first loop.  [None]: a polynomial of degree 0 was found. *)
Fixpoint take_block (fuel : nat) (dbg : bool) (find : monom -> outcome (option poly)) (dg : nat)
    (q tmp : list wpoly) : outcome (option (list wpoly * list wpoly)) :=
  match q with
  | [] => Ok (Some ([], tmp))
  | u :: q' =>
      do m <- p_lm dbg (wpol u);
      if (deg m <=? dg)%nat then
        do r <- p_nf fuel dbg find (wpol u);
        let p := fst r in
        if is_zero p then take_block fuel dbg find dg q' tmp
        else
          do m' <- p_lm dbg p;
          if (deg m' =? 0)%nat then Ok None
          else
            do r2 <- p_nfTail fuel dbg find p;
            let (p2, c) := r2 in
            do p3 <- (if (c =? 0)%nat then Ok p2 else p_pp dbg p2);
            do tmp' <- jp_insert dbg tmp (WP (wwrap u) p3);
            take_block fuel dbg find dg q' tmp'
      else Ok (Some (q, tmp))
  end.

(** poly_int.cpp:768-774: the elements of the degree of the first one. *)
Fixpoint same_deg (dbg : bool) (d : nat) (l : list wpoly) : outcome (list wpoly * list wpoly) :=
  match l with
  | [] => Ok ([], [])
  | u :: l' =>
      do m <- p_lm dbg (wpol u);
      if (deg m =? d)%nat then do r <- same_deg dbg d l'; Ok (u :: fst r, snd r) else Ok ([], l)
  end.

(** poly_int.cpp:787-793: the elements after k with the leading monomial of k. *)
Fixpoint same_lm (dbg : bool) (m : monom) (l : list wpoly) : outcome (list wpoly * list wpoly) :=
  match l with
  | [] => Ok ([], [])
  | u :: l' =>
      do n <- p_lm dbg (wpol u);
      if eqm n m then do r <- same_lm dbg m l'; Ok (u :: fst r, snd r) else Ok ([], l)
  end.

(** poly_int.cpp:797-801 *)
Fixpoint red_all (dbg : bool) (a : poly) (l : list wpoly) : outcome (list wpoly) :=
  match l with
  | [] => Ok []
  | u :: l' =>
      do p <- p_redMaybe dbg (wpol u) a;
      assert_ dbg (negb (is_zero p)) (do r <- red_all dbg a l'; Ok (WP (wwrap u) p :: r))
  end.

(** poly_int.cpp:784-806: the result is the list tmp and tmp2 (with k, 811-812), if there is one. *)
Fixpoint scan (cnt : nat) (dbg : bool) (pre l : list wpoly) : outcome (list wpoly * list wpoly) :=
  match l with
  | [] => Ok (pre, [])
  | k :: l' =>
      match cnt with
      | O => OutOfFuel
      | S cnt' =>
          do m <- p_lm dbg (wpol k);
          do r <- same_lm dbg m l';
          match r with
          | ([], _) => do l'' <- red_all dbg (wpol k) l'; scan cnt' dbg (pre ++ [k]) l''
          | (eqs, j) => Ok (pre ++ j, k :: rev eqs)
          end
      end
  end.

(** poly_int.cpp:815-827: the first element of minimal norm, and the others in their order. *)
Fixpoint min_norm (w : wpoly) (skipped l : list wpoly) : wpoly * list wpoly :=
  match l with
  | [] => (w, skipped)
  | u :: l' => if p_norm (wpol u) <? p_norm (wpol w) then
                 (* w becomes an ordinary element again *)
                 let (v, r) := min_norm u [] l' in (v, (w :: skipped) ++ r)
               else min_norm w (skipped ++ [u]) l'
  end.

(** poly_int.cpp:831-842 *)
Fixpoint red_by (dbg : bool) (a : poly) (l tmp : list wpoly) : outcome (list wpoly) :=
  match l with
  | [] => Ok tmp
  | u :: l' =>
      do p <- p_reduction dbg (wpol u) a;
      if is_zero p then red_by dbg a l' tmp
      else do tmp' <- jp_insert dbg tmp (WP (wwrap u) p); red_by dbg a l' tmp'
  end.

(** poly_int.cpp:760-849: the do loop over tmp; the result is tmp, mQ and deg. *)
Fixpoint block_loop (fuel : nat) (dbg : bool) (tmp q : list wpoly) : outcome (list wpoly * list wpoly * nat) :=
  match fuel, tmp with
  | O, _ => OutOfFuel
  | _, [] => null_head dbg
  | S fuel', u :: l =>
      do m <- p_lm dbg (wpol u);
      do r <- same_deg dbg (deg m) l;
      let (blk, rest) := r in
      let q' := rest ++ q in
      assert_ dbg (assertSort q' && assertSort (u :: blk))
        (do s <- scan (S (length blk)) dbg [] (u :: blk);
         match s with
         | (tmp', []) => Ok (tmp', q', deg m)
         | (tmp', w0 :: tmp2) =>
             let (w, others) := min_norm w0 [] tmp2 in
             do t1 <- jp_insert dbg tmp' w;
             do t2 <- red_by dbg (wpol w) others t1;
             assert_ dbg (assertSort t2) (block_loop fuel' dbg t2 q')
         end)
  end.

(** poly_int.cpp:851-857: the new elements enter the trees. *)
Fixpoint enter (dbg : bool) (js : list janet) (l : list wpoly) : outcome (list janet * list entry) :=
  match l with
  | [] => Ok (js, [])
  | u :: l' =>
      do m <- p_lm dbg (wpol u);
      let w := update (wwrap u) m in
      do p <- p_pp dbg (wpol u);
      let k := Z.to_nat (pos (wlm w) + 1) in
      do J <- tree_at dbg js (pos (wlm w));
      do J' <- insert dbg J w;
      do r <- enter dbg (firstn k js ++ J' :: skipn (S k) js) l';
      Ok (fst r, (wlm w, p) :: snd r)
  end.

(** nfTail(this) and pp() of an element of mT (poly_int.cpp:880-885, 903-908).  The element itself is not
    offered as a reducer of its own tail: that would be an aliased call. *)
Definition tail_reduce (fuel : nat) (dbg : bool) (mpos : Z) (js : list janet) (others : list entry) (e : entry) : outcome entry :=
  do r <- p_nfTail fuel dbg (find_poly dbg mpos (Some js) others) (snd e);
  let (p, c) := r in
  do p' <- (if (c =? 0)%nat then Ok p else p_pp dbg p);
  Ok (fst e, p').

Definition prolong_if (dbg : bool) (mpos : Z) (dg : nat) (js : list janet) (e : entry) (q : list wpoly) : outcome (list janet * list wpoly) :=
  if (deg (fst e) <=? dg)%nat then prolong_entry dbg mpos js e q else Ok (js, q).

(** poly_int.cpp:874-912: the three merge loops; [d] is the part of mT before the iterator k. *)
Fixpoint merge_loop (cnt fuel : nat) (dbg : bool) (mpos : Z) (dg : nat) (js : list janet) (q : list wpoly)
    (d j k : list entry) : outcome (list janet * list wpoly * list entry) :=
  match cnt with
  | O => match j, k with [], [] => Ok (js, q, d) | _, _ => OutOfFuel end
  | S cnt' =>
      let put e j' k' :=
        do b <- (if dbg then p_isNf (find_poly dbg mpos (Some js) (d ++ j ++ k)) (snd e) else Ok true);
        assert_ dbg b
          (do r <- prolong_if dbg mpos dg js e q;
           merge_loop cnt' fuel dbg mpos dg (fst r) (snd r) (d ++ [e]) j' k') in
      let redu e k' :=
        do e' <- tail_reduce fuel dbg mpos js (d ++ j ++ k') e;
        do r <- prolong_if dbg mpos dg js e' q;
        merge_loop cnt' fuel dbg mpos dg (fst r) (snd r) (d ++ [e']) j k' in
      match j, k with
      | [], [] => Ok (js, q, d)
      | e :: j', [] => put e j' []
      | [], e :: k' => redu e k'
      | e :: j', e' :: k' =>
          do c <- p_cmp dbg (snd e) (snd e');
          if c <? 0 then put e j' k else redu e' k'
      end
  end.

(** poly_int.cpp:635-652 assertT *)
Fixpoint assert_t (dbg : bool) (f : monom -> outcome (option poly)) (prev : poly) (l : list entry) : outcome bool :=
  match l with
  | [] => Ok true
  | (_, p) :: l' =>
      do c <- p_cmp dbg prev p;
      if 0 <=? c then Ok false
      else do b <- p_isNf f p;
           if negb b then Ok false
           else do b2 <- p_isPp dbg p;
                if negb b2 then Ok false else assert_t dbg f p l'
  end.
Definition assertT (dbg : bool) (mpos : Z) (js : list janet) (t : list entry) : outcome bool :=
  match t with
  | [] => Ok true
  | (_, p) :: l => assert_t dbg (find_poly dbg mpos (Some js) t) p l
  end.

(** poly_int.cpp:706-906 the main loop *)
Fixpoint block_tq (fuel : nat) (dbg : bool) (mpos : Z) (js : list janet) (q : list wpoly) (t : list entry) : outcome jpoly :=
  match q with
  | [] => Ok (JP None [] t mpos (Some js))
  | u :: _ =>
      match fuel with
      | O => OutOfFuel
      | S fuel' =>
          do m <- p_lm dbg (wpol u);
          do r <- take_block fuel dbg (find_poly dbg mpos (Some js) t) (deg m) q [];
          match r with
          | None => set_one dbg (pto (wpol u)) (pbo (wpol u)) (psize (wpol u)) mpos
          | Some (q1, tmp) =>
              assert_ dbg (assertSort q1 && assertSort tmp)
                match tmp with
                | [] => block_tq fuel' dbg mpos js q1 t
                | _ =>
                    do s <- block_loop fuel dbg tmp q1;
                    let '(tmp2, q2, dg) := s in
                    do e <- enter dbg js tmp2;
                    let (js2, new) := e in
                    do x <- merge_loop (length new + length t) fuel dbg mpos dg js2 q2 [] new t;
                    let '(js3, q3, t3) := x in
                    do b <- (if dbg then assertT dbg mpos js3 t3 else Ok true);
                    assert_ dbg b (block_tq fuel' dbg mpos js3 q3 t3)
                end
          end
      end
  end.

(** poly_int.cpp:698-704, poly_int.h:416-418 build *)
Definition jp_build (fuel : nat) (dbg : bool) (J : jpoly) : outcome jpoly :=
  match jone J with
  | Some _ => Ok J
  | None =>
      let J' := set_pos J in
      match jtrees J' with
      | Some js => block_tq fuel dbg (jpos J') js (jq J') (jt J')
      | None => match jq J' with [] => Ok J' | _ => Undef end
      end
  end.

(** poly_int.h:434-439 nf(a) *)
Definition jp_nf (fuel : nat) (dbg : bool) (J : jpoly) (a : poly) : outcome poly :=
  assert_ dbg (jp_comparable J a)
    (do r <- p_nf fuel dbg (jp_find dbg J) a;
     do r2 <- p_nfTail fuel dbg (jp_find dbg J) (fst r);
     p_pp dbg (fst r2)).

(** Several push() calls. *)
Fixpoint jp_push_all (dbg : bool) (J : jpoly) (l : list poly) : outcome jpoly :=
  match l with
  | [] => Ok J
  | a :: l' => do J' <- jp_push dbg J a; jp_push_all dbg J' l'
  end.
