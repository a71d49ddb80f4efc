(** Model of JanetPolyInt::algorithmTQ, algorithmTQ1 and algorithmTQ2 (ginv/poly_int.cpp 915-1446), the
    public completion algorithms that build() does not call.  Conventions as in JanetPolyModel.v. *)
From Coq Require Import ZArith List Bool Arith.
From Verif Require Import Outcome MonomModel JanetModel PolyModel JanetPolyModel.
Import ListNotations.
Local Open Scope Z_scope.

(** nfTail(this), and pp() if it did something (poly_int.cpp:970-975, 982-987, 1069-1074, 1197-1202). *)
Definition tail_pp (fuel : nat) (dbg : bool) (find : monom -> outcome (option poly)) (p : poly) : outcome poly :=
  do r <- p_nfTail fuel dbg find p;
  if (snd r =? 0)%nat then Ok (fst r) else p_pp dbg (fst r).

(** poly_int.cpp:1313-1341, 932-961 (tail = false) and 1116-1147 (tail = true): the first loop.  [None]: a
    polynomial of degree 0 was found. *)
Fixpoint take_tq (tail : bool) (fuel : nat) (dbg : bool) (find : monom -> outcome (option poly)) (dg : nat)
    (q tmp : list wpoly) : outcome (option (list wpoly * list wpoly)) :=
  match q with
  | [] => Ok (Some ([], tmp))
  | u :: q' =>
      do m <- p_lm dbg (wpol u);
      if (deg m <=? dg)%nat then
        do r <- p_nf fuel dbg find (wpol u);
        let (p, c) := r in
        if is_zero p then take_tq tail fuel dbg find dg q' tmp
        else
          do m' <- p_lm dbg p;
          if (deg m' =? 0)%nat then Ok None
          else
            do r2 <- (if tail then p_nfTail fuel dbg find p else Ok (p, 0%nat));
            do p3 <- (if (c + snd r2 =? 0)%nat then Ok (fst r2) else p_pp dbg (fst r2));
            do tmp' <- jp_insert dbg tmp (WP (wwrap u) p3);
            take_tq tail fuel dbg find dg q' tmp'
      else Ok (Some (q, tmp))
  end.

(** poly_int.cpp:1361-1374, 988-993, 1169-1183: w and the listed elements; an element of smaller norm changes
    places with w. *)
Fixpoint swap_min (w : wpoly) (l : list wpoly) : wpoly * list wpoly :=
  match l with
  | [] => (w, [])
  | u :: l' => if p_norm (wpol u) <? p_norm (wpol w)
               then let (v, r) := swap_min u l' in (v, w :: r)
               else let (v, r) := swap_min w l' in (v, u :: r)
  end.

(** poly_int.cpp:980-987: nfTail of the elements with the leading monomial of w (algorithmTQ1). *)
Fixpoint tails (fuel : nat) (dbg : bool) (find : monom -> outcome (option poly)) (l : list wpoly) : outcome (list wpoly) :=
  match l with
  | [] => Ok []
  | u :: l' =>
      do p <- tail_pp fuel dbg find (wpol u);
      do r <- tails fuel dbg find l';
      Ok (WP (wwrap u) p :: r)
  end.

(** poly_int.cpp:1000-1012: they are reduced by w (algorithmTQ1). *)
Fixpoint red_eq (dbg : bool) (a : poly) (l : list wpoly) : outcome (list wpoly) :=
  match l with
  | [] => Ok []
  | u :: l' =>
      do p <- p_reduction dbg (wpol u) a;
      if is_zero p then red_eq dbg a l'
      else do p' <- p_pp dbg p; do r <- red_eq dbg a l'; Ok (WP (wwrap u) p' :: r)
  end.
(** poly_int.cpp:1019-1024 *)
Fixpoint insert_all (dbg : bool) (q l : list wpoly) : outcome (list wpoly) :=
  match l with
  | [] => Ok q
  | u :: l' => do q' <- jp_insert dbg q u; insert_all dbg q' l'
  end.

(** poly_int.cpp:1387-1388, 1038-1039, 1203-1204: w enters its tree. *)
Definition enter_w (dbg : bool) (js : list janet) (u : wpoly) : outcome (list janet * wrap) :=
  do m <- p_lm dbg (wpol u);
  let w := update (wwrap u) m in
  let k := Z.to_nat (pos (wlm w) + 1) in
  do J <- tree_at dbg js (pos (wlm w));
  do J' <- insert dbg J w;
  Ok (firstn k js ++ J' :: skipn (S k) js, w).

(** poly_int.cpp:1408-1430, 1059-1081: the walk through mT.  [d] is the part before the iterator k; [w] has
    not been put into mT yet. *)
Fixpoint walk (cnt fuel : nat) (dbg : bool) (mpos : Z) (dg : nat) (js : list janet) (q : list wpoly)
    (d : list entry) (w : option entry) (k : list entry) : outcome (list janet * list wpoly * list entry) :=
  match cnt with
  | O => match w, k with None, [] => Ok (js, q, d) | _, _ => OutOfFuel end
  | S cnt' =>
      let redu e w' k' :=
        do e' <- tail_reduce fuel dbg mpos js (d ++ match w' with Some x => [x] | None => [] end ++ k') e;
        do r <- prolong_if dbg mpos dg js e' q;
        walk cnt' fuel dbg mpos dg (fst r) (snd r) (d ++ [e']) w' k' in
      match w, k with
      | None, [] => Ok (js, q, d)
      | Some e, [] => redu e None []
      | None, e :: k' => redu e None k'
      | Some e, e' :: k' =>
          do c <- p_cmp dbg (snd e) (snd e');
          if c <? 0 then redu e None k else redu e' w k'
      end
  end.

(** poly_int.cpp:1303-1436 algorithmTQ (one = false) and 922-1087 algorithmTQ1 (one = true): the main loop *)
Fixpoint tq_loop (one : bool) (fuel : nat) (dbg : bool) (mpos : Z) (js : list janet) (q : list wpoly) (t : list entry) : outcome jpoly :=
  match q with
  | [] => Ok (JP None [] t mpos (Some js))
  | u :: _ =>
      match fuel with
      | O => OutOfFuel
      | S fuel' =>
          let find := find_poly dbg mpos (Some js) t in
          do m <- p_lm dbg (wpol u);
          do r <- take_tq false fuel dbg find (deg m) q [];
          match r with
          | None => set_one dbg (pto (wpol u)) (pbo (wpol u)) (psize (wpol u)) mpos
          | Some (q1, tmp) =>
              assert_ dbg (assertSort q1 && assertSort tmp)
                match tmp with
                | [] => tq_loop one fuel' dbg mpos js q1 t
                | w0 :: tmp0 =>
                    do m0 <- p_lm dbg (wpol w0);
                    do s <- same_lm dbg m0 tmp0;
                    let (eqs, rest) := s in
                    do w1 <- (if one then do p <- tail_pp fuel dbg find (wpol w0); Ok (WP (wwrap w0) p) else Ok w0);
                    do eqs1 <- (if one then tails fuel dbg find eqs else Ok eqs);
                    let (w, eqs2) := swap_min w1 eqs1 in
                    if one && negb (length eqs2 =? 0)%nat then
                      do eqs3 <- red_eq dbg (wpol w) eqs2;
                      do q2 <- jp_insert dbg (rest ++ q1) w;
                      do q3 <- insert_all dbg q2 eqs3;
                      assert_ dbg (assertSort q3) (tq_loop one fuel' dbg mpos js q3 t)
                    else
                      let q2 := (eqs2 ++ rest) ++ q1 in
                      assert_ dbg (assertSort (eqs2 ++ rest) && assertSort q2)
                        (do e <- enter_w dbg js w;
                         let (js2, w') := e in
                         do x <- match t with
                                 | [] => Ok (js2, q2, [(wlm w', wpol w)])
                                 | _ => walk (S (length t)) fuel dbg mpos (deg m) js2 q2 [] (Some (wlm w', wpol w)) t
                                 end;
                         let '(js3, q3, t3) := x in
                         do b <- (if dbg then assertT dbg mpos js3 t3 else Ok true);
                         assert_ dbg b (tq_loop one fuel' dbg mpos js3 q3 t3))
                end
          end
      end
  end.

(** poly_int.cpp:1296-1300, 915-919 *)
Definition jp_tq (one : bool) (fuel : nat) (dbg : bool) (J : jpoly) : outcome jpoly :=
  match jone J with
  | Some _ => Ok J
  | None =>
      let J' := set_pos J in
      match jtrees J' with
      | Some js => tq_loop one fuel dbg (jpos J') js (jq J') (jt J')
      | None => match jq J' with [] => Ok J' | _ => Undef end
      end
  end.

(* ------------------------------------------------------------------------------------------ *)
(** * algorithmTQ2 *)

(** algorithmTQ2 can leave elements in mT that are in no tree; they keep their Wrap here. *)
Inductive titem : Type := Att (e : entry) | Det (w : wpoly).
Definition item_poly (x : titem) : poly := match x with Att e => snd e | Det w => wpol w end.
Definition item_lm (x : titem) : monom := match x with Att e => fst e | Det w => wlm (wwrap w) end.
Definition atts (l : list titem) : list entry := flat_map (fun x => match x with Att e => [e] | Det _ => [] end) l.

(** poly_int.cpp:615-633 prolong(w) for an element outside the trees: no store into a tree. *)
Fixpoint prolong_det (dbg : bool) (mpos : Z) (cnt k : nat) (js : list janet) (w : wrap) (p : poly) (q : list wpoly) :
    outcome (wrap * list wpoly) :=
  match cnt with
  | O => Ok (w, q)
  | S cnt' =>
      do nm <- get_flag dbg (wnm w) k;
      do b <- get_flag dbg (wbuild w) k;
      if nm && negb b then
        let m := mul_var k (wlm w) in
        do d <- find_wrap dbg mpos (Some js) m;
        let skip := match d with
                    | Some d => (deg (wanc w) + deg (wanc d) <=? deg m)%nat
                                || (lcm_deg (wanc w) (wanc d) <? deg m)%nat
                    | None => false
                    end in
        if skip then
          do w' <- set_build dbg w k;
          prolong_det dbg mpos cnt' (S k) js w' p q
        else
          do r <- prolong_wrap dbg k w;
          let (v, w') := r in
          do pv <- p_mul_var dbg k p;
          do q' <- jp_insert dbg q (WP v pv);
          prolong_det dbg mpos cnt' (S k) js w' p q'
      else prolong_det dbg mpos cnt' (S k) js w p q
  end.

(** poly_int.cpp:1232-1239: nfTail, pp and prolong of an element of mT. *)
Definition item_step (fuel : nat) (dbg : bool) (mpos : Z) (dg : nat) (js : list janet) (q : list wpoly)
    (others : list entry) (x : titem) : outcome (list janet * list wpoly * titem) :=
  match x with
  | Att e =>
      do e' <- tail_reduce fuel dbg mpos js others e;
      do r <- prolong_if dbg mpos dg js e' q;
      Ok (fst r, snd r, Att e')
  | Det w =>
      do p <- tail_pp fuel dbg (find_poly dbg mpos (Some js) others) (wpol w);
      if (deg (wlm (wwrap w)) <=? dg)%nat
      then do r <- prolong_det dbg mpos (size (wlm (wwrap w))) 0 js (wwrap w) p q;
           Ok (js, snd r, Det (WP (fst r) p))
      else Ok (js, q, Det (WP (wwrap w) p))
  end.

(** poly_int.cpp:1225-1247: the walk through mT *)
Fixpoint walk2 (cnt fuel : nat) (dbg : bool) (mpos : Z) (dg : nat) (js : list janet) (q : list wpoly)
    (d : list titem) (w : option entry) (k : list titem) : outcome (list janet * list wpoly * list titem) :=
  match cnt with
  | O => match w, k with None, [] => Ok (js, q, d) | _, _ => OutOfFuel end
  | S cnt' =>
      let redu x w' k' :=
        do r <- item_step fuel dbg mpos dg js q (atts d ++ match w' with Some e => [e] | None => [] end ++ atts k') x;
        let '(js', q', x') := r in
        walk2 cnt' fuel dbg mpos dg js' q' (d ++ [x']) w' k' in
      match w, k with
      | None, [] => Ok (js, q, d)
      | Some e, [] => redu (Att e) None []
      | None, x :: k' => redu x None k'
      | Some e, x :: k' =>
          do c <- p_cmp dbg (snd e) (item_poly x);
          if c <? 0 then redu (Att e) None k else redu x w k'
      end
  end.

(** wrap.h:90-94 clearNM: the non-multiplicative flags are cleared. *)
Definition clear_nm (w : wrap) : wrap := Wrap (wlm w) (wanc w) (repeat false (length (wnm w))) (wnmd w) (wbuild w).

(** poly_int.cpp:1206-1213: the trees are emptied, mT goes back to mQ (each element to the front). *)
Definition back_item (js : list janet) (x : titem) : outcome wpoly :=
  match x with
  | Att e => match get_wrap js (fst e) with Some w => Ok (WP (clear_nm w) (snd e)) | None => Undef end
  | Det w => Ok (WP (clear_nm (wwrap w)) (wpol w))
  end.
Fixpoint back (js : list janet) (t : list titem) (q : list wpoly) : outcome (list wpoly) :=
  match t with
  | [] => Ok q
  | x :: t' => do u <- back_item js x; back js t' (u :: q)
  end.

(** The object after algorithmTQ2: like jpoly, with elements outside the trees. *)
Record jpoly2 : Type := JP2 { j2one : option wpoly; j2t : list titem; j2pos : Z; j2trees : option (list janet) }.

(** poly_int.cpp:635-652 assertT *)
Definition assertT2 (dbg : bool) (mpos : Z) (js : list janet) (t : list titem) : outcome bool :=
  match map (fun x => (item_lm x, item_poly x)) t with
  | [] => Ok true
  | (_, p) :: l => assert_t dbg (find_poly dbg mpos (Some js) (atts t)) p l
  end.

(** poly_int.cpp:1106-1253 the main loop; [pref] is degPref. *)
Fixpoint tq2_loop (fuel : nat) (dbg : bool) (mpos : Z) (pref : nat) (js : list janet) (q : list wpoly) (t : list titem) : outcome jpoly2 :=
  match q with
  | [] => Ok (JP2 None t mpos (Some js))
  | u :: _ =>
      match fuel with
      | O => OutOfFuel
      | S fuel' =>
          let find := find_poly dbg mpos (Some js) (atts t) in
          do m <- p_lm dbg (wpol u);
          do r <- take_tq true fuel dbg find (deg m) q [];
          match r with
          | None => do J <- set_one dbg (pto (wpol u)) (pbo (wpol u)) (psize (wpol u)) mpos;
                    Ok (JP2 (jone J) [] (jpos J) (jtrees J))
          | Some (q1, tmp) =>
              let pref1 := if (pref =? 0)%nat then deg m else pref in
              assert_ dbg (assertSort q1 && assertSort tmp)
                match tmp with
                | [] => tq2_loop fuel' dbg mpos pref1 js q1 t
                | w0 :: tmp0 =>
                    do m0 <- p_lm dbg (wpol w0);
                    do s <- same_deg dbg (deg m0) tmp0;
                    let (eqs, rest) := s in
                    let (w1, eqs2) := swap_min w0 eqs in
                    let q2 := (eqs2 ++ rest) ++ q1 in
                    assert_ dbg (assertSort q2)
                      (do p <- tail_pp fuel dbg find (wpol w1);
                       let w := WP (wwrap w1) p in
                       do e <- enter_w dbg js w;
                       let (js2, w') := e in
                       do x <- (if (deg m <? pref1)%nat
                                then do q3 <- back js2 t q2;
                                     (* w is in the tree that was deleted *)
                                     match get_wrap js2 (wlm w') with
                                     | Some w'' => Ok (map (fun _ => jempty) js2, q3, [Det (WP w'' p)])
                                     | None => Undef
                                     end
                                else match t with
                                     | [] => Ok (js2, q2, [Att (wlm w', p)])
                                     | _ => walk2 (S (length t)) fuel dbg mpos (deg m) js2 q2 [] (Some (wlm w', p)) t
                                     end);
                       let '(js3, q3, t3) := x in
                       do b <- (if dbg then assertT2 dbg mpos js3 t3 else Ok true);
                       assert_ dbg b (tq2_loop fuel' dbg mpos (deg m) js3 q3 t3))
                end
          end
      end
  end.

(** poly_int.cpp:1099-1104 *)
Definition jp_tq2 (fuel : nat) (dbg : bool) (J : jpoly) : outcome jpoly2 :=
  match jone J with
  | Some _ => Ok (JP2 (jone J) [] (jpos J) (jtrees J))
  | None =>
      let J' := set_pos J in
      match jtrees J' with
      | Some js => tq2_loop fuel dbg (jpos J') 0 js (jq J') (map Att (jt J'))
      | None => match jq J' with [] => Ok (JP2 None (map Att (jt J')) (jpos J') None) | _ => Undef end
      end
  end.

(** poly_int.h:426-439 find and nf after algorithmTQ2 *)
Definition jp2_find (dbg : bool) (J : jpoly2) (m : monom) : outcome (option poly) :=
  match j2one J with
  | Some w => Ok (Some (wpol w))
  | None => find_poly dbg (j2pos J) (j2trees J) (atts (j2t J)) m
  end.
Definition jp2_nf (fuel : nat) (dbg : bool) (J : jpoly2) (a : poly) : outcome poly :=
  do r <- p_nf fuel dbg (jp2_find dbg J) a;
  do r2 <- p_nfTail fuel dbg (jp2_find dbg J) (fst r);
  p_pp dbg (fst r2).
