(** The counters of JanetPolyInt: reduction(), maxEqualLm(), critI(), critII() and isZeroNf()
    (ginv/poly_int.h 361-365, 384-388, 449-453; cython/ginv.pyx 771-780), with build(), algorithmTQ and
    algorithmTQ1 (ginv/poly_int.cpp 615-633, 698-1098, 1295-1446).  The functions below are those of
    JanetPolyModel.v and TQModel.v that change a counter, with the counters as one more argument and result;
    that they compute the same otherwise is proved (C88_same).
    Simplified: the counters are natural numbers (the code has int, so 2^31 increments of one of them are
    undefined behaviour); algorithmTQ2 is in Cnt2Model.v. *)
From Coq Require Import ZArith List Bool Arith.
From Verif Require Import Outcome MonomModel JanetModel PolyModel JanetPolyModel TQModel.
Import ListNotations.
Local Open Scope Z_scope.

(** poly_int.h:361-365 *)
Record counts : Type := Cnt { n_red : nat; n_equal : nat; n_critI : nat; n_critII : nat; n_zero : nat }.
(** poly_int.h:384-388 *)
Definition counts0 : counts := Cnt 0 0 0 0 0.

(** mReduction += r *)
Definition add_red (k : nat) (c : counts) : counts := Cnt (n_red c + k) (n_equal c) (n_critI c) (n_critII c) (n_zero c).
(** poly_int.cpp:998-999, 1378-1379: if (mMaxEqualLm < k) mMaxEqualLm = k *)
Definition max_equal (k : nat) (c : counts) : counts :=
  if (n_equal c <? k)%nat then Cnt (n_red c) k (n_critI c) (n_critII c) (n_zero c) else c.
(** ++mCritI, ++mCritII, ++mIsZeroNf *)
Definition inc_critI (c : counts) : counts := Cnt (n_red c) (n_equal c) (S (n_critI c)) (n_critII c) (n_zero c).
Definition inc_critII (c : counts) : counts := Cnt (n_red c) (n_equal c) (n_critI c) (S (n_critII c)) (n_zero c).
Definition inc_zero (c : counts) : counts := Cnt (n_red c) (n_equal c) (n_critI c) (n_critII c) (S (n_zero c)).

(** poly_int.cpp:615-633 prolong(w) *)
Fixpoint k_prolong (dbg : bool) (mpos : Z) (cnt k : nat) (js : list janet) (w : wrap) (p : poly) (q : list wpoly) (c : counts) :
    outcome (list janet * list wpoly * counts) :=
  match cnt with
  | O => Ok (js, q, c)
  | S cnt' =>
      do nm <- get_flag dbg (wnm w) k;
      do b <- get_flag dbg (wbuild w) k;
      if nm && negb b then
        let m := mul_var k (wlm w) in
        do d <- find_wrap dbg mpos (Some js) m;
        let crit1 := match d with Some d => (deg (wanc w) + deg (wanc d) <=? deg m)%nat | None => false end in
        let crit2 := match d with Some d => (lcm_deg (wanc w) (wanc d) <? deg m)%nat | None => false end in
        if crit1 then
          do w' <- set_build dbg w k;
          k_prolong dbg mpos cnt' (S k) (upd_trees (fun _ => w') (wlm w) js) w' p q (inc_critI c)
        else if crit2 then
          do w' <- set_build dbg w k;
          k_prolong dbg mpos cnt' (S k) (upd_trees (fun _ => w') (wlm w) js) w' p q (inc_critII c)
        else
          do r <- prolong_wrap dbg k w;
          let (v, w') := r in
          do pv <- p_mul_var dbg k p;
          do q' <- jp_insert dbg q (WP v pv);
          k_prolong dbg mpos cnt' (S k) (upd_trees (fun _ => w') (wlm w) js) w' p q' c
      else k_prolong dbg mpos cnt' (S k) js w p q c
  end.
Definition k_prolong_if (dbg : bool) (mpos : Z) (dg : nat) (js : list janet) (e : entry) (q : list wpoly) (c : counts) :
    outcome (list janet * list wpoly * counts) :=
  if (deg (fst e) <=? dg)%nat then
    match get_wrap js (fst e) with
    | Some w => k_prolong dbg mpos (size (wlm w)) 0 js w (snd e) q c
    | None => Undef
    end
  else Ok (js, q, c).

(** poly_int.cpp:871-877, 891-897, 1069-1075, 1418-1424 *)
Definition k_tail_reduce (fuel : nat) (dbg : bool) (mpos : Z) (js : list janet) (others : list entry) (e : entry) (c : counts) :
    outcome (entry * counts) :=
  do r <- p_nfTail fuel dbg (find_poly dbg mpos (Some js) others) (snd e);
  let (p, r) := r in
  do p' <- (if (r =? 0)%nat then Ok p else p_pp dbg p);
  Ok (fst e, p', if (r =? 0)%nat then c else add_red r c).

(* ------------------------------------------------------------------------------------------ *)
(** * build() *)

(** poly_int.cpp:716-742: r of nf is overwritten by that of nfTail, so the steps of nf are not counted;
    polynomials that become zero are not counted. *)
Fixpoint k_take_block (fuel : nat) (dbg : bool) (find : monom -> outcome (option poly)) (dg : nat)
    (q tmp : list wpoly) (c : counts) : outcome (option (list wpoly * list wpoly) * counts) :=
  match q with
  | [] => Ok (Some ([], tmp), c)
  | u :: q' =>
      do m <- p_lm dbg (wpol u);
      if (deg m <=? dg)%nat then
        do r <- p_nf fuel dbg find (wpol u);
        let p := fst r in
        if is_zero p then k_take_block fuel dbg find dg q' tmp c
        else
          do m' <- p_lm dbg p;
          if (deg m' =? 0)%nat then Ok (None, c)
          else
            do r2 <- p_nfTail fuel dbg find p;
            let (p2, r) := r2 in
            do p3 <- (if (r =? 0)%nat then Ok p2 else p_pp dbg p2);
            do tmp' <- jp_insert dbg tmp (WP (wwrap u) p3);
            k_take_block fuel dbg find dg q' tmp' (if (r =? 0)%nat then c else add_red r c)
      else Ok (Some (q, tmp), c)
  end.

(** poly_int.cpp:860-899 *)
Fixpoint k_merge_loop (cnt fuel : nat) (dbg : bool) (mpos : Z) (dg : nat) (js : list janet) (q : list wpoly)
    (d j k : list entry) (c : counts) : outcome (list janet * list wpoly * list entry * counts) :=
  match cnt with
  | O => match j, k with [], [] => Ok (js, q, d, c) | _, _ => OutOfFuel end
  | S cnt' =>
      let put e j' k' :=
        do b <- (if dbg then p_isNf (find_poly dbg mpos (Some js) (d ++ j ++ k)) (snd e) else Ok true);
        assert_ dbg b
          (do r <- k_prolong_if dbg mpos dg js e q c;
           k_merge_loop cnt' fuel dbg mpos dg (fst (fst r)) (snd (fst r)) (d ++ [e]) j' k' (snd r)) in
      let redu e k' :=
        do e' <- k_tail_reduce fuel dbg mpos js (d ++ j ++ k') e c;
        do r <- k_prolong_if dbg mpos dg js (fst e') q (snd e');
        k_merge_loop cnt' fuel dbg mpos dg (fst (fst r)) (snd (fst r)) (d ++ [fst e']) j k' (snd r) in
      match j, k with
      | [], [] => Ok (js, q, d, c)
      | e :: j', [] => put e j' []
      | [], e :: k' => redu e k'
      | e :: j', e' :: k' =>
          do x <- p_cmp dbg (snd e) (snd e');
          if x <? 0 then put e j' k else redu e' k'
      end
  end.

(** poly_int.cpp:706-906 the main loop *)
Fixpoint k_block (fuel : nat) (dbg : bool) (mpos : Z) (js : list janet) (q : list wpoly) (t : list entry) (c : counts) :
    outcome (jpoly * counts) :=
  match q with
  | [] => Ok (JP None [] t mpos (Some js), c)
  | u :: _ =>
      match fuel with
      | O => OutOfFuel
      | S fuel' =>
          do m <- p_lm dbg (wpol u);
          do r <- k_take_block fuel dbg (find_poly dbg mpos (Some js) t) (deg m) q [] c;
          let (r, c) := r in
          match r with
          | None => do J <- set_one dbg (pto (wpol u)) (pbo (wpol u)) (psize (wpol u)) mpos; Ok (J, c)
          | Some (q1, tmp) =>
              assert_ dbg (assertSort q1 && assertSort tmp)
                match tmp with
                | [] => k_block fuel' dbg mpos js q1 t c
                | _ =>
                    do s <- block_loop fuel dbg tmp q1;
                    let '(tmp2, q2, dg) := s in
                    do e <- enter dbg js tmp2;
                    let (js2, new) := e in
                    do x <- k_merge_loop (length new + length t) fuel dbg mpos dg js2 q2 [] new t c;
                    let '(js3, q3, t3, c) := x in
                    do b <- (if dbg then assertT dbg mpos js3 t3 else Ok true);
                    assert_ dbg b (k_block fuel' dbg mpos js3 q3 t3 c)
                end
          end
      end
  end.

(** poly_int.cpp:698-704, poly_int.h:416-418 build *)
Definition k_build (fuel : nat) (dbg : bool) (s : jpoly * counts) : outcome (jpoly * counts) :=
  match jone (fst s) with
  | Some _ => Ok s
  | None =>
      let J := set_pos (fst s) in
      match jtrees J with
      | Some js => k_block fuel dbg (jpos J) js (jq J) (jt J) (snd s)
      | None => match jq J with [] => Ok (J, snd s) | _ => Undef end
      end
  end.

(* ------------------------------------------------------------------------------------------ *)
(** * algorithmTQ and algorithmTQ1 *)

(** poly_int.cpp:932-961 (one = true), 1313-1341 (one = false): only algorithmTQ1 counts the polynomials that
    become zero; the steps of nf are counted if the polynomial stays. *)
Fixpoint k_take (one : bool) (fuel : nat) (dbg : bool) (find : monom -> outcome (option poly)) (dg : nat)
    (q tmp : list wpoly) (c : counts) : outcome (option (list wpoly * list wpoly) * counts) :=
  match q with
  | [] => Ok (Some ([], tmp), c)
  | u :: q' =>
      do m <- p_lm dbg (wpol u);
      if (deg m <=? dg)%nat then
        do r <- p_nf fuel dbg find (wpol u);
        let (p, r) := r in
        if is_zero p then k_take one fuel dbg find dg q' tmp (if one then inc_zero c else c)
        else
          do m' <- p_lm dbg p;
          if (deg m' =? 0)%nat then Ok (None, c)
          else
            do p3 <- (if (r =? 0)%nat then Ok p else p_pp dbg p);
            do tmp' <- jp_insert dbg tmp (WP (wwrap u) p3);
            k_take one fuel dbg find dg q' tmp' (if (r =? 0)%nat then c else add_red r c)
      else Ok (Some (q, tmp), c)
  end.

(** poly_int.cpp:975-980, 985-990 *)
Definition k_tail_pp (fuel : nat) (dbg : bool) (find : monom -> outcome (option poly)) (p : poly) (c : counts) : outcome (poly * counts) :=
  do r <- p_nfTail fuel dbg find p;
  do p' <- (if (snd r =? 0)%nat then Ok (fst r) else p_pp dbg (fst r));
  Ok (p', if (snd r =? 0)%nat then c else add_red (snd r) c).
Fixpoint k_tails (fuel : nat) (dbg : bool) (find : monom -> outcome (option poly)) (l : list wpoly) (c : counts) : outcome (list wpoly * counts) :=
  match l with
  | [] => Ok ([], c)
  | u :: l' =>
      do p <- k_tail_pp fuel dbg find (wpol u) c;
      do r <- k_tails fuel dbg find l' (snd p);
      Ok (WP (wwrap u) (fst p) :: fst r, snd r)
  end.

(** poly_int.cpp:1003-1014: the reductions by w are not counted, the zeros are *)
Fixpoint k_red_eq (dbg : bool) (a : poly) (l : list wpoly) (c : counts) : outcome (list wpoly * counts) :=
  match l with
  | [] => Ok ([], c)
  | u :: l' =>
      do p <- p_reduction dbg (wpol u) a;
      if is_zero p then k_red_eq dbg a l' (inc_zero c)
      else do p' <- p_pp dbg p; do r <- k_red_eq dbg a l' c; Ok (WP (wwrap u) p' :: fst r, snd r)
  end.

(** poly_int.cpp:1059-1081, 1408-1430 *)
Fixpoint k_walk (cnt fuel : nat) (dbg : bool) (mpos : Z) (dg : nat) (js : list janet) (q : list wpoly)
    (d : list entry) (w : option entry) (k : list entry) (c : counts) : outcome (list janet * list wpoly * list entry * counts) :=
  match cnt with
  | O => match w, k with None, [] => Ok (js, q, d, c) | _, _ => OutOfFuel end
  | S cnt' =>
      let redu e w' k' :=
        do e' <- k_tail_reduce fuel dbg mpos js (d ++ match w' with Some x => [x] | None => [] end ++ k') e c;
        do r <- k_prolong_if dbg mpos dg js (fst e') q (snd e');
        k_walk cnt' fuel dbg mpos dg (fst (fst r)) (snd (fst r)) (d ++ [fst e']) w' k' (snd r) in
      match w, k with
      | None, [] => Ok (js, q, d, c)
      | Some e, [] => redu e None []
      | None, e :: k' => redu e None k'
      | Some e, e' :: k' =>
          do x <- p_cmp dbg (snd e) (snd e');
          if x <? 0 then redu e None k else redu e' w k'
      end
  end.

(** poly_int.cpp:922-1087 algorithmTQ1 (one = true) and 1303-1436 algorithmTQ (one = false): the main loop *)
Fixpoint k_tq_loop (one : bool) (fuel : nat) (dbg : bool) (mpos : Z) (js : list janet) (q : list wpoly) (t : list entry) (c : counts) :
    outcome (jpoly * counts) :=
  match q with
  | [] => Ok (JP None [] t mpos (Some js), c)
  | u :: _ =>
      match fuel with
      | O => OutOfFuel
      | S fuel' =>
          let find := find_poly dbg mpos (Some js) t in
          do m <- p_lm dbg (wpol u);
          do r <- k_take one fuel dbg find (deg m) q [] c;
          let (r, c) := r in
          match r with
          | None => do J <- set_one dbg (pto (wpol u)) (pbo (wpol u)) (psize (wpol u)) mpos; Ok (J, c)
          | Some (q1, tmp) =>
              assert_ dbg (assertSort q1 && assertSort tmp)
                match tmp with
                | [] => k_tq_loop one fuel' dbg mpos js q1 t c
                | w0 :: tmp0 =>
                    do m0 <- p_lm dbg (wpol w0);
                    do s <- same_lm dbg m0 tmp0;
                    let (eqs, rest) := s in
                    do w1 <- (if one then do p <- k_tail_pp fuel dbg find (wpol w0) c; Ok (WP (wwrap w0) (fst p), snd p) else Ok (w0, c));
                    do eqs1 <- (if one then k_tails fuel dbg find eqs (snd w1) else Ok (eqs, snd w1));
                    let c := max_equal (S (length eqs)) (snd eqs1) in
                    let (w, eqs2) := swap_min (fst w1) (fst eqs1) in
                    if one && negb (length eqs2 =? 0)%nat then
                      do eqs3 <- k_red_eq dbg (wpol w) eqs2 c;
                      do q2 <- jp_insert dbg (rest ++ q1) w;
                      do q3 <- insert_all dbg q2 (fst eqs3);
                      assert_ dbg (assertSort q3) (k_tq_loop one fuel' dbg mpos js q3 t (snd eqs3))
                    else
                      let q2 := (eqs2 ++ rest) ++ q1 in
                      assert_ dbg (assertSort (eqs2 ++ rest) && assertSort q2)
                        (do e <- enter_w dbg js w;
                         let (js2, w') := e in
                         do x <- match t with
                                 | [] => Ok (js2, q2, [(wlm w', wpol w)], c)
                                 | _ => k_walk (S (length t)) fuel dbg mpos (deg m) js2 q2 [] (Some (wlm w', wpol w)) t c
                                 end;
                         let '(js3, q3, t3, c) := x in
                         do b <- (if dbg then assertT dbg mpos js3 t3 else Ok true);
                         assert_ dbg b (k_tq_loop one fuel' dbg mpos js3 q3 t3 c))
                end
          end
      end
  end.

(** poly_int.cpp:915-919, 1296-1300 *)
Definition k_tq (one : bool) (fuel : nat) (dbg : bool) (s : jpoly * counts) : outcome (jpoly * counts) :=
  match jone (fst s) with
  | Some _ => Ok s
  | None =>
      let J := set_pos (fst s) in
      match jtrees J with
      | Some js => k_tq_loop one fuel dbg (jpos J) js (jq J) (jt J) (snd s)
      | None => match jq J with [] => Ok (J, snd s) | _ => Undef end
      end
  end.

(** poly_int.h:405-414 push: no counter changes *)
Definition k_push (dbg : bool) (s : jpoly * counts) (a : poly) : outcome (jpoly * counts) :=
  do J <- jp_push dbg (fst s) a; Ok (J, snd s).
