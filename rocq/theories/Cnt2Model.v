(** The counters of JanetPolyInt with algorithmTQ2 (ginv/poly_int.cpp 1099-1294): the functions of TQModel.v that change a
    counter, with the counters as one more argument and result, as in CntModel.v. *)
From Coq Require Import ZArith List Bool Arith.
From Verif Require Import Outcome MonomModel JanetModel PolyModel JanetPolyModel TQModel CntModel.
Import ListNotations.
Local Open Scope Z_scope.

(** poly_int.cpp:1116-1147: zeros are counted; the steps of nf and nfTail are counted together *)
Fixpoint k_take2 (fuel : nat) (dbg : bool) (find : monom -> outcome (option poly)) (dg : nat)
    (q tmp : list wpoly) (c : counts) : outcome (option (list wpoly * list wpoly) * counts) :=
  match q with
  | [] => Ok (Some ([], tmp), c)
  | u :: q' =>
      do m <- p_lm dbg (wpol u);
      if (deg m <=? dg)%nat then
        do r <- p_nf fuel dbg find (wpol u);
        let (p, k) := r in
        if is_zero p then k_take2 fuel dbg find dg q' tmp (inc_zero c)
        else
          do m' <- p_lm dbg p;
          if (deg m' =? 0)%nat then Ok (None, c)
          else
            do r2 <- p_nfTail fuel dbg find p;
            do p3 <- (if (k + snd r2 =? 0)%nat then Ok (fst r2) else p_pp dbg (fst r2));
            do tmp' <- jp_insert dbg tmp (WP (wwrap u) p3);
            k_take2 fuel dbg find dg q' tmp' (if (k + snd r2 =? 0)%nat then c else add_red (k + snd r2) c)
      else Ok (Some (q, tmp), c)
  end.

(** poly_int.cpp:615-633 prolong(w) for an element outside the trees *)
Fixpoint k_prolong_det (dbg : bool) (mpos : Z) (cnt k : nat) (js : list janet) (w : wrap) (p : poly) (q : list wpoly) (c : counts) :
    outcome (wrap * list wpoly * counts) :=
  match cnt with
  | O => Ok (w, q, c)
  | S cnt' =>
      do nm <- get_flag dbg (wnm w) k;
      do b <- get_flag dbg (wbuild w) k;
      if nm && negb b then
        let m := mul_var k (wlm w) in
        do d <- find_wrap dbg mpos (Some js) m;
        let crit1 := match d with Some d => (deg (wanc w) + deg (wanc d) <=? deg m)%nat | None => false end in
        let crit2 := match d with Some d => (lcm_deg (wanc w) (wanc d) <? deg m)%nat | None => false end in
        if crit1 then
          do w' <- set_build dbg w k; k_prolong_det dbg mpos cnt' (S k) js w' p q (inc_critI c)
        else if crit2 then
          do w' <- set_build dbg w k; k_prolong_det dbg mpos cnt' (S k) js w' p q (inc_critII c)
        else
          do r <- prolong_wrap dbg k w;
          let (v, w') := r in
          do pv <- p_mul_var dbg k p;
          do q' <- jp_insert dbg q (WP v pv);
          k_prolong_det dbg mpos cnt' (S k) js w' p q' c
      else k_prolong_det dbg mpos cnt' (S k) js w p q c
  end.

(** poly_int.cpp:1232-1239 *)
Definition k_item_step (fuel : nat) (dbg : bool) (mpos : Z) (dg : nat) (js : list janet) (q : list wpoly)
    (others : list entry) (x : titem) (c : counts) : outcome (list janet * list wpoly * titem * counts) :=
  match x with
  | Att e =>
      do e' <- k_tail_reduce fuel dbg mpos js others e c;
      do r <- k_prolong_if dbg mpos dg js (fst e') q (snd e');
      Ok (fst (fst r), snd (fst r), Att (fst e'), snd r)
  | Det w =>
      do p <- k_tail_pp fuel dbg (find_poly dbg mpos (Some js) others) (wpol w) c;
      if (deg (wlm (wwrap w)) <=? dg)%nat
      then do r <- k_prolong_det dbg mpos (size (wlm (wwrap w))) 0 js (wwrap w) (fst p) q (snd p);
           Ok (js, snd (fst r), Det (WP (fst (fst r)) (fst p)), snd r)
      else Ok (js, q, Det (WP (wwrap w) (fst p)), snd p)
  end.

(** poly_int.cpp:1225-1247 *)
Fixpoint k_walk2 (cnt fuel : nat) (dbg : bool) (mpos : Z) (dg : nat) (js : list janet) (q : list wpoly)
    (d : list titem) (w : option entry) (k : list titem) (c : counts) : outcome (list janet * list wpoly * list titem * counts) :=
  match cnt with
  | O => match w, k with None, [] => Ok (js, q, d, c) | _, _ => OutOfFuel end
  | S cnt' =>
      let redu x w' k' :=
        do r <- k_item_step fuel dbg mpos dg js q (atts d ++ match w' with Some e => [e] | None => [] end ++ atts k') x c;
        let '(js', q', x', c') := r in
        k_walk2 cnt' fuel dbg mpos dg js' q' (d ++ [x']) w' k' c' in
      match w, k with
      | None, [] => Ok (js, q, d, c)
      | Some e, [] => redu (Att e) None []
      | None, x :: k' => redu x None k'
      | Some e, x :: k' =>
          do y <- p_cmp dbg (snd e) (item_poly x);
          if y <? 0 then redu (Att e) None k else redu x w k'
      end
  end.

(** poly_int.cpp:1106-1253 the main loop; maxEqualLm() is not touched (the statements are commented out, 1184-1185) *)
Fixpoint k_tq2_loop (fuel : nat) (dbg : bool) (mpos : Z) (pref : nat) (js : list janet) (q : list wpoly) (t : list titem) (c : counts) : outcome (jpoly2 * counts) :=
  match q with
  | [] => Ok (JP2 None t mpos (Some js), c)
  | u :: _ =>
      match fuel with
      | O => OutOfFuel
      | S fuel' =>
          let find := find_poly dbg mpos (Some js) (atts t) in
          do m <- p_lm dbg (wpol u);
          do r <- k_take2 fuel dbg find (deg m) q [] c;
          let (r, c) := r in
          match r with
          | None => do J <- set_one dbg (pto (wpol u)) (pbo (wpol u)) (psize (wpol u)) mpos;
                    Ok (JP2 (jone J) [] (jpos J) (jtrees J), c)
          | Some (q1, tmp) =>
              let pref1 := if (pref =? 0)%nat then deg m else pref in
              assert_ dbg (assertSort q1 && assertSort tmp)
                match tmp with
                | [] => k_tq2_loop fuel' dbg mpos pref1 js q1 t c
                | w0 :: tmp0 =>
                    do m0 <- p_lm dbg (wpol w0);
                    do s <- same_deg dbg (deg m0) tmp0;
                    let (eqs, rest) := s in
                    let (w1, eqs2) := swap_min w0 eqs in
                    let q2 := (eqs2 ++ rest) ++ q1 in
                    assert_ dbg (assertSort q2)
                      (do p <- k_tail_pp fuel dbg find (wpol w1) c;
                       let (p, c) := p in
                       let w := WP (wwrap w1) p in
                       do e <- enter_w dbg js w;
                       let (js2, w') := e in
                       do x <- (if (deg m <? pref1)%nat
                                then do q3 <- back js2 t q2;
                                     match get_wrap js2 (wlm w') with
                                     | Some w'' => Ok (map (fun _ => jempty) js2, q3, [Det (WP w'' p)], c)
                                     | None => Undef
                                     end
                                else match t with
                                     | [] => Ok (js2, q2, [Att (wlm w', p)], c)
                                     | _ => k_walk2 (S (length t)) fuel dbg mpos (deg m) js2 q2 [] (Some (wlm w', p)) t c
                                     end);
                       let '(js3, q3, t3, c) := x in
                       do b <- (if dbg then assertT2 dbg mpos js3 t3 else Ok true);
                       assert_ dbg b (k_tq2_loop fuel' dbg mpos (deg m) js3 q3 t3 c))
                end
          end
      end
  end.

(** poly_int.cpp:1099-1104 *)
Definition k_tq2 (fuel : nat) (dbg : bool) (s : jpoly * counts) : outcome (jpoly2 * counts) :=
  match jone (fst s) with
  | Some _ => Ok (JP2 (jone (fst s)) [] (jpos (fst s)) (jtrees (fst s)), snd s)
  | None =>
      let J := set_pos (fst s) in
      match jtrees J with
      | Some js => k_tq2_loop fuel dbg (jpos J) 0 js (jq J) (map Att (jt J)) (snd s)
      | None => match jq J with [] => Ok (JP2 None (map Att (jt J)) (jpos J) None, snd s) | _ => Undef end
      end
  end.
