(** The counters: the algorithms compute the same without them, and what every step keeps. *)
From Coq Require Import ZArith List Bool Arith Lia Permutation.
From Verif Require Import Outcome MonomModel MonomSpec JanetModel PolyModel JanetPolyModel TQModel JanetPolySpec JanetPolyProofs AncProofs CntModel CntSpec.
Import ListNotations.
Local Open Scope Z_scope.

(* ------------------------------------------------------------------------------------------ *)
(** * The same results *)

Lemma forget_ok {A} (x : outcome (A * counts)) r c : x = Ok (r, c) -> forget x = Ok r.
Proof. intros ->. reflexivity. Qed.
Lemma forget_assert {A} dbg b (x : outcome (A * counts)) y : forget x = y -> forget (assert_ dbg b x) = assert_ dbg b y.
Proof. intros <-. unfold assert_. destruct (dbg && negb b); reflexivity. Qed.
Lemma forget_bind {A B} (x : outcome A) (f : A -> outcome (B * counts)) g : (forall a, forget (f a) = g a) -> forget (bind x f) = bind x g.
Proof. intro H. destruct x; cbn [bind]; [apply H|reflexivity..]. Qed.
Lemma forget_bind2 {A B} (x : outcome (A * counts)) y (f : A * counts -> outcome (B * counts)) g :
  forget x = y -> (forall a c, forget (f (a, c)) = g a) -> forget (bind x f) = bind y g.
Proof. intros <- H. destruct x as [[a c]| | | |]; cbn [bind forget fst]; [apply H|reflexivity..]. Qed.

Ltac fb := apply forget_bind; intro.

Lemma k_prolong_same dbg mpos p : forall cnt k js w q c, forget (k_prolong dbg mpos cnt k js w p q c) = jp_prolong dbg mpos cnt k js w p q.
Proof.
  induction cnt as [|cnt IH]; intros k js w q c; cbn [k_prolong jp_prolong]; [reflexivity|]. fb. fb. destruct (a && negb a0); [|apply IH]. cbv zeta. fb.
  destruct a1 as [d|].
  - destruct (deg (wanc w) + deg (wanc d) <=? deg (mul_var k (wlm w)))%nat; cbn [orb].
    + fb. apply IH.
    + destruct (lcm_deg (wanc w) (wanc d) <? deg (mul_var k (wlm w)))%nat; [fb; apply IH|]. fb. destruct a1 as [v w']. fb. fb. apply IH.
  - fb. destruct a1 as [v w']. fb. fb. apply IH.
Qed.
Lemma k_prolong_if_same dbg mpos dg js e q c : forget (k_prolong_if dbg mpos dg js e q c) = prolong_if dbg mpos dg js e q.
Proof.
  unfold k_prolong_if, prolong_if, prolong_entry. destruct (deg (fst e) <=? dg)%nat; [|reflexivity]. destruct (get_wrap js (fst e)) as [w|]; [apply k_prolong_same|reflexivity].
Qed.
Lemma k_tail_reduce_same fuel dbg mpos js others e c : forget (k_tail_reduce fuel dbg mpos js others e c) = tail_reduce fuel dbg mpos js others e.
Proof. unfold k_tail_reduce, tail_reduce. fb. destruct a as [p r]. fb. reflexivity. Qed.

Lemma k_take_block_same fuel dbg find dg : forall q tmp c, forget (k_take_block fuel dbg find dg q tmp c) = take_block fuel dbg find dg q tmp.
Proof.
  induction q as [|u q IH]; intros tmp c; cbn [k_take_block take_block]; [reflexivity|]. fb. destruct (deg a <=? dg)%nat; [|reflexivity]. fb. cbv zeta.
  destruct (is_zero (fst a0)); [apply IH|]. fb. destruct (deg a1 =? 0)%nat; [reflexivity|]. fb. destruct a2 as [p2 r]. fb. fb. apply IH.
Qed.
Lemma k_merge_loop_same fuel dbg mpos dg : forall cnt js q d j k c, forget (k_merge_loop cnt fuel dbg mpos dg js q d j k c) = merge_loop cnt fuel dbg mpos dg js q d j k.
Proof.
  induction cnt as [|cnt IH]; intros js q d j k c; cbn [k_merge_loop merge_loop]; [destruct j, k; reflexivity|]. cbv zeta.
  destruct j as [|e j], k as [|e' k].
  - reflexivity.
  - eapply forget_bind2; [apply k_tail_reduce_same|]. intros e1 c1. eapply forget_bind2; [apply k_prolong_if_same|]. intros r c2. apply IH.
  - fb. apply forget_assert. eapply forget_bind2; [apply k_prolong_if_same|]. intros r c2. apply IH.
  - fb. destruct (a <? 0).
    + fb. apply forget_assert. eapply forget_bind2; [apply k_prolong_if_same|]. intros r c2. apply IH.
    + eapply forget_bind2; [apply k_tail_reduce_same|]. intros e1 c1. eapply forget_bind2; [apply k_prolong_if_same|]. intros r c2. apply IH.
Qed.
Lemma forget_one {A} (x : outcome A) (c : counts) : forget (do J <- x; Ok (J, c)) = x.
Proof. destruct x; reflexivity. Qed.
Lemma k_block_same dbg mpos : forall fuel js q T c, forget (k_block fuel dbg mpos js q T c) = block_tq fuel dbg mpos js q T.
Proof.
  induction fuel as [|fuel IH]; intros js [|u q] T c; cbn [k_block block_tq]; try reflexivity. fb. eapply forget_bind2; [apply k_take_block_same|]. intros r c1.
  destruct r as [[q1 [|w tmp]]|]; [| |apply forget_one]; apply forget_assert; [apply IH|]. fb. destruct a0 as [[tmp2 q2] dg]. fb. destruct a0 as [js2 new].
  eapply forget_bind2; [apply k_merge_loop_same|]. intros [[js3 q3] t3] c2. fb. apply forget_assert. apply IH.
Qed.
Lemma k_build_same fuel dbg s : forget (k_build fuel dbg s) = jp_build fuel dbg (fst s).
Proof.
  unfold k_build, jp_build. destruct (jone (fst s)); [reflexivity|]. cbv zeta. destruct (jtrees (set_pos (fst s))); [apply k_block_same|]. destruct (jq (set_pos (fst s))); reflexivity.
Qed.

Lemma take_tq_false fuel dbg find dg u q tmp : take_tq false fuel dbg find dg (u :: q) tmp =
  do m <- p_lm dbg (wpol u);
  if (deg m <=? dg)%nat then
    do r <- p_nf fuel dbg find (wpol u);
    let (p, c) := r in
    if is_zero p then take_tq false fuel dbg find dg q tmp
    else do m' <- p_lm dbg p;
         if (deg m' =? 0)%nat then Ok None
         else do p3 <- (if (c =? 0)%nat then Ok p else p_pp dbg p);
              do tmp' <- jp_insert dbg tmp (WP (wwrap u) p3);
              take_tq false fuel dbg find dg q tmp'
  else Ok (Some (u :: q, tmp)).
Proof.
  cbn [take_tq bind fst snd]. destruct (p_lm dbg (wpol u)); cbn [bind]; try reflexivity. destruct (deg a <=? dg)%nat; [|reflexivity]. destruct (p_nf fuel dbg find (wpol u)) as [[p c]| | | |]; cbn [bind]; try reflexivity.
  rewrite Nat.add_0_r. reflexivity.
Qed.
Lemma k_take_same one fuel dbg find dg : forall q tmp c, forget (k_take one fuel dbg find dg q tmp c) = take_tq false fuel dbg find dg q tmp.
Proof.
  induction q as [|u q IH]; intros tmp c; [reflexivity|]. rewrite take_tq_false. cbn [k_take]. fb. destruct (deg a <=? dg)%nat; [|reflexivity]. fb. destruct a0 as [p r].
  destruct (is_zero p); [apply IH|]. fb. destruct (deg a0 =? 0)%nat; [reflexivity|]. fb. fb. apply IH.
Qed.
Lemma k_tail_pp_same fuel dbg find p c : forget (k_tail_pp fuel dbg find p c) = tail_pp fuel dbg find p.
Proof. unfold k_tail_pp, tail_pp. fb. destruct (snd a =? 0)%nat; [reflexivity|apply forget_one]. Qed.
Lemma k_tails_same fuel dbg find : forall l c, forget (k_tails fuel dbg find l c) = tails fuel dbg find l.
Proof.
  induction l as [|u l IH]; intro c; cbn [k_tails tails]; [reflexivity|]. eapply forget_bind2; [apply k_tail_pp_same|]. intros p c1. eapply forget_bind2; [apply IH|]. reflexivity.
Qed.
Lemma k_red_eq_same dbg a : forall l c, forget (k_red_eq dbg a l c) = red_eq dbg a l.
Proof.
  induction l as [|u l IH]; intro c; cbn [k_red_eq red_eq]; [reflexivity|]. fb. destruct (is_zero a0); [apply IH|]. fb. eapply forget_bind2; [apply IH|]. reflexivity.
Qed.
Lemma k_walk_same fuel dbg mpos dg : forall cnt js q d w k c, forget (k_walk cnt fuel dbg mpos dg js q d w k c) = walk cnt fuel dbg mpos dg js q d w k.
Proof.
  induction cnt as [|cnt IH]; intros js q d w k c; cbn [k_walk walk]; [destruct w, k; reflexivity|]. cbv zeta.
  destruct w as [e|], k as [|e' k].
  - eapply forget_bind2; [apply k_tail_reduce_same|]. intros e1 c1. eapply forget_bind2; [apply k_prolong_if_same|]. intros r c2. apply IH.
  - fb. destruct (a <? 0); (eapply forget_bind2; [apply k_tail_reduce_same|]); intros e1 c1; (eapply forget_bind2; [apply k_prolong_if_same|]); intros r c2; apply IH.
  - reflexivity.
  - eapply forget_bind2; [apply k_tail_reduce_same|]. intros e1 c1. eapply forget_bind2; [apply k_prolong_if_same|]. intros r c2. apply IH.
Qed.
Lemma k_tq_loop_same one dbg mpos : forall fuel js q T c, forget (k_tq_loop one fuel dbg mpos js q T c) = tq_loop one fuel dbg mpos js q T.
Proof.
  induction fuel as [|fuel IH]; intros js [|u q] T c; cbn [k_tq_loop tq_loop]; try reflexivity. cbv zeta. fb. eapply forget_bind2; [apply k_take_same|]. intros r c1.
  destruct r as [[q1 [|w0 tmp]]|]; [| |apply forget_one]; apply forget_assert; [apply IH|]. fb. fb. destruct a1 as [eqs rest].
  eapply forget_bind2; [destruct one; [eapply forget_bind2; [apply k_tail_pp_same|reflexivity]|reflexivity]|].
  intros w1 c2. cbn [fst snd]. eapply forget_bind2; [destruct one; [apply k_tails_same|reflexivity]|].
  intros eqs1 c3. cbn [fst snd]. destruct (swap_min w1 eqs1) as [w eqs2]. destruct (one && negb (length eqs2 =? 0)%nat).
  - eapply forget_bind2; [apply k_red_eq_same|]. intros eqs3 c4. fb. fb. apply forget_assert. apply IH.
  - apply forget_assert. fb. destruct a1 as [js2 w']. eapply forget_bind2; [destruct T; [reflexivity|apply k_walk_same]|].
    intros [[js3 q3] t3] c4. fb. apply forget_assert. apply IH.
Qed.
Lemma k_tq_same one fuel dbg s : forget (k_tq one fuel dbg s) = jp_tq one fuel dbg (fst s).
Proof.
  unfold k_tq, jp_tq. destruct (jone (fst s)); [reflexivity|]. cbv zeta. destruct (jtrees (set_pos (fst s))); [apply k_tq_loop_same|]. destruct (jq (set_pos (fst s))); reflexivity.
Qed.

Theorem k_run_same x fuel dbg s : forget (k_run x fuel dbg s) = run_algorithm x fuel dbg (fst s).
Proof. destruct x; cbn [k_run run_algorithm]; [apply k_build_same|apply k_tq_same..]. Qed.

(* ------------------------------------------------------------------------------------------ *)
(** * Counters never decrease *)

Lemma nl_refl c : no_less c c.
Proof. repeat split; lia. Qed.
Lemma nl_trans a b c : no_less a b -> no_less b c -> no_less a c.
Proof. unfold no_less. intros. lia. Qed.
Lemma nl_red k c : no_less c (add_red k c).
Proof. repeat split; cbn; lia. Qed.
Lemma nl_redif (b : bool) k c : no_less c (if b then c else add_red k c).
Proof. destruct b; [apply nl_refl|apply nl_red]. Qed.
Lemma nl_max k c : no_less c (max_equal k c).
Proof. unfold max_equal. destruct (n_equal c <? k)%nat eqn:E; [apply Nat.ltb_lt in E; repeat split; cbn; lia|apply nl_refl]. Qed.
Lemma nl_I c : no_less c (inc_critI c). Proof. repeat split; cbn; lia. Qed.
Lemma nl_II c : no_less c (inc_critII c). Proof. repeat split; cbn; lia. Qed.
Lemma nl_zero c : no_less c (inc_zero c). Proof. repeat split; cbn; lia. Qed.

(** What a step does to the counters: [z] if zeros, [e] if numbers of equal leading monomials can be recorded, [p] if prolongations are made *)
Definition step_of (z e p : bool) (c c' : counts) : Prop :=
  no_less c c' /\ (z = false -> n_zero c' = n_zero c) /\ (e = false -> n_equal c' = n_equal c) /\ (p = false -> n_critI c' = n_critI c /\ n_critII c' = n_critII c).
Lemma st_refl z e p c : step_of z e p c c.
Proof. split; [apply nl_refl|auto]. Qed.
Lemma st_trans z e p a b c : step_of z e p a b -> step_of z e p b c -> step_of z e p a c.
Proof.
  intros (A1 & A2 & A3 & A4) (B1 & B2 & B3 & B4). split; [eapply nl_trans; eassumption|]. split; [intro X; rewrite B2, A2 by exact X; reflexivity|].
  split; [intro X; rewrite B3, A3 by exact X; reflexivity|]. intro X. destruct (A4 X), (B4 X). split; congruence.
Qed.
Lemma st_redif z e p (b : bool) k c : step_of z e p c (if b then c else add_red k c).
Proof. split; [apply nl_redif|]. destruct b; cbn; auto. Qed.
Lemma st_max z p k c : step_of z true p c (max_equal k c).
Proof. split; [apply nl_max|]. unfold max_equal. destruct (n_equal c <? k)%nat; cbn; split; auto; split; auto; discriminate. Qed.
Lemma st_zero e p c : step_of true e p c (inc_zero c).
Proof. split; [apply nl_zero|]. split; [discriminate|]. cbn. auto. Qed.
Lemma st_I z e c : step_of z e true c (inc_critI c).
Proof. split; [apply nl_I|]. cbn. split; [auto|]. split; [auto|discriminate]. Qed.
Lemma st_II z e c : step_of z e true c (inc_critII c).
Proof. split; [apply nl_II|]. cbn. split; [auto|]. split; [auto|discriminate]. Qed.
Lemma st_weak z e p c c' : step_of false false p c c' -> step_of z e p c c'.
Proof. intros (A & B & C & D). split; [exact A|]. split; [intros _; apply B; reflexivity|]. split; [intros _; apply C; reflexivity|exact D]. Qed.
Lemma st_more z e p c c' : step_of z e false c c' -> step_of z e p c c'.
Proof. intros (A & B & C & D). split; [exact A|]. split; [exact B|]. split; [exact C|intros _; apply D; reflexivity]. Qed.

Lemma k_prolong_st dbg mpos p : forall cnt k js w q c js' q' c', k_prolong dbg mpos cnt k js w p q c = Ok (js', q', c') -> step_of false false true c c'.
Proof.
  induction cnt as [|cnt IH]; intros k js w q c js' q' c' E; cbn [k_prolong] in E; [injection E as _ _ <-; apply st_refl|]. bnd E. bnd E.
  destruct (v && negb v0); [|eapply IH; exact E]. cbv zeta in E. bnd E.
  match type of E with (if ?b then _ else _) = _ => destruct b end; [bnd E; eapply st_trans; [apply st_I|eapply IH; exact E]|].
  match type of E with (if ?b then _ else _) = _ => destruct b end; [bnd E; eapply st_trans; [apply st_II|eapply IH; exact E]|].
  bnd E. destruct v2 as [nw w']. bnd E. bnd E. eapply IH. exact E.
Qed.
Lemma k_prolong_if_st dbg mpos dg js e q c r : k_prolong_if dbg mpos dg js e q c = Ok r -> step_of false false true c (snd r).
Proof.
  unfold k_prolong_if. destruct (deg (fst e) <=? dg)%nat; [|intro E; injection E as <-; apply st_refl]. destruct (get_wrap js (fst e)); [|discriminate].
  destruct r as [[js' q'] c']. apply k_prolong_st.
Qed.
Lemma k_tail_reduce_st fuel dbg mpos js others e c r : k_tail_reduce fuel dbg mpos js others e c = Ok r -> step_of false false false c (snd r).
Proof. unfold k_tail_reduce. intro E. bnd E. destruct v as [p k]. bnd E. injection E as <-. cbn [snd]. apply st_redif. Qed.
Lemma k_take_block_st fuel dbg find dg : forall q tmp c r, k_take_block fuel dbg find dg q tmp c = Ok r -> step_of false false false c (snd r).
Proof.
  induction q as [|u q IH]; intros tmp c r E; cbn [k_take_block] in E; [injection E as <-; apply st_refl|]. bnd E. destruct (deg v <=? dg)%nat; [|injection E as <-; apply st_refl].
  bnd E. cbv zeta in E. destruct (is_zero (fst v0)); [eapply IH; exact E|]. bnd E. destruct (deg v1 =? 0)%nat; [injection E as <-; apply st_refl|].
  bnd E. destruct v2 as [p2 k]. bnd E. bnd E. eapply st_trans; [|eapply IH; exact E]. apply st_redif.
Qed.
Lemma k_merge_loop_st fuel dbg mpos dg : forall cnt js q d j k c r, k_merge_loop cnt fuel dbg mpos dg js q d j k c = Ok r -> step_of false false true c (snd r).
Proof.
  induction cnt as [|cnt IH]; intros js q d j k c r E; cbn [k_merge_loop] in E; [destruct j, k; try discriminate; injection E as <-; apply st_refl|]. cbv zeta in E.
  destruct j as [|e j], k as [|e' k].
  - injection E as <-. apply st_refl.
  - bnd E. bnd E. eapply st_trans; [apply st_more; eapply k_tail_reduce_st; eassumption|]. eapply st_trans; [eapply k_prolong_if_st; eassumption|eapply IH; exact E].
  - bnd E. apply assert_inv in E. bnd E. eapply st_trans; [eapply k_prolong_if_st; eassumption|eapply IH; exact E].
  - bnd E. destruct (v <? 0).
    + bnd E. apply assert_inv in E. bnd E. eapply st_trans; [eapply k_prolong_if_st; eassumption|eapply IH; exact E].
    + bnd E. bnd E. eapply st_trans; [apply st_more; eapply k_tail_reduce_st; eassumption|]. eapply st_trans; [eapply k_prolong_if_st; eassumption|eapply IH; exact E].
Qed.
Lemma k_block_st dbg mpos : forall fuel js q T c r, k_block fuel dbg mpos js q T c = Ok r -> step_of false false true c (snd r).
Proof.
  induction fuel as [|fuel IH]; intros js [|u q] T c r E; cbn [k_block] in E; try discriminate.
  1,2: injection E as <-; apply st_refl.
  bnd E. bnd E. destruct v0 as [r0 c1]. apply k_take_block_st in Ev0. cbn [snd] in Ev0. apply (st_more _ _ true) in Ev0. eapply st_trans; [exact Ev0|]. destruct r0 as [[q1 tmp]|].
  - apply assert_inv in E. destruct tmp as [|w tmp]; [eapply IH; exact E|]. bnd E. destruct v0 as [[tmp2 q2] dg]. bnd E. destruct v0 as [js2 new]. bnd E. destruct v0 as [[[js3 q3] t3] c2].
    apply k_merge_loop_st in Ev3. bnd E. apply assert_inv in E. eapply st_trans; [exact Ev3|eapply IH; exact E].
  - bnd E. injection E as <-. apply st_refl.
Qed.

Lemma k_take_st one fuel dbg find dg : forall q tmp c r, k_take one fuel dbg find dg q tmp c = Ok r -> step_of one false false c (snd r).
Proof.
  induction q as [|u q IH]; intros tmp c r E; cbn [k_take] in E; [injection E as <-; apply st_refl|]. bnd E. destruct (deg v <=? dg)%nat; [|injection E as <-; apply st_refl].
  bnd E. destruct v0 as [p k]. destruct (is_zero p); [eapply st_trans; [|eapply IH; exact E]; destruct one; [apply st_zero|apply st_refl]|]. bnd E. destruct (deg v0 =? 0)%nat; [injection E as <-; apply st_refl|].
  bnd E. bnd E. eapply st_trans; [|eapply IH; exact E]. apply st_redif.
Qed.
Lemma k_tail_pp_st fuel dbg find p c r : k_tail_pp fuel dbg find p c = Ok r -> step_of false false false c (snd r).
Proof. unfold k_tail_pp. intro E. bnd E. bnd E. injection E as <-. apply st_redif. Qed.
Lemma k_tails_st fuel dbg find : forall l c r, k_tails fuel dbg find l c = Ok r -> step_of false false false c (snd r).
Proof.
  induction l as [|u l IH]; intros c r E; cbn [k_tails] in E; [injection E as <-; apply st_refl|]. bnd E. bnd E. injection E as <-. cbn [snd].
  eapply st_trans; [eapply k_tail_pp_st; eassumption|eapply IH; eassumption].
Qed.
Lemma k_red_eq_st dbg a : forall l c r, k_red_eq dbg a l c = Ok r -> step_of true false false c (snd r).
Proof.
  induction l as [|u l IH]; intros c r E; cbn [k_red_eq] in E; [injection E as <-; apply st_refl|]. bnd E. destruct (is_zero v); [eapply st_trans; [apply st_zero|eapply IH; exact E]|].
  bnd E. bnd E. injection E as <-. cbn [snd]. eapply IH. eassumption.
Qed.
Lemma k_walk_st fuel dbg mpos dg : forall cnt js q d w k c r, k_walk cnt fuel dbg mpos dg js q d w k c = Ok r -> step_of false false true c (snd r).
Proof.
  induction cnt as [|cnt IH]; intros js q d w k c r E; cbn [k_walk] in E; [destruct w, k; try discriminate; injection E as <-; apply st_refl|]. cbv zeta in E.
  destruct w as [e|], k as [|e' k].
  - bnd E. bnd E. eapply st_trans; [apply st_more; eapply k_tail_reduce_st; eassumption|]. eapply st_trans; [eapply k_prolong_if_st; eassumption|eapply IH; exact E].
  - bnd E. destruct (v <? 0); bnd E; bnd E; (eapply st_trans; [apply st_more; eapply k_tail_reduce_st; eassumption|]); (eapply st_trans; [eapply k_prolong_if_st; eassumption|eapply IH; exact E]).
  - injection E as <-. apply st_refl.
  - bnd E. bnd E. eapply st_trans; [apply st_more; eapply k_tail_reduce_st; eassumption|]. eapply st_trans; [eapply k_prolong_if_st; eassumption|eapply IH; exact E].
Qed.
Lemma st_eq z e p c c' : step_of z false p c c' -> step_of z e p c c'.
Proof. intros (A & B & C & D). split; [exact A|]. split; [exact B|]. split; [intros _; apply C; reflexivity|exact D]. Qed.
Lemma k_tq_loop_st one dbg mpos : forall fuel js q T c r, k_tq_loop one fuel dbg mpos js q T c = Ok r -> step_of one true true c (snd r).
Proof.
  induction fuel as [|fuel IH]; intros js [|u q] T c r E; cbn [k_tq_loop] in E; try discriminate.
  1,2: injection E as <-; apply st_refl.
  cbv zeta in E. bnd E. bnd E. destruct v0 as [r0 c1]. apply k_take_st in Ev0. cbn [snd] in Ev0. apply (st_more _ _ true), (st_eq _ true) in Ev0. eapply st_trans; [exact Ev0|]. destruct r0 as [[q1 tmp]|].
  2:{ bnd E. injection E as <-. apply st_refl. }
  apply assert_inv in E. destruct tmp as [|w0 tmp]; [eapply IH; exact E|]. bnd E. bnd E. destruct v1 as [eqs rest]. bnd E. bnd E.
  assert (S1 : step_of one true true c1 (snd v1)).
  { apply st_weak, st_more. destruct one; [|injection Ev3 as <-; apply st_refl]. bnd Ev3. injection Ev3 as <-. cbn [snd]. eapply k_tail_pp_st. eassumption. }
  assert (S2 : step_of one true true (snd v1) (snd v2)).
  { apply st_weak, st_more. destruct one; [eapply k_tails_st; eassumption|injection Ev4 as <-; apply st_refl]. }
  eapply st_trans; [exact S1|]. eapply st_trans; [exact S2|]. eapply st_trans; [apply (st_max one true (S (length eqs)))|].
  destruct (swap_min (fst v1) (fst v2)) as [w eqs2]. destruct (one && negb (length eqs2 =? 0)%nat) eqn:Eb.
  - destruct one; [|discriminate]. bnd E. bnd E. bnd E. apply assert_inv in E. apply k_red_eq_st in Ev5. apply (st_more _ _ true), (st_eq _ true) in Ev5. eapply st_trans; [exact Ev5|eapply IH; exact E].
  - apply assert_inv in E. bnd E. destruct v3 as [js2 w']. bnd E. destruct v3 as [[[js3 q3] t3] c4]. bnd E. apply assert_inv in E. eapply st_trans; [|eapply IH; exact E].
    destruct T; [injection Ev6 as _ _ _ <-; apply st_refl|]. apply k_walk_st in Ev6. apply st_weak. exact Ev6.
Qed.

Definition zeros_of (x : algorithm) : bool := match x with ATQ1 => true | _ => false end.
Definition equals_of (x : algorithm) : bool := match x with ABuild => false | _ => true end.
Theorem k_run_st x fuel dbg s s' : k_run x fuel dbg s = Ok s' -> step_of (zeros_of x) (equals_of x) true (snd s) (snd s').
Proof.
  assert (B : forall r, k_build fuel dbg s = Ok r -> step_of false false true (snd s) (snd r)).
  { intros r E. unfold k_build in E. destruct (jone (fst s)); [injection E as <-; apply st_refl|]. cbv zeta in E. destruct (jtrees (set_pos (fst s))); [eapply k_block_st; exact E|].
    destruct (jq (set_pos (fst s))); [injection E as <-; apply st_refl|discriminate]. }
  assert (T : forall one r, k_tq one fuel dbg s = Ok r -> step_of one true true (snd s) (snd r)).
  { intros one r E. unfold k_tq in E. destruct (jone (fst s)); [injection E as <-; apply st_refl|]. cbv zeta in E. destruct (jtrees (set_pos (fst s))); [eapply k_tq_loop_st; exact E|].
    destruct (jq (set_pos (fst s))); [injection E as <-; apply st_refl|discriminate]. }
  destruct x; cbn [k_run zeros_of equals_of]; auto.
Qed.
