(** One polynomial pushed: the basis, and divisibility by normal forms. *)
From Coq Require Import ZArith List Bool Arith Lia Permutation Sorted.
From Verif Require Import Outcome MonomModel MonomSpec MonomProofs PolyModel PolySpec PolyProofs PolyRedProofs PolyNfProofs
  JanetModel JanetSpec JanetPolyModel TQModel JanetPolySpec IdealProofs JanetPolyProofs
  TQProofs JanetPolyTop JanetTermSpec JanetTermProofs JanetTermMain JanetTermTop ShapeProofs
  InvolutiveProofs InvolutiveTop NormalSpec NormalProofs NormalTop AncProofs AncTop LinTop LinSol PrincSpec PrincProofs.
Import ListNotations.
Local Open Scope Z_scope.

(* ------------------------------------------------------------------------------------------ *)
(** * Ideals with one generator *)

Lemma comb_single n f p : combination n (among [f]) p <->
  exists q, ring_poly q /\ Forall (fun x => length (vars (fst x)) = n) q /\ forall m, coef p m = prod_coef q (terms f) m.
Proof.
  split.
  - induction 1 as [p Z|p r u g c _ (q & Rq & Lq & Eq) (f0 & [<-|[]] & <-) Lu E].
    + exists []. split; [constructor|]. split; [constructor|]. intro m. rewrite Z. reflexivity.
    + exists ((Mon (-1) u, c) :: q). assert (R : ring_poly ((Mon (-1) u, c) :: q)) by (constructor; [reflexivity|exact Rq]). split; [exact R|]. split; [constructor; assumption|].
      intro m. rewrite E, Eq, <- !PR_coef by assumption. unfold PR. cbn [flat_map fst snd vars]. rewrite coef_app, coef_scale. lia.
  - intros (q & Rq & Lq & Eq). revert p Eq. induction q as [|[[ps u] c] q IH]; intros p Eq.
    + apply comb_zero. exact Eq.
    + assert (Ps := Forall_inv Rq). cbn [fst pos] in Ps. subst ps. apply (comb_add n _ p (PR q (terms f)) u (terms f) c).
      * apply IH; [exact (Forall_inv_tail Rq)|exact (Forall_inv_tail Lq)|]. intro m. apply PR_coef. exact (Forall_inv_tail Rq).
      * exists f. split; [left; reflexivity|reflexivity].
      * exact (Forall_inv Lq).
      * intro m. rewrite Eq, <- PR_coef by exact Rq. unfold PR. cbn [flat_map fst snd vars]. rewrite coef_app, coef_scale. lia.
Qed.
Lemma member_single n f a : rational_member n (among [f]) (terms a) <-> divides_over_Q n f a.
Proof.
  split.
  - intros (k & p & Nk & C & E). apply comb_single in C as (q & Rq & Lq & Eq). exists k, q. split; [exact Nk|]. split; [exact Rq|]. split; [exact Lq|].
    intro m. rewrite <- E. apply Eq.
  - intros (k & q & Nk & Rq & Lq & Eq). exists k, (PR q (terms f)). split; [exact Nk|]. split.
    + apply comb_single. exists q. split; [exact Rq|]. split; [exact Lq|]. intro m. apply PR_coef. exact Rq.
    + intro m. rewrite PR_coef by exact Rq. symmetry. apply Eq.
Qed.
Lemma same_single n f a b : same_mod_ideal n [f] (terms a) (terms b) <-> same_mod n f a b.
Proof.
  split.
  - intros (k & l & p & Nk & Nl & (k' & p' & Nk' & C & E') & E). apply comb_single in C as (q & Rq & Lq & Eq).
    exists (k' * k), (k' * l), q. split; [apply Z.neq_mul_0; auto|]. split; [apply Z.neq_mul_0; auto|]. split; [exact Rq|]. split; [exact Lq|].
    intro m. rewrite <- Eq, E'. assert (X := E m). nia.
  - intros (k & l & q & Nk & Nl & Rq & Lq & Eq). exists k, l, (PR q (terms f)). split; [exact Nk|]. split; [exact Nl|]. split.
    + exists 1, (PR q (terms f)). split; [lia|]. split; [|intro; lia]. apply comb_single. exists q. split; [exact Rq|]. split; [exact Lq|]. intro m. apply PR_coef. exact Rq.
    + intro m. rewrite PR_coef by exact Rq. assert (X := Eq m). lia.
Qed.

Section P.
Variables (t : pos_order) (o : base_order) (n : nat).
Hypothesis (Hn : (0 < n)%nat) (Ho : o <> OAlex).
Notation A := (fun _ : list term => True).

(* ------------------------------------------------------------------------------------------ *)
(** * Histories *)

Definition state_one (f : poly) (J : jpoly) : Prop :=
  jone J = None /\ jt J = [] /\ (exists u, jq J = [u] /\ wpol u = f) \/
  jone J = None /\ jq J = [] /\ (exists e, jt J = [e] /\ prop_to (snd e) f) \/
  (exists w, jone J = Some w) /\ jq J = [] /\ total (lead f) = 0%nat.

Section R.
Variables (R : nat -> rstate -> outcome (rstate + jpoly)) (run : nat -> rstate -> outcome jpoly).
Hypothesis (Er : forall fuel s, run (Datatypes.S fuel) s = do r <- R (Datatypes.S fuel) s; match r with inl s' => run fuel s' | inr J => Ok J end).
Hypothesis (E0 : forall s J, run 0%nat s = Ok J -> R 0%nat s = Ok (inr J)).
Hypothesis (Ee : forall fuel js T, run fuel (js, [], T) = Ok (JP None [] T (-1) (Some js))).
Hypothesis (Ef : forall J u, JanetPolyProofs.tinv t o n A J [] -> JanetPolyProofs.okq t o n A u -> first_round u (fun fuel => R fuel ([J], [u], []))).

Lemma run_first J u : JanetPolyProofs.tinv t o n A J [] -> JanetPolyProofs.okq t o n A u ->
  (forall fuel J', run fuel ([J], [u], []) = Ok J' -> state_one (wpol u) J' /\ jq J' = []) /\
  exists J', jq J' = [] /\ forall fuel, (length (terms (wpol u)) < fuel)%nat -> run fuel ([J], [u], []) = Ok J'.
Proof.
  intros H Hu. assert (El : vars (plm u) = lead (wpol u)).
  { unfold plm, lead. destruct (terms (wpol u)) as [|[m c] l]; reflexivity. }
  destruct (Ef J u H Hu) as (r & D & X).
  assert (K : exists J', state_one (wpol u) J' /\ jq J' = [] /\ forall fuel, run fuel ([J], [u], []) = Ok J' \/ (forall J1, run fuel ([J], [u], []) <> Ok J1) /\ (fuel <= length (terms (wpol u)))%nat).
  { destruct r as [s|J'].
    - destruct D as (J1 & e & -> & Pe). exists (JP None [] [e] (-1) (Some [J1])). split; [right; left; cbn; eauto 10|]. split; [reflexivity|]. intros [|fuel].
      + right. split; [|lia]. intros J2 E. apply E0 in E. destruct (X 0%nat) as [Y|[Y _]]; rewrite Y in E; discriminate.
      + rewrite Er. destruct (X (Datatypes.S fuel)) as [Y|[Y L]]; rewrite Y; cbn [bind]; [left; apply Ee|right; split; [discriminate|exact L]].
    - destruct D as (w & -> & Z). exists (JP (Some w) [] [] (-1) None). split; [right; right; cbn; split; [exists w; reflexivity|split; [reflexivity|rewrite <- El; exact Z]]|]. split; [reflexivity|]. intros [|fuel].
      + destruct (run 0%nat ([J], [u], [])) as [J2| | | |] eqn:E; [left|right; split; [discriminate|lia]..]. apply E0 in E. destruct (X 0%nat) as [Y|[Y _]]; rewrite Y in E; [|discriminate]. congruence.
      + rewrite Er. destruct (X (Datatypes.S fuel)) as [Y|[Y L]]; rewrite Y; cbn [bind]; [left; reflexivity|right; split; [discriminate|exact L]]. }
  destruct K as (J' & S1 & Q1 & Y). split.
  - intros fuel J1 E. destruct (Y fuel) as [Z|[Z _]]; [rewrite E in Z; injection Z as ->; auto|destruct (Z J1 E)].
  - exists J'. split; [exact Q1|]. intros fuel L. destruct (Y fuel) as [Z|[_ Z]]; [exact Z|lia].
Qed.
End R.

Lemma block_nil fuel js T : block_run fuel (js, [], T) = Ok (JP None [] T (-1) (Some js)).
Proof. destruct fuel; reflexivity. Qed.
Lemma tq_nil one fuel js T : tq_run one fuel (js, [], T) = Ok (JP None [] T (-1) (Some js)).
Proof. destruct fuel; reflexivity. Qed.

(** A completion of a state with one polynomial, or none. *)
Lemma complete_one F J f : jp_history false t o n F J -> state_one f J ->
  ((forall fuel J', jp_build fuel false J = Ok J' -> state_one f J' /\ jq J' = []) /\ forall one fuel J', jp_tq one fuel false J = Ok J' -> state_one f J' /\ jq J' = []) /\
  (exists N J', (forall fuel, (N <= fuel)%nat -> jp_build fuel false J = Ok J') /\ jq J' = []) /\
  forall one, exists N J', (forall fuel, (N <= fuel)%nat -> jp_tq one fuel false J = Ok J') /\ jq J' = [].
Proof.
  intros H S. assert (St := state_of t o n Hn Ho F J H). destruct (jone J) as [w|] eqn:Eo.
  { assert (X : forall fuel one, jp_build fuel false J = Ok J /\ jp_tq one fuel false J = Ok J) by (intros fuel one; unfold jp_build, jp_tq; rewrite Eo; auto).
    assert (Qn : jq J = []) by (destruct S as [(C & _)|[(C & _)|(_ & C & _)]]; congruence).
    split; [split|split].
    - intros fuel J' E. rewrite (proj1 (X fuel true)) in E. injection E as <-. auto.
    - intros one fuel J' E. rewrite (proj2 (X fuel one)) in E. injection E as <-. auto.
    - exists 0%nat, J. split; [intros fuel _; apply (X fuel true)|exact Qn].
    - intro one. exists 0%nat, J. split; [intros fuel _; apply (X fuel one)|exact Qn]. }
  destruct (start_cases t o n A J St) as [(w & C & _)|((Ja & Ej & Hi & Q) & Xb & Xt)]; [congruence|].
  destruct (start_trees t o n Hn Ho F J H Eo) as (js & E1 & E2 & _ & _).
  assert (Et : jt (set_pos J) = jt J) by (unfold set_pos; destruct (jpos J <? q_pos (jq J)); reflexivity).
  unfold start in *. cbv zeta in *. rewrite E1, E2, Et in *. cbn [fst snd] in *. subst js.
  destruct S as [(_ & T0 & u & Eq & Eu)|[(_ & Eq & e & T1 & Pe)|((w & C) & _)]]; [| |congruence].
  - rewrite T0, Eq in *. assert (Hu := Forall_inv Q). subst f.
    destruct (run_first (fun fuel => block_round fuel false (-1)) block_run block_run_eq block_zero block_nil (block_first t o n Hn) Ja u Hi Hu) as [B1 (J1 & Q1 & B2)].
    split; [split|split].
    + intros fuel J' E. rewrite Xb in E. exact (B1 fuel J' E).
    + intros one fuel J' E. rewrite Xt in E. destruct (run_first (fun fuel => tq_round one fuel false (-1)) (tq_run one) (tq_run_eq one) (tq_zero one) (tq_nil one) (tq_first t o n Hn one) Ja u Hi Hu) as [C1 _]. exact (C1 fuel J' E).
    + exists (Datatypes.S (length (terms (wpol u)))), J1. split; [intros fuel L; rewrite Xb; apply B2; lia|exact Q1].
    + intro one. destruct (run_first (fun fuel => tq_round one fuel false (-1)) (tq_run one) (tq_run_eq one) (tq_zero one) (tq_nil one) (tq_first t o n Hn one) Ja u Hi Hu) as [_ (J2 & Q2 & C2)].
      exists (Datatypes.S (length (terms (wpol u)))), J2. split; [intros fuel L; rewrite Xt; apply C2; lia|exact Q2].
  - rewrite T1, Eq in *. assert (S1 : state_one f (JP None [] [e] (-1) (Some [Ja]))) by (right; left; cbn; eauto 10).
    split; [split|split].
    + intros fuel J' E. rewrite Xb, block_nil in E. injection E as <-. auto.
    + intros one fuel J' E. rewrite Xt, tq_nil in E. injection E as <-. auto.
    + exists 0%nat. eexists. split; [intros fuel _; rewrite Xb; apply block_nil|reflexivity].
    + intro one. exists 0%nat. eexists. split; [intros fuel _; rewrite Xt; apply tq_nil|reflexivity].
Qed.

Lemma empty_start F J : jp_history false t o n F J -> Forall (fun f => terms f = []) F -> jone J = None /\ jq J = [] /\ jt J = [].
Proof.
  induction 1 as [|F J a J' H IH Ra E|F J fuel J' H IH E|F J one fuel J' H IH E]; intro EF; [auto| | |].
  - destruct (IH (Forall_inv_tail EF)) as (I1 & I2 & I3). apply Forall_inv in EF. unfold jp_push, assert_ in E. cbn [andb] in E. rewrite I1 in E. unfold is_zero in E. rewrite EF in E. injection E as <-. auto.
  - destruct (IH EF) as (I1 & I2 & I3). unfold jp_build in E. rewrite I1 in E. unfold set_pos in E. rewrite I2 in E. destruct (jpos J <? q_pos [])%Z; cbn [jtrees jq jt] in E; [|destruct (jtrees J); rewrite ?I2 in E];
      try (destruct fuel; cbn [block_tq] in E); injection E as <-; auto.
  - destruct (IH EF) as (I1 & I2 & I3). unfold jp_tq in E. rewrite I1 in E. unfold set_pos in E. rewrite I2 in E. destruct (jpos J <? q_pos [])%Z; cbn [jtrees jq jt] in E; [|destruct (jtrees J); rewrite ?I2 in E];
      try (destruct fuel; cbn [tq_loop] in E); injection E as <-; auto.
Qed.
Lemma history_one F J f : jp_history false t o n F J -> F = [f] -> terms f <> [] -> state_one f J.
Proof.
  intros H. induction H as [|F J a J' H IH Ra E|F J fuel J' H IH E|F J one fuel J' H IH E]; intros EF Nz; [discriminate| | |].
  - injection EF as -> ->. destruct (empty_start [] J H (Forall_nil _)) as (I1 & I2 & I3). unfold jp_push, assert_ in E. cbn [andb] in E. rewrite I1 in E.
    replace (is_zero f) with false in E by (unfold is_zero; destruct (terms f); congruence). bnd E. bnd E. bnd E. injection E as <-. rewrite I2 in Ev1. rewrite ins1 in Ev1. injection Ev1 as <-.
    rewrite copy_ok in Ev0. injection Ev0 as <-. left. cbn. split; [reflexivity|]. split; [exact I3|]. eexists. split; [reflexivity|]. reflexivity.
  - apply (complete_one F J f H (IH EF Nz)) in E. apply E.
  - apply (complete_one F J f H (IH EF Nz)) in E. apply E.
Qed.

Lemma c94_total f J : jp_history false t o n [f] J -> terms f <> [] ->
  (exists N J', (forall fuel, (N <= fuel)%nat -> jp_build fuel false J = Ok J') /\ jq J' = []) /\
  forall one, exists N J', (forall fuel, (N <= fuel)%nat -> jp_tq one fuel false J = Ok J') /\ jq J' = [].
Proof. intros H Nz. apply (complete_one [f] J f H (history_one [f] J f H eq_refl Nz)). Qed.

Lemma c94_basis f J : jp_history false t o n [f] J -> terms f <> [] -> jq J = [] -> exists g, basis J = [g] /\ prop_to g f.
Proof.
  intros H Nz Q. destruct (history_one [f] J f H eq_refl Nz) as [(_ & _ & u & E & _)|[(Eo & _ & e & T1 & Pe)|((w & Eo) & _ & Z)]]; [congruence| |].
  - exists (snd e). unfold basis. rewrite Eo, T1. auto.
  - exists (wpol w). unfold basis. rewrite Eo. split; [reflexivity|]. assert (S := state_of t o n Hn Ho [f] J H). unfold jstate in S. rewrite Eo in S. destruct S as ((_ & E) & _).
    assert (Rf := hist_ring t o n [f] J H). assert (Rf1 := Forall_inv Rf).
    assert (Ef : exists c, c <> 0 /\ terms f = [(Mon (-1) (repeat 0%nat n), c)]).
    { assert (HB : forall b, In b [f] -> ring_input t o n b /\ terms b <> []) by (intros b [<-|[]]; auto).
      destruct (head_of t o n [f] HB f (or_introl eq_refl)) as (c & l & Et & Nc & L & X). exists c. split; [exact Nc|].
      apply LinProofs.total_zero in Z. rewrite L in Z. rewrite Z in Et, X. destruct l as [|x l]; [exact Et|]. exfalso. destruct (X x (or_introl eq_refl)) as (C & M & P).
      destruct (monom_eq_dec (fst x) (unit_monom n (-1))) as [Eq|Ne].
      - rewrite Eq in C. change (unit_monom n (-1)) with (InvolutiveProofs.R (repeat 0%nat n)) in C. rewrite cmp1_refl in C. lia.
      - assert (Y := unit_below t o n (fst x) Ho M Ne). change (unit_monom n (-1)) with (InvolutiveProofs.R (repeat 0%nat n)) in Y.
        assert (Mu : mono n (InvolutiveProofs.R (repeat 0%nat n))) by (split; [apply repeat_length|cbn; lia]).
        assert (Ya := cmp1_antisym t o (fst x) (InvolutiveProofs.R (repeat 0%nat n))). rewrite Ya in C by (destruct M as [M _], Mu as [Mu _]; unfold size; congruence). lia. }
    destruct Ef as (c & Nc & Ef). exists c, 1. split; [exact Nc|]. split; [lia|]. intro m. rewrite E, Ef. unfold one. cbn [coef]. destruct (monom_eq_dec _ m); lia.
Qed.

Lemma c94_zero F J : jp_history false t o n F J -> Forall (fun f => terms f = []) F -> jq J = [] /\ basis J = [].
Proof. intros H Z. destruct (empty_start F J H Z) as (E1 & E2 & E3). split; [exact E2|]. unfold basis. rewrite E1, E3. reflexivity. Qed.

Lemma one_local J g : basis J = [g] -> passes_local_test t o n J.
Proof.
  intros E g0 i u x Ig Hi (v & Iv & _ & Lv). rewrite E in *. destruct Ig as [<-|[]]. destruct Iv as [<-|[]]. exfalso. apply (Nat.lt_irrefl _ Lv).
Qed.

Lemma c94_divides f J a : jp_history false t o n [f] J -> terms f <> [] -> jq J = [] -> ring_input t o n a ->
  exists N r, (forall fuel, (N <= fuel)%nat -> jp_nf fuel false J a = Ok r) /\ (terms r = [] <-> divides_over_Q n f a).
Proof.
  intros H Nz Q Ra. destruct (c94_basis f J H Nz Q) as (g & Eg & _). destruct (c46_local t o n Hn Ho [f] J a H Q (one_local J g Eg) Ra) as (N & r & E & X).
  exists N, r. split; [exact E|]. rewrite X. apply member_single.
Qed.
Lemma c94_classes f J a b fuel fuel' r s : jp_history false t o n [f] J -> terms f <> [] -> jq J = [] -> ring_input t o n a -> ring_input t o n b ->
  jp_nf fuel false J a = Ok r -> jp_nf fuel' false J b = Ok s -> (plus_minus (terms r) (terms s) <-> same_mod n f a b).
Proof.
  intros H Nz Q Ra Rb Ea Eb. destruct (c94_basis f J H Nz Q) as (g & Eg & _). rewrite <- same_single.
  assert (Si : same_ideal n [f] [f]).
  { assert (X : forall f0, In f0 [f] -> rational_member n (among [f]) (terms f0)); [|split; exact X]. intros f0 I. apply mem_gen; [exists f0; auto|].
    assert (Rf := hist_ring t o n [f] J H). rewrite Forall_forall in Rf. eapply ring_input_monos. exact (Rf f0 I). }
  apply (c82_objects t o n Hn Ho [f] J [f] J a b fuel fuel' r s H H Q Q (one_local J g Eg) (one_local J g Eg) Si Ra Rb Ea Eb).
Qed.
Lemma c94_test f J a fuel r : jp_history false t o n [f] J -> terms f <> [] -> jq J = [] -> ring_input t o n a ->
  jp_nf fuel false J a = Ok r -> (terms r = [] <-> divides_over_Q n f a).
Proof.
  intros H Nz Q Ra E. destruct (c94_divides f J a H Nz Q Ra) as (N & r' & E' & X). rewrite <- X.
  assert (P : plus_minus (terms r) (terms r')).
  { apply (c94_classes f J a a fuel N r r' H Nz Q Ra Ra E (E' N (le_n N))). exists 1, 1, []. repeat split; try lia; try constructor. intro m. cbn. lia. }
  destruct P as [-> |P]; [tauto|]. rewrite P. destruct (terms r'); cbn; [tauto|]. split; discriminate.
Qed.
(** More generally, a finished basis with one element. *)
Lemma c94_one F J g a : jp_history false t o n F J -> jq J = [] -> basis J = [g] -> ring_input t o n a ->
  exists N r, (forall fuel, (N <= fuel)%nat -> jp_nf fuel false J a = Ok r) /\ (terms r = [] <-> rational_member n (among F) (terms a)) /\
    (terms r = [] <-> divides_over_Q n g a).
Proof.
  intros H Q Eg Ra. destruct (c46_local t o n Hn Ho F J a H Q (one_local J g Eg) Ra) as (N & r & E & X). exists N, r. split; [exact E|]. split; [exact X|]. rewrite X, <- member_single. split.
  - apply mem_trans. intros x (f & If & <-). rewrite <- Eg. exact (done_same_ideal t o n F J f Hn Ho H Q If).
  - apply mem_trans. intros x (b & Ib & <-). apply (c39_members t o n F J b Hn Ho H). rewrite Eg. exact Ib.
Qed.
End P.
