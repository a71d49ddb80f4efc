(** One polynomial pushed and algorithmTQ2 called: the basis, and divisibility by normal forms. *)
From Coq Require Import ZArith List Bool Arith Lia Permutation Sorted.
From Verif Require Import Outcome MonomModel MonomSpec MonomProofs PolyModel PolySpec PolyProofs PolyRedProofs PolyNfProofs
  JanetModel JanetSpec JanetPolyModel TQModel JanetPolySpec IdealProofs JanetPolyProofs
  TQProofs JanetPolyTop JanetTermSpec JanetTermProofs JanetTermMain JanetTermTop ShapeProofs
  InvolutiveProofs InvolutiveTop NormalSpec NormalProofs NormalTop AncProofs AncTop LinTop LinSol PrincSpec PrincProofs PrincTop
  JanetFindProofs TQ2HPModel TQ2HPSpec TQ2HPProofs TQ2Mult TQ2Normal ClosedTQ2 TQ2Inv.
Import ListNotations.
Local Open Scope Z_scope.

Section P.
Variables (t : pos_order) (o : base_order) (n : nat).
Hypothesis (Hn : (0 < n)%nat) (Ho : o <> OAlex).
Notation A := (fun _ : list term => True).
Notation tinv := (tinv t o n A).
Notation okq := (okq t o n A).

Definition done2 (f : poly) (J2 : jpoly2) : Prop :=
  j2one J2 = None /\ (exists e, j2t J2 = [Att e] /\ prop_to (snd e) f) \/
  (exists w, j2one J2 = Some w) /\ j2t J2 = [] /\ total (lead f) = 0%nat.

Lemma tq2_first J u : tinv J [] -> okq u ->
  exists J2, done2 (wpol u) J2 /\ forall fuel, tq2_loop fuel false (-1) 0 [J] [u] [] = Ok J2 \/
    tq2_loop fuel false (-1) 0 [J] [u] [] = OutOfFuel /\ (fuel <= length (terms (wpol u)))%nat.
Proof.
  intros H Hu. assert (G := proj1 Hu).
  assert (El : vars (plm u) = lead (wpol u)) by (unfold plm, lead; destruct (terms (wpol u)) as [|[m c] l]; reflexivity).
  assert (Nz : is_zero (wpol u) = false) by (unfold is_zero; destruct G as [_ N]; destruct (terms (wpol u)); congruence).
  assert (Ew : WP (wwrap u) (wpol u) = u) by (destruct u; reflexivity).
  destruct (deg (plm u) =? 0)%nat eqn:Ed.
  { destruct (set_one_is t o n (-1)) as (w & Es & _). exists (JP2 (Some w) [] (-1) None). split.
    { right. cbn. split; [exists w; reflexivity|]. split; [reflexivity|]. apply Nat.eqb_eq in Ed. rewrite <- El, <- MonomProofs.degv_total. exact Ed. }
    intros [|fuel]; [right; split; [reflexivity|lia]|]. left. cbn [tq2_loop]. rewrite (lm_plm t o n A false u G). cbn [bind].
    cbn [take_tq atts flat_map]. rewrite (lm_plm t o n A false u G). cbn [bind]. rewrite Nat.leb_refl, (head_none t o n Hn J _ (Datatypes.S fuel) H G). cbn [bind]. rewrite Nz.
    rewrite (lm_plm t o n A false u G). cbn [bind]. rewrite Ed. cbn [bind]. destruct Hu as ([(_ & (A1 & A2 & A3) & _) _] & _). rewrite A1, A2, A3, Es. reflexivity. }
  destruct (enter_w_ok t o n A Hn J [] u H (first_okh t o n J u H Hu)) as (J3 & w' & E & _ & _).
  exists (JP2 None [Att (wlm w', wpol u)] (-1) (Some [J3])). split.
  { left. cbn. split; [reflexivity|]. eexists. split; [reflexivity|apply prop_refl]. }
  intros [|fuel]; [right; split; [reflexivity|lia]|]. cbn [tq2_loop]. rewrite (lm_plm t o n A false u G). cbn [bind].
  cbn [take_tq atts flat_map]. rewrite (lm_plm t o n A false u G). cbn [bind]. rewrite Nat.leb_refl, (head_none t o n Hn J _ (Datatypes.S fuel) H G). cbn [bind]. rewrite Nz.
  rewrite (lm_plm t o n A false u G). cbn [bind]. rewrite Ed.
  destruct (tail_none t o n Hn J _ (Datatypes.S fuel) H G) as [X|[X L]]; rewrite X; cbn [bind fst snd Nat.add]; [|right; split; [reflexivity|lia]].
  left. rewrite Nat.eqb_refl. cbn [bind]. rewrite Ew, ins1. cbn [bind take_tq]. unfold assert_. cbn [andb].
  rewrite (lm_plm t o n A false u G). cbn [bind same_deg swap_min app]. unfold tail_pp. rewrite X. cbn [bind fst snd]. rewrite Nat.eqb_refl. cbn [bind]. rewrite Ew, E. cbn [bind].
  rewrite Nat.ltb_irrefl. cbn [bind]. destruct fuel; reflexivity.
Qed.

Lemma tq2_done f J : jp_history false t o n [f] J -> terms f <> [] ->
  exists N J2, done2 f J2 /\ forall fuel, jp_tq2 fuel false J = Ok J2 \/ jp_tq2 fuel false J = OutOfFuel /\ (fuel < N)%nat.
Proof.
  intros H Nz. assert (S := history_one t o n Hn Ho [f] J f H eq_refl Nz). assert (St := state_of t o n Hn Ho [f] J H). unfold jp_tq2.
  destruct (jone J) as [w|] eqn:Eo.
  { exists 0%nat. eexists. split; [|intro fuel; left; reflexivity]. right. cbn. destruct S as [(C & _)|[(C & _)|(_ & _ & Z)]]; try congruence. split; [exists w; reflexivity|]. split; [reflexivity|exact Z]. }
  unfold jstate in St. rewrite Eo in St. destruct St as [Q D]. unfold set_pos. rewrite (q_pos_ring t o n A _ Q).
  assert (K : forall Ja, tinv Ja (jt J) -> exists N J2, done2 f J2 /\ forall fuel, tq2_loop fuel false (-1) 0 [Ja] (jq J) (map Att (jt J)) = Ok J2 \/ tq2_loop fuel false (-1) 0 [Ja] (jq J) (map Att (jt J)) = OutOfFuel /\ (fuel < N)%nat).
  { intros Ja Ti. destruct S as [(_ & T0 & u & Eq & Eu)|[(_ & Eq & e & T1 & Pe)|((w & C) & _)]]; [| |congruence].
    - rewrite T0, Eq in *. cbn [map]. subst f. destruct (tq2_first Ja u Ti (Forall_inv Q)) as (J2 & Dn & X). exists (Datatypes.S (length (terms (wpol u)))), J2. split; [exact Dn|].
      intro fuel. destruct (X fuel) as [Y|[Y L]]; [left; exact Y|right; split; [exact Y|lia]].
    - rewrite T1, Eq in *. cbn [map]. exists 0%nat. eexists. split; [|intro fuel; left; destruct fuel; reflexivity]. left. cbn. eauto. }
  destruct D as [(D1 & D2 & D3)|(Ja & D1 & D2 & D3)].
  - rewrite D1, D2. change (-2 <? -1) with true. cbn iota.
    cbn [jtrees jpos jq jt firstn length app repeat Z.add Z.to_nat Z.opp Z.pos_sub Pos.pred_double]. cbn [Nat.sub Pos.to_nat].
    change (repeat jempty (Z.to_nat (-1 + 2) - 0)) with [jempty]. apply K. rewrite D3. split; [apply jinv_nil|reflexivity|constructor|constructor|constructor].
  - rewrite D2, D1. change (-1 <? -1) with false. cbn iota. rewrite D1. rewrite D2. apply K. exact D3.
Qed.

Lemma unit_terms f : ring_input t o n f -> terms f <> [] -> total (lead f) = 0%nat -> exists c, c <> 0 /\ terms f = [(Mon (-1) (repeat 0%nat n), c)].
Proof.
  intros Rf Nz Z. assert (HB : forall b, In b [f] -> ring_input t o n b /\ terms b <> []) by (intros b [<-|[]]; auto).
  destruct (head_of t o n [f] HB f (or_introl eq_refl)) as (c & l & Et & Nc & L & X). exists c. split; [exact Nc|].
  apply LinProofs.total_zero in Z. rewrite L in Z. rewrite Z in Et, X. destruct l as [|x l]; [exact Et|]. exfalso. destruct (X x (or_introl eq_refl)) as (C & M & P).
  destruct (monom_eq_dec (fst x) (unit_monom n (-1))) as [Eq|Ne].
  - rewrite Eq in C. change (unit_monom n (-1)) with (InvolutiveProofs.R (repeat 0%nat n)) in C. rewrite cmp1_refl in C. lia.
  - assert (Y := unit_below t o n (fst x) Ho M Ne). change (unit_monom n (-1)) with (InvolutiveProofs.R (repeat 0%nat n)) in Y.
    assert (Mu : mono n (InvolutiveProofs.R (repeat 0%nat n))) by (split; [apply repeat_length|cbn; lia]).
    assert (Ya := cmp1_antisym t o (fst x) (InvolutiveProofs.R (repeat 0%nat n))). rewrite Ya in C by (destruct M as [M _], Mu as [Mu _]; unfold size; congruence). lia.
Qed.

Lemma done_is f J fuel J2 : jp_history false t o n [f] J -> terms f <> [] -> jp_tq2 fuel false J = Ok J2 ->
  all_in_trees J2 /\ exists g, basis2 J2 = [g] /\ prop_to g f.
Proof.
  intros H Nz E. destruct (tq2_done f J H Nz) as (N & J2' & D & X). destruct (X fuel) as [Y|[Y _]]; rewrite Y in E; [injection E as <-|discriminate].
  destruct D as [(Eo & e & Et & Pe)|((w & Eo) & Et & Z)].
  - split; [intros x Ix; rewrite Et in Ix; destruct Ix as [<-|[]]; eauto|]. exists (snd e). split; [|exact Pe]. unfold basis2. rewrite Eo, Et. reflexivity.
  - split; [intros x Ix; rewrite Et in Ix; destruct Ix|]. exists (wpol w). split; [unfold basis2; rewrite Eo; reflexivity|].
    assert (S := tq2_state t o n Hn Ho [f] J fuel J2' H Y). unfold jstate2 in S. rewrite Eo in S. destruct S as (_ & Ew).
    destruct (unit_terms f (Forall_inv (hist_ring t o n [f] J H)) Nz Z) as (c & Nc & Ef). exists c, 1. split; [exact Nc|]. split; [lia|]. intro m. rewrite Ew, Ef. unfold one. cbn [coef]. destruct (monom_eq_dec _ m); lia.
Qed.
Lemma c94_tq2_ends f J : jp_history false t o n [f] J -> terms f <> [] -> exists N J2, forall fuel, (N <= fuel)%nat -> jp_tq2 fuel false J = Ok J2.
Proof.
  intros H Nz. destruct (tq2_done f J H Nz) as (N & J2 & _ & X). exists N, J2. intros fuel L. destruct (X fuel) as [Y|[_ Y]]; [exact Y|lia].
Qed.
Lemma one_local2 J2 g : basis2 J2 = [g] -> passes_local_test2 t o n J2.
Proof. intros E g0 i u x Ig Hi (v & Iv & _ & Lv). rewrite E in *. destruct Ig as [<-|[]]. destruct Iv as [<-|[]]. exfalso. apply (Nat.lt_irrefl _ Lv). Qed.

Lemma c94_tq2_divides f J fuel0 J2 a : jp_history false t o n [f] J -> terms f <> [] -> jp_tq2 fuel0 false J = Ok J2 -> ring_input t o n a ->
  exists N r, (forall fuel, (N <= fuel)%nat -> jp2_nf fuel false J2 a = Ok r) /\ (terms r = [] <-> divides_over_Q n f a).
Proof.
  intros H Nz E Ra. destruct (done_is f J fuel0 J2 H Nz E) as (AT & g & Eg & _). destruct (tq2_member t o n Hn Ho [f] J fuel0 J2 H E AT (one_local2 J2 g Eg) a Ra) as (N & r & Er & X).
  exists N, r. split; [exact Er|]. rewrite X. apply member_single.
Qed.
Lemma c94_tq2_classes f J fuel0 J2 a b fuel fuel' r s : jp_history false t o n [f] J -> terms f <> [] -> jp_tq2 fuel0 false J = Ok J2 -> ring_input t o n a -> ring_input t o n b ->
  jp2_nf fuel false J2 a = Ok r -> jp2_nf fuel' false J2 b = Ok s -> (plus_minus (terms r) (terms s) <-> same_mod n f a b).
Proof.
  intros H Nz E Ra Rb Ea Eb. destruct (done_is f J fuel0 J2 H Nz E) as (AT & g & Eg & _). rewrite <- same_single.
  exact (tq2_ideal t o n Hn Ho [f] J fuel0 J2 H E AT (one_local2 J2 g Eg) a b fuel fuel' r s Ra Rb Ea Eb).
Qed.
(** More generally, all that is in the basis is one element of the tree. *)
Lemma c94_tq2_one F J fuel0 J2 g a : jp_history false t o n F J -> jp_tq2 fuel0 false J = Ok J2 -> all_in_trees J2 -> basis2 J2 = [g] -> ring_input t o n a ->
  exists N r, (forall fuel, (N <= fuel)%nat -> jp2_nf fuel false J2 a = Ok r) /\ (terms r = [] <-> rational_member n (among F) (terms a)) /\
    (terms r = [] <-> divides_over_Q n g a).
Proof.
  intros H E AT Eg Ra. destruct (tq2_member t o n Hn Ho F J fuel0 J2 H E AT (one_local2 J2 g Eg) a Ra) as (N & r & Er & X). exists N, r. split; [exact Er|]. split; [exact X|]. rewrite X, <- member_single.
  destruct (c53_tq2 t o n F J fuel0 J2 Hn Ho H E) as (C1 & C2). split.
  - apply mem_trans. intros x (f & If & <-). rewrite <- Eg. exact (C2 f If).
  - apply mem_trans. intros x (b & Ib & <-). rewrite <- Eg in Ib. exact (proj2 (proj2 (C1 b Ib))).
Qed.
End P.
