(** One variable and algorithmTQ2. *)
From Coq Require Import ZArith List Bool Arith Lia Permutation.
From Verif Require Import Outcome MonomModel MonomSpec MonomProofs PolyModel PolySpec PolyProofs PolyRedProofs PolyNfProofs JanetModel JanetSpec
  JanetPolyModel TQModel JanetPolySpec IdealProofs JanetPolyProofs JanetPolyTop InvolutiveProofs InvolutiveTop NormalSpec NormalTop UnivSpec LinSol TQ2HPSpec TQ2Inv UnivTQ2Spec.
Import ListNotations.
Local Open Scope Z_scope.

Section P.
Variables (t : pos_order) (o : base_order).
Hypothesis Ho : o <> OAlex.
Notation A := (fun _ : list term => True).
Notation one_lt := (le_n 1).

Lemma ring_lead g : ring_input t o 1 g -> terms g <> [] -> exists d c l, terms g = (Mon (-1) [d], c) :: l /\ lead g = [d].
Proof.
  intros Rg Ng. assert (X := ring_input_monos t o 1 g Rg). destruct Rg as (_ & _ & _ & _ & RR). unfold lead. destruct (terms g) as [|[m c] l]; [congruence|].
  assert (M := Forall_inv X). assert (Pm := Forall_inv RR). cbn [fst] in *. destruct m as [p v]. cbn [pos vars] in *. subst p. destruct M as [Lv _]. cbn [vars] in Lv.
  destruct v as [|d [|]]; try discriminate. exists d, c, l. auto.
Qed.

Lemma head_nz2 p m c l : ring_input t o 1 p -> terms p = (m, c) :: l -> coef (terms p) m <> 0.
Proof.
  intros R E. apply (in_coef t o 1 A); [|rewrite E; left; reflexivity].
  apply ring_input_goodz; [exact R|]. apply mem_gen; [exact Logic.I|eapply ring_input_monos; exact R].
Qed.

Section U.
Variables (F : list poly) (J : jpoly) (fuel0 : nat) (J2 : jpoly2).
Hypothesis (H : jp_history false t o 1 F J) (E0 : jp_tq2 fuel0 false J = Ok J2).

Lemma c103_basis g : is_gcd t o F g <-> is_gcd t o (basis2 J2) g.
Proof.
  destruct (c53_tq2 t o 1 F J fuel0 J2 one_lt Ho H E0) as [C1 C2].
  assert (X : forall d, (forall f, In f F -> multiple_of d f) <-> (forall b, In b (basis2 J2) -> multiple_of d b)).
  { intro d. split; intros M p Ip.
    - eapply mem_trans; [|apply (C1 p Ip)]. intros h (f & If & <-). exact (M f If).
    - eapply mem_trans; [|apply (C2 p Ip)]. intros h (f & If & <-). exact (M f If). }
  unfold is_gcd. split; intros [M D]; (split; [apply X; exact M|]); intros d Rd Md; apply (D d Rd), X, Md.
Qed.
Lemma ideal_gcd g : rational_member 1 (among F) (terms g) -> (forall f, In f F -> multiple_of g f) -> is_gcd t o F g.
Proof. intros Mg Up. split; [exact Up|]. intros d Rd Md. eapply mem_trans; [|exact Mg]. intros h (f & If & <-). apply (Md f If). Qed.
Lemma c103_one g : basis2 J2 = [g] -> is_gcd t o F g.
Proof.
  intro Eb. destruct (c53_tq2 t o 1 F J fuel0 J2 one_lt Ho H E0) as [C1 C2]. rewrite Eb in *. apply ideal_gcd; [apply (C1 g (or_introl eq_refl))|exact C2].
Qed.
Lemma c103_ideal g f : all_in_trees J2 -> passes_local_test2 t o 1 J2 -> least_of (basis2 J2) g -> ring_input t o 1 f ->
  (rational_member 1 (among F) (terms f) <-> multiple_of g f).
Proof.
  intros AT Lo (Ig & Mn) Rf.
  destruct (proj1 (c53_tq2 t o 1 F J fuel0 J2 one_lt Ho H E0) g Ig) as (Rg & Ng & Mg).
  assert (Up : forall p, multiple_of g p -> rational_member 1 (among F) (terms p)).
  { intros p M. eapply mem_trans; [|exact M]. intros h (h' & [<-|[]] & <-). exact Mg. }
  split; [|apply Up]. intro M.
  destruct (ring_lead g Rg Ng) as (d & cg & lg & Tg & Lg).
  set (find := fun m : monom => if (pos m =? -1) && (d <=? nth 0 (vars m) 0)%nat then Ok (Some g) else Ok None : outcome (option poly)).
  assert (GF : good_find false t o 1 (among [g]) find).
  { intros m Mm. unfold find. destruct (pos m =? -1) eqn:Pm; cbn [andb]; [|exists None; split; [reflexivity|discriminate]].
    destruct (d <=? nth 0 (vars m) 0)%nat eqn:Dm; [|exists None; split; [reflexivity|discriminate]]. exists (Some g). split; [reflexivity|].
    intros a Ea. injection Ea as <-. apply Z.eqb_eq in Pm. apply Nat.leb_le in Dm. destruct Rg as (V & Sz & T1 & O1 & R).
    split; [exact V|]. split; [exact Sz|]. split; [exact T1|]. split; [exact O1|]. split; [exists g; split; [left; reflexivity|reflexivity]|]. split.
    - split; [|discriminate]. unfold in_component. rewrite Pm. exact R.
    - exists (Mon (-1) [d]), cg, lg. split; [exact Tg|]. split; [left; reflexivity|]. cbn [vars]. split; [symmetry; apply Mm|]. intros [|i]; unfold expo; cbn [nth]; [exact Dm|destruct i; lia]. }
  destruct Rf as (V & Sz & T1 & O1 & R).
  destruct (nf_terminates false t o 1 _ find GF Ho f V (conj Sz (conj T1 O1))) as (N & r & k & Tr).
  destruct (nf_partial false t o 1 _ find GF N f 0%nat r (0 + k) V (conj Sz (conj T1 O1)) (Tr N 0%nat (le_n N))) as (Vr & Ir & Cr & Dr).
  assert (Gf : goodz t o 1 (among F) f) by (apply ring_input_goodz; [split; [exact V|split; [exact Sz|split; [exact T1|split; [exact O1|exact R]]]]|exact M]).
  assert (Gr : goodz t o 1 (among F) r).
  { apply (congruent_goodz t o 1 (among F) (among [g])) with (f := f); try assumption. intros h (h' & [<-|[]] & <-). split; [apply Rg|exact Mg]. }
  assert (Z : terms r = []).
  { destruct Dr as [Dr|(m & c & l & Er & Fm)]; [exact Dr|]. exfalso.
    destruct (goodz_mono t o 1 (among F) r m Gr) as [Mm Pm]; [rewrite Er; left; reflexivity|].
    assert (Nr : terms r <> []) by (rewrite Er; discriminate).
    destruct (tq2_leading t o 1 one_lt Ho F J fuel0 J2 H E0 AT Lo r (goodz_ring_input _ _ _ _ _ Gr) Nr) as (b & Ib & (_ & Dv & _)); [apply Gr|].
    specialize (Dv 0%nat one_lt). unfold lead at 2 in Dv. rewrite Er in Dv. unfold find in Fm. rewrite Pm in Fm. cbn [Z.eqb Z.opp Pos.eqb andb] in Fm.
    destruct (d <=? nth 0 (vars m) 0)%nat eqn:Dm; [discriminate|]. apply Nat.leb_gt in Dm.
    specialize (Mn b Ib). rewrite Lg in Mn. unfold expo in *. cbn [nth] in Mn. lia. }
  destruct Cr as (k' & q & Nk & Cq & E). unfold multiple_of. exists k', (scale (-1) q). split; [exact Nk|]. split.
  - apply comb_scale. exact Cq.
  - intro m. specialize (E m). rewrite Z in E. cbn [coef] in E. rewrite coef_scale. lia.
Qed.


Lemma c103_local g : all_in_trees J2 -> passes_local_test2 t o 1 J2 -> least_of (basis2 J2) g -> is_gcd t o F g.
Proof.
  intros AT Lo Lg. destruct (proj1 (c53_tq2 t o 1 F J fuel0 J2 one_lt Ho H E0) g (proj1 Lg)) as (_ & _ & Mg).
  assert (RF := hist_ring t o 1 F J H). rewrite Forall_forall in RF. apply ideal_gcd; [exact Mg|].
  intros f If. apply (c103_ideal g f AT Lo Lg (RF f If)). apply (mem_among t o); [apply RF; exact If|exact If].
Qed.
Lemma c103_none : basis2 J2 = [] <-> forall f, In f F -> terms f = [].
Proof.
  destruct (c53_tq2 t o 1 F J fuel0 J2 one_lt Ho H E0) as [C1 C2]. split.
  - intros Eb f If. assert (M := C2 f If). rewrite Eb in M.
    assert (RF := hist_ring t o 1 F J H). rewrite Forall_forall in RF. destruct (terms f) as [|[m c] l] eqn:E; [reflexivity|]. exfalso. assert (Rf := RF f If).
    destruct M as (k & q & Nk & Cq & X).
    assert (Z : forall m, coef q m = 0).
    { clear -Cq. induction Cq as [p Z|p r u h c _ IH (f & [] & _) _ _]; exact Z. }
    assert (N0 := head_nz2 f m c l Rf E). rewrite E in N0. specialize (X m). rewrite Z in X. nia.
  - intro Z. destruct (basis2 J2) as [|g B] eqn:Eb; [reflexivity|]. exfalso.
    destruct (C1 g) as (Rg & Ng & Mg); [left; reflexivity|].
    destruct Mg as (k & q & Nk & Cq & X).
    assert (Z' : forall m, coef q m = 0).
    { clear -Cq Z. induction Cq as [p Zp|p r u h c _ IH (f & If & <-) _ E]; [exact Zp|]. intro m. rewrite E, IH, (Z f If). cbn. lia. }
    destruct (terms g) as [|[m c] l] eqn:E; [congruence|].
    assert (N0 := head_nz2 g m c l Rg E). rewrite E in N0. specialize (X m). rewrite Z' in X. nia.
Qed.
End U.
End P.
