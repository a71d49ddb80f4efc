(** JanetPolyInt::nf after algorithmTQ2 returns the irreducible primitive representative of the class of its argument. *)
From Coq Require Import ZArith List Bool Arith Lia Permutation.
From Verif Require Import Outcome MonomModel MonomSpec MonomProofs PolyModel PolySpec PolyProofs PolyRedProofs PolyNfProofs
  JanetModel JanetSpec JanetProofs JanetFindProofs JanetPolyModel TQModel JanetPolySpec IdealProofs JanetPolyProofs TQProofs JanetPolyTop
  InvolutiveProofs InvolutiveTop NormalSpec NormalProofs NormalTop MultipleProofs TQ2HPSpec TQ2Mult.
Import ListNotations.
Local Open Scope Z_scope.

Section T.
Variables (t : pos_order) (o : base_order) (n : nat).
Hypothesis Hn : (0 < n)%nat.
Hypothesis Ho : o <> OAlex.
Let A : list term -> Prop := fun _ => True.
Variables (F : list poly) (J : jpoly) (fuel0 : nat) (J2 : jpoly2).
Hypothesis H : jp_history false t o n F J.
Hypothesis E0 : jp_tq2 fuel0 false J = Ok J2.

Lemma obj2 : (forall b, In b (tree_part J2) -> ring_input t o n b /\ terms b <> []) /\ NoDup (map lead (tree_part J2)) /\
  forall m, mono n m -> pos m = -1 -> exists w, jp2_find false J2 m = Ok w /\
    match w with Some a => In a (tree_part J2) /\ janet_divides n (map lead (tree_part J2)) (lead a) (vars m)
               | None => forall u, ~ janet_divides n (map lead (tree_part J2)) u (vars m) end.
Proof.
  destruct (tree_object t o n _ J2 (tq2_state t o n Hn Ho F J fuel0 J2 H E0)) as (K & S & B & _ & Fi).
  assert (SA : jstate t o n A K) by (eapply jstate_G; [|exact S]; intros; exact Logic.I). rewrite <- B. split; [|split].
  - intros b Ib. destruct (jstate_basis _ _ _ _ _ _ SA Ib) as [X1 X2]. split; [eapply goodz_ring_input; exact X1|exact X2].
  - eapply jstate_distinct. exact SA.
  - intros m Mm Pm. rewrite Fi. exact (find_full t o n Hn K SA m Mm Pm).
Qed.
Notation HB := (proj1 obj2).
Notation ND := (proj1 (proj2 obj2)).

Lemma nf2_facts a fuel r : ring_input t o n a -> jp2_nf fuel false J2 a = Ok r ->
  ring_input t o n r /\ rel n (tree_part J2) (terms a) (terms r) /\ irreducible n (tree_part J2) (terms r) /\ (terms r = [] \/ primitive (terms r)).
Proof. intros Ra E. exact (nf_all t o n (tree_part J2) HB ND (jp2_find false J2) (proj2 (proj2 obj2)) fuel a r Ra E). Qed.

Lemma n2_nf a fuel r : ring_input t o n a -> jp2_nf fuel false J2 a = Ok r ->
  ring_input t o n r /\ same_class n (tree_part J2) (terms a) (terms r) /\ irreducible n (tree_part J2) (terms r) /\ (terms r = [] \/ primitive (terms r)).
Proof.
  intros Ra E. destruct (nf2_facts a fuel r Ra E) as (X1 & X2 & X3). split; [exact X1|]. split; [|exact X3]. apply (rel_class t o n _ HB ND). exact X2.
Qed.
Lemma n2_class a b fuel fuel' r s : ring_input t o n a -> ring_input t o n b -> jp2_nf fuel false J2 a = Ok r -> jp2_nf fuel' false J2 b = Ok s ->
  (plus_minus (terms r) (terms s) <-> same_class n (tree_part J2) (terms a) (terms b)).
Proof.
  intros Ra Rb Ea Eb. destruct (nf2_facts a fuel r Ra Ea) as (A1 & A2 & A3 & A4). destruct (nf2_facts b fuel' s Rb Eb) as (B1 & B2 & B3 & B4). split.
  - intro P. apply (rel_class t o n _ HB ND). eapply rel_trans; [exact A2|]. eapply rel_trans; [apply (plus_minus_rel n Hn); exact P|]. apply (rel_sym n Hn). exact B2.
  - intro C. apply (unique t o n _ HB ND); auto. apply (class_rel t o n _ HB ND) in C. eapply rel_trans; [apply (rel_sym n Hn); exact A2|]. eapply rel_trans; [exact C|exact B2].
Qed.
Lemma n2_zero a fuel r : ring_input t o n a -> jp2_nf fuel false J2 a = Ok r ->
  (terms r = [] <-> exists k q, k <> 0 /\ inv_span n (tree_part J2) q /\ forall m, coef q m = k * coef (terms a) m).
Proof.
  intros Ra E. destruct (nf2_facts a fuel r Ra E) as (A1 & A2 & A3 & A4). split.
  - intro Z. rewrite Z in A2. destruct A2 as (k & l & q & Nk & Nl & Q & Eq).
    apply (rs_span t o n _ HB ND). apply (rs_lin n (tree_part J2) _ q [] _ (-1) 0 k); [exact Nk|exact Q|apply rs_zero; reflexivity|].
    intro m. specialize (Eq m). cbn [coef] in *. lia.
  - intros (k & q & Nk & Q & Eq).
    assert (R0 : ring_input t o n (Poly t o n [])) by (split; [split; [constructor|split; constructor]|repeat split; constructor]).
    assert (P : plus_minus (terms r) (terms (Poly t o n []))).
    { apply (unique t o n _ HB ND); auto; [intros m c []|]. eapply rel_trans; [apply (rel_sym n Hn); exact A2|].
      exists k, 1, (scale (-1) q). split; [exact Nk|]. split; [lia|]. split.
      - apply (rs_lin n (tree_part J2) _ q [] _ (-1) 0 1); [lia|apply (span_rs t o n _ HB ND); exact Q|apply rs_zero; reflexivity|]. intro m. rewrite coef_scale. cbn [coef]. lia.
      - intro m. rewrite coef_scale, Eq. cbn [terms coef]. lia. }
    destruct P as [P|P]; exact P.
Qed.
Lemma n2_again a fuel fuel' r r' : ring_input t o n a -> jp2_nf fuel false J2 a = Ok r -> jp2_nf fuel' false J2 r = Ok r' -> r' = r.
Proof.
  intros Ra E E'. destruct (nf2_facts a fuel r Ra E) as (A1 & A2 & A3 & A4).
  exact (nf_again t o n (tree_part J2) (jp2_find false J2) (proj2 (proj2 obj2)) fuel' r r' A1 A3 A4 E').
Qed.
End T.
