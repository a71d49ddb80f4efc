(** Linear systems: the solutions read off the result. *)
From Coq Require Import ZArith QArith List Bool Arith Lia Permutation Setoid.
From Verif Require Import Outcome MonomModel MonomSpec MonomProofs PolyModel PolySpec PolyProofs
  JanetModel JanetSpec JanetPolyModel TQModel JanetPolySpec IdealProofs JanetPolyProofs
  TQProofs JanetPolyTop JanetTermSpec InvolutiveProofs InvolutiveTop NormalSpec NormalTop LinSpec LinProofs LinEval LinTop.
Import ListNotations.
Local Open Scope Z_scope.

Section P.
Variables (t : pos_order) (o : base_order) (n : nat).
Hypothesis (Hn : (0 < n)%nat) (Ho : o <> OAlex).

Lemma hist_ring F J : jp_history false t o n F J -> Forall (ring_input t o n) F.
Proof. intro H. induction H; [constructor|constructor; assumption|assumption|assumption]. Qed.

Lemma c92_zeros F J x : jp_history false t o n F J -> jq J = [] -> (solves x F <-> solves x (basis J)).
Proof.
  intros H Q. split; intros S f If.
  - destruct (c39_members t o n F J f Hn Ho H If) as (_ & _ & M). apply (value_member n x F); [|exact S|exact M].
    eapply Forall_impl; [|exact (hist_ring F J H)]. intros a Ra. eapply ring_input_monos; exact Ra.
  - apply (value_member n x (basis J)); [|exact S|exact (done_same_ideal t o n F J f Hn Ho H Q If)].
    apply Forall_forall. intros b Ib. eapply ring_input_monos. apply (basis_ok t o n Hn Ho F J H b Ib).
Qed.

Lemma c92_total F J : jp_history false t o n F J -> Forall linear F ->
  (exists N J', (forall fuel, (N <= fuel)%nat -> jp_build fuel false J = Ok J') /\ jq J' = []) /\
  forall one, exists N J', (forall fuel, (N <= fuel)%nat -> jp_tq one fuel false J = Ok J') /\ jq J' = [].
Proof.
  intros H LF. assert (HS := proj1 (history_state t o n F J Hn Ho H)). destruct (c92_ends t o n Hn Ho F J H LF) as [(N & J' & E) X]. split; [|intro one].
  - exists N, J'. split; [exact E|]. assert (E' := E N (le_n N)).
    assert (Y := build_ok t o n (among F) Hn Ho N J HS). rewrite E' in Y. apply Y.
  - destruct (X one) as (N1 & J1 & E1). exists N1, J1. split; [exact E1|]. assert (E' := E1 N1 (le_n N1)).
    assert (Y := tq_ok t o n (among F) Hn Ho one N1 J HS). rewrite E' in Y. apply Y.
Qed.

Section B.
Variables (F : list poly) (J : jpoly).
Hypothesis (H : jp_history false t o n F J) (LF : Forall linear F).
Notation B := (basis J).
Notation HB := (basis_ok t o n Hn Ho F J H).
Notation ND := (c39_distinct t o n F J Hn Ho H).
Notation LB := (fun g => c92_basis t o n Hn Ho F J g H LF).

Lemma c92_size : (length B <= n + 1)%nat.
Proof. exact (lin_size t o n Hn B HB ND LB). Qed.
Hypothesis (Q : jq J = []).
Notation Zs := (fun x => c92_zeros F J x H Q).
Lemma c92_solution y : ~ has_constant n B -> exists x, the_solution n F B y x.
Proof. exact (lin_solution t o n Hn Ho B HB ND LB F Zs y). Qed.
Lemma c92_solvable : (exists x, solves x F) <-> ~ has_constant n B.
Proof. exact (lin_solvable t o n Hn Ho B HB ND LB F Zs). Qed.
Lemma c92_unique : (exists x, solves x F) -> (length B = n <-> forall x z, solves x F -> solves z F -> forall i, (i < n)%nat -> (x i == z i)%Q).
Proof. exact (lin_unique t o n Hn Ho B HB ND LB F Zs). Qed.
End B.

Lemma c92_membership F J a : jp_history false t o n F J -> Forall linear F -> jq J = [] -> ring_input t o n a ->
  exists N r, (forall fuel, (N <= fuel)%nat -> jp_nf fuel false J a = Ok r) /\ (terms r = [] <-> rational_member n (among F) (terms a)).
Proof. intros H LF Q Ra. apply (c46_local t o n Hn Ho F J a H Q (c92_local t o n Hn Ho F J H LF Q) Ra). Qed.
Lemma c92_classes F1 J1 F2 J2 a b fuel fuel' r s :
  jp_history false t o n F1 J1 -> jp_history false t o n F2 J2 -> Forall linear F1 -> Forall linear F2 -> jq J1 = [] -> jq J2 = [] -> same_ideal n F1 F2 ->
  ring_input t o n a -> ring_input t o n b -> jp_nf fuel false J1 a = Ok r -> jp_nf fuel' false J2 b = Ok s -> (plus_minus (terms r) (terms s) <-> same_mod_ideal n F1 (terms a) (terms b)).
Proof.
  intros H1 H2 L1 L2 Q1 Q2 I Ra Rb Ea Eb.
  apply (c82_objects t o n Hn Ho F1 J1 F2 J2 a b fuel fuel' r s H1 H2 Q1 Q2 (c92_local t o n Hn Ho _ _ H1 L1 Q1) (c92_local t o n Hn Ho _ _ H2 L2 Q2) I Ra Rb Ea Eb).
Qed.
End P.
