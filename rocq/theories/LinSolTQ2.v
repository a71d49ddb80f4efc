(** Linear systems and algorithmTQ2: the solutions read off the result. *)
From Coq Require Import ZArith QArith List Bool Arith Lia Permutation Setoid.
From Verif Require Import Outcome MonomModel MonomSpec MonomProofs PolyModel PolySpec PolyProofs
  JanetModel JanetSpec JanetFindProofs JanetPolyModel TQModel JanetPolySpec IdealProofs JanetPolyProofs
  TQProofs JanetPolyTop JanetTermSpec JanetTermProofs InvolutiveProofs InvolutiveTop NormalSpec NormalProofs NormalTop LinSpec LinProofs LinMain LinEval LinTop LinSol
  TQ2HPModel TQ2HPSpec TQ2Mult TQ2Normal TQ2Inv LinTQ2.
Import ListNotations.
Local Open Scope Z_scope.

Section P.
Variables (t : pos_order) (o : base_order) (n : nat).
Hypothesis (Hn : (0 < n)%nat) (Ho : o <> OAlex).
Notation A := (fun _ : list term => True).

Lemma tq2_start F J : jp_history false t o n F J -> jone J = None -> forall fuel,
  jp_tq2 fuel false J = tq2_loop fuel false (-1) 0 (fst (fst (start J))) (snd (fst (start J))) (map Att (snd (start J))).
Proof.
  intros H Eo fuel. assert (St := state_of t o n Hn Ho F J H). unfold jp_tq2, start. rewrite Eo. unfold jstate in St. rewrite Eo in St. destruct St as [Q D].
  unfold set_pos. rewrite (q_pos_ring t o n A _ Q). destruct D as [(D1 & D2 & D3)|(Ja & D1 & D2 & D3)].
  - rewrite D1, D2. change (-2 <? -1) with true. cbn iota. reflexivity.
  - rewrite D2, D1. change (-1 <? -1) with false. cbn iota. rewrite D1. cbn [fst snd]. rewrite D2. reflexivity.
Qed.

Lemma c92_tq2_ends F J : jp_history false t o n F J -> Forall linear F -> exists N J2, forall fuel, (N <= fuel)%nat -> jp_tq2 fuel false J = Ok J2.
Proof.
  intros H LF. destruct (jone J) as [w|] eqn:Eo; [exists 0%nat; eexists; intros fuel _; unfold jp_tq2; rewrite Eo; reflexivity|].
  destruct (history_lin t o n Hn Ho F J H LF Eo) as [I1 I2]. assert (L := start_lin t o n Hn Ho F J H Eo I1 I2).
  destruct (loop2_ends t o n Hn Ho _ 0 (start J) (Nat.lt_succ_diag_r _) L (Nat.le_0_l _)) as (N & J2 & E). exists N, J2. intros fuel Hf. rewrite (tq2_start F J H Eo). apply E. exact Hf.
Qed.

Section B.
Variables (F : list poly) (J : jpoly) (fuel0 : nat) (J2 : jpoly2).
Hypothesis (H : jp_history false t o n F J) (E0 : jp_tq2 fuel0 false J = Ok J2).

Lemma c92_tq2_zeros x : solves x F <-> solves x (basis2 J2).
Proof.
  destruct (c53_tq2 t o n F J fuel0 J2 Hn Ho H E0) as [C1 C2]. split; intros S f If.
  - destruct (C1 f If) as (_ & _ & M). apply (value_member n x F); [|exact S|exact M].
    eapply Forall_impl; [|exact (hist_ring t o n F J H)]. intros a Ra. eapply ring_input_monos; exact Ra.
  - apply (value_member n x (basis2 J2)); [|exact S|exact (C2 f If)].
    apply Forall_forall. intros b Ib. eapply ring_input_monos. apply (C1 b Ib).
Qed.

Hypothesis LF : Forall linear F.
Lemma c92_tq2_shape : exists T, j2t J2 = map Att T /\ ft T.
Proof.
  destruct (jone J) as [w|] eqn:Eo; [unfold jp_tq2 in E0; rewrite Eo in E0; injection E0 as <-; exists []; split; [reflexivity|constructor]|].
  destruct (history_lin t o n Hn Ho F J H LF Eo) as [I1 I2]. assert (L := start_lin t o n Hn Ho F J H Eo I1 I2).
  rewrite (tq2_start F J H Eo) in E0. exact (loop2_flat t o n Hn Ho fuel0 0 (start J) J2 L (Nat.le_0_l _) E0).
Qed.
Lemma c92_tq2_trees : all_in_trees J2.
Proof. intros x Ix. destruct c92_tq2_shape as (T & E & _). rewrite E in Ix. apply in_map_iff in Ix as (e & <- & _). eauto. Qed.
Lemma c92_tq2_linear g : In g (basis2 J2) -> linear g.
Proof.
  intro Ig. apply linear_flat. assert (S := tq2_state t o n Hn Ho F J fuel0 J2 H E0). destruct c92_tq2_shape as (T & E & X). unfold basis2 in Ig. unfold jstate2 in S.
  destruct (j2one J2) as [w|].
  - destruct Ig as [<-|[]]. destruct S as (_ & Ew). rewrite Ew. unfold one, flat. cbn [map fst]. intros x [<-|[]]. cbn [vars]. clear. induction n; cbn; lia.
  - rewrite E, map_map in Ig. apply in_map_iff in Ig as (e & <- & Ie). unfold ft in X. rewrite Forall_forall in X. exact (X e Ie).
Qed.
Notation B := (basis2 J2).
Let HB : forall b, In b B -> ring_input t o n b /\ terms b <> [].
Proof. exact (proj1 (obj2g t o n Hn Ho F J fuel0 J2 H E0 c92_tq2_trees)). Qed.
Let ND : NoDup (map lead B).
Proof. exact (proj2 (obj2g t o n Hn Ho F J fuel0 J2 H E0 c92_tq2_trees)). Qed.
Lemma c92_tq2_size : (length B <= n + 1)%nat.
Proof. exact (lin_size t o n Hn B HB ND c92_tq2_linear). Qed.
Lemma c92_tq2_solution y : ~ has_constant n B -> exists x, the_solution n F B y x.
Proof. exact (lin_solution t o n Hn Ho B HB ND c92_tq2_linear F c92_tq2_zeros y). Qed.
Lemma c92_tq2_solvable : (exists x, solves x F) <-> ~ has_constant n B.
Proof. exact (lin_solvable t o n Hn Ho B HB ND c92_tq2_linear F c92_tq2_zeros). Qed.
Lemma c92_tq2_unique : (exists x, solves x F) -> (length B = n <-> forall x z, solves x F -> solves z F -> forall i, (i < n)%nat -> (x i == z i)%Q).
Proof. exact (lin_unique t o n Hn Ho B HB ND c92_tq2_linear F c92_tq2_zeros). Qed.

Lemma c92_tq2_local : passes_local_test2 t o n J2.
Proof.
  intros g i u x Ig Hi Nm Iv Rx Ex. rewrite (variable_eq n i _ _ Iv (variable_e n i Hi)) in *.
  assert (R := all_rs t o n Hn Ho B HB ND c92_tq2_linear (n - i) i eq_refl Hi g Ig).
  destruct (tq2_nf t o n Hn Ho F J fuel0 J2 x H E0 Rx) as (N & r & E & _). exists N, r. split; [apply E; lia|].
  apply (n2_zero t o n Hn Ho F J fuel0 J2 H E0 x N r Rx (E N (le_n N))). rewrite (all_tree_part J2 c92_tq2_trees).
  destruct (rs_span t o n B HB ND _ R) as (k & p & Nk & Sp & Ep). exists k, p. split; [exact Nk|]. split; [exact Sp|].
  intro m. rewrite Ep, Ex. reflexivity.
Qed.
Lemma c92_tq2_membership a : ring_input t o n a ->
  exists N r, (forall fuel, (N <= fuel)%nat -> jp2_nf fuel false J2 a = Ok r) /\ (terms r = [] <-> rational_member n (among F) (terms a)).
Proof. exact (tq2_member t o n Hn Ho F J fuel0 J2 H E0 c92_tq2_trees c92_tq2_local a). Qed.
Lemma c92_tq2_same a b fa fb r s : ring_input t o n a -> ring_input t o n b -> jp2_nf fa false J2 a = Ok r -> jp2_nf fb false J2 b = Ok s ->
  (plus_minus (terms r) (terms s) <-> same_mod_ideal n F (terms a) (terms b)).
Proof. exact (tq2_ideal t o n Hn Ho F J fuel0 J2 H E0 c92_tq2_trees c92_tq2_local a b fa fb r s). Qed.
End B.

Lemma c92_tq2_objects F1 J1 F2 J fuel0 J2 a b fa fb r s :
  jp_history false t o n F1 J1 -> jp_history false t o n F2 J -> Forall linear F1 -> Forall linear F2 -> jq J1 = [] -> jp_tq2 fuel0 false J = Ok J2 -> same_ideal n F1 F2 ->
  ring_input t o n a -> ring_input t o n b -> jp_nf fa false J1 a = Ok r -> jp2_nf fb false J2 b = Ok s ->
  (plus_minus (terms r) (terms s) <-> same_mod_ideal n F1 (terms a) (terms b)).
Proof.
  intros H1 H2 L1 L2 Q1 E I Ra Rb Ea Eb.
  exact (tq2_objects t o n Hn Ho F1 J1 F2 J fuel0 J2 H1 Q1 (c92_local t o n Hn Ho _ _ H1 L1 Q1) H2 E (c92_tq2_trees F2 J fuel0 J2 H2 E L2) (c92_tq2_local F2 J fuel0 J2 H2 E L2) I a b fa fb r s Ra Rb Ea Eb).
Qed.
End P.
