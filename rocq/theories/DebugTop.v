(** Debug builds of the polynomial algorithms: consequences and a case. *)
From Coq Require Import ZArith List Bool Arith Lia.
From Verif Require Import Outcome MonomModel MonomSpec MonomProofs PolyModel PolySpec PolyProofs
  JanetModel JanetSpec JanetPolyModel TQModel JanetPolySpec IdealProofs JanetPolyProofs JanetPolyTop JanetPolyExamples TQExamples TQProofs DebugProofs DebugTQ.
Import ListNotations.
Local Open Scope Z_scope.

Lemma d_same_ideal (t : pos_order) (o : base_order) (n : nat) (F : list poly) (J : jpoly) (fuel : nat) (J' : jpoly2) :
  (0 < n)%nat -> o <> OAlex -> jp_history true t o n F J -> jp_tq2 fuel true J = Ok J' ->
  (forall g, In g (basis2 J') -> ring_input t o n g /\ terms g <> [] /\ rational_member n (among F) (terms g)) /\
  (forall f, In f F -> rational_member n (among (basis2 J')) (terms f)).
Proof. intros Hn Ho H E. exact (c53_tq2 t o n F J fuel J' Hn Ho (d_history _ _ _ _ _ H) (d_tq2 _ _ _ E)). Qed.

(** x^2 + y and x y - 1 in deglex *)
Definition dg_f1 := pol ODegLex 2 [([2;0]%nat, 1); ([0;1]%nat, 1)].
Definition dg_f2 := pol ODegLex 2 [([1;1]%nat, 1); ([0;0]%nat, -1)].
Definition dg_J0 : jpoly := got (jp_push_all true jp_empty [dg_f1; dg_f2]).
Lemma dg_in : Forall (ring_input TOP ODegLex 2) [dg_f1; dg_f2].
Proof. repeat constructor; cbn; try lia; try discriminate. Qed.
Lemma dg_case : exists (F : list poly) (J : jpoly), jp_history true TOP ODegLex 2 F J /\ length F = 2%nat /\
  (exists J', jp_build 40 true J = Ok J' /\ length (basis J') = 3%nat) /\ (forall one, exists J', jp_tq one 40 true J = Ok J' /\ length (basis J') = 3%nat) /\
  exists J', jp_tq2 40 true J = Ok J' /\ length (basis2 J') = 3%nat /\ exists r, jp2_nf 40 true J' dg_f1 = Ok r /\ terms r = [].
Proof.
  exists [dg_f2; dg_f1], dg_J0. split; [apply (history_push_all true TOP ODegLex 2 [dg_f1; dg_f2] [] jp_empty _ (hist_new _ _ _ _) dg_in); vm_compute; reflexivity|].
  split; [reflexivity|]. split; [eexists; split; vm_compute; reflexivity|]. split; [intros [|]; eexists; split; vm_compute; reflexivity|].
  eexists. split; [vm_compute; reflexivity|]. split; [vm_compute; reflexivity|]. eexists. split; vm_compute; reflexivity.
Qed.
