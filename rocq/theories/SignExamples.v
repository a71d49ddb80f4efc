(** Concrete systems written in several ways. *)
From Coq Require Import ZArith List Bool Arith Lia Permutation.
From Verif Require Import Outcome MonomModel MonomSpec MonomProofs PolyModel PolySpec PolyProofs PolyNfProofs
  JanetModel JanetSpec JanetPolyModel TQModel JanetPolySpec IdealProofs JanetPolyProofs JanetPolyTop JanetPolyExamples SignSpec.
Import ListNotations.
Local Open Scope Z_scope.

(** deglex, x > y > z: y, 3 x^2 + x y + 3, x^2 + 2 y z + 3 x, x^2 + 3 z^2. *)
Definition sg1 := pol ODegLex 3 [([0;1;0]%nat, 1)].
Definition sg2 := pol ODegLex 3 [([2;0;0]%nat, 3); ([1;1;0]%nat, 1); ([0;0;0]%nat, 3)].
Definition sg3 := pol ODegLex 3 [([2;0;0]%nat, 1); ([0;1;1]%nat, 2); ([1;0;0]%nat, 3)].
Definition sg4 := pol ODegLex 3 [([2;0;0]%nat, 1); ([0;0;2]%nat, 3)].
(** 2^64 (x^2 + 3 z^2) *)
Definition sg5 := pol ODegLex 3 [([2;0;0]%nat, 2 ^ 64); ([0;0;2]%nat, 3 * 2 ^ 64)].
Lemma sg1_in : ring_input TOP ODegLex 3 sg1. Proof. ring_in. Qed.
Lemma sg2_in : ring_input TOP ODegLex 3 sg2. Proof. ring_in. Qed.
Lemma sg3_in : ring_input TOP ODegLex 3 sg3. Proof. ring_in. Qed.
Lemma sg4_in : ring_input TOP ODegLex 3 sg4. Proof. ring_in. Qed.
Lemma sg5_in : ring_input TOP ODegLex 3 sg5. Proof. ring_in. Qed.

Lemma sg_one : exists J, run 30 false [sg1; sg2; sg3; sg4] = Ok J /\ is_one J = true.
Proof. eexists. split; [vm_compute; reflexivity|reflexivity]. Qed.
Lemma sg_rev : exists J, run 30 false [sg4; sg3; sg2; sg1] = Ok J /\ is_one J = false /\
  map terms (basis J) = [[(Mon (-1) [0;0;0]%nat, 1)]; [(Mon (-1) [0;1;0]%nat, 1)]; [(Mon (-1) [1;0;0]%nat, 1)]].
Proof. eexists. split; [vm_compute; reflexivity|]. split; reflexivity. Qed.
Lemma sg_rev5 : exists J, run 30 false [sg5; sg3; sg2; sg1] = Ok J /\ is_one J = true.
Proof. eexists. split; [vm_compute; reflexivity|reflexivity]. Qed.

Lemma c97_order_witness : exists (o : base_order) (n : nat) (l1 l2 : list poly) (J1 J2 : jpoly),
  (0 < n)%nat /\ o <> OAlex /\ Forall (ring_input TOP o n) l1 /\ Permutation l1 l2 /\
  (do J <- jp_push_all false jp_empty l1; jp_build 30 false J) = Ok J1 /\
  (do J <- jp_push_all false jp_empty l2; jp_build 30 false J) = Ok J2 /\
  is_one J1 = true /\ is_one J2 = false.
Proof.
  destruct sg_one as (J1 & E1 & O1), sg_rev as (J2 & E2 & O2 & _).
  exists ODegLex, 3%nat, [sg1; sg2; sg3; sg4], [sg4; sg3; sg2; sg1], J1, J2.
  split; [lia|]. split; [discriminate|]. split; [repeat (apply Forall_cons; [first [apply sg1_in|apply sg2_in|apply sg3_in|apply sg4_in]|]); apply Forall_nil|].
  split; [exact (Permutation_rev [sg1; sg2; sg3; sg4])|]. auto.
Qed.

Lemma c97_scale_witness : exists (o : base_order) (n : nat) (a b : poly) (k : Z) (l : list poly) (J1 J2 : jpoly),
  (0 < n)%nat /\ o <> OAlex /\ Forall (ring_input TOP o n) (a :: b :: l) /\ 0 < k /\ (forall m, coef (terms b) m = k * coef (terms a) m) /\
  (do J <- jp_push_all false jp_empty (a :: l); jp_build 30 false J) = Ok J1 /\
  (do J <- jp_push_all false jp_empty (b :: l); jp_build 30 false J) = Ok J2 /\
  is_one J1 = false /\ is_one J2 = true.
Proof.
  destruct sg_rev as (J1 & E1 & O1 & _), sg_rev5 as (J2 & E2 & O2).
  exists ODegLex, 3%nat, sg4, sg5, (2 ^ 64), [sg3; sg2; sg1], J1, J2.
  split; [lia|]. split; [discriminate|]. split; [repeat (apply Forall_cons; [first [apply sg1_in|apply sg2_in|apply sg3_in|apply sg4_in|apply sg5_in]|]); apply Forall_nil|].
  split; [reflexivity|]. split.
  { intro m. unfold sg4, sg5, pol. cbn [terms coef fst snd map].
    repeat (match goal with |- context [monom_eq_dec ?a ?b] => destruct (monom_eq_dec a b) end); lia. }
  auto.
Qed.

(** 3 x^2 + x y + 3 with x replaced by -x and the sign changed; deglex, x > y > z. *)
Definition sg2' := pol ODegLex 3 [([2;0;0]%nat, -3); ([1;1;0]%nat, 1); ([0;0;0]%nat, -3)].
Definition sg3' := pol ODegLex 3 [([2;0;0]%nat, 1); ([0;1;1]%nat, 2); ([1;0;0]%nat, -3)].
Definition sgs (i : nat) : bool := match i with O => true | _ => false end.
Lemma sg_flips : Forall2 (cmd_flips 3 sgs) [CPush sg2; CPush sg3; CBuild 30] [CPush sg2'; CPush sg3'; CBuild 30].
Proof.
  repeat constructor; unfold sized, flips; cbn; repeat split; repeat constructor.
  - exists (-1). split; [right; reflexivity|reflexivity].
  - exists 1. split; [left; reflexivity|reflexivity].
Qed.
Lemma sg_runs : exists J K, jrun false jp_empty [CPush sg2; CPush sg3; CBuild 30] = Ok J /\
  jrun false jp_empty [CPush sg2'; CPush sg3'; CBuild 30] = Ok K /\ map terms (basis J) <> map terms (basis K) /\ (length (basis J) = 3)%nat.
Proof. do 2 eexists. split; [vm_compute; reflexivity|]. split; [vm_compute; reflexivity|]. split; [vm_compute; discriminate|vm_compute; reflexivity]. Qed.
Lemma sg_flips2 : Forall2 (cmd_flips 3 sgs) [CPush sg2; CPush sg3] [CPush sg2'; CPush sg3'].
Proof. pose proof sg_flips as H. inversion H as [|? ? ? ? H1 H2]; subst. inversion H2; subst. apply Forall2_cons; [assumption|]. apply Forall2_cons; [assumption|]. apply Forall2_nil. Qed.
