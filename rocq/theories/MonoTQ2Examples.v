(** Concrete systems of monomials after algorithmTQ2. *)
From Coq Require Import ZArith List Bool Arith Lia.
From Verif Require Import Outcome MonomModel MonomSpec MonomProofs PolyModel PolySpec PolyProofs PolyNfProofs
  JanetModel JanetSpec JanetPolyModel TQModel JanetPolySpec IdealProofs JanetPolyProofs JanetPolyTop JanetPolyExamples
  TQExamples NormalSpec TQ2HPSpec MonoSpec MonoTop MonoExamples MonoTQ2.
Import ListNotations.
Local Open Scope Z_scope.

Definition got2 (r : outcome jpoly2) : jpoly2 := match r with Ok J => J | _ => JP2 None [] (-2) None end.

(** 2 x^2 and 3 y^3: x^2 is left outside the tree. *)
Definition mn_J2 : jpoly2 := got2 (jp_tq2 60 false mn_J0).
Lemma mn_tq2 : jp_tq2 60 false mn_J0 = Ok mn_J2.
Proof. vm_compute. reflexivity. Qed.
Lemma mn_nf2 : jp2_nf 40 false mn_J2 mn_f1 = Ok (pol OLex 2 [([2;0]%nat, 1)]).
Proof. vm_compute. reflexivity. Qed.
Lemma c93_tq2_nf : exists (F : list poly) (J : jpoly) (fuel0 : nat) (J2 : jpoly2) (a r : poly),
  jp_history false TOP OLex 2 F J /\ Forall single F /\ jp_tq2 fuel0 false J = Ok J2 /\ In a F /\
  (exists fuel, jp2_nf fuel false J2 a = Ok r) /\ terms r <> [].
Proof.
  exists [mn_f2; mn_f1], mn_J0, 60%nat, mn_J2, mn_f1, (pol OLex 2 [([2;0]%nat, 1)]). split; [exact mn_start|]. split; [exact mn_single|]. split; [exact mn_tq2|].
  split; [right; left; reflexivity|]. split; [exists 40%nat; exact mn_nf2|discriminate].
Qed.

(** y^2 and x z^3 in three variables. *)
Definition me_J2 : jpoly2 := got2 (jp_tq2 60 false me_J0).
Lemma me_tq2 : jp_tq2 60 false me_J0 = Ok me_J2.
Proof. vm_compute. reflexivity. Qed.
Lemma me_basis2 : map lead (basis2 me_J2) = [[0;2;0]; [1;2;0]; [1;0;3]]%nat.
Proof. vm_compute. reflexivity. Qed.
Lemma me_tree2 : map lead (tree_part me_J2) = [[0;2;0]; [1;0;3]]%nat.
Proof. vm_compute. reflexivity. Qed.
