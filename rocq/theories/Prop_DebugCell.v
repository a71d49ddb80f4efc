(** C104: what a debug build computes without a failed assertion, a release build computes as well: addresses
    of terms, Hilbert polynomials, permutations. *)
From Coq Require Import ZArith List Bool Arith.
From Verif Require Import Outcome MonomModel PolyModel JanetPolyModel TQModel DebugCell.
From Verif Require CellModel JanetPolyHPModel TQ2HPModel RandPermModel.
Import ListNotations.
Local Open Scope Z_scope.

(** Calls on one polynomial: the same terms at the same addresses *)
Theorem C104_addresses : forall (program : list CellModel.edit) (p r : CellModel.cpoly),
  CellModel.c_edits true p program = Ok r -> CellModel.c_edits false p program = Ok r.
Proof. exact d_c_edits. Qed.
Print Assumptions C104_addresses.

Theorem C104_system_hilbert : forall (J : jpoly) h r, JanetPolyHPModel.jp_build_hp true J h = Ok r -> JanetPolyHPModel.jp_build_hp false J h = Ok r.
Proof. exact d_jp_build_hp. Qed.
Print Assumptions C104_system_hilbert.
(** algorithmTQ2 with the Hilbert polynomial it prints *)
Theorem C104_tq2_print : forall (fuel : nat) (J : jpoly) r, TQ2HPModel.jp_tq2_print fuel true J = Ok r -> TQ2HPModel.jp_tq2_print fuel false J = Ok r.
Proof. exact d_tq2_print. Qed.
Print Assumptions C104_tq2_print.
Theorem C104_permutation : forall (self : bool) m a (p : list nat) r,
  RandPermModel.c_permutation true self m a p = Ok r -> RandPermModel.c_permutation false self m a p = Ok r.
Proof. exact d_permutation. Qed.
Print Assumptions C104_permutation.

(** 2x + 2, made primitive, less x + 3 *)
Example C104_addresses_case : let x := Mon (-1) [1%nat] in let e := Mon (-1) [0%nat] in
  exists r, CellModel.c_edits true (CellModel.CP TOP OLex 1 [(0%nat, (x, 2)); (1%nat, (e, 2))] 2%nat)
    [CellModel.EPp; CellModel.ESub (Poly TOP OLex 1 [(x, 1); (e, 3)])] = Ok r /\ CellModel.cells r = [(1%nat, (e, -2))].
Proof. eexists. split; [vm_compute; reflexivity|reflexivity]. Qed.
