(** Property theorems C76: programs on the polynomials of the Python module ginv.  Model: CyHeapModel.v; specification: CyHeapSpec.v. *)
From Coq Require Import ZArith List Bool.
From Verif Require Import Outcome MonomModel PolyModel CyHeapModel CyHeapSpec CyHeapProofs.
Import ListNotations.
Local Open Scope Z_scope.

(** A careful program shows what it means: operators make new polynomials, reduction and pp change the polynomial
    under all of its names, lm() and lc() are the values they were when they were taken; it raises an exception
    exactly where its meaning does, and never misuses memory. *)
Theorem C76_careful_programs_partial : forall (dbg : bool) (cs : list cmd), careful cs -> ring_program cs ->
  exists os e, run dbg start cs = Ok (os, e) /\ means_run new_world cs os e.
Proof. exact careful_ok. Qed.
Print Assumptions C76_careful_programs_partial.

(** A view taken of a temporary polynomial can never be looked at: x = (y op z).lm() *)
Theorem C76_view_of_temporary : forall (dbg : bool) cs c l (x t : var) os, makes_poly t c -> looks x t l -> x <> t ->
  run dbg start (cs ++ [c; l; CDel t; CShow x]) <> Ok (os, None).
Proof. exact view_of_temporary. Qed.
Print Assumptions C76_view_of_temporary.

(** ... nor one that takes the name of its polynomial: t = y op z; t = t.lm() *)
Theorem C76_view_over_polynomial : forall (dbg : bool) cs c l (t : var) os, makes_poly t c -> looks t t l ->
  run dbg start (cs ++ [c; l; CShow t]) <> Ok (os, None).
Proof. exact view_over_polynomial. Qed.
Print Assumptions C76_view_over_polynomial.

(** ... nor one of a polynomial that has been reduced since. *)
Theorem C76_view_of_reduced : forall (dbg : bool) cs l (x y z : var) os, looks x y l -> x <> y -> x <> z ->
  run dbg start (cs ++ [l; CReduce y z; CShow x]) <> Ok (os, None).
Proof. exact view_of_reduced. Qed.
Print Assumptions C76_view_of_reduced.

(** A polynomial is never reduced by itself. *)
Theorem C76_reduced_by_itself : forall (dbg : bool) cs (y : var) os, run dbg start (cs ++ [CReduce y y]) <> Ok (os, None).
Proof. exact reduced_by_itself. Qed.
Print Assumptions C76_reduced_by_itself.

(** So not every program shows what it means: x = (p*q).lm(); print(x) ... *)
Theorem C76_temporary_refuted : exists cs, ring_program cs /\ means_run new_world cs [VMonom (Mon (-1) [1; 1]%nat)] None /\ run false start cs = Undef.
Proof. exact temporary_witness. Qed.
Print Assumptions C76_temporary_refuted.

(** ... a = p.lm(); p.reduction(q); print(a) *)
Theorem C76_reduction_refuted : exists cs, ring_program cs /\ run false start cs = Undef.
Proof. exists [new 0 X; new 1 X; CBin BAdd 2 0 1; CLm 3 2; CReduce 2 0; CShow 3]%nat. split; [repeat constructor; discriminate|reflexivity]. Qed.
Print Assumptions C76_reduction_refuted.

(** ... and p.reduction(p) *)
Theorem C76_self_refuted : exists cs, ring_program cs /\ run false start cs = Undef.
Proof. exists [new 0 X; CReduce 0 0]%nat. split; [repeat constructor; discriminate|reflexivity]. Qed.
Print Assumptions C76_self_refuted.

(** A coefficient does not stay what it was: c = p.lc(); print(c); p.pp(); print(c) *)
Theorem C76_coefficient_changes_refuted : exists cs c p v1 v2,
  ring_program cs /\ run false start (cs ++ [CLc c p; CShow c; CPp p; CShow c]) = Ok ([VInteger v1; VInteger v2], None) /\ v1 <> v2.
Proof. exists [new 0 X; CBin BAdd 1 0 0]%nat, 2%nat, 1%nat, 2, 1. split; [repeat constructor; discriminate|]. split; [reflexivity|discriminate]. Qed.
Print Assumptions C76_coefficient_changes_refuted.

(** Polynomials are not compared by their terms: p = x; q = x; p == q is False *)
Theorem C76_equal_refuted : exists cs p q l,
  ring_program cs /\ run false start (cs ++ [CShow p; CShow q; CSame p q]) = Ok ([VPoly l; VPoly l; VBool false], None).
Proof. exists [new 0 X; new 1 X]%nat, 0%nat, 1%nat, [(X, 1)]. split; [repeat constructor; discriminate|reflexivity]. Qed.
Print Assumptions C76_equal_refuted.

(** A careful program: two names of one polynomial, a reduction through one of them, and views taken afterwards. *)
Example C76_example :
  let cs := [new 0 X; new 1 Y; CBin BAdd 2 0 1; CAlias 3 2; CLm 4 2; CShow 4; CReduce 2 0; CShow 3; CLm 4 3; CDel 2; CShow 4; CSame 0 1; CReduce 1 0]%nat in
  careful cs /\ ring_program cs /\
  run false start cs = Ok ([VMonom X; VPoly [(Y, 1)]; VMonom Y; VBool false], Some EAssertionError).
Proof.
  split; [|split; [repeat constructor; discriminate|reflexivity]]. repeat split; cbn; try (left; discriminate).
  - now exists 2%nat.
  - now exists 0%nat.
  - now exists 3%nat.
  - now exists 0%nat.
Qed.
