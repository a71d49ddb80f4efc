(** C91: clearing denominators and primitive parts for rational coefficients (pyginv). *)
From Coq Require Import ZArith QArith Qcanon List Bool Arith.
From Verif Require Import Outcome MonomModel PyMonomModel PyMonomSpec PyRatModel PyRatSpec PyRatProofs PyRatExamples PyRatValid.
Import ListNotations.
Local Open Scope Z_scope.

(** cancel() multiplies by the least positive integer that makes all coefficients integers. *)
Theorem C91_cancel : forall (o : py_order) (n : nat) (k : Z) (p : rpoly), rp_canonical o n k p -> p <> [] ->
  exists r l, rp_cancel o p = Ok r /\ rp_canonical o n k r /\ 0 < l /\ times (zc l) p r /\
    (forall c, In c (coefficients r) -> integer c) /\ forall m, (forall c, In c (coefficients p) -> integer (c * zc m)%Qc) <-> (l | m).
Proof. exact cancel_ok. Qed.
Print Assumptions C91_cancel.

(** pp() multiplies by a non-zero rational number. *)
Theorem C91_pp : forall (o : py_order) (n : nat) (k : Z) (p : rpoly), rp_canonical o n k p -> p <> [] ->
  exists r a, rp_pp o p = Ok r /\ rp_canonical o n k r /\ a <> 0%Qc /\ times a p r.
Proof. exact pp_ok. Qed.
Print Assumptions C91_pp.
(** The coefficients of the result are integers without common divisor, unless a fraction follows coefficients that are so already. *)
Theorem C91_pp_exact : forall (o : py_order) (n : nat) (k : Z) (p r : rpoly), rp_canonical o n k p -> rp_pp o p = Ok r ->
  (primitive_q r <-> ~ too_early (coefficients p)).
Proof. exact pp_exact. Qed.
Print Assumptions C91_pp_exact.
Theorem C91_integers : forall (o : py_order) (n : nat) (k : Z) (p r : rpoly), rp_canonical o n k p ->
  (forall c, In c (coefficients p) -> integer c) -> rp_pp o p = Ok r -> primitive_q r.
Proof. exact pp_integers. Qed.
Print Assumptions C91_integers.
(** cancel() and then pp() *)
Theorem C91_cancel_pp : forall (o : py_order) (n : nat) (k : Z) (p : rpoly), rp_canonical o n k p -> p <> [] ->
  exists r a, (do q <- rp_cancel o p; rp_pp o q) = Ok r /\ rp_canonical o n k r /\ primitive_q r /\ a <> 0%Qc /\ times a p r.
Proof. exact cancel_pp. Qed.
Print Assumptions C91_cancel_pp.
(** pp() of x + 1/2 is x + 1/2. *)
Theorem C91_pp_refuted : exists (p r : rpoly), rp_canonical TOPdeglex 2 0 p /\ rp_pp TOPdeglex p = Ok r /\
  In (Q2Qc (1#2)) (coefficients r) /\ ~ integer (Q2Qc (1#2)) /\ ~ primitive_q r.
Proof. exact rp_half. Qed.
Print Assumptions C91_pp_refuted.

Example C91_case : rp_canonical TOPdeglex 2 0 rp1 /\ rp_cancel TOPdeglex rp1 = Ok [rx [1;0]%nat 9; rx [0;1]%nat (-(4)#1)] /\
  rp_pp TOPdeglex rp1 = Ok [rx [1;0]%nat 9; rx [0;1]%nat (-(4)#1)] /\ rp_pp TOPdeglex [rx [1;0]%nat 6; rx [0;1]%nat (-(4)#1)] = Ok [rx [1;0]%nat 3; rx [0;1]%nat (-(2)#1)].
Proof. exact rp_case. Qed.

(** A list of terms that is not strictly decreasing, or has a coefficient 0, is rejected by the assertion. *)
Theorem C91_rejects : forall (o : py_order) (n : nat) (k : Z) (p : rpoly), Forall (fun x => pmono n k (fst x)) p -> ~ rp_canonical o n k p -> rp_cancel o p = AssertFail.
Proof. exact cancel_rejects. Qed.
Print Assumptions C91_rejects.
Example C91_rejects_case : let p := [(Mon (-1) [1;0]%nat, 1%Qc); (Mon (-1) [1;0]%nat, 1%Qc)] in let q := [(Mon (-1) [1;0]%nat, 1%Qc); (Mon (-1) [0;1]%nat, 0%Qc)] in
  (Forall (fun x => pmono 2 0 (fst x)) p /\ ~ rp_canonical TOPdeglex 2 0 p /\ rp_cancel TOPdeglex p = AssertFail) /\
  Forall (fun x => pmono 2 0 (fst x)) q /\ ~ rp_canonical TOPdeglex 2 0 q /\ rp_cancel TOPdeglex q = AssertFail.
Proof. exact rejects_case. Qed.
