(** Property C66: normal forms of linear differential polynomials (PolyDiff of the Python package pyginv). *)
From Coq Require Import ZArith QArith List Bool Arith Lia.
From Verif Require Import Outcome MonomModel MonomSpec PyMonomModel PyMonomSpec PyDiffModel PyDiffSpec PyDiffProofs PyDiffExamples.
Import ListNotations.
Local Open Scope Z_scope.

(** p.NFhead(pset) ends without exception.  On all solutions of the equations of pset, in every space of functions, the
    result is a non-zero coefficient times p; it is 0 or pset has no reducer for its leading derivative. *)
Theorem C66_head : forall (C : coefs), good_coefs C -> forall (o : py_order) (n : nat) (k : Z) G find, dp_good_find C o n k G find ->
  forall p, dp_canonical C o n k p ->
  exists N r c, (forall fuel, (N <= fuel)%nat -> dp_nfhead C fuel o find p = Ok r) /\ dp_canonical C o n k r /\ c <> c_zero C /\
    same_on_solutions C G c p r /\ (r = [] \/ exists m d l, r = (m, d) :: l /\ find m = Ok None).
Proof. exact dnfhead_ok. Qed.
Print Assumptions C66_head.

(** p.NFtail(pset), p not 0: the same; the leading derivative stays and pset has no reducer for the others. *)
Theorem C66_tail : forall (C : coefs), good_coefs C -> forall (o : py_order) (n : nat) (k : Z) G find, dp_good_find C o n k G find ->
  forall m c p, dp_canonical C o n k ((m, c) :: p) ->
  exists N d r a, (forall fuel, (N <= fuel)%nat -> dp_nftail C fuel o find ((m, c) :: p) = Ok ((m, d) :: r)) /\
    dp_canonical C o n k ((m, d) :: r) /\ a <> c_zero C /\ same_on_solutions C G a ((m, c) :: p) ((m, d) :: r) /\
    Forall (fun x => find (fst x) = Ok None) r.
Proof. exact dnftail_ok. Qed.
Print Assumptions C66_tail.

(** p.NF(pset), with coefficients that can be divided: the result equals p on all solutions of pset, and pset has no
    reducer for any of its derivatives. *)
Theorem C66_nf : forall (C : coefs), good_coefs C -> forall (o : py_order) (n : nat) (k : Z) G find, dp_good_find C o n k G find ->
  forall p, good_quo C -> dp_canonical C o n k p ->
  exists N r, (forall fuel, (N <= fuel)%nat -> dp_nf C fuel o find p = Ok r) /\ dp_canonical C o n k r /\
    same_on_solutions C G (c_one C) p r /\ Forall (fun x => find (fst x) = Ok None) r.
Proof. exact dnf_ok. Qed.
Print Assumptions C66_nf.

(** A single polynomial can serve as pset if its leading term has an unknown function, ... *)
Theorem C66_single : forall C (o : py_order) (n : nat) (k : Z) u d q, dp_canonical C o n k ((u, d) :: q) -> 0 <= pos u ->
  dp_good_find C o n k (fun p => p = (u, d) :: q) (dp_find C ((u, d) :: q)).
Proof. exact single_find. Qed.
Print Assumptions C66_single.

(** ... but not otherwise: NFhead of x u + u_x by the constant 5 raises an exception. *)
Theorem C66_constant_refuted : exists p q, dp_canonical Zx TOPdeglex 2 1 p /\ dp_canonical Zx TOPdeglex 2 1 q /\ q <> [] /\
  dp_nfhead Zx 10 TOPdeglex (dp_find Zx q) p = Undef.
Proof. exists ux, const. split; [exact ux_canonical|]. split; [exact const_canonical|]. split; [discriminate|vm_compute; reflexivity]. Qed.
Print Assumptions C66_constant_refuted.

(** The system u_yy = x u, x u_x = u_y over Z[x]: u_xx + (3 + x) u_y reduces to (-x + 3 x^3 + x^4) u_y + x^2 u; the system
    2 u_yy = u, 3 u_x = u_y over the rational numbers: the normal form of u_xx + 5 u_y is 5 u_y + u/18. *)
Example C66_example : dp_good_find Zx TOPdeglex 2 1 eqs (der_find eq1 eq2) /\ dp_canonical Zx TOPdeglex 2 1 uxx /\
  dp_nfhead Zx 20 TOPdeglex (der_find eq1 eq2) uxx = Ok [dt 0 1 [0; -1; 0; 3; 1]; dt 0 0 [0; 0; 1]] /\
  good_coefs Rat /\ good_quo Rat /\ dp_good_find Rat TOPdeglex 2 1 rqs (der_find rq1 rq2) /\ dp_canonical Rat TOPdeglex 2 1 ryy /\
  dp_nf Rat 20 TOPdeglex (der_find rq1 rq2) ryy = Ok [dr 0 1 5; dr 0 0 (1 # 18)].
Proof.
  split; [exact eqs_find|]. split; [exact uxx_canonical|]. split; [vm_compute; reflexivity|]. split; [exact Rat_good|]. split; [exact Rat_quo|].
  split; [exact rqs_find|]. split; [exact ryy_canonical|vm_compute; reflexivity].
Qed.
