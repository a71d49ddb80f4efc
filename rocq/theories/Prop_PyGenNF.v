(** Property C72: normal forms of polynomials and module elements with coefficients from any domain (Poly and PolySchem of
    the Python package pyginv). *)
From Coq Require Import ZArith QArith List Bool Arith Lia.
From Verif Require Import Outcome MonomModel MonomSpec PyMonomModel PyMonomSpec PyDiffModel PyDiffSpec PyDiffExamples PyGenModel PyGenSpec PyGenTop PyGenExamples.
Import ListNotations.
Local Open Scope Z_scope.

(** p.NFhead(pset) ends without exception.  Wherever the polynomials of pset are 0, in every module and on every grid, the
    result is a non-zero coefficient times p; it is 0 or pset has no reducer for its leading monomial. *)
Theorem C72_head : forall (C : coefs), good_coefs C -> forall (o : py_order) (n : nat) (k : Z) G find, sp_good_find C o n k G find ->
  forall p, sp_canonical C o n k p ->
  exists N r c, (forall fuel, (N <= fuel)%nat -> sp_nfhead C fuel o find p = Ok r) /\ sp_canonical C o n k r /\ c <> c_zero C /\
    same_modulo C G c p r /\ same_on_grid C n G c p r /\ (r = [] \/ exists m d l, r = (m, d) :: l /\ find m = Ok None).
Proof. exact head_top. Qed.
Print Assumptions C72_head.

(** p.NFtail(pset), p not 0: the same; the leading monomial stays and pset has no reducer for the others. *)
Theorem C72_tail : forall (C : coefs), good_coefs C -> forall (o : py_order) (n : nat) (k : Z) G find, sp_good_find C o n k G find ->
  forall m c p, sp_canonical C o n k ((m, c) :: p) ->
  exists N d r a, (forall fuel, (N <= fuel)%nat -> sp_nftail C fuel o find ((m, c) :: p) = Ok ((m, d) :: r)) /\
    sp_canonical C o n k ((m, d) :: r) /\ a <> c_zero C /\ same_modulo C G a ((m, c) :: p) ((m, d) :: r) /\ same_on_grid C n G a ((m, c) :: p) ((m, d) :: r) /\
    Forall (fun x => find (fst x) = Ok None) r.
Proof. exact tail_top. Qed.
Print Assumptions C72_tail.

(** p.NF(pset), with coefficients that can be divided: the result equals p modulo pset, and pset has no reducer for any of
    its monomials. *)
Theorem C72_nf : forall (C : coefs), good_coefs C -> forall (o : py_order) (n : nat) (k : Z) G find, sp_good_find C o n k G find ->
  forall p, good_quo C -> sp_canonical C o n k p ->
  exists N r, (forall fuel, (N <= fuel)%nat -> sp_nf C fuel o find p = Ok r) /\ sp_canonical C o n k r /\
    same_modulo C G (c_one C) p r /\ same_on_grid C n G (c_one C) p r /\ Forall (fun x => find (fst x) = Ok None) r.
Proof. exact nf_top. Qed.
Print Assumptions C72_nf.

(** A single polynomial can serve as pset if its leading term has an unknown function or there are no such functions. *)
Theorem C72_single : forall C (o : py_order) (n : nat) (k : Z) u d q, sp_canonical C o n k ((u, d) :: q) -> 0 <= pos u \/ k <= 0 ->
  sp_good_find C o n k (fun p => p = (u, d) :: q) (dp_find C ((u, d) :: q)).
Proof. exact single_top. Qed.
Print Assumptions C72_single.

(** The Fibonacci scheme T(u, x, 2) - T(u, x) - T(u): T(u, x, 4) reduces to 3 T(u, x) + 2 T(u).  Modulo 2 T(u, x, 2) - T(u) over
    the rational numbers, T(u, x, 5) + T(u, x) is 5/4 T(u, x).  Modulo x y^2 + 4 x the head of x^3 y^3 is -4 x^3 y. *)
Example C72_example : good_coefs Zi /\ sp_canonical Zi TOPdeglex 1 1 fib /\
  sp_nfhead Zi 20 TOPdeglex (dp_find Zi fib) [ft 4 1] = Ok [ft 1 3; ft 0 2] /\
  good_coefs Rat /\ good_quo Rat /\ sp_canonical Rat TOPdeglex 1 1 half /\
  sp_nf Rat 20 TOPdeglex (dp_find Rat half) [rf 5 1; rf 1 1] = Ok [rf 1 (5 # 4)] /\
  sp_canonical Zi TOPdeglex 2 0 gq /\ sp_nfhead Zi 20 TOPdeglex (dp_find Zi gq) [zt 3 3 1] = Ok [zt 3 1 (-4)] /\
  sp_nftail Zi 20 TOPdeglex (dp_find Zi gq) [zt 3 3 1; zt 1 3 2] = Ok [zt 3 3 1; zt 1 1 (-8)].
Proof.
  split; [exact Zi_good|]. split; [exact fib_canonical|]. split; [vm_compute; reflexivity|]. split; [exact Rat_good|]. split; [exact Rat_quo|].
  split; [exact half_canonical|]. split; [vm_compute; reflexivity|]. split; [exact gq_canonical|]. split; vm_compute; reflexivity.
Qed.
