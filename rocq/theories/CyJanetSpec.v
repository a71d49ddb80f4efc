(** Use of a janet_poly_int from Python. *)
From Coq Require Import ZArith List Bool Arith.
From Verif Require Import Outcome MonomModel MonomSpec PolyModel PolySpec JanetModel JanetSpec JanetPolyModel JanetPolySpec CyMonomModel CyJanetModel.
Import ListNotations.
Local Open Scope Z_scope.

(** What can happen to a new object j with polynomials over Z[x1..xn]: j.push(a) and j.build(), in any order; F are
    the polynomials pushed so far.  The other methods leave j as it is. *)
Inductive session (t : pos_order) (o : base_order) (n : nat) : list poly -> jpoly -> Prop :=
| s_new : session t o n [] jp_empty
| s_push F J a J' : session t o n F J -> ring_input t o n a -> cj_push false J (PObj (Some a)) = Ok (Ret J') -> session t o n (a :: F) J'
| s_build F J fuel J' : session t o n F J -> cj_build fuel false J = Ok (Ret J') -> session t o n F J'.

(** The polynomial belongs to the ring with this order. *)
Definition of_ring (t : pos_order) (o : base_order) (n : nat) (p : poly) : Prop := psize p = n /\ pto p = t /\ pbo p = o.
(** w is the element of the basis U (given by leading exponents) with the leading exponents u. *)
Definition describes (n : nat) (U : list (list nat)) (w : wpoly) (u : list nat) : Prop :=
  cw_lm w = Mon (-1) u /\ lead (cw_poly w) = u /\
  forall i, (i < n)%nat -> Z.of_nat i <= INT_MAX -> exists b, cw_NM false w (Z.of_nat i) = Ok (Ret b) /\ (b = true <-> janet_nm U u i).
