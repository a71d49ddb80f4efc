(** Ideals generated by one polynomial. *)
From Coq Require Import ZArith List Arith.
From Verif Require Import MonomModel MonomSpec PolyModel PolySpec.
Import ListNotations.
Local Open Scope Z_scope.

(** g and f are rational multiples of each other. *)
Definition prop_to (g f : poly) : Prop := exists a b, a <> 0 /\ b <> 0 /\ forall m, a * coef (terms g) m = b * coef (terms f) m.

(** f divides a over the rational numbers: a non-zero integer multiple of a is a product q * f. *)
Definition divides_over_Q (n : nat) (f a : poly) : Prop :=
  exists k q, k <> 0 /\ ring_poly q /\ Forall (fun x => length (vars (fst x)) = n) q /\
    forall m, k * coef (terms a) m = prod_coef q (terms f) m.

(** f divides k * a - l * b for suitable non-zero integers k and l. *)
Definition same_mod (n : nat) (f a b : poly) : Prop :=
  exists k l q, k <> 0 /\ l <> 0 /\ ring_poly q /\ Forall (fun x => length (vars (fst x)) = n) q /\
    forall m, k * coef (terms a) m - l * coef (terms b) m = prod_coef q (terms f) m.
