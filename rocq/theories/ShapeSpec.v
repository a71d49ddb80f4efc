(** What the elements of a basis look like: their order, their coefficients, their tails. *)
From Coq Require Import ZArith List Arith Sorted.
From Verif Require Import MonomModel MonomSpec PolyModel PolySpec JanetSpec JanetPolySpec.
Import ListNotations.

(** Every element has a larger leading monomial than the ones before it. *)
Definition ascending (o : base_order) (l : list poly) : Prop :=
  StronglySorted (fun p q => base_gt o (lead q) (lead p)) l.

(** The coefficients of each element have no common divisor. *)
Definition all_primitive (l : list poly) : Prop := forall g, In g l -> primitive (terms g).

(** No monomial of an element but the leading one has a Janet divisor among the leading monomials. *)
Definition tails_reduced (n : nat) (l : list poly) : Prop :=
  forall g m c u, In g l -> In (m, c) (tl (terms g)) -> ~ janet_divides n (map lead l) u (vars m).
