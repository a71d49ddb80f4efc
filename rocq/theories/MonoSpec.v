(** Systems in which every polynomial is a constant times a monomial. *)
From Coq Require Import ZArith List Arith.
From Verif Require Import MonomModel MonomSpec PolyModel PolySpec JanetSpec JanetPolySpec.
Import ListNotations.

(** A polynomial with at most one term. *)
Definition single (p : poly) : Prop := (length (terms p) <= 1)%nat.

(** u is a multiple of the monomial of one of the non-zero polynomials, and no exponent of u is above all of theirs. *)
Definition bounded_multiple (n : nat) (F : list poly) (u : list nat) : Prop :=
  (exists f, In f F /\ terms f <> [] /\ divides n (lead f) u) /\
  forall i, (i < n)%nat -> exists f, In f F /\ terms f <> [] /\ (expo u i <= expo (lead f) i)%nat.

(** f is non-zero and no other monomial of the system divides its monomial. *)
Definition minimal (n : nat) (F : list poly) (f : poly) : Prop :=
  In f F /\ terms f <> [] /\ forall f', In f' F -> terms f' <> [] -> divides n (lead f') (lead f) -> lead f' = lead f.

(** Every monomial of p is a multiple of the leading monomial of an element of G. *)
Definition monomials_divisible (n : nat) (G : list poly) (p : list (monom * Z)) : Prop :=
  forall m, coef p m <> 0%Z -> exists g, In g G /\ terms g <> [] /\ divides n (lead g) (vars m).
