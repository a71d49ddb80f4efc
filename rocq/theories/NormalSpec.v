(** What a normal form should be: the one irreducible primitive representative, up to the sign, of the
    polynomials that differ by combinations of multiplicative multiples of the basis. *)
From Coq Require Import ZArith List Bool Arith.
From Verif Require Import Outcome MonomModel MonomSpec PolyModel PolySpec JanetSpec JanetPolyModel JanetPolySpec.
Import ListNotations.
Local Open Scope Z_scope.

(** Integer combinations of the elements of B, each multiplied only by variables that are multiplicative
    for it (Janet division). *)
Inductive inv_span (n : nat) (B : list poly) : list (monom * Z) -> Prop :=
| span_zero p : (forall m, coef p m = 0) -> inv_span n B p
| span_add p q u g c : inv_span n B q -> In g B -> length u = n ->
    (forall i, (i < n)%nat -> (0 < expo u i)%nat -> ~ janet_nm (map lead B) (lead g) i) ->
    (forall m, coef p m = coef q m + c * coef (shift u (terms g)) m) -> inv_span n B p.

(** No term of r has a Janet divisor among the leading monomials of B. *)
Definition irreducible (n : nat) (B : list poly) (r : list (monom * Z)) : Prop :=
  forall m c, In (m, c) r -> forall u, ~ janet_divides n (map lead B) u (vars m).

(** Up to non-zero factors a and b differ by an element of the span. *)
Definition same_class (n : nat) (B : list poly) (a b : list (monom * Z)) : Prop :=
  exists k l q, k <> 0 /\ l <> 0 /\ inv_span n B q /\ forall m, k * coef a m = l * coef b m + coef q m.

(** Up to non-zero factors a and b differ by an element of the ideal of F over the rationals. *)
Definition same_mod_ideal (n : nat) (F : list poly) (a b : list (monom * Z)) : Prop :=
  exists k l q, k <> 0 /\ l <> 0 /\ rational_member n (among F) q /\ forall m, k * coef a m = l * coef b m + coef q m.

(** F1 and F2 generate the same ideal. *)
Definition same_ideal (n : nat) (F1 F2 : list poly) : Prop :=
  (forall f, In f F1 -> rational_member n (among F2) (terms f)) /\ (forall f, In f F2 -> rational_member n (among F1) (terms f)).

(** Equal up to the sign. *)
Definition plus_minus (r s : list (monom * Z)) : Prop := r = s \/ r = map (fun x => (fst x, - snd x)) s.
