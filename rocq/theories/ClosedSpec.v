(** Classes of polynomials that completion cannot leave, and congruences of monomials. *)
From Coq Require Import ZArith List Bool Arith.
From Verif Require Import Outcome MonomModel MonomSpec PolyModel PolySpec JanetSpec JanetPolyModel JanetPolySpec.
Import ListNotations.
Local Open Scope Z_scope.

(** The terms of a polynomial of the ring, and its leading monomial. *)
Definition ring_terms (t : pos_order) (o : base_order) (n : nat) (l : list (monom * Z)) : Prop := canonical t o n l /\ ring_poly l.
Definition leads (l : list (monom * Z)) (v : list nat) : Prop := exists c l', l = (Mon (-1) v, c) :: l'.

(** D is kept by the elimination of a term: f in D contains x^u x^v, a in P has the leading monomial x^v,
    and r is the combination of f and x^u a that does not contain x^u x^v. *)
Definition kept_by_elimination (t : pos_order) (o : base_order) (n : nat) (P D : list (monom * Z) -> Prop) : Prop :=
  forall f a r u v k1 k2, ring_terms t o n f -> ring_terms t o n a -> ring_terms t o n r -> D f -> P a ->
    leads a v -> length u = n -> coef f (Mon (-1) (vsum u v)) <> 0 -> k1 <> 0 ->
    (forall w, coef r w = k1 * coef f w + k2 * coef (shift u a) w) -> coef r (Mon (-1) (vsum u v)) = 0 -> D r.
(** ... by factors ... *)
Definition kept_by_factors (t : pos_order) (o : base_order) (n : nat) (D : list (monom * Z) -> Prop) : Prop :=
  forall f r k l, ring_terms t o n f -> ring_terms t o n r -> D f -> k <> 0 -> l <> 0 -> (forall w, k * coef r w = l * coef f w) -> D r.
(** ... and by prolongation: x_i g, where some h in P has a leading monomial of higher degree in x_i. *)
Definition kept_by_prolongation (t : pos_order) (o : base_order) (n : nat) (P : list (monom * Z) -> Prop) : Prop :=
  forall g h x v w i u, ring_terms t o n g -> ring_terms t o n h -> ring_terms t o n x -> P g -> P h -> leads g v -> leads h w ->
    (i < n)%nat -> (expo v i < expo w i)%nat -> is_variable n i u -> (forall m, coef x m = coef (shift u g) m) -> P x.

Definition closed_class (t : pos_order) (o : base_order) (n : nat) (P : list (monom * Z) -> Prop) : Prop :=
  kept_by_elimination t o n P P /\ kept_by_factors t o n P /\ kept_by_prolongation t o n P /\ P [(Mon (-1) (repeat 0%nat n), 1)].

(** A congruence of monomials: an equivalence that multiplication respects. *)
Definition congruence (n : nat) (R : list nat -> list nat -> Prop) : Prop :=
  (forall u, R u u) /\ (forall u v, R u v -> R v u) /\ (forall u v w, R u v -> R v w -> R u w) /\
  forall u v w, length u = n -> length v = n -> length w = n -> R v w -> R (vsum u v) (vsum u w).
(** All monomials of l are congruent (to u). *)
Definition homogeneous (R : list nat -> list nat -> Prop) (l : list (monom * Z)) : Prop :=
  forall m m', In m (map fst l) -> In m' (map fst l) -> R (vars m) (vars m').
Definition all_in_class (R : list nat -> list nat -> Prop) (u : list nat) (l : list (monom * Z)) : Prop :=
  forall m, In m (map fst l) -> R (vars m) u.

(** Degrees with any integer weights of the variables, modulo q (q = 0: not modulo anything). *)
Definition weight (W : list Z) (u : list nat) : Z := fold_right Z.add 0 (map (fun p => fst p * Z.of_nat (snd p)) (combine W u)).
Definition same_weight (W : list Z) (q : Z) (u v : list nat) : Prop := (q | weight W u - weight W v).

(** The congruence that the pairs of monomials in E generate: the word problem of the commutative
    semigroup with these relations. *)
Inductive generated (n : nat) (E : list (list nat * list nat)) : list nat -> list nat -> Prop :=
| gen_rel w u v : In (u, v) E -> length w = n -> generated n E (vsum w u) (vsum w v)
| gen_refl u : generated n E u u
| gen_sym u v : generated n E u v -> generated n E v u
| gen_trans u v w : generated n E u v -> generated n E v w -> generated n E u w.

(** f is, up to the order of its terms, x^u - x^v. *)
Definition difference_of (n : nat) (f : poly) (e : list nat * list nat) : Prop :=
  length (fst e) = n /\ length (snd e) = n /\
  forall m, coef (terms f) m = coef [(Mon (-1) (fst e), 1)] m - coef [(Mon (-1) (snd e), 1)] m.

(** Only variables whose number satisfies V occur. *)
Definition only_variables (V : nat -> Prop) (l : list (monom * Z)) : Prop :=
  forall m i, In m (map fst l) -> (0 < expo (vars m) i)%nat -> V i.
