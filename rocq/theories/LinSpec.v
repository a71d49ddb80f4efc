(** Systems of linear equations with rational solutions. *)
From Coq Require Import ZArith QArith List Bool Arith.
From Verif Require Import MonomModel MonomSpec PolyModel PolySpec JanetPolySpec.
Import ListNotations.
Local Open Scope Q_scope.

(** Every monomial has degree at most 1. *)
Definition linear (p : poly) : Prop := forall m c, In (m, c) (terms p) -> (total (vars m) <= 1)%nat.

(** The value of a monomial and of a polynomial at the point x. *)
Definition power (b : Q) (k : nat) : Q := Nat.iter k (Qmult b) 1.
Fixpoint monomial_at (x : nat -> Q) (i : nat) (v : list nat) : Q :=
  match v with [] => 1 | k :: r => power (x i) k * monomial_at x (S i) r end.
Fixpoint value_at (x : nat -> Q) (p : list (monom * Z)) : Q :=
  match p with [] => 0 | (m, c) :: r => inject_Z c * monomial_at x 0 (vars m) + value_at x r end.

(** x is a common zero. *)
Definition solves (x : nat -> Q) (F : list poly) : Prop := forall f, In f F -> value_at x (terms f) == 0.

(** A non-zero constant is among the elements. *)
Definition has_constant (n : nat) (B : list poly) : Prop :=
  exists g c, In g B /\ c <> 0%Z /\ terms g = [(Mon (-1) (repeat 0%nat n), c)].

(** The variable x_i is the leading monomial of an element. *)
Definition determined (n : nat) (B : list poly) (i : nat) : Prop := exists g, In g B /\ is_variable n i (lead g).

(** x is the only common zero, on n variables, with the values of y for the variables that are not determined. *)
Definition the_solution (n : nat) (F B : list poly) (y x : nat -> Q) : Prop :=
  solves x F /\ (forall i, (i < n)%nat -> ~ determined n B i -> x i == y i) /\
  forall z, solves z F -> (forall i, (i < n)%nat -> ~ determined n B i -> z i == y i) -> forall i, (i < n)%nat -> z i == x i.
