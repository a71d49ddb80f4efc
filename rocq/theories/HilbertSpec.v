(** Polynomials with rational coefficients, binomial polynomials, and the Hilbert function of a monomial ideal. *)
From Coq Require Import List Arith ZArith QArith.
From Verif Require Import MonomSpec JanetSpec.
Import ListNotations.

(** The value at x of the polynomial with coefficients c (constant term first). *)
Fixpoint peval (c : list Q) (x : Q) : Q := match c with [] => 0%Q | a :: r => (a + x * peval r x)%Q end.
(** x (x-1) ... (x-k+1) / k! *)
Fixpoint choose (x : Q) (k : nat) : Q :=
  match k with O => 1%Q | S k' => (choose x k' * ((x - inject_Z (Z.of_nat k')) / inject_Z (Z.of_nat (S k'))))%Q end.
(** a rational in lowest terms with positive denominator *)
Definition lowest_terms (q : Q) : Prop := Z.gcd (Qnum q) (Zpos (Qden q)) = 1%Z.
(** [k] is the number of monomials in n variables of degree at most s outside the ideal generated by F. *)
Definition hilbert_function (n : nat) (F : list (list nat)) (s k : nat) : Prop :=
  exists L : list (list nat), NoDup L /\ length L = k /\
    forall m, In m L <-> length m = n /\ (total m <= s)%nat /\ ~ in_ideal n F m.
