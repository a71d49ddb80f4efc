(** Vocabulary for the Hilbert polynomials of pyginv. *)
From Coq Require Import List Arith.
From Verif Require Import MonomSpec JanetSpec.
Import ListNotations.

(** [k]: the number of monomials of degree at most s that have no Janet divisor in U *)
Definition janet_free (n : nat) (U : list (list nat)) (s k : nat) : Prop :=
  exists L : list (list nat), NoDup L /\ length L = k /\
    forall m, In m L <-> length m = n /\ total m <= s /\ ~ exists u, janet_divides n U u m.
