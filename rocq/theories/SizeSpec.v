(** The size of integers and polynomials in 64-bit words. *)
From Coq Require Import ZArith List Bool.
From Verif Require Import MonomModel PolyModel SizeModel.
Import ListNotations.
Local Open Scope Z_scope.

(** [c] without its sign is written with [k] words, none of them superfluous. *)
Definition words (c k : Z) : Prop := (c = 0 /\ k = 0) \/ (0 < k /\ 2 ^ (64 * (k - 1)) <= Z.abs c < 2 ^ (64 * k)).
(** ... for all coefficients together. *)
Inductive total_words : list (monom * Z) -> Z -> Prop :=
| total_nil : total_words [] 0
| total_cons m c l k s : words c k -> total_words l s -> total_words ((m, c) :: l) (k + s).

(** GMP can hold the number: its count of words is an int. *)
Definition holdable (c : Z) : Prop := Z.abs c < 2 ^ (64 * int_max).
