(** The divisors the forest of GB is meant to hold. *)
From Coq Require Import List Arith Bool ZArith.
From Verif Require Import Outcome MonomModel MonomSpec JanetSpec.
Import ListNotations.

(** A stored monomial and its ansector; its level is the degree of the ansector. *)
Definition entry : Type := (monom * monom)%type.
Definition lead (e : entry) : list nat := vars (fst e).
Definition level (e : entry) : nat := total (vars (snd e)).
(** the monomials of one level *)
Definition at_level (d : nat) (h : list entry) : list (list nat) := map lead (filter (fun e => Nat.eqb (level e) d) h).
(** Variable v is forbidden for [e] by what was stored [before]: an entry of lower level is larger in v and not larger
    in the variables before v. *)
Definition forbidden (before : list entry) (e : entry) (v : nat) : Prop :=
  exists b, In b before /\ level b < level e /\ expo (lead e) v < expo (lead b) v /\
    forall k, k < v -> expo (lead b) k <= expo (lead e) k.
(** [e], stored in the course of the history [h], is a divisor of [m]: a Janet divisor among the monomials of its level,
    with no forbidden variable in the quotient. *)
Definition forest_divides (n : nat) (h : list entry) (e : entry) (m : list nat) : Prop :=
  exists before after, h = before ++ e :: after /\ janet_divides n (at_level (level e) h) (lead e) m /\
    forall v, v < n -> expo (lead e) v < expo m v -> ~ forbidden before e v.
(** A history: monomials in n variables; no monomial twice on the same level; the degrees of ansectors fit. *)
Definition history (n : nat) (h : list entry) : Prop :=
  Forall (fun e => length (lead e) = n /\ (Z.of_nat (level e) * 13 <= INT_MAX)%Z) h /\
  forall d, NoDup (at_level d h).
