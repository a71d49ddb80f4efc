(** Janet division, stated for plain sets (lists) of exponent vectors. *)
From Coq Require Import List Arith.
From Verif Require Import MonomSpec.
Import ListNotations.

(** Variable i is Janet non-multiplicative for u in the set U. *)
Definition janet_nm (U : list (list nat)) (u : list nat) (i : nat) : Prop :=
  exists w, In w U /\ (forall j, j < i -> expo w j = expo u j) /\ expo u i < expo w i.

(** u divides m (n variables). *)
Definition divides (n : nat) (u m : list nat) : Prop := forall i, i < n -> expo u i <= expo m i.

(** u, an element of U, is a Janet divisor of m: m = u * v where v has only multiplicative variables. *)
Definition janet_divides (n : nat) (U : list (list nat)) (u m : list nat) : Prop :=
  In u U /\ divides n u m /\ forall i, i < n -> expo u i < expo m i -> ~ janet_nm U u i.

(** m lies in the monomial ideal generated by F. *)
Definition in_ideal (n : nat) (F : list (list nat)) (m : list nat) : Prop :=
  exists u, In u F /\ divides n u m.

(** U is a Janet basis (involutive basis for Janet division) of the monomial ideal generated by F:
    U lies in the ideal, and every monomial of the ideal has a Janet divisor in U. *)
Definition janet_basis (n : nat) (F U : list (list nat)) : Prop :=
  (forall u, In u U -> in_ideal n F u) /\
  (forall m, length m = n -> in_ideal n F m -> exists u, janet_divides n U u m).
