(** Monomials as they are written: at least one variable, and position -1 for "no position". *)
From Coq Require Import ZArith List.
From Verif Require Import MonomModel PolyModel.
Import ListNotations.
Local Open Scope Z_scope.

Definition good_monom (m : monom) : Prop := -1 <= pos m /\ vars m <> [].
Definition good_term (t : term) : Prop := good_monom (fst t).
