(** Python objects that point into a basis: what is said about them. *)
From Coq Require Import ZArith List Bool Arith.
From Verif Require Import Outcome OwnModel CyViewModel.

(** b.isOne() and b.maxPos() *)
Definition v_isOne (S : vst) : bool := match oone (vobj S) with Some _ => true | None => false end.
Definition v_maxPos (S : vst) : Z := opos (vobj S).
