(** What the orders of pyginv/monomial.py should be. *)
From Coq Require Import ZArith List Bool Arith.
From Verif Require Import Outcome MonomModel MonomSpec PyMonomModel.
Import ListNotations.
Local Open Scope Z_scope.

(** Unknown functions u0 > u1 > u2 > ..., and every one of them is above the ring (position -1). *)
Definition pos_above (p q : Z) : Prop := p <> -1 /\ (q = -1 \/ p < q).

Definition py_greater (o : py_order) (a b : monom) : Prop :=
  match o with
  | POTlex => pos_above (pos a) (pos b) \/ (pos a = pos b /\ lex_gt (vars a) (vars b))
  | TOPlex => lex_gt (vars a) (vars b) \/ (vars a = vars b /\ pos_above (pos a) (pos b))
  | POTdeglex => pos_above (pos a) (pos b) \/ (pos a = pos b /\ degrevlex_gt (vars a) (vars b))
  | TOPdeglex => degrevlex_gt (vars a) (vars b) \/ (vars a = vars b /\ pos_above (pos a) (pos b))
  end.

(** A monomial of n variables and k unknown functions. *)
Definition pmono (n : nat) (k : Z) (m : monom) : Prop := mono n m /\ pos m < k.

(** The product of the variables listed in l. *)
Definition count (i : nat) (l : list nat) : nat := length (filter (Nat.eqb i) l).
