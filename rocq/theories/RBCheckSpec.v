(** What the check of a tree (util/rbtree.h:623-650 assertValid) looks at. *)
From Coq Require Import ZArith List Bool Arith.
From Verif Require Import Outcome RBModel RBSpec RBHeapProofs.
Import ListNotations.

Section Check.
Context {T : Type}.
Variable compare : T -> T -> Z.

(** The key at the top of a tree *)
Definition top (t : @tr T) : option T := match t with E => None | N _ _ _ k _ => Some k end.
(** Every key is compared with those of its two children only. *)
Fixpoint near_ordered (t : @tr T) : Prop :=
  match t with
  | E => True
  | N _ _ l k r =>
      (forall y, top l = Some y -> (compare y k <= 0)%Z) /\ (forall y, top r = Some y -> (0 <= compare y k)%Z) /\
      near_ordered l /\ near_ordered r
  end.
(** No red node has a red child; every path down to a missing child has n black nodes. *)
Fixpoint coloured (t : @tr T) (n : nat) : Prop :=
  match t with
  | E => n = 0
  | N _ true l _ r => isred l = false /\ isred r = false /\ coloured l n /\ coloured r n
  | N _ false l _ r => exists m, n = S m /\ coloured l m /\ coloured r m
  end.
End Check.
