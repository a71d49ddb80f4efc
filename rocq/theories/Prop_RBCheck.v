(** Property C98: the check of a tree that debug builds make after every operation (util/rbtree.h assertValid). *)
From Coq Require Import ZArith List Bool Arith.
From Verif Require Import Outcome RBModel RBSpec RBTop RBHeapProofs RBCheckSpec RBCheckProofs RBExamples RBCheckExamples.
Import ListNotations.

(** On any tree in memory (a finite tree of allocated nodes with right parent pointers), whatever its keys,
    colours and count: the check returns, and says true exactly if the count is 0 just for the empty tree, the root is not
    red, the colours are those of a red-black tree, and every key is in order with those of its children. *)
Theorem C98_check : forall (T : Type) (compare : T -> T -> Z) (h : heap T) (t : tree) (tt : @tr T), rep (St h (mRoot t)) tt ->
  exists b, assertValid compare h t = Ok b /\
    (b = true <-> (mCount t = 0 <-> tt = E) /\ isred tt = false /\ (exists n, coloured tt n) /\ near_ordered compare tt).
Proof. exact @c98_check. Qed.
Print Assumptions C98_check.
Example C98_ex : rep (St rc_h (Some 0)) rc_t /\ assertValid zcmp rc_h2 (Tree (Some 0) 3) = Ok false /\ assertValid zcmp rc_h3 (Tree (Some 0) 2) = Ok false.
Proof. exact (conj rc_rep rc_found). Qed.

(** It is too weak: it accepts a tree with the keys 5, 15, 10, 20 in this order, in which 15 is not found ... *)
Theorem C98_order_refuted : exists (h : heap Z) (t : tree) (tt : @tr Z), rep (St h (mRoot t)) tt /\ assertValid zcmp h t = Ok true /\
  mCount t = length (ents tt) /\ map snd (ents tt) = [5; 15; 10; 20]%Z /\ findNode zcmp (St h (mRoot t)) 15%Z = Ok None.
Proof. exists rc_h, (Tree (Some 0) 4), rc_t. split; [exact rc_rep|]. destruct rc_order as (A & B & C). repeat split; assumption. Qed.
Print Assumptions C98_order_refuted.
(** ... and a tree of four nodes with length() 1. *)
Theorem C98_count_refuted : exists (h : heap Z) (t : tree) (tt : @tr Z), rep (St h (mRoot t)) tt /\ assertValid zcmp h t = Ok true /\
  mCount t = 1 /\ length (ents tt) = 4.
Proof. exists rc_h, (Tree (Some 0) 1), rc_t. split; [exact rc_rep|]. split; [exact rc_count|]. split; reflexivity. Qed.
Print Assumptions C98_count_refuted.
