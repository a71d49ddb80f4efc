From Coq Require Import ZArith List Bool Arith Lia.
From Verif Require Import Outcome RBModel RBSpec RBHeapProofs RBCheckSpec RBCheckProofs RBExamples.
Import ListNotations.

(** 10 with children 5 and 20 (all black), and a red 15 to the right of 5. *)
Definition rc_t : @tr Z := N 0 false (N 1 false E 5%Z (N 3 true E 15%Z E)) 10%Z (N 2 false E 20%Z E).
Definition rc_h : heap Z :=
  [Some (Node 10%Z false None (Some 1) (Some 2)); Some (Node 5%Z false (Some 0) None (Some 3));
   Some (Node 20%Z false (Some 0) None None); Some (Node 15%Z true (Some 1) None None)].
Lemma rc_rep : rep (St rc_h (Some 0)) rc_t.
Proof.
  split; [cbn; repeat split|]. split; [reflexivity|]. intro b. unfold cnt.
  destruct b as [|[|[|[|b]]]]; cbn; lia.
Qed.
Lemma rc_order : assertValid zcmp rc_h (Tree (Some 0) 4) = Ok true /\ map snd (ents rc_t) = [5; 15; 10; 20]%Z /\
  findNode zcmp (St rc_h (Some 0)) 15%Z = Ok None.
Proof. repeat split; vm_compute; reflexivity. Qed.
Lemma rc_count : assertValid zcmp rc_h (Tree (Some 0) 1) = Ok true.
Proof. vm_compute. reflexivity. Qed.
(** Two red nodes in a row, and unequal black heights, are found. *)
Definition rc_h2 : heap Z :=
  [Some (Node 10%Z false None (Some 1) None); Some (Node 5%Z true (Some 0) (Some 2) None); Some (Node 3%Z true (Some 1) None None)].
Definition rc_h3 : heap Z :=
  [Some (Node 10%Z false None (Some 1) None); Some (Node 5%Z false (Some 0) None None)].
Lemma rc_found : assertValid zcmp rc_h2 (Tree (Some 0) 3) = Ok false /\ assertValid zcmp rc_h3 (Tree (Some 0) 2) = Ok false.
Proof. split; vm_compute; reflexivity. Qed.
