(** Examples for the ownership of WrapPolyInt objects. *)
From Coq Require Import ZArith List Bool Arith Permutation.
From Verif Require Import Outcome MonomModel JanetModel PolyModel PolySpec JanetPolyModel TQModel OwnModel OwnSpec OwnProofs JanetPolyExamples TQExamples.
Import ListNotations.
Local Open Scope Z_scope.

Fixpoint o_push_all (dbg : bool) (K : ojp) (l : list poly) : outcome ojp :=
  match l with
  | [] => Ok K
  | a :: l' => do K' <- o_push dbg K a; o_push_all dbg K' l'
  end.
Definition ow_heap : heap := Heap [3; 1]%nat 5.
Definition ow_run (fuel : nat) (l : list poly) : outcome ojp := do K <- o_push_all false (o_empty ow_heap) l; o_build fuel false K.
Definition ow_run1 (one : bool) (fuel : nat) (l : list poly) : outcome ojp := do K <- o_push_all false (o_empty ow_heap) l; o_tq one fuel false K.
Definition show (x : outcome ojp) := do K <- x; Ok (oone K, ids (oq K), ids (ot K), otid K, live (oheap K), next (oheap K)).
Definition show2 (x : outcome ojp2) := do K <- x; Ok (o2one K, ids (o2t K), o2tid K, live (o2heap K), next (o2heap K)).

Lemma ow_good : good_heap ow_heap.
Proof. split; [repeat constructor; cbn; intuition discriminate|repeat constructor]. Qed.
Lemma ow_push_history dbg s0 l : forall K K', own_history dbg s0 K -> o_push_all dbg K l = Ok K' -> own_history dbg s0 K'.
Proof.
  induction l as [|a l IH]; intros K K' H E; cbn [o_push_all] in E; [injection E as <-; exact H|].
  destruct (o_push dbg K a) as [K1| | | |] eqn:E1; cbn [bind] in E; try discriminate. eapply IH; [|exact E]. eapply oh_push; eassumption.
Qed.

Definition ow_K0 : ojp := match o_push_all false (o_empty ow_heap) [ex_f1; ex_f2; ex_f3] with Ok K => K | _ => o_empty ow_heap end.
Lemma ow_K0_history : own_history false ow_heap ow_K0.
Proof. apply (ow_push_history false ow_heap [ex_f1; ex_f2; ex_f3] (o_empty ow_heap)); [constructor|vm_compute; reflexivity]. Qed.

(** Ten objects are created and three deleted; with algorithmTQ1 all but the last are deleted. *)
Lemma ow_ex : own_history false ow_heap ow_K0 /\ ids (oq ow_K0) = [7; 5; 6]%nat /\
  show (o_build 30 false ow_K0) = Ok (None, [], [10; 12; 7; 13; 5; 8; 6]%nat, [13; 12; 10; 8; 6; 5; 7]%nat, [13; 12; 10; 8; 7; 6; 5; 3; 1]%nat, 15%nat) /\
  (exists w, show (o_tq true 30 false ow_K0) = Ok (Some (20%nat, w), [], [], [], [20; 3; 1]%nat, 21%nat)) /\
  (exists K s, o_build 30 false ow_K0 = Ok K /\ o_destroy K = Ok s /\ live s = [3; 1]%nat).
Proof.
  split; [exact ow_K0_history|]. split; [vm_compute; reflexivity|]. split; [vm_compute; reflexivity|]. split.
  - eexists. vm_compute. reflexivity.
  - destruct (o_build 30 false ow_K0) as [K| | | |] eqn:E; try (vm_compute in E; discriminate). exists K.
    assert (X : forall K', o_build 30 false ow_K0 = Ok K' -> exists s, o_destroy K' = Ok s /\ live s = [3; 1]%nat).
    { intros K'. vm_compute. intros [= <-]. eexists. split; reflexivity. }
    destruct (X K E) as (s & X1 & X2). exists s. auto.
Qed.

Definition ow_K1 : ojp := match o_push_all false (o_empty ow_heap) [t2_f1; t2_f2] with Ok K => K | _ => o_empty ow_heap end.
(** After algorithmTQ2 element 7 of mT is in no tree. *)
Lemma ow_ex2 : own_history false ow_heap ow_K1 /\
  show2 (o_tq2 30 false ow_K1) = Ok (None, [5; 7; 6]%nat, [6; 5]%nat, [7; 6; 5; 3; 1]%nat, 8%nat).
Proof.
  split; [apply (ow_push_history false ow_heap [t2_f1; t2_f2] (o_empty ow_heap)); [constructor|vm_compute; reflexivity]|].
  vm_compute. reflexivity.
Qed.
