(** C86: ownership of the basis elements of JanetPolyInt. *)
From Coq Require Import ZArith List Bool Arith Permutation.
From Verif Require Import Outcome MonomModel JanetModel PolyModel JanetPolyModel TQModel OwnModel OwnSpec OwnProofs OwnExamples.
Import ListNotations.
Local Open Scope Z_scope.

(** In no history and for no polynomials is a deleted object looked at or deleted again: with addresses and the heap
    every call ends as the call without them does, with the same result, also if it is an abort. *)
Theorem C86_no_dangling : forall (dbg : bool) (s0 : heap) (K : ojp), good_heap s0 -> own_history dbg s0 K ->
  (forall a, forget_out (o_push dbg K a) = jp_push dbg (forget K) a) /\
  (forall fuel, forget_out (o_build fuel dbg K) = jp_build fuel dbg (forget K)) /\
  (forall one fuel, forget_out (o_tq one fuel dbg K) = jp_tq one fuel dbg (forget K)).
Proof. exact own_same. Qed.
Print Assumptions C86_no_dangling.

(** The objects alive are those reachable from the JanetPolyInt, each once, and those that were there before it; the
    trees point to the elements of mT. *)
Theorem C86_nothing_lost : forall (dbg : bool) (s0 : heap) (K : ojp), good_heap s0 -> own_history dbg s0 K ->
  Permutation (live (oheap K)) (owned K ++ live s0) /\ NoDup (live (oheap K)) /\ Permutation (otid K) (ids (ot K)).
Proof. exact own_live. Qed.
Print Assumptions C86_nothing_lost.

(** The destructor leaves what was there before the object was made. *)
Theorem C86_destructor : forall (dbg : bool) (s0 : heap) (K : ojp), good_heap s0 -> own_history dbg s0 K ->
  exists s, o_destroy K = Ok s /\ Permutation (live s) (live s0).
Proof. exact own_destroy. Qed.
Print Assumptions C86_destructor.

(** The same for algorithmTQ2, where elements of mT can be in no tree. *)
Theorem C86_tq2 : forall (dbg : bool) (s0 : heap) (K : ojp), good_heap s0 -> own_history dbg s0 K -> forall fuel : nat,
  forget2_out (o_tq2 fuel dbg K) = jp_tq2 fuel dbg (forget K) /\
  forall K2, o_tq2 fuel dbg K = Ok K2 ->
    Permutation (live (o2heap K2)) (owned2 K2 ++ live s0) /\ NoDup (live (o2heap K2)) /\
    Permutation (o2tid K2) (attached (o2t K2)) /\
    exists s, o2_destroy K2 = Ok s /\ Permutation (live s) (live s0).
Proof. exact own_tq2. Qed.
Print Assumptions C86_tq2.

Example C86_ex : good_heap ow_heap /\ own_history false ow_heap ow_K0 /\ ids (oq ow_K0) = [7; 5; 6]%nat /\
  show (o_build 30 false ow_K0) = Ok (None, [], [10; 12; 7; 13; 5; 8; 6]%nat, [13; 12; 10; 8; 6; 5; 7]%nat, [13; 12; 10; 8; 7; 6; 5; 3; 1]%nat, 15%nat) /\
  (exists w, show (o_tq true 30 false ow_K0) = Ok (Some (20%nat, w), [], [], [], [20; 3; 1]%nat, 21%nat)) /\
  (exists K s, o_build 30 false ow_K0 = Ok K /\ o_destroy K = Ok s /\ live s = [3; 1]%nat).
Proof. split; [exact ow_good|exact ow_ex]. Qed.

Example C86_ex2 : own_history false ow_heap ow_K1 /\
  show2 (o_tq2 30 false ow_K1) = Ok (None, [5; 7; 6]%nat, [6; 5]%nat, [7; 6; 5; 3; 1]%nat, 8%nat).
Proof. exact ow_ex2. Qed.
