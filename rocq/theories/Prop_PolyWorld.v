(** C42 for programs with several polynomials and allocators. *)
From Coq Require Import ZArith List Bool Arith Permutation.
From Verif Require Import Outcome MonomModel PolyModel PolyMemModel PolyMemSpec PolyLifeModel PolyLifeSpec PolyWorldModel PolyWorldSpec PolyWorldProofs.
Import ListNotations.
Local Open Scope nat_scope.

(** Constructors, calls, swap, moves and destructors in any order: what was taken from an allocator has been
    given back to the same allocator, is held by a living object of that allocator, or was lost in a
    product by one term. *)
Theorem C42_allocators : forall (dbg : bool) (os : list obj) (T G L : nat -> nat), wrun dbg os T G L ->
  forall al : nat, T al = G al + held al os + L al.
Proof. exact c42_world. Qed.
Print Assumptions C42_allocators.

(** When all objects are destroyed every allocator has everything back but the lost terms. *)
Theorem C42_allocators_end : forall (dbg : bool) (T G L : nat -> nat), wrun dbg [] T G L ->
  forall al : nat, T al = G al + L al.
Proof. exact c42_world_end. Qed.
Print Assumptions C42_allocators_end.

(** An object without allocator (after a move) is empty: its destructor, which does nothing, loses nothing. *)
Theorem C42_moved_empty : forall (dbg : bool) (os : list obj) (T G L : nat -> nat) (x : obj), wrun dbg os T G L ->
  In x os -> oal x = None -> terms (oval x) = [].
Proof. exact c42_moved. Qed.
Print Assumptions C42_moved_empty.

(** x + 1 in allocator 0 is copied to allocator 1, swapped with the copy, and the copy destroyed, as in
    GCPolyInt::reallocate; then it is moved to a new object and all are destroyed. *)
Example C42_allocators_ex : exists T G L, wrun true [] T G L /\ T 0 = 2 /\ G 0 = 2 /\ T 1 = 2 /\ G 1 = 2 /\ L 0 = 0.
Proof.
  pose (xp1 := Poly TOP OLex 1 [(Mon (-1) [1], 1%Z); (Mon (-1) [0], 1%Z)]).
  assert (C : obj_new true (new_mem (terms xp1)) xp1) by (apply new_copy; reflexivity).
  pose proof (wr_start true) as R.
  eapply wr_step in R; [|exact (ws_new true 0 _ _ _ C)].
  eapply wr_step in R; [|exact (ws_new true 1 _ _ _ C)].
  eapply wr_step in R; [|apply ws_swap; apply Permutation_refl].
  eapply wr_step in R; [|apply ws_destroy; apply Permutation_refl].
  eapply wr_step in R; [|apply ws_steal; apply Permutation_refl].
  eapply wr_step in R; [|apply ws_destroy; apply perm_swap].
  eapply wr_step in R; [|apply ws_destroy; apply Permutation_refl].
  do 3 eexists. split; [exact R|]. repeat split.
Qed.
