(** Properties C31 - C33 (util/rbtree.h). *)
From Coq Require Import ZArith List Bool Arith.
From Verif Require Import Outcome RBModel RBSpec RBTop RBExamples.
Import ListNotations.

(** Every program over any number of trees and one iterator that keeps to the contract runs without a failing
    assert or an access to a freed node, and gives the answers that sets of keys give; the nodes in use are as many as the keys. *)
Theorem C31_ordered_set : forall (T : Type) (compare : T -> T -> Z) (dbg : bool) (os : list (op T)) (ss : sstate) (xs : list (obs T)),
  key_order compare -> sp_run compare sp_start os = Some (ss, xs) ->
  exists s, run compare dbg start os = Ok (s, xs) /\ used (shp s) = length (concat (sets ss)).
Proof. exact (fun T compare dbg os ss xs Hko => @c31_run T compare Hko dbg os ss xs). Qed.
Print Assumptions C31_ordered_set.

(** Reading from minimum() by ++ gives all keys, in increasing order. *)
Theorem C31_iteration : forall (T : Type) (compare : T -> T -> Z) (dbg : bool) (os : list (op T)) (ss : sstate) (xs : list (obs T)) (t : nat) (l : list T),
  key_order compare -> sp_run compare sp_start os = Some (ss, xs) -> nth_error (sets ss) t = Some l ->
  increasing compare l /\ exists s, run compare dbg start (os ++ read_all t l) = Ok (s, xs ++ all_read l).
Proof. exact (fun T compare dbg os ss xs t l Hko => @c31_iterate T compare Hko dbg os ss xs t l). Qed.
Print Assumptions C31_iteration.

(** The operations of the specification are those of sets. *)
Theorem C31_sets : forall (T : Type) (compare : T -> T -> Z) (k : T) (l : list T), key_order compare -> increasing compare l ->
  (mem compare k l = true <-> In k l) /\
  (forall x, In x (add compare k l) <-> x = k \/ In x l) /\ (forall x, In x (del compare k l) <-> x <> k /\ In x l) /\
  match above compare k l with
  | Some m => In m l /\ (compare k m < 0)%Z /\ forall x, In x l -> (compare k x < 0)%Z -> m = x \/ (compare m x < 0)%Z
  | None => forall x, In x l -> ~ (compare k x < 0)%Z end /\
  match beneath compare k l with
  | Some m => In m l /\ (compare m k < 0)%Z /\ forall x, In x l -> (compare x k < 0)%Z -> m = x \/ (compare x m < 0)%Z
  | None => forall x, In x l -> ~ (compare x k < 0)%Z end.
Proof. exact (fun T compare k l Hko => @c31_spec T compare Hko k l). Qed.
Print Assumptions C31_sets.

(** The contract leaves out one thing a user may expect: removing a key can free the node an iterator to the
    next key refers to, although that key stays in the tree. *)
Theorem C31_next_key_iterator_dangles :
  (exists s, run zcmp false start [New; Insert 0 2; Insert 0 1; Insert 0 3; Find 0 3; Remove 0 2; Length 0; MaxKey 0]%Z =
             Ok (s, [ONone; ONone; ONone; ONone; ONone; ONone; OLen 2; OKey 3%Z])) /\
  run zcmp false start [New; Insert 0 2; Insert 0 1; Insert 0 3; Find 0 3; Remove 0 2; Key]%Z = Undef.
Proof. split; [eexists|]; vm_compute; reflexivity. Qed.
Print Assumptions C31_next_key_iterator_dangles.

(** ... and a second: inserting a key that is present fails an assert in a debug build; a release build keeps the key twice. *)
Theorem C31_present_key_kept_twice :
  run zcmp true start [New; Insert 0 5; Insert 0 5]%Z = AssertFail /\
  exists s, run zcmp false start [New; Insert 0 5; Insert 0 5; Length 0; Remove 0 5; Length 0; MaxKey 0]%Z =
            Ok (s, [ONone; ONone; ONone; OLen 2; ONone; OLen 1; OKey 5%Z]).
Proof. split; [|eexists]; vm_compute; reflexivity. Qed.
Print Assumptions C31_present_key_kept_twice.

Example C31_ex : key_order zcmp /\ (exists ss, sp_run zcmp sp_start prog = Some (ss, answers) /\ sets ss = [[2; 3; 4; 6; 7; 8; 9]; []; [1; 2; 3; 4; 7; 8; 9]]%Z) /\
  (exists s, run zcmp true start prog = Ok (s, answers)) /\ above zcmp 5%Z [2; 3; 6; 7]%Z = Some 6%Z.
Proof. split; [exact zcmp_order|]. split; [eexists; split; vm_compute; reflexivity|]. split; [eexists|]; vm_compute; reflexivity. Qed.

(** Along every walk from the root to a null link: the root is black, no two reds follow each other, the number of
    blacks is always the same; so at most 2 log2 (n + 1) nodes are met. *)
Theorem C32_balanced : forall (T : Type) (compare : T -> T -> Z) (dbg : bool) (os : list (op T)) (ss : sstate) (xs ys : list (obs T)) (s : state T),
  key_order compare -> sp_run compare sp_start os = Some (ss, xs) -> run compare dbg start os = Ok (s, ys) ->
  forall t, In t (strees s) -> balanced (shp s) (mRoot t) /\
    forall cs, walk (shp s) (mRoot t) cs -> length cs <= 2 * Nat.log2 (mCount t + 1).
Proof. exact (fun T compare dbg os ss xs ys s Hko => @c32 T compare Hko dbg os ss xs s ys). Qed.
Print Assumptions C32_balanced.

Example C32_ex : exists s t cs, run zcmp true start prog = Ok (s, answers) /\ In t (strees s) /\ walk (shp s) (mRoot t) cs /\ cs = [false; true; false] /\ mCount t = 7.
Proof.
  eexists _, _, [false; true; false]. split; [vm_compute; reflexivity|]. split; [left; reflexivity|].
  split; [|split; reflexivity].
  eapply (walk_left _ _ (Node _ false _ _ _)); [vm_compute; reflexivity|].
  eapply (walk_left _ _ (Node _ true _ _ _)); [vm_compute; reflexivity|].
  eapply (walk_left _ _ (Node _ false _ _ _)); [vm_compute; reflexivity|]. constructor.
Qed.

(** Copy construction, from every source tree *)
Theorem C33_copy : forall (T : Type) (compare : T -> T -> Z) (dbg : bool) (os : list (op T)) (ss : sstate) (xs : list (obs T)) (a : nat) (l : list T),
  key_order compare -> sp_run compare sp_start os = Some (ss, xs) -> nth_error (sets ss) a = Some l ->
  exists s s' src new, run compare dbg start os = Ok (s, xs) /\ step compare dbg s (Copy a) = Ok (s', ONone) /\
    nth_error (strees s) a = Some src /\ strees s' = strees s ++ [new] /\ mCount new = length l /\
    same_shape (shp s) (shp s') (mRoot src) (mRoot new) /\ same_shape (shp s) (shp s') (mRoot src) (mRoot src).
Proof. exact (fun T compare dbg os ss xs a l Hko => @c33_copy T compare Hko dbg os ss xs a l). Qed.
Print Assumptions C33_copy.

(** Assignment, from every non-empty source *)
Theorem C33_assign_partial : forall (T : Type) (compare : T -> T -> Z) (dbg : bool) (os : list (op T)) (ss : sstate) (xs : list (obs T)) (i a : nat) (l m : list T),
  key_order compare -> sp_run compare sp_start os = Some (ss, xs) ->
  nth_error (sets ss) i = Some m -> nth_error (sets ss) a = Some l -> i <> a -> l <> [] ->
  exists s s' src new, run compare dbg start os = Ok (s, xs) /\ step compare dbg s (Assign i a) = Ok (s', ONone) /\
    nth_error (strees s) a = Some src /\ nth_error (strees s') i = Some new /\ mCount new = length l /\
    same_shape (shp s) (shp s') (mRoot src) (mRoot new) /\ same_shape (shp s) (shp s') (mRoot src) (mRoot src).
Proof. exact (fun T compare dbg os ss xs i a l m Hko => @c33_assign T compare Hko dbg os ss xs i a l m). Qed.
Print Assumptions C33_assign_partial.

(** Assignment of an empty tree dereferences a null pointer. *)
Theorem C33_assign_empty_refuted : exists (os : list (op Z)) (ss : sstate) (xs : list (obs Z)),
  sp_run zcmp sp_start os = Some (ss, xs) /\ sets ss = [[7%Z]; []] /\
  run zcmp false start (os ++ [Assign 0 1]) = Undef /\ run zcmp true start (os ++ [Assign 0 1]) = AssertFail.
Proof. exists [New; Insert 0 7%Z; New]. do 2 eexists. repeat split; vm_compute; reflexivity. Qed.
Print Assumptions C33_assign_empty_refuted.
Theorem C33_assign_empty_always_fails : forall (T : Type) (compare : T -> T -> Z) (dbg : bool) (s : state T) (i a : nat) (t src : tree),
  i <> a -> nth_error (strees s) i = Some t -> nth_error (strees s) a = Some src -> mRoot src = None ->
  forall r, step compare dbg s (Assign i a) <> Ok r.
Proof. exact @c33_assign_empty. Qed.
Print Assumptions C33_assign_empty_always_fails.

Example C33_ex : exists ss, sp_run zcmp sp_start prog = Some (ss, answers) /\ nth_error (sets ss) 0 = Some [2; 3; 4; 6; 7; 8; 9]%Z /\
  nth_error (sets ss) 1 = Some [] /\ 1 <> 0.
Proof. eexists. split; [vm_compute; reflexivity|]. split; [reflexivity|]. split; [reflexivity|discriminate]. Qed.
