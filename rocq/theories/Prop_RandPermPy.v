(** Property C08, the Python class randpermutation. *)
From Coq Require Import ZArith List Bool Arith Lia Permutation.
From Verif Require Import Outcome RandPermModel RandPermPyModel RandPermPyProofs.
Import ListNotations.

(** [p[k] for k in range(len(p))] lists the permutation, reversed(p) lists it backwards; p[k] with any other k, also a
    negative one, fails an assertion. *)
Theorem C08_python_items : forall (dbg : bool) (p : list nat),
  py_items dbg p (seq 0 (py_len p)) = Ok p /\ py_reversed dbg p = Ok (rev p) /\
  forall k, (k < 0 \/ Z.of_nat (length p) <= k)%Z -> py_item dbg p k = AssertFail.
Proof. intros dbg p. split; [exact (items_ok dbg p)|]. split; [exact (reversed_ok dbg p)|exact (item_out dbg p)]. Qed.
Print Assumptions C08_python_items.

(** But no permutation can be iterated over: list(p) and for end with an AssertionError after the last entry. *)
Theorem C08_python_list_refuted : forall (dbg : bool) (p : list nat) (fuel : nat), length p < fuel -> py_iterate fuel dbg p 0 = AssertFail.
Proof. intros dbg p fuel F. exact (iterate_fails dbg p (length p) 0 fuel (Nat.add_0_r _) F). Qed.
Print Assumptions C08_python_list_refuted.

(** x in p is true for 0, ..., n - 1 and an AssertionError, never False, for other numbers. *)
Theorem C08_python_in_refuted : forall (dbg : bool) (n : nat) (p : list nat) (x fuel : nat), Permutation (seq 0 n) p -> n < fuel ->
  py_search fuel dbg p x 0 = if x <? n then Ok true else AssertFail.
Proof. exact in_ok. Qed.
Print Assumptions C08_python_in_refuted.

Example C08_python_ex : Permutation (seq 0 3) [2; 0; 1] /\ py_reversed false [2; 0; 1] = Ok [1; 0; 2] /\ py_item false [2; 0; 1] 0 = Ok 2 /\
  py_iterate 9 false [2; 0; 1] 0 = AssertFail /\ py_search 9 false [2; 0; 1] 3 0 = AssertFail.
Proof.
  split; [|repeat split]. apply NoDup_Permutation; [apply seq_NoDup|repeat constructor; cbn; lia|]. intro x. rewrite in_seq. cbn. lia.
Qed.
