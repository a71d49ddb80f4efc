(** C104: what a debug build computes without a failed assertion, a release build computes as well: programs over trees and lists. *)
From Coq Require Import ZArith List Bool Arith.
From Verif Require Import Outcome RBModel ListModel DebugProofs DebugRB DebugList.
Import ListNotations.

(** Programs over red-black trees: the same states and the same answers *)
Theorem C104_rbtree : forall (T : Type) (compare : T -> T -> Z) (program : list (@RBModel.op T)) (s : @RBModel.state T) r,
  RBModel.run compare true s program = Ok r -> RBModel.run compare false s program = Ok r.
Proof. intros T compare program s. exact (d_rb_run compare program s). Qed.
Print Assumptions C104_rbtree.
Theorem C104_list : forall (T : Type) (program : list (@ListModel.op T)) (s : @ListModel.state T) r,
  lrun true s program = Ok r -> lrun false s program = Ok r.
Proof. intros T program s. exact (d_lrun program s). Qed.
Print Assumptions C104_list.

Example C104_rbtree_case : exists s, RBModel.run Z.sub true RBModel.start
  [RBModel.New; RBModel.Insert 0 3%Z; RBModel.Insert 0 5%Z; RBModel.Insert 0 4%Z; RBModel.Remove 0 3%Z; RBModel.MinKey 0]
  = Ok (s, [RBModel.ONone; RBModel.ONone; RBModel.ONone; RBModel.ONone; RBModel.ONone; RBModel.OKey 4%Z]).
Proof. eexists. vm_compute. reflexivity. Qed.
Example C104_list_case : exists s, lrun true lstart [New; Push 0 7%Z; Push 0 8%Z; New; Assign 1 0; Pop 1] = Ok (s, [ONone; ONone; ONone; ONone; ONone; OData 8%Z]).
Proof. eexists. vm_compute. reflexivity. Qed.
