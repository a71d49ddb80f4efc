(** C104: what a debug build computes without a failed assertion, a release build computes as well: stacks,
    integers and allocators. *)
From Coq Require Import ZArith List Bool Arith.
From Verif Require Import Outcome DebugMem.
From Verif Require UtilModel AllocModel GCModel PlainAllocModel.
Import ListNotations.
Local Open Scope Z_scope.

(** Programs over stacks *)
Theorem C104_stack : forall (T : Type) (program : list (@UtilModel.st_op T)) (s : UtilModel.stack T) r,
  UtilModel.st_run true s program = Ok r -> UtilModel.st_run false s program = Ok r.
Proof. intros T program s. exact (d_st_run program s). Qed.
Print Assumptions C104_stack.

(** Integers, with the limbs allocated for them *)
Theorem C104_integer_parse : forall (v : Z) r, UtilModel.i_parse true v = Ok r -> UtilModel.i_parse false v = Ok r.
Proof. exact d_i_parse. Qed.
Print Assumptions C104_integer_parse.
Theorem C104_integer_copy : forall a r, UtilModel.i_copy true a = Ok r -> UtilModel.i_copy false a = Ok r.
Proof. exact d_i_copy. Qed.
Print Assumptions C104_integer_copy.
Theorem C104_integer_add : forall x a r, UtilModel.i_add true x a = Ok r -> UtilModel.i_add false x a = Ok r.
Proof. exact d_i_add. Qed.
Print Assumptions C104_integer_add.
Theorem C104_integer_sub : forall x a r, UtilModel.i_sub true x a = Ok r -> UtilModel.i_sub false x a = Ok r.
Proof. exact d_i_sub. Qed.
Print Assumptions C104_integer_sub.
Theorem C104_integer_mult : forall x a r, UtilModel.i_mult true x a = Ok r -> UtilModel.i_mult false x a = Ok r.
Proof. exact d_i_mult. Qed.
Print Assumptions C104_integer_mult.
Theorem C104_integer_div : forall x a r, UtilModel.i_div true x a = Ok r -> UtilModel.i_div false x a = Ok r.
Proof. exact d_i_div. Qed.
Print Assumptions C104_integer_div.
Theorem C104_integer_gcd : forall x a r, UtilModel.i_gcd true x a = Ok r -> UtilModel.i_gcd false x a = Ok r.
Proof. exact d_i_gcd. Qed.
Print Assumptions C104_integer_gcd.

(** Allocators of pages *)
Theorem C104_allocate : forall (page memory : Z) (i : nat) (n : Z) (w : AllocModel.world) r,
  AllocModel.allocate page memory true i n w = Ok r -> AllocModel.allocate page memory false i n w = Ok r.
Proof. exact d_allocate. Qed.
Print Assumptions C104_allocate.
Theorem C104_deallocate : forall (i : nat) (n : Z) (w : AllocModel.world) r,
  AllocModel.deallocate true i n w = Ok r -> AllocModel.deallocate false i n w = Ok r.
Proof. exact d_deallocate. Qed.
Print Assumptions C104_deallocate.
Theorem C104_reallocate : forall (page memory : Z) (V : Type) (parts : V -> list Z) (g : GCModel.gc V) (w : AllocModel.world) r,
  GCModel.gc_reallocate page memory V parts true g w = Ok r -> GCModel.gc_reallocate page memory V parts false g w = Ok r.
Proof. intros page memory V parts. exact (d_gc_reallocate page memory parts). Qed.
Print Assumptions C104_reallocate.

(** Allocators on malloc *)
Theorem C104_malloc : forall (memory : Z) (i : nat) (n : Z) (w : PlainAllocModel.pworld) r,
  PlainAllocModel.p_allocate memory true i n w = Ok r -> PlainAllocModel.p_allocate memory false i n w = Ok r.
Proof. exact d_p_allocate. Qed.
Print Assumptions C104_malloc.
Theorem C104_malloc_free : forall (i : nat) (p : PlainAllocModel.ptr) (n : Z) (w : PlainAllocModel.pworld) r,
  PlainAllocModel.p_deallocate true i p n w = Ok r -> PlainAllocModel.p_deallocate false i p n w = Ok r.
Proof. exact d_p_deallocate. Qed.
Print Assumptions C104_malloc_free.
Theorem C104_malloc_delete : forall (i : nat) (w : PlainAllocModel.pworld) r,
  PlainAllocModel.p_delete true i w = Ok r -> PlainAllocModel.p_delete false i w = Ok r.
Proof. exact d_p_delete. Qed.
Print Assumptions C104_malloc_delete.

Example C104_stack_case : exists s0 s, UtilModel.st_new true 1 = Ok s0 /\
  UtilModel.st_run true s0 [UtilModel.SPush 7; UtilModel.SPush 8; UtilModel.STop; UtilModel.SPop; UtilModel.SGet 0] =
  Ok (s, [UtilModel.ONone; UtilModel.ONone; UtilModel.OVal 8; UtilModel.ONone; UtilModel.OVal 7]).
Proof. do 2 eexists. split; vm_compute; reflexivity. Qed.
Example C104_integer_case : UtilModel.i_mult true (UtilModel.Int 1 5) (UtilModel.Int 1 (-3)) = Ok (UtilModel.Int 2 (-15)) /\
  UtilModel.i_gcd true (UtilModel.Int 1 6) (UtilModel.Int 1 4) = Ok (UtilModel.Int 1 2).
Proof. split; reflexivity. Qed.
Example C104_allocate_case : exists w p, AllocModel.allocate 4096 (2 ^ 40) true 0 100 (AllocModel.new_allocator AllocModel.world0) = Ok (w, p) /\
  exists w', AllocModel.deallocate true 0 100 w = Ok w'.
Proof. do 2 eexists. split; [vm_compute; reflexivity|eexists; vm_compute; reflexivity]. Qed.
Example C104_malloc_case : exists w p, PlainAllocModel.p_allocate (2 ^ 40) true 0 100 (PlainAllocModel.p_new PlainAllocModel.pworld0) = Ok (w, p) /\
  exists w' w'', PlainAllocModel.p_deallocate true 0 p 100 w = Ok w' /\ PlainAllocModel.p_delete true 0 w' = Ok w''.
Proof. do 2 eexists. split; [vm_compute; reflexivity|do 2 eexists; split; [vm_compute; reflexivity|vm_compute; reflexivity]]. Qed.
