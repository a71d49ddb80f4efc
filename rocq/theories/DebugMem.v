(** Stacks, integers and allocators: what a build with assertions computes, one without computes as well. *)
From Coq Require Import ZArith List Bool Arith.
From Verif Require Import Outcome DebugProofs.
From Verif Require UtilModel AllocModel GCModel PlainAllocModel.
Import ListNotations.
Local Open Scope Z_scope.

Section Stack.
Import UtilModel.
Context {T : Type}.
Implicit Types s : stack T.
Lemma d_st_resize s : agree (st_resize true s) (st_resize false s).
Proof. unfold st_resize. ag. Qed.
Hint Resolve d_st_resize : ag.
Lemma d_st_push x s : agree (st_push true x s) (st_push false x s).
Proof. unfold st_push. ag. Qed.
Lemma d_st_pop s : agree (st_pop true s) (st_pop false s).
Proof. unfold st_pop. ag. Qed.
Lemma d_st_top s : agree (st_top true s) (st_top false s).
Proof. unfold st_top. ag. Qed.
Lemma d_st_get s i : agree (st_get true s i) (st_get false s i).
Proof. unfold st_get. ag. Qed.
Lemma d_st_copy s : agree (st_copy true s) (st_copy false s).
Proof. unfold st_copy. ag. Qed.
Hint Resolve d_st_push d_st_pop d_st_top d_st_get d_st_copy : ag.
Lemma d_st_step s o : agree (st_step true s o) (st_step false s o).
Proof. unfold st_step. ag. Qed.
Hint Resolve d_st_step : ag.
Lemma d_st_run os : forall s, agree (st_run true s os) (st_run false s os).
Proof. induction os as [|o os IH]; intro s; cbn [st_run]; ag. Qed.
Lemma d_st_assign s a : agree (st_assign true s a) (st_assign false s a).
Proof. unfold st_assign. ag. Qed.
End Stack.

Section Integer.
Import UtilModel.
Lemma d_i_reallocate n x : agree (i_reallocate true n x) (i_reallocate false n x).
Proof. unfold i_reallocate. ag. Qed.
Hint Resolve d_i_reallocate : ag.
Lemma d_i_parse v : agree (i_parse true v) (i_parse false v).
Proof. unfold i_parse. ag. Qed.
Lemma d_i_copy a : agree (i_copy true a) (i_copy false a).
Proof. unfold i_copy. ag. Qed.
Lemma d_i_assign x a : agree (i_assign true x a) (i_assign false x a).
Proof. unfold i_assign. ag. Qed.
Lemma d_i_add x a : agree (i_add true x a) (i_add false x a).
Proof. unfold i_add. ag. Qed.
Lemma d_i_sub x a : agree (i_sub true x a) (i_sub false x a).
Proof. unfold i_sub. ag. Qed.
Lemma d_i_mult x a : agree (i_mult true x a) (i_mult false x a).
Proof. unfold i_mult. ag. Qed.
Lemma d_i_div x a : agree (i_div true x a) (i_div false x a).
Proof. unfold i_div. ag. Qed.
Lemma d_i_gcd x a : agree (i_gcd true x a) (i_gcd false x a).
Proof. unfold i_gcd. ag. Qed.
Lemma d_get_str base v sib written bufsize : agree (get_str true base v sib written bufsize) (get_str false base v sib written bufsize).
Proof. unfold get_str. ag. Qed.
End Integer.

Section Allocators.
Import AllocModel GCModel.
Variables page memory : Z.
Lemma d_allocate i n w : agree (allocate page memory true i n w) (allocate page memory false i n w).
Proof. unfold allocate. ag. Qed.
Lemma d_deallocate i n w : agree (deallocate true i n w) (deallocate false i n w).
Proof. unfold deallocate. ag. Qed.
Lemma d_destroy_allocator i w : agree (destroy_allocator true i w) (destroy_allocator false i w).
Proof. unfold destroy_allocator. ag. Qed.
Hint Resolve d_allocate d_deallocate d_destroy_allocator : ag.
Context {V : Type}.
Variable parts : V -> list Z.
Lemma d_alloc_all i l : forall w, agree (alloc_all page memory true i l w) (alloc_all page memory false i l w).
Proof. induction l as [|n l IH]; intro w; cbn [alloc_all]; ag. Qed.
Lemma d_free_all i l : forall w, agree (free_all true i l w) (free_all false i l w).
Proof. induction l as [|n l IH]; intro w; cbn [free_all]; ag. Qed.
Hint Resolve d_alloc_all d_free_all : ag.
Lemma d_gc_copy v w : agree (gc_copy page memory V parts true v w) (gc_copy page memory V parts false v w).
Proof. unfold gc_copy. ag. Qed.
Lemma d_gc_destroy (g : gc V) w : agree (gc_destroy true g w) (gc_destroy false g w).
Proof. unfold gc_destroy. ag. Qed.
Hint Resolve d_gc_copy d_gc_destroy : ag.
Lemma d_gc_reallocate g w : agree (gc_reallocate page memory V parts true g w) (gc_reallocate page memory V parts false g w).
Proof. unfold gc_reallocate. ag. Qed.
End Allocators.

Section Plain.
Import PlainAllocModel.
Variable memory : Z.
Lemma d_p_allocate i n w : agree (p_allocate memory true i n w) (p_allocate memory false i n w).
Proof. unfold p_allocate. ag. Qed.
Lemma d_p_deallocate i p n w : agree (p_deallocate true i p n w) (p_deallocate false i p n w).
Proof. unfold p_deallocate. ag. Qed.
Lemma d_p_delete i w : agree (p_delete true i w) (p_delete false i w).
Proof. unfold p_delete. ag. Qed.
Hint Resolve d_p_allocate d_p_deallocate : ag.
Lemma d_new_array i t n w : agree (new_array memory true i t n w) (new_array memory false i t n w).
Proof. unfold new_array. ag. Qed.
Lemma d_destroy_array i t p n w : agree (destroy_array true i t p n w) (destroy_array false i t p n w).
Proof. unfold destroy_array. ag. Qed.
End Plain.
