(** Life of a PolyInt object and the terms it takes from its allocator. *)
From Coq Require Import ZArith List Bool Arith.
From Verif Require Import Outcome MonomModel PolyModel PolyMemModel.
Import ListNotations.
Local Open Scope Z_scope.

(** A call that returns, with what it takes and gives back. *)
Inductive mem_call (dbg : bool) (p : poly) : counted -> poly -> Prop :=
| mem_add a r : p_add dbg p a = Ok r -> mem_call dbg p (add_mem (pto p) (pbo p) (terms p) (terms a)) r
| mem_sub a r : p_sub dbg p a = Ok r -> mem_call dbg p (sub_mem (pto p) (pbo p) (terms p) (terms a)) r
| mem_add_const c m d l r : terms p = (m, d) :: l -> p_add_const dbg p c = Ok r -> mem_call dbg p (add_const_mem (size m) (terms p) c) r
| mem_sub_const c m d l r : terms p = (m, d) :: l -> p_sub_const dbg p c = Ok r -> mem_call dbg p (sub_const_mem (size m) (terms p) c) r
| mem_mult_const c r : p_mult_const dbg p c = Ok r -> mem_call dbg p (mult_const_mem (terms p) c) r
| mem_mult a r : p_mult dbg p a = Ok r -> ~ (length (terms a) = 1%nat /\ (1 < length (terms p))%nat) ->
    mem_call dbg p (mult_mem (pto p) (pbo p) (terms p) (terms a)) r
| mem_assign a : mem_call dbg p (assign_mem (terms p) (terms a)) a
| mem_reduction a c r : p_reduction dbg p a = Ok r -> reduction_mem dbg p a = Ok c -> mem_call dbg p c r
| mem_redMaybe a c r : p_redMaybe dbg p a = Ok r -> redMaybe_mem dbg p a = Ok c -> mem_call dbg p c r.

(** Calls one after the other on one object: total taken, total given back. *)
Inductive mem_run (dbg : bool) : poly -> nat -> nat -> poly -> Prop :=
| mem_done p : mem_run dbg p 0 0 p
| mem_step p c q k g r : mem_call dbg p c q -> mem_run dbg q k g r -> mem_run dbg p (taken c + k) (given c + g) r.
