(** Ownership of the WrapPolyInt objects of a JanetPolyInt: what a user expects. *)
From Coq Require Import ZArith List Bool Arith.
From Verif Require Import Outcome MonomModel PolyModel JanetPolyModel TQModel OwnModel.
Import ListNotations.
Local Open Scope Z_scope.

(** The object without the addresses. *)
Definition forget (O : ojp) : jpoly := JP (option_map snd (oone O)) (vals (oq O)) (vals (ot O)) (opos O) (otrees O).
Definition forget_out (x : outcome ojp) : outcome jpoly := do K <- x; Ok (forget K).

(** The objects reachable from it. *)
Definition owned (O : ojp) : list nat := match oone O with Some w => [fst w] | None => [] end ++ ids (oq O) ++ ids (ot O).

(** A heap that operator new and delete can have produced. *)
Definition good_heap (s : heap) : Prop := NoDup (live s) /\ Forall (fun i => (i < next s)%nat) (live s).

(** All histories of an object that was constructed with the heap s0, with polynomials of any kind. *)
Inductive own_history (dbg : bool) (s0 : heap) : ojp -> Prop :=
| oh_new : own_history dbg s0 (o_empty s0)
| oh_push O a O' : own_history dbg s0 O -> o_push dbg O a = Ok O' -> own_history dbg s0 O'
| oh_build O fuel O' : own_history dbg s0 O -> o_build fuel dbg O = Ok O' -> own_history dbg s0 O'
| oh_tq O one fuel O' : own_history dbg s0 O -> o_tq one fuel dbg O = Ok O' -> own_history dbg s0 O'.

(** The same after algorithmTQ2; mT can then have elements that are in no tree. *)
Definition forget2 (O : ojp2) : jpoly2 := JP2 (option_map snd (o2one O)) (vals (o2t O)) (o2pos O) (o2trees O).
Definition forget2_out (x : outcome ojp2) : outcome jpoly2 := do K <- x; Ok (forget2 K).
Definition owned2 (O : ojp2) : list nat := match o2one O with Some w => [fst w] | None => [] end ++ ids (o2t O).
(** The elements of mT that are in a tree. *)
Definition attached (T : list (nat * titem)) : list nat := ids (filter (fun x => match snd x with Att _ => true | Det _ => false end) T).
