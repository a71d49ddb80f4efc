(** Programs with any number of PolyInt objects and allocators. *)
From Coq Require Import ZArith List Bool Arith Permutation.
From Verif Require Import Outcome MonomModel PolyModel PolyMemModel PolyMemSpec PolyLifeModel PolyLifeSpec PolyWorldModel.
Import ListNotations.
Local Open Scope nat_scope.

(** One step from the living objects [os] to others: the allocator concerned, terms taken from it, given
    back to it and lost. Objects are constructed in an allocator; methods are called on objects that have
    one, their arguments are arbitrary. *)
Inductive wstep (dbg : bool) : list obj -> option nat -> nat -> nat -> nat -> list obj -> Prop :=
| ws_new al c r os : obj_new dbg c r -> wstep dbg os (Some al) (taken c) (given c) 0 (Obj (Some al) r :: os)
| ws_call al p c y r os rest : Permutation os (Obj (Some al) p :: rest) -> obj_call dbg p c y r ->
    wstep dbg os (Some al) (taken c) (given c) y (Obj (Some al) r :: rest)
| ws_swap x y os rest : Permutation os (x :: y :: rest) ->
    wstep dbg os None 0 0 0 (fst (obj_swap x y) :: snd (obj_swap x y) :: rest)
| ws_move x y os rest : Permutation os (x :: y :: rest) ->
    wstep dbg os (oal x) 0 (snd (obj_move x y)) 0 (fst (fst (obj_move x y)) :: snd (fst (obj_move x y)) :: rest)
| ws_steal y os rest : Permutation os (y :: rest) ->
    wstep dbg os None 0 0 0 (fst (obj_steal y) :: snd (obj_steal y) :: rest)
| ws_destroy x os rest : Permutation os (x :: rest) -> wstep dbg os (oal x) 0 (obj_destroy x) 0 rest.

Definition add_at (f : nat -> nat) (al : option nat) (k : nat) : nat -> nat :=
  match al with Some a => fun b => if a =? b then f b + k else f b | None => f end.

(** A program: the living objects; taken, given back and lost for each allocator. *)
Inductive wrun (dbg : bool) : list obj -> (nat -> nat) -> (nat -> nat) -> (nat -> nat) -> Prop :=
| wr_start : wrun dbg [] (fun _ => 0) (fun _ => 0) (fun _ => 0)
| wr_step os T G L al k g y os' : wrun dbg os T G L -> wstep dbg os al k g y os' ->
    wrun dbg os' (add_at T al k) (add_at G al g) (add_at L al y).

(** Terms of living objects in allocator [al]. *)
Definition held1 (al : nat) (x : obj) : nat :=
  match oal x with Some a => if a =? al then length (terms (oval x)) else 0 | None => 0 end.
Definition held (al : nat) (os : list obj) : nat := list_sum (map (held1 al) os).
