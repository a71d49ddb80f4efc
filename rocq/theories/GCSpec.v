(** Objects of class GC<T> and what they own. *)
From Coq Require Import ZArith List Bool Permutation.
From Verif Require Import Outcome AllocModel AllocSpec GCModel.
Import ListNotations.
Local Open Scope Z_scope.

Definition block_of (x : pointer * Z) : block := Block (fst x) (snd x).
(** The blocks of the object are those in use in its allocator. *)
Definition owns {V} (w : world) (c : client) (g : gc V) (a : allocator) : Prop :=
  get_alloc w (g_at g) = Ok a /\ Permutation (blocks_of a (live c)) (map block_of (g_blocks g)).
(** The bytes a copy uses. *)
Definition copied_size (l : list Z) : Z := zsum rounded l.
Definition sizes_ok (l : list Z) : Prop := Forall (fun n => 0 < n < 2 ^ 62) l.
