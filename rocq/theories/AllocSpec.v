(** Histories of allocator calls by a client that frees each block at most once, with the size it asked for. *)
From Coq Require Import ZArith List Bool.
From Verif Require Import Outcome AllocModel.
Import ListNotations.
Local Open Scope Z_scope.

(** A block handed out: where, and how many bytes were asked for. *)
Record block := Block { where_ : pointer; asked : Z }.

(** n rounded up to a multiple of 16, and at least one more byte *)
Definition rounded (n : Z) : Z := (n / 16 + 1) * 16.

(** What the client knows: all blocks handed out so far, those not yet given back, and the largest value
    currMemory() ever had. *)
Record client := Client { handed : list block; live : list block; peak : Z }.

Definition holds_chunk (a : allocator) (b : block) : bool :=
  existsb (fun c => Nat.eqb (cid c) (pchunk (where_ b))) (mRoot a).
(** blocks of l that live in allocator a *)
Definition blocks_of (a : allocator) (l : list block) : list block := filter (holds_chunk a) l.

Section Params.
Variables page memory : Z.

Inductive step (dbg : bool) : world * client -> outcome (world * client) -> Prop :=
| s_new w c : step dbg (w, c) (Ok (new_allocator w, c))
| s_copy w c : step dbg (w, c)
    (do w' <- copy_allocator page memory w; Ok (w', Client (handed c) (live c) (Z.max (peak c) (sCurr w'))))
| s_limit w c l : step dbg (w, c) (Ok (set_limit l w, c))
| s_alloc w c i a n : get_alloc w i = Ok a -> 0 < n < 2 ^ 62 ->
    step dbg (w, c) (do (w', p) <- allocate page memory dbg i n w;
                     Ok (w', Client (Block p n :: handed c) (Block p n :: live c) (Z.max (peak c) (sCurr w'))))
| s_dealloc w c i a l1 b l2 : get_alloc w i = Ok a -> live c = l1 ++ b :: l2 -> holds_chunk a b = true ->
    step dbg (w, c) (do w' <- deallocate dbg i (asked b) w; Ok (w', Client (handed c) (l1 ++ l2) (peak c)))
| s_destroy w c i a : get_alloc w i = Ok a -> blocks_of a (live c) = [] ->
    step dbg (w, c) (do w' <- destroy_allocator dbg i w; Ok (w', c))
| s_swap w c i j a b : get_alloc w i = Ok a -> get_alloc w j = Ok b ->
    step dbg (w, c) (do w' <- swap_allocators i j w; Ok (w', c)).

Inductive reach (dbg : bool) : outcome (world * client) -> Prop :=
| r_start : reach dbg (Ok (world0, Client [] [] 0))
| r_step s r : reach dbg (Ok s) -> step dbg s r -> reach dbg r.
End Params.

(** Two blocks share no byte. *)
Definition disjoint (a b : block) : Prop :=
  pchunk (where_ a) <> pchunk (where_ b) \/
  poffset (where_ a) + asked a <= poffset (where_ b) \/ poffset (where_ b) + asked b <= poffset (where_ a).

Definition zsum {A} (f : A -> Z) (l : list A) : Z := fold_right (fun x s => f x + s) 0 l.
Definition total_alloc (w : world) : Z := zsum (fun o => match o with Some a => mAlloc a | None => 0 end) (allocs w).
