(** C78: objects with an allocator of their own and reallocate() *)
From Coq Require Import ZArith List Bool Permutation.
From Verif Require Import Outcome AllocModel AllocSpec AllocProofs GCModel GCSpec GCProofs.
Import ListNotations.
Local Open Scope Z_scope.

(** Copying an object: the copy owns exactly its blocks, in a new allocator, and nothing else changes. *)
Theorem C78_copy : forall page memory : Z, 0 < page <= 2 ^ 30 -> 0 <= memory <= 2 ^ 62 ->
  forall (V : Type) (parts : V -> list Z) (dbg : bool) (v : V) (w : world) (c : client),
  reach page memory dbg (Ok (w, c)) -> sizes_ok (parts v) ->
  match gc_copy page memory V parts dbg v w with
  | Ok (w', h) => exists a' c', reach page memory dbg (Ok (w', c')) /\ owns w' c' h a' /\ g_val h = v /\
      Permutation (live c') (map block_of (g_blocks h) ++ live c) /\ map snd (g_blocks h) = parts v /\
      mSize a' = copied_size (parts v) /\ mAlloc a' <= 2 * copied_size (parts v) + page /\ sCurr w' = sCurr w + mAlloc a' /\
      (forall j b, get_alloc w j = Ok b -> g_at h <> j /\ get_alloc w' j = Ok b)
  | Undef => memory < sCurr w + 2 * copied_size (parts v) + page
  | Exit => 0 < sLimit w < Z.max (sMax w) (sCurr w + 2 * copied_size (parts v) + page)
  | _ => False
  end.
Proof. exact copy_thm. Qed.
Print Assumptions C78_copy.

(** The destructor gives back everything the object owns and nothing else. *)
Theorem C78_destroy : forall page memory : Z, 0 < page <= 2 ^ 30 -> 0 <= memory <= 2 ^ 62 ->
  forall (V : Type) (dbg : bool) (g : gc V) (w : world) (c : client) (a : allocator) (rest : list block),
  reach page memory dbg (Ok (w, c)) -> owns w c g a -> Permutation (live c) (map block_of (g_blocks g) ++ rest) ->
  exists w' c', gc_destroy dbg g w = Ok w' /\ reach page memory dbg (Ok (w', c')) /\ Permutation (live c') rest /\
    get_alloc w' (g_at g) = Undef /\ (forall j, j <> g_at g -> get_alloc w' j = get_alloc w j) /\ sCurr w' = sCurr w - mAlloc a.
Proof. exact destroy_thm. Qed.
Print Assumptions C78_destroy.

(** reallocate() of a candidate keeps the value, the blocks of all other objects and their allocators, gives the old
    allocator back, and leaves an object that uses as few bytes as a fresh copy. *)
Theorem C78_reallocate : forall page memory : Z, 0 < page <= 2 ^ 30 -> 0 <= memory <= 2 ^ 62 ->
  forall (V : Type) (parts : V -> list Z) (dbg : bool) (g : gc V) (w : world) (c : client) (a : allocator),
  reach page memory dbg (Ok (w, c)) -> owns w c g a -> sizes_ok (parts (g_val g)) -> isGC a = true ->
  match gc_reallocate page memory V parts dbg g w with
  | Ok (w', h) => exists a' c' rest, reach page memory dbg (Ok (w', c')) /\ owns w' c' h a' /\ g_val h = g_val g /\
      Permutation (live c) (map block_of (g_blocks g) ++ rest) /\ Permutation (live c') (map block_of (g_blocks h) ++ rest) /\
      map snd (g_blocks h) = parts (g_val g) /\
      mSize a' = copied_size (parts (g_val g)) /\ mAlloc a' <= 2 * copied_size (parts (g_val g)) + page /\
      sCurr w' = sCurr w - mAlloc a + mAlloc a' /\
      get_alloc w' (g_at g) = Undef /\ (forall j b, get_alloc w j = Ok b -> j <> g_at g -> get_alloc w' j = Ok b)
  | Undef => memory < sCurr w + 2 * copied_size (parts (g_val g)) + page
  | Exit => 0 < sLimit w < Z.max (sMax w) (sCurr w + 2 * copied_size (parts (g_val g)) + page)
  | _ => False
  end.
Proof. exact realloc_thm. Qed.
Print Assumptions C78_reallocate.

Theorem C78_no_candidate : forall (page memory : Z) (V : Type) (parts : V -> list Z) (dbg : bool) (g : gc V) (w : world) (c : client) (a : allocator),
  owns w c g a -> isGC a = false -> gc_reallocate page memory V parts dbg g w = Ok (w, g).
Proof. exact realloc_no. Qed.
Print Assumptions C78_no_candidate.

(** isGC() in numbers: more than 4096 bytes are held, and more than a third of them is unused. *)
Theorem C78_isGC : forall page memory : Z, 0 < page <= 2 ^ 30 -> 0 <= memory <= 2 ^ 62 ->
  forall (dbg : bool) (w : world) (c : client) (i : nat) (a : allocator),
  reach page memory dbg (Ok (w, c)) -> get_alloc w i = Ok a -> (isGC a = true <-> 4096 < mAlloc a /\ mAlloc a < 3 * (mAlloc a - mSize a)).
Proof. exact isGC_thm. Qed.
Print Assumptions C78_isGC.

(** A second call directly after the first gains nothing. *)
Theorem C78_again : forall page memory : Z, 0 < page <= 2 ^ 30 -> 0 <= memory <= 2 ^ 62 ->
  forall (V : Type) (parts : V -> list Z) (dbg : bool) (g h h2 : gc V) (w : world) (c : client) (a : allocator) (w1 w2 : world) (a1 a2 : allocator),
  reach page memory dbg (Ok (w, c)) -> owns w c g a -> sizes_ok (parts (g_val g)) -> isGC a = true ->
  gc_reallocate page memory V parts dbg g w = Ok (w1, h) -> gc_reallocate page memory V parts dbg h w1 = Ok (w2, h2) ->
  get_alloc w1 (g_at h) = Ok a1 -> get_alloc w2 (g_at h2) = Ok a2 ->
  mAlloc a2 = mAlloc a1 /\ mSize a2 = mSize a1 /\ isGC a2 = isGC a1.
Proof. exact again. Qed.
Print Assumptions C78_again.

(** The intention of reallocate() is that the object is then no candidate; it still may be one. *)
Theorem C78_settled_refuted : exists (l : list Z) (w w1 : world) (g h : gc (list Z)) (a a1 : allocator),
  gc_copy 4128 (2 ^ 40) (list Z) (fun l => l) true l world0 = Ok (w, g) /\ get_alloc w (g_at g) = Ok a /\ isGC a = true /\
  gc_reallocate 4128 (2 ^ 40) (list Z) (fun l => l) true g w = Ok (w1, h) /\ get_alloc w1 (g_at h) = Ok a1 /\
  isGC a1 = true /\ mAlloc a1 = mAlloc a /\ mSize a1 = mSize a.
Proof. exact settled_refuted. Qed.
Print Assumptions C78_settled_refuted.

(** Every object below two thirds of a page that holds a block is a candidate, also when it is fresh: a page is larger
    than 4096 bytes (allocator.cpp:27). *)
Theorem C78_small : forall page memory : Z, 0 < page <= 2 ^ 30 -> 0 <= memory <= 2 ^ 62 ->
  forall (V : Type) (parts : V -> list Z) (dbg : bool) (v : V) (w : world) (c : client) (w1 : world) (h : gc V) (a1 : allocator),
  4096 < page -> reach page memory dbg (Ok (w, c)) -> sizes_ok (parts v) -> parts v <> [] -> 3 * copied_size (parts v) < 2 * page ->
  gc_copy page memory V parts dbg v w = Ok (w1, h) -> get_alloc w1 (g_at h) = Ok a1 -> isGC a1 = true.
Proof. exact small_again. Qed.
Print Assumptions C78_small.

(** An object that grew to four blocks and shrank to two of them is copied from three pages into one. *)
Example C78_ex : exists (w w' : world) (c : client) (g h : gc (list Z)) (a a' : allocator),
  reach 4128 (2 ^ 40) true (Ok (w, c)) /\ owns w c g a /\ isGC a = true /\ sizes_ok (g_val g) /\
  gc_reallocate 4128 (2 ^ 40) (list Z) (fun l => l) true g w = Ok (w', h) /\ get_alloc w' (g_at h) = Ok a' /\
  g_val h = [3000; 100] /\ mAlloc a = 12384 /\ mAlloc a' = 4128 /\ isGC a' = false.
Proof. exact gc_run. Qed.
