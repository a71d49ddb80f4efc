(** Model of util/allocator.h/.cpp built with GINV_UTIL_ALLOCATOR. *)
From Coq Require Import ZArith List Bool Arith.
From Verif Require Import Outcome RandPermModel.
Import ListNotations.
Local Open Scope Z_scope.

(** size_t arithmetic *)
Definition wrap (z : Z) : Z := z mod 2 ^ 64.

(** A Node (allocator.h:43-55): one result of aligned_alloc, identified by a number that is never used again,
    and its size. *)
Record chunk := Chunk { cid : nat; cbytes : Z }.
(** allocator.h:39-40, 57-59.  mRoot is the list of chunks, newest first. *)
Record allocator := Alloc { mAlloc : Z; mSize : Z; mRoot : list chunk; mNodeAlloc : Z; mNodeSize : Z }.
(** allocator.h:63 *)
Definition empty_allocator : allocator := Alloc 0 0 [] 0 0.

(** allocator.h:34-36 (the timer is modelled in UtilModel), the next chunk number, and all allocators
    created so far (None: destroyed). *)
Record world := World { sCurr : Z; sMax : Z; sLimit : Z; fresh : nat; allocs : list (option allocator) }.

(** A pointer handed out: chunk and offset. *)
Record pointer := Ptr { pchunk : nat; poffset : Z }.

(** allocator.cpp:88, 112 *)
Definition round16 (n : Z) : Z := wrap (Z.shiftl (wrap (Z.shiftr n 4 + 1)) 4).

Section Params.
(** memoryPageSize (allocator.cpp:27) and the bytes the system can provide: aligned_alloc fails beyond.  The
    code does not check for failure and uses the null pointer: undefined. *)
Variables page memory : Z.

Definition aligned_alloc (w : world) (size : Z) : outcome chunk :=
  if sCurr w + size <=? memory then Ok (Chunk (fresh w) size) else Undef.

Definition get_alloc (w : world) (i : nat) : outcome allocator :=
  do a <- rd (allocs w) i; match a with Some a => Ok a | None => Undef end.
Definition set_alloc (w : world) (i : nat) (a : option allocator) : world :=
  World (sCurr w) (sMax w) (sLimit w) (fresh w) (upd (allocs w) i a).

(** allocator.cpp:36-41, 94-99: account for a new chunk, exit beyond the limit *)
Definition account (w : world) (size : Z) : outcome world :=
  let curr := wrap (sCurr w + size) in
  let mx := if curr <=? sMax w then sMax w else curr in
  if (0 <? sLimit w) && (sLimit w <? mx) then Exit
  else Ok (World curr mx (sLimit w) (S (fresh w)) (allocs w)).

(** allocator.cpp:85-108 allocate *)
Definition allocate (dbg : bool) (i : nat) (n0 : Z) (w : world) : outcome (world * pointer) :=
  do a <- get_alloc w i;
  assert_ dbg (0 <? n0)
    (let n := round16 n0 in
     do (w1, a1) <-
       (if mNodeAlloc a <? wrap (mNodeSize a + n) then
          let size := wrap (wrap (n + page) / page * page) in
          do c <- aligned_alloc w size;
          do w1 <- account w size;
          Ok (w1, Alloc (wrap (mAlloc a + size)) (mSize a) (c :: mRoot a) size 0)
        else Ok (w, a));
     assert_ dbg (wrap (mNodeSize a1 + n) <=? mNodeAlloc a1)
       (match mRoot a1 with
        | [] => Undef
        | c :: _ =>
          let a2 := Alloc (mAlloc a1) (wrap (mSize a1 + n)) (mRoot a1) (mNodeAlloc a1) (wrap (mNodeSize a1 + n)) in
          assert_ dbg (mNodeSize a2 <=? mNodeAlloc a2) (Ok (set_alloc w1 i (Some a2), Ptr (cid c) (mNodeSize a1)))
        end)).

(** allocator.cpp:110-116 deallocate: the pointer is not used *)
Definition deallocate (dbg : bool) (i : nat) (n0 : Z) (w : world) : outcome world :=
  do a <- get_alloc w i;
  assert_ dbg (0 <? n0)
    (let n := round16 n0 in
     assert_ dbg (n <=? mSize a)
       (Ok (set_alloc w i (Some (Alloc (mAlloc a) (wrap (mSize a - n)) (mRoot a) (mNodeAlloc a) (mNodeSize a)))))).

(** allocator.h:63 *)
Definition new_allocator (w : world) : world :=
  World (sCurr w) (sMax w) (sLimit w) (fresh w) (allocs w ++ [Some empty_allocator]).
(** allocator.cpp:31-41 copy constructor: does not look at its argument *)
Definition copy_allocator (w : world) : outcome world :=
  do c <- aligned_alloc w page;
  do w1 <- account w page;
  Ok (World (sCurr w1) (sMax w1) (sLimit w1) (fresh w1) (allocs w1 ++ [Some (Alloc page 0 [c] page 0)])).
(** allocator.cpp:43-54 destructor: frees all chunks *)
Definition destroy_allocator (dbg : bool) (i : nat) (w : world) : outcome world :=
  do a <- get_alloc w i;
  assert_ dbg (mSize a =? 0)
    (let w1 := set_alloc w i None in
     Ok (World (wrap (sCurr w - mAlloc a)) (sMax w1) (sLimit w1) (fresh w1) (allocs w1))).
(** allocator.cpp:56-76 swap *)
Definition swap_allocators (i j : nat) (w : world) : outcome world :=
  do a <- get_alloc w i;
  do b <- get_alloc w j;
  Ok (set_alloc (set_alloc w i (Some b)) j (Some a)).
(** allocator.h:67-69 *)
Definition set_limit (l : Z) (w : world) : world := World (sCurr w) (sMax w) l (fresh w) (allocs w).
(** allocator.cpp:158-160 *)
Definition world0 : world := World 0 0 0 0 [].
End Params.
