(** Model of util/allocator.h/.cpp built without GINV_UTIL_ALLOCATOR (allocator.cpp:110-156): every block is one malloc.
    Also the typed members dealloc and destroy (allocator.h:82-103) and the operators new (allocator.h:179-185). *)
From Coq Require Import ZArith List Bool Arith.
From Verif Require Import Outcome RandPermModel AllocModel.
Import ListNotations.
Local Open Scope Z_scope.

(** allocator.h:39-40 *)
Record palloc := PAlloc { pAlloc : Z; pSize : Z }.
(** A pointer: the result of a malloc, identified by a number that is never used again, and an offset. *)
Record ptr := PPtr { p_id : nat; p_off : Z }.
(** allocator.h:34-36, the blocks of malloc not yet given to free, the next number, all allocators (None: destroyed) *)
Record pworld := PWorld { pCurr : Z; pMax : Z; pLimit : Z; heap : list nat; pfresh : nat; pallocs : list (option palloc) }.

(** allocator.cpp:131 *)
Definition addSize : Z := 16.

Section Params.
(** The bytes the system can provide: malloc gives the null pointer beyond.  The code does not check it and uses the
    null pointer: undefined. *)
Variable memory : Z.

Definition pget (w : pworld) (i : nat) : outcome palloc :=
  do a <- rd (pallocs w) i; match a with Some a => Ok a | None => Undef end.

(** allocator.cpp:132-144 allocate *)
Definition p_allocate (dbg : bool) (i : nat) (n : Z) (w : pworld) : outcome (pworld * ptr) :=
  do a <- pget w i;
  assert_ dbg (0 <? n)
    (let full := wrap (n + addSize) in
     let a' := PAlloc (wrap (pAlloc a + full)) (wrap (pSize a + full)) in
     let curr := wrap (pCurr w + full) in
     let mx := if curr <? pMax w then pMax w else curr in
     if (0 <? pLimit w) && (pLimit w <? mx) then Exit
     else if curr <=? memory
     then Ok (PWorld curr mx (pLimit w) (pfresh w :: heap w) (S (pfresh w)) (upd (pallocs w) i (Some a')), PPtr (pfresh w) 0)
     else Undef).

(** free: the pointer must be one that malloc gave *)
Definition p_free (p : ptr) (w : pworld) : outcome pworld :=
  if (p_off p =? 0) && existsb (Nat.eqb (p_id p)) (heap w)
  then Ok (PWorld (pCurr w) (pMax w) (pLimit w) (filter (fun k => negb (Nat.eqb (p_id p) k)) (heap w)) (pfresh w) (pallocs w))
  else Undef.

(** allocator.cpp:146-153 deallocate *)
Definition p_deallocate (dbg : bool) (i : nat) (p : ptr) (n : Z) (w : pworld) : outcome pworld :=
  do a <- pget w i;
  assert_ dbg (0 <? n)
    (let full := wrap (n + addSize) in
     let a' := PAlloc (wrap (pAlloc a - full)) (wrap (pSize a - full)) in
     p_free p (PWorld (wrap (pCurr w - full)) (pMax w) (pLimit w) (heap w) (pfresh w) (upd (pallocs w) i (Some a')))).

(** allocator.h:63; the copy constructor (allocator.cpp:112-113) does the same *)
Definition p_new (w : pworld) : pworld :=
  PWorld (pCurr w) (pMax w) (pLimit w) (heap w) (pfresh w) (pallocs w ++ [Some (PAlloc 0 0)]).
(** allocator.cpp:115-119 destructor *)
Definition p_delete (dbg : bool) (i : nat) (w : pworld) : outcome pworld :=
  do a <- pget w i;
  assert_ dbg (pAlloc a =? pSize a)
    (assert_ dbg (pSize a =? 0)
       (Ok (PWorld (wrap (pCurr w - pAlloc a)) (pMax w) (pLimit w) (heap w) (pfresh w) (upd (pallocs w) i None)))).
(** allocator.cpp:121-129 swap *)
Definition p_swap (i j : nat) (w : pworld) : outcome pworld :=
  do a <- pget w i;
  do b <- pget w j;
  Ok (PWorld (pCurr w) (pMax w) (pLimit w) (heap w) (pfresh w) (upd (upd (pallocs w) i (Some b)) j (Some a))).
(** allocator.h:67-69 *)
Definition p_limit (l : Z) (w : pworld) : pworld := PWorld (pCurr w) (pMax w) l (heap w) (pfresh w) (pallocs w).
(** allocator.cpp:158-160 *)
Definition pworld0 : pworld := PWorld 0 0 0 [] 0 [].

(** A type: its size, and whether its destructor does nothing.  Alignment at most 8. *)
Record ctype := CType { sizeof : Z; trivial : bool }.

(** new(allocator) T (allocator.h:179-181) *)
Definition new_one (dbg : bool) (i : nat) (t : ctype) (w : pworld) : outcome (pworld * ptr) := p_allocate dbg i (sizeof t) w.
(** new(allocator) T[n] (allocator.h:183-185): if T has a destructor, the compiler asks for 8 bytes more, keeps n there,
    and the array begins behind them *)
Definition new_array (dbg : bool) (i : nat) (t : ctype) (n : Z) (w : pworld) : outcome (pworld * ptr) :=
  if trivial t then p_allocate dbg i (sizeof t * n) w
  else do (w1, p) <- p_allocate dbg i (8 + sizeof t * n) w; Ok (w1, PPtr (p_id p) (p_off p + 8)).
(** allocator.h:82-90 dealloc *)
Definition dealloc_one (dbg : bool) (i : nat) (t : ctype) (p : ptr) (w : pworld) : outcome pworld := p_deallocate dbg i p (sizeof t) w.
Definition dealloc_array (dbg : bool) (i : nat) (t : ctype) (p : ptr) (n : Z) (w : pworld) : outcome pworld :=
  assert_ dbg (0 <? n) (p_deallocate dbg i p (sizeof t * n) w).
(** allocator.h:91-95 destroy; what the destructor of T does is left out, in the next one too *)
Definition destroy_one (dbg : bool) (i : nat) (t : ctype) (p : ptr) (w : pworld) : outcome pworld := p_deallocate dbg i p (sizeof t) w.
(** allocator.h:96-102 *)
Definition destroy_array (dbg : bool) (i : nat) (t : ctype) (p : ptr) (n : Z) (w : pworld) : outcome pworld :=
  assert_ dbg (0 <? n) (p_deallocate dbg i p (8 + sizeof t * n) w).
End Params.
