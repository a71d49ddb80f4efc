(** Model of AllocatorPtr and GC<T> (util/allocator.h:115-176) and of GCPolyInt (ginv/poly_int.h:229-260, the same code),
    built with GINV_UTIL_ALLOCATOR.

    T is any of the classes with a constructor T(Allocator*, const T&): its values are [V], and [parts v] are the sizes
    of the blocks this constructor asks for, in their order.  The other methods of T allocate and deallocate on their own
    (AllocSpec.step).  Simplification: the timer (timerCont, timerStop) is left out; it is modelled in UtilModel. *)
From Coq Require Import ZArith List Bool Arith.
From Verif Require Import Outcome AllocModel.
Import ListNotations.
Local Open Scope Z_scope.

(** allocator.h:107-109 isGC *)
Definition isGC (a : allocator) : bool := (4096 <? mAlloc a) && (wrap (3 * mSize a) <? wrap (2 * mAlloc a)).

Section GC.
Variables page memory : Z.
Variable V : Type.
Variable parts : V -> list Z.

(** An object: its own allocator (allocator.h:116), the blocks T holds there, and its value. *)
Record gc := GC { g_at : nat; g_blocks : list (pointer * Z); g_val : V }.

Fixpoint alloc_all (dbg : bool) (i : nat) (l : list Z) (w : world) : outcome (world * list (pointer * Z)) :=
  match l with
  | [] => Ok (w, [])
  | n :: l' => do (w1, p) <- allocate page memory dbg i n w;
               do (w2, r) <- alloc_all dbg i l' w1;
               Ok (w2, (p, n) :: r)
  end.
Fixpoint free_all (dbg : bool) (i : nat) (l : list (pointer * Z)) (w : world) : outcome world :=
  match l with
  | [] => Ok w
  | x :: l' => do w1 <- deallocate dbg i (snd x) w; free_all dbg i l' w1
  end.

(** allocator.h:120-122, 143-150: GC(const GC&), GC(const T&) *)
Definition gc_copy (dbg : bool) (v : V) (w : world) : outcome (world * gc) :=
  let i := length (allocs w) in
  do (w1, bs) <- alloc_all dbg i (parts v) (new_allocator w);
  Ok (w1, GC i bs v).
(** allocator.h:151, 124: ~T, then the allocator is deleted *)
Definition gc_destroy (dbg : bool) (g : gc) (w : world) : outcome world :=
  do w1 <- free_all dbg (g_at g) (g_blocks g) w;
  destroy_allocator dbg (g_at g) w1.
(** allocator.h:162-171 reallocate: after the swap (158-161, and T::swap) this object is the copy, and the destructor
    of the local variable gets the old blocks *)
Definition gc_reallocate (dbg : bool) (g : gc) (w : world) : outcome (world * gc) :=
  do a <- get_alloc w (g_at g);
  if isGC a then
    do (w1, h) <- gc_copy dbg (g_val g) w;
    do w2 <- gc_destroy dbg g w1;
    Ok (w2, h)
  else Ok (w, g).
End GC.
Arguments GC {V} g_at g_blocks g_val.
Arguments g_at {V} g.
Arguments g_blocks {V} g.
Arguments g_val {V} g.
Arguments gc_destroy {V} dbg g w.
