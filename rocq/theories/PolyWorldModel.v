(** PolyInt objects with their allocators: swap, move and destruction (ginv/poly_int.cpp, poly_int.h). *)
From Coq Require Import ZArith List Bool Arith.
From Verif Require Import Outcome MonomModel PolyModel PolyMemModel.
Import ListNotations.
Local Open Scope nat_scope.

(** poly_int.h:75-76: mAllocator (None: nullptr, after a move) and the polynomial. The allocator inside
    mHead (list.h) is the same one: the constructors pass it on, swap and move treat both alike. *)
Record obj : Type := Obj { oal : option nat; oval : poly }.

(** poly_int.cpp:61-71 swap, poly.cpp:152-170, list.h:188-200: order, size, allocator and terms change
    places. Both objects differ (asserted). *)
Definition obj_swap (x y : obj) : obj * obj :=
  let p := oval x in let q := oval y in
  (Obj (oal y) (Poly (pto q) (pbo q) (psize q) (terms q)), Obj (oal x) (Poly (pto p) (pbo p) (psize p) (terms p))).

(** poly_int.cpp:73-79 operator=(PolyInt&&): the order and size of a, clear, swap; and what clear gives
    back to the allocator of [x]. *)
Definition obj_move (x y : obj) : obj * obj * nat :=
  let q := oval y in
  (obj_swap (Obj (oal x) (Poly (pto q) (pbo q) (psize q) [])) y, given (clear_mem (terms (oval x)))).

(** poly_int.h:113-119 PolyInt(PolyInt&&), list.h:166-172: the new object and what is left of [y]. *)
Definition obj_steal (y : obj) : obj * obj :=
  (Obj (oal y) (oval y), Obj None (with_terms (oval y) [])).

(** poly_int.h:147-150 the destructor: clear() unless mAllocator is null; what is given back. *)
Definition obj_destroy (x : obj) : nat :=
  match oal x with Some _ => given (clear_mem (terms (oval x))) | None => 0 end.
