(** Terms taken and given back by the constructors of PolyInt and by pow (ginv/poly_int.cpp). *)
From Coq Require Import ZArith List Bool Arith.
From Verif Require Import Outcome MonomModel PolyModel PolyMemModel.
Import ListNotations.
Local Open Scope Z_scope.

(** poly_int.cpp:47-59 copy: one new term for each term of [a]; 33-45, the copy times a variable, likewise.
    poly_int.h:132-145 take one term. *)
Definition new_mem (l : list term) : counted := Cnt l (length l) 0.

(** poly_int.cpp:366-367 the loop tmp.mult( *this); [acc] holds what tmp took and gave back so far. *)
Fixpoint pow_loop_mem (t : pos_order) (o : base_order) (k : nat) (acc : counted) (p : list term) : counted :=
  match k with
  | O => acc
  | S k' =>
      let s := mult_mem t o (res acc) p in
      pow_loop_mem t o k' (Cnt (res s) (taken acc + taken s) (given acc + given s)) p
  end.

(** poly_int.cpp:357-370 pow(deg): a copy, the loop, swap; the destructor of tmp then clears the old
    terms. *)
Definition pow_mem (t : pos_order) (o : base_order) (p : list term) (deg : nat) : counted :=
  match deg with
  | O => clear_mem p
  | S O => Cnt p 0 0
  | S k =>
      let s := pow_loop_mem t o k (new_mem p) p in
      Cnt (res s) (taken s) (given s + given (clear_mem p))
  end.
