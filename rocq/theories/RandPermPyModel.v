(** The Python class randpermutation of cython/ginv.pyx:128-144 as a Python sequence.  It has __len__ and __getitem__ but no
    __iter__, so Python's list(), for and in call __getitem__ with 0, 1, 2, ... until IndexError is raised; an
    AssertionError is passed on to the caller. *)
From Coq Require Import ZArith List Bool Arith.
From Verif Require Import Outcome RandPermModel.
Import ListNotations.

(** ginv.pyx:135-136 __len__ *)
Definition py_len (p : list nat) : nat := length p.
(** ginv.pyx:137-139 __getitem__; the assertion is Python's, the C++ one (randpermutation.h:46) follows *)
Definition py_item (dbg : bool) (p : list nat) (k : Z) : outcome nat :=
  assert_ true ((0 <=? k) && (k <? Z.of_nat (length p)))%Z (rp_get dbg p (Z.to_nat k)).

(** What an iteration over an object without __iter__ does, from index k on: IndexError would end it, but __getitem__ never
    raises one.  fuel bounds the number of calls. *)
Fixpoint py_iterate (fuel : nat) (dbg : bool) (p : list nat) (k : Z) : outcome (list nat) :=
  match fuel with
  | O => OutOfFuel
  | S fuel => do x <- py_item dbg p k; do r <- py_iterate fuel dbg p (k + 1)%Z; Ok (x :: r)
  end.
(** x in p: iterates until x is found *)
Fixpoint py_search (fuel : nat) (dbg : bool) (p : list nat) (x : nat) (k : Z) : outcome bool :=
  match fuel with
  | O => OutOfFuel
  | S fuel => do y <- py_item dbg p k; if Nat.eqb x y then Ok true else py_search fuel dbg p x (k + 1)%Z
  end.
(** list(reversed(p)): __getitem__ for the indices len(p) - 1, ..., 0 *)
Fixpoint py_backwards (k : nat) (dbg : bool) (p : list nat) : outcome (list nat) :=
  match k with
  | O => Ok []
  | S k => do x <- py_item dbg p (Z.of_nat k); do r <- py_backwards k dbg p; Ok (x :: r)
  end.
Definition py_reversed (dbg : bool) (p : list nat) : outcome (list nat) := py_backwards (py_len p) dbg p.
(** [p[k] for k in range(len(p))] *)
Fixpoint py_items (dbg : bool) (p : list nat) (ks : list nat) : outcome (list nat) :=
  match ks with
  | [] => Ok []
  | k :: ks => do x <- py_item dbg p (Z.of_nat k); do r <- py_items dbg p ks; Ok (x :: r)
  end.
