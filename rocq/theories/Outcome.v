(** Outcomes of C++ code: a normal value, or one of the ways an execution can go wrong.
    Nothing here is specific to one file of /repo. *)
From Coq Require Import ZArith List Bool.
Import ListNotations.
Local Open Scope Z_scope.

Inductive outcome (A : Type) : Type :=
| Ok (a : A)        (* normal completion *)
| AssertFail        (* assert() fails; only in builds without NDEBUG *)
| Undef             (* undefined behaviour: signed overflow, bad pointer, use after free ... *)
| Exit              (* the process is terminated by exit() *)
| OutOfFuel.        (* the model's recursion bound was too small: not a C++ behaviour *)
Arguments Ok {A} a.
Arguments AssertFail {A}.
Arguments Undef {A}.
Arguments Exit {A}.
Arguments OutOfFuel {A}.

Definition bind {A B} (x : outcome A) (f : A -> outcome B) : outcome B :=
  match x with
  | Ok a => f a
  | AssertFail => AssertFail
  | Undef => Undef
  | Exit => Exit
  | OutOfFuel => OutOfFuel
  end.

Notation "'do' x <- e ; f" := (bind e (fun x => f))
  (at level 200, x pattern, e at level 100, f at level 200, right associativity).

(** assert(c): [dbg = true] models a build without NDEBUG, [dbg = false] one with NDEBUG. *)
Definition assert_ {A} (dbg : bool) (c : bool) (k : outcome A) : outcome A :=
  if dbg && negb c then AssertFail else k.

(** C++ int on the supported platforms: 32 bit two's complement; signed overflow is undefined. *)
Definition INT_MAX : Z := 2147483647.
Definition INT_MIN : Z := -2147483648.
Definition in_int (z : Z) : bool := (INT_MIN <=? z) && (z <=? INT_MAX).
Definition int_ (z : Z) : outcome Z := if in_int z then Ok z else Undef.
