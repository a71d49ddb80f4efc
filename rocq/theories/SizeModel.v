(** norm() of PolyInt and Integer with the range of int (ginv/poly_int.cpp, util/integer.h). *)
From Coq Require Import ZArith List Bool.
From Verif Require Import Outcome MonomModel PolyModel JanetPolyModel.
Import ListNotations.
Local Open Scope Z_scope.

(** the largest int *)
Definition int_max : Z := 2 ^ 31 - 1.

(** poly_int.cpp:109-117 norm(): sum += mCoeff.norm(), signed overflow is undefined behaviour.
    integer.h:117 and 180, Integer::norm(), is [limbs]; the count of limbs _mp_size is an int of GMP. *)
Fixpoint norm_loop (sum : Z) (l : list term) : outcome Z :=
  match l with
  | [] => Ok sum
  | (_, c) :: l' => if sum + limbs c <=? int_max then norm_loop (sum + limbs c) l' else Undef
  end.
Definition p_norm_int (p : poly) : outcome Z := norm_loop 0 (terms p).
