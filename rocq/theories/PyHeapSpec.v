(** What operations on Poly objects should do, and when objects are independent. *)
From Coq Require Import ZArith List Bool Arith.
From Verif Require Import Outcome MonomModel PyMonomModel PyPolyModel PyHeapModel.
Import ListNotations.
Local Open Scope Z_scope.

(** The value an operation gives, computed from the values of its operands alone. *)
Definition value_op (fuel : nat) (o : py_order) (n : nat) (env : nat -> ppoly) (op : hop) : outcome ppoly :=
  match op with
  | HMonom m => Ok (py_of_monom m)
  | HInt c => Ok (py_of_int n c)
  | HCopy p => py_checked o (env p)
  | HNeg p => Ok (py_neg (env p))
  | HAdd p q => py_add o (env p) (env q)
  | HSub p q => py_sub o (env p) (env q)
  | HAddInt p c => py_add_int o n (env p) c
  | HSubInt p c => py_sub_int o n (env p) c
  | HMul p q => py_times o (env p) (env q)
  | HMulInt p c => py_times_int o n (env p) c
  | HPow p j => py_power o n (env p) j
  | HProlong p v => py_prolong_poly o (env p) v
  | HMult p m c => py_mult o (env p) m c
  | HPp p => py_pp o (env p)
  | HReduction p i q => py_reduction o (env p) i (env q)
  | HReduce p q => py_reduce o (env p) (env q)
  | HNFhead p q => py_nfhead fuel o (py_find1 (env q)) (env p)
  end.

(** The objects an operation refers to; the one it changes in place. *)
Definition operands (op : hop) : list nat :=
  match op with
  | HMonom _ | HInt _ => []
  | HCopy p | HNeg p | HAddInt p _ | HSubInt p _ | HMulInt p _ | HPow p _ | HProlong p _ | HMult p _ _ | HPp p => [p]
  | HAdd p q | HSub p q | HMul p q | HReduction p _ q | HReduce p q | HNFhead p q => [p; q]
  end.
Definition changes (op : hop) : option nat :=
  match op with
  | HPp p | HReduction p _ _ | HReduce p _ | HNFhead p _ => Some p
  | _ => None
  end.
(** In-place methods are not called with the object itself as argument (they would fail an assertion). *)
Definition proper (op : hop) : Prop :=
  match op with HReduction p _ q | HReduce p q | HNFhead p q => p <> q | _ => True end.

(** Two objects have a cell in common. *)
Definition shares (s : hstate) (p q : nat) : Prop := exists a, In a (obj s p) /\ In a (obj s q).

(** + and - with a non-zero int or a Poly. *)
Definition sum_op (op : hop) : bool :=
  match op with
  | HAdd _ _ | HSub _ _ => true
  | HAddInt _ c | HSubInt _ c => negb (c =? 0)
  | _ => false
  end.

(** States after a sequence of method calls, each allowed and on objects that exist, starting from nothing. *)
Inductive reaches (o : py_order) (n : nat) (allowed : hop -> Prop) : hstate -> Prop :=
| reach_start : reaches o n allowed (H [] [])
| reach_step fuel s op s' r : reaches o n allowed s -> allowed op -> (forall p, In p (operands op) -> (p < length (hobjs s))%nat) ->
    h_step fuel o n op s = Ok (s', r) -> reaches o n allowed s'.
