(** Vocabulary for the properties of ginvMin and ginvBlockLow of pyginv/ginv.py. *)
From Coq Require Import ZArith List Bool Arith.
From Verif Require Import Outcome MonomModel MonomSpec PolySpec JanetSpec JanetPolySpec PyMonomModel PyMonomSpec PyPolyModel PyPolySpec PyJanetModel PyJanetSpec
  PyHPModel PyForestModel PyQueueModel PyGinvModel.
Import ListNotations.
Local Open Scope nat_scope.

(** The polynomials of a tree or forest; the exponents of the leading monomials with the unknown function p (-1: none) *)
Definition basis (T : pdiv) : list ppoly := map pw_poly (d_elems T).
Definition lead_exps (T : pdiv) (p : Z) : list (list nat) := map exps (filter (fun w => Z.eqb (pos (pw_lm w)) p) (d_elems T)).
(** m has a Janet divisor among the leading monomials *)
Definition reducible (n : nat) (T : pdiv) (m : monom) : Prop := exists u, janet_divides n (lead_exps T (pos m)) u (vars m).

(** An input polynomial: valid, not 0, without unknown functions for a Janet tree, with one in each term for a Forest *)
Definition input (o : py_order) (n : nat) (k : Z) (T : pdiv) (p : ppoly) : Prop :=
  py_canonical o n k p /\ p <> [] /\
  Forall (fun x => match T with DJanet _ => pos (fst x) = (-1)%Z | DForest _ => (0 <= pos (fst x))%Z end) p.

(** The calls ginvMin(ps, invdiv, level), level > 0 or not, and ginvBlockLow(ps, invdiv) *)
Inductive call := CMin (level : bool) (ps : list ppoly) | CLow (ps : list ppoly).
Definition call_inputs (c : call) : list ppoly := match c with CMin _ ps => ps | CLow ps => ps end.
Definition perform (fuel nf : nat) (o : py_order) (c : call) (T : pdiv) (id : nat) : outcome pstate :=
  match c with CMin level ps => ginv_min fuel nf o level ps T id | CLow ps => ginv_low fuel nf o ps T id end.
(** The two counters a call returns *)
Definition counters (s : pstate) : nat := pq_crit1 (ps_queue s) + pq_crit2 (ps_queue s).

(** What a history of calls makes of a new Janet() or Forest(Janet), with the sum of the counters of each call; the
    last number is a bound of Wrap.id.  [n] variables, [k] unknown functions (0 for Janet()). *)
Inductive session (o : py_order) (n : nat) (k : Z) : list (call * nat) -> pdiv -> nat -> Prop :=
| ses_janet id : k = 0%Z -> session o n k [] (DJanet pj_empty) id
| ses_forest F id : (0 < k)%Z -> pf_new (Z.to_nat k) = Ok F -> session o n k [] (DForest F) id
| ses_call cs T id c fuel nf id' s : session o n k cs T id -> id <= id' -> Forall (input o n k T) (call_inputs c) ->
    perform fuel nf o c T id' = Ok s -> session o n k (cs ++ [(c, counters s)]) (ps_tree s) (ps_id s).

(** All input polynomials of a history *)
Definition inputs (cs : list (call * nat)) (p : ppoly) : Prop := exists c, In c cs /\ In p (call_inputs (fst c)).
(** Only ginvMin was called and its criteria were never used *)
Definition uncut (cs : list (call * nat)) : Prop := Forall (fun c => match fst c with CMin _ _ => snd c = 0 | CLow _ => False end) cs.
(** The last call was ginvMin with level > 0 *)
Definition prolonging (cs : list (call * nat)) : Prop := exists cs' ps x, cs = cs' ++ [(CMin true ps, x)].
