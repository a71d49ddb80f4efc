(** What the operations of pyginv's class Poly should do.  coef, prod_coef, is_power, shift, combination are the
    independent notions of PolySpec.v. *)
From Coq Require Import ZArith List Bool Arith Sorted.
From Verif Require Import Outcome MonomModel MonomSpec PolySpec PyMonomModel PyMonomSpec PyPolyModel.
Import ListNotations.
Local Open Scope Z_scope.

(** A valid Poly over n variables and k unknown functions: monomials strictly decreasing, coefficients not 0. *)
Definition py_canonical (o : py_order) (n : nat) (k : Z) (p : ppoly) : Prop :=
  StronglySorted (fun x y => py_greater o (fst x) (fst y)) p /\
  Forall (fun x => pmono n k (fst x)) p /\ Forall (fun x => snd x <> 0) p.

(** r is a valid Poly and its coefficients are given by f. *)
Definition py_yields (o : py_order) (n : nat) (k : Z) (r : outcome ppoly) (f : monom -> Z) : Prop :=
  exists p, r = Ok p /\ py_canonical o n k p /\ forall m, coef p m = f m.

(** A search procedure for reducers taken from the set G: it always answers; an answer is a valid polynomial
    whose leading monomial is in the same component as the monomial asked for and divides it. *)
Definition py_good_find (o : py_order) (n : nat) (k : Z) (G : ppoly -> Prop) (find : monom -> outcome (option ppoly)) : Prop :=
  forall m, pmono n k m -> exists w, find m = Ok w /\ forall q, w = Some q ->
    py_canonical o n k q /\ G q /\ exists v d q', q = (v, d) :: q' /\ pos v = pos m /\ mdivides v m.

(** find has no reducer for m *)
Definition irreducible (find : monom -> outcome (option ppoly)) (m : monom) : Prop := find m = Ok None.

(** All monomials of p are smaller than m. *)
Definition py_below (o : py_order) (m : monom) (p : ppoly) : Prop := Forall (fun x => py_greater o m (fst x)) p.
