(** Vocabulary for the properties of JanetCache. *)
From Coq Require Import ZArith List.
From Verif Require Import Outcome MonomModel MonomSpec PolySpec JanetSpec JanetPolySpec PyMonomModel PyMonomSpec PyPolyModel PyPolySpec PyJanetModel PyJanetSpec PyCacheModel.
Import ListNotations.
Local Open Scope Z_scope.

(** All monomials of f belong to the unknown function number p (-1: f is an ordinary polynomial). *)
Definition in_component (p : Z) (f : ppoly) : Prop := Forall (fun x => pos (fst x) = p) f.

(** A valid polynomial in component p lying in the ideal (over the rationals) of G *)
Definition consequence (o : py_order) (n : nat) (k p : Z) (G : ppoly -> Prop) (f : ppoly) : Prop :=
  py_canonical o n k f /\ in_component p f /\ rational_member n G f.

(** A Janet tree of such polynomials *)
Definition cache_tree (o : py_order) (n : nat) (k p : Z) (G : ppoly -> Prop) (J : pjanet) : Prop :=
  built n J /\ forall w, In w (elems J) -> leads w /\ consequence o n k p G (pw_poly w).

(** States of a JanetCache: the tree changes (to another tree of consequences of G) and find is called, in any order. *)
Inductive cache_history (o : py_order) (n : nat) (k p : Z) (G : ppoly -> Prop) : pjanet -> pcache -> Prop :=
| ch_new : forall J, cache_tree o n k p G J -> cache_history o n k p G J []
| ch_tree : forall J J' c, cache_history o n k p G J c -> cache_tree o n k p G J' -> cache_history o n k p G J' c
| ch_find : forall J c m fuel w c', cache_history o n k p G J c -> pmono n k m -> pos m = p ->
    jc_find fuel o J c m = Ok (w, c') -> cache_history o n k p G J c'.

(** m has a Janet divisor among the leading monomials of the tree *)
Definition janet_reducible (n : nat) (J : pjanet) (m : monom) : Prop :=
  exists x, janet_divides n (tree_exps J) x (vars m).
