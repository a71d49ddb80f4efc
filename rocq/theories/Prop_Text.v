(** Property C69: the texts written by operator<< and by the Cython classes. *)
From Coq Require Import ZArith List Bool Arith Lia String Ascii QArith Sorted.
From Verif Require Import Outcome MonomModel PolyModel BoolModel BoolSpec HilbertModel TextModel TextSpec TextProofs TextProofs2 TextTop.
Import ListNotations.
Local Open Scope string_scope.
Local Open Scope Z_scope.

(** No two monomials, no two polynomials are written alike. *)
Theorem C69_monom : forall m m', good_monom m -> good_monom m' -> monom_text m = monom_text m' -> m = m'.
Proof. exact monom_text_inj. Qed.
Print Assumptions C69_monom.
Theorem C69_poly : forall l l', Forall good_term l -> Forall good_term l' -> poly_text l = poly_text l' -> l = l'.
Proof. exact poly_text_inj. Qed.
Print Assumptions C69_poly.

(** The same for Boolean monomials and polynomials; writing them reads no cell outside the arrays. *)
Theorem C69_bmonom : forall m m' l l', shows m l -> shows m' l' ->
  (exists s, bm_text m = Ok s) /\ (bm_text m = bm_text m' -> l = l').
Proof. exact bm_text_all. Qed.
Print Assumptions C69_bmonom.
Theorem C69_bpoly : forall p p' ls ls', polys p ls -> polys p' ls' ->
  (exists s, bp_text p = Ok s) /\ (bp_text p = bp_text p' -> ls = ls').
Proof. exact bp_text_all. Qed.
Print Assumptions C69_bpoly.

(** Two Hilbert polynomials are written alike exactly if they have the same coefficients; zero is written as nothing. *)
Theorem C69_hilbert : forall h h', hp_text h = hp_text h' <-> forall i, (nth i h 0 == nth i h' 0)%Q.
Proof. exact hp_text_inj. Qed.
Print Assumptions C69_hilbert.
Theorem C69_hilbert_zero : forall h, hp_text h = "" <-> forall i, (nth i h 0 == 0)%Q.
Proof. exact hp_text_zero. Qed.
Print Assumptions C69_hilbert_zero.

(** Python classes: integers and monomials; a polynomial is shown by its leading term alone. *)
Theorem C69_py_integer : forall a b, cy_int_repr a = cy_int_repr b -> a = b.
Proof. exact cy_int_repr_inj. Qed.
Print Assumptions C69_py_integer.
Theorem C69_py_monom : forall m m', good_monom m -> good_monom m' ->
  (cy_monom_str m = cy_monom_str m' -> m = m') /\ (cy_monom_repr m = cy_monom_repr m' -> m = m').
Proof. exact cy_monom_all. Qed.
Print Assumptions C69_py_monom.
Theorem C69_py_poly : forall l l', Forall good_term l -> Forall good_term l' ->
  (cy_poly_str l = cy_poly_str l' <-> hd_error l = hd_error l') /\ (cy_poly_repr l = cy_poly_repr l' <-> hd_error l = hd_error l').
Proof. exact cy_poly_all. Qed.
Print Assumptions C69_py_poly.

Example C69_example :
  Forall good_term [(Mon 1 [2; 0]%nat, -3); (Mon (-1) [0; 10]%nat, 1)] /\
  poly_text [(Mon 1 [2; 0]%nat, -3); (Mon (-1) [0; 10]%nat, 1)] = "[1:2 0]*-3 + [0 10]*1" /\
  poly_text [] = "0" /\
  (shows (mkBM 2 2 [5; 3]) [5; 3] /\ shows (mkBM 0 0 []) [] /\ bp_text [mkBM 2 2 [5; 3]; mkBM 0 0 []] = Ok "[5 3] + 1") /\
  hp_text [(1#3); 0; (-2#4); 3]%Q = "3s^3 - 1/2s^2 + 1/3" /\
  cy_int_repr (-255) = "-0xff" /\
  cy_monom_repr (Mon 1 [2; 3]%nat) = "[1 5:2 3]" /\
  cy_poly_str [(Mon (-1) [2; 0]%nat, -3); (Mon (-1) [0; 1]%nat, 1)] = "[2 0]*-3 + ...".
Proof. exact text_example. Qed.
