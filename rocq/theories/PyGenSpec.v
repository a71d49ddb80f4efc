(** What polynomials with coefficients from any domain mean. *)
From Coq Require Import ZArith List Bool Arith Sorted.
From Verif Require Import Outcome MonomModel MonomSpec PolySpec PyMonomModel PyMonomSpec PyDiffModel PyDiffSpec.
Import ListNotations.
Local Open Scope Z_scope.

(** A space in which the polynomials take their values (the record [space] of PyDiffSpec.v): now f_der F v is the action of
    the variable number v, any operators that commute with each other and with the coefficients.  Examples: the
    multiplication with x_v in a ring of polynomials or any module over it; the shift u(.., i_v, ..) -> u(.., i_v + 1, ..)
    of grid functions. *)
Record good_module (C : coefs) (F : space C) : Prop := {
  gm_add_0 : forall f, f_add F (f_zero F) f = f;
  gm_add_comm : forall f g, f_add F f g = f_add F g f;
  gm_add_assoc : forall f g h, f_add F f (f_add F g h) = f_add F (f_add F f g) h;
  gm_mul_zero : forall f, f_mul F (c_zero C) f = f_zero F;
  gm_mul_one : forall f, f_mul F (c_one C) f = f;
  gm_mul_mul : forall a b f, f_mul F (c_mul C a b) f = f_mul F a (f_mul F b f);
  gm_add_coefs : forall a b f, f_mul F (c_add C a b) f = f_add F (f_mul F a f) (f_mul F b f);
  gm_mul_add : forall a f g, f_mul F a (f_add F f g) = f_add F (f_mul F a f) (f_mul F a g);
  gm_act_add : forall v f g, f_der F v (f_add F f g) = f_add F (f_der F v f) (f_der F v g);
  gm_act_mul : forall v a f, f_der F v (f_mul F a f) = f_mul F a (f_der F v f);
  gm_act_comm : forall v w f, f_der F v (f_der F w f) = f_der F w (f_der F v f)
}.

Section Value.
Context {C : coefs} (F : space C).
(** x^e applied to f *)
Definition power_on (e : list nat) (f : fs F) : fs F := derive F 0 e f.
(** The value of a monomial (position -1: applied to 1, position p: to the unknown u p) and of a polynomial *)
Definition mod_mono (u : Z -> fs F) (m : monom) : fs F := power_on (vars m) (if pos m =? -1 then f_one F else u (pos m)).
Definition mod_value (u : Z -> fs F) (p : list (monom * ck C)) : fs F :=
  fold_right (fun x s => f_add F (f_mul F (snd x) (mod_mono u (fst x))) s) (f_zero F) p.
(** A polynomial without unknown functions applied to f *)
Definition apply_poly (p : list (monom * ck C)) (f : fs F) : fs F :=
  fold_right (fun x s => f_add F (f_mul F (snd x) (power_on (vars (fst x)) f)) s) (f_zero F) p.
End Value.

(** A valid Poly over n variables and k unknown functions: monomials strictly decreasing, coefficients not 0. *)
Definition sp_canonical (C : coefs) (o : py_order) (n : nat) (k : Z) (p : list (monom * ck C)) : Prop :=
  StronglySorted (fun x y => py_greater o (fst x) (fst y)) p /\
  Forall (fun x => pmono n k (fst x)) p /\ Forall (fun x => snd x <> c_zero C) p.
(** No unknown functions *)
Definition plain {C : coefs} (p : list (monom * ck C)) : Prop := Forall (fun x => pos (fst x) = -1) p.

(** A search procedure for reducers taken from the set G: it always answers; an answer is a valid polynomial
    whose leading monomial is in the same component as the monomial asked for and divides it. *)
Definition sp_good_find (C : coefs) (o : py_order) (n : nat) (k : Z) (G : list (monom * ck C) -> Prop)
    (find : monom -> outcome (option (list (monom * ck C)))) : Prop :=
  forall m, pmono n k m -> exists w, find m = Ok w /\ forall q, w = Some q ->
    sp_canonical C o n k q /\ G q /\ exists v d q', q = (v, d) :: q' /\ pos v = pos m /\ mdivides v m.

(** Wherever all polynomials of G have the value 0, r is c times p. *)
Definition same_modulo (C : coefs) (G : list (monom * ck C) -> Prop) (c : ck C) (p r : list (monom * ck C)) : Prop :=
  forall (F : space C), good_module C F -> forall u, (forall g, G g -> mod_value F u g = f_zero F) ->
  mod_value F u r = f_mul F c (mod_value F u p).

(** A difference scheme at the point i of the grid, for grid functions w 0, w 1, ...: the monomial T(w, x_v, d_v, ...) is the
    function w at the point i + d; a monomial without function is the function 1. *)
Definition scheme_at {C : coefs} (w : Z -> list nat -> ck C) (p : list (monom * ck C)) (i : list nat) : ck C :=
  fold_right (fun x s => c_add C (c_mul C (snd x) (if pos (fst x) =? -1 then c_one C else w (pos (fst x)) (vsum i (vars (fst x))))) s) (c_zero C) p.
(** On all grid functions for which the schemes of G are 0 at all points, r is c times p at all points. *)
Definition same_on_grid (C : coefs) (n : nat) (G : list (monom * ck C) -> Prop) (c : ck C) (p r : list (monom * ck C)) : Prop :=
  forall w, (forall g i, G g -> length i = n -> scheme_at w g i = c_zero C) ->
  forall i, length i = n -> scheme_at w r i = c_mul C c (scheme_at w p i).
(** The point i moved by d steps in the direction of variable v, for all (v, d) of l *)
Definition shifted_by (l : list (nat * nat)) (i : list nat) : list nat := fold_left (fun i x => Nat.iter (snd x) (incr (fst x)) i) l i.
