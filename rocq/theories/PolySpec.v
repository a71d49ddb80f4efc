(** What polynomials (elements of a free module over Z[x1..xn]) are and what the operations should do,
    without reference to the model's functions.  A list of (monomial, integer) pairs stands for the
    sum of its terms; two lists are the same polynomial when all coefficients agree. *)
From Coq Require Import ZArith List Bool Arith Sorted.
From Verif Require Import Outcome MonomModel MonomSpec PolyModel.
Import ListNotations.
Local Open Scope Z_scope.

Definition monom_eq_dec (a b : monom) : {a = b} + {a <> b}.
Proof. decide equality; [apply (list_eq_dec Nat.eq_dec)|apply Z.eq_dec]. Defined.

(** The coefficient of monomial m in the sum of the terms of l. *)
Fixpoint coef (l : list (monom * Z)) (m : monom) : Z :=
  match l with
  | [] => 0
  | (u, c) :: l' => (if monom_eq_dec u m then c else 0) + coef l' m
  end.

(** Canonical representation: monomials of n variables, strictly decreasing, coefficients not zero. *)
Definition canonical (t : pos_order) (o : base_order) (n : nat) (l : list (monom * Z)) : Prop :=
  StronglySorted (fun x y => module_gt t o (fst x) (fst y)) l /\
  Forall (fun x => mono n (fst x)) l /\
  Forall (fun x => snd x <> 0) l.

(** Polynomials over the ring: no term is in a module component. *)
Definition ring_poly (l : list (monom * Z)) : Prop := Forall (fun x => pos (fst x) = -1) l.
(** All terms are in component p (-1: ring). *)
Definition in_component (p : Z) (l : list (monom * Z)) : Prop := Forall (fun x => pos (fst x) = p) l.

(** Componentwise sum; product of two monomials at most one of which is in a module component. *)
Definition vsum (u v : list nat) : list nat := map (fun p => (fst p + snd p)%nat) (combine u v).
Definition mprod (u v : monom) : monom :=
  Mon (if pos u =? -1 then pos v else pos u) (vsum (vars u) (vars v)).

(** Coefficient of m in the product of p and q: the sum over all pairs of terms whose product is m. *)
Definition prod_coef (p q : list (monom * Z)) (m : monom) : Z :=
  fold_right Z.add 0
    (map (fun x => fold_right Z.add 0
       (map (fun y => if monom_eq_dec (mprod (fst x) (fst y)) m then snd x * snd y else 0) q)) p).

(** The polynomial 1 and the n-fold product. *)
Definition one (n : nat) : list (monom * Z) := [(Mon (-1) (repeat 0%nat n), 1)].

(** r is the k-fold product of p. *)
Inductive is_power (n : nat) (p : list (monom * Z)) : nat -> list (monom * Z) -> Prop :=
| power_0 r : (forall m, coef r m = coef (one n) m) -> is_power n p 0 r
| power_S k q r : is_power n p k q -> (forall m, coef r m = prod_coef q p m) -> is_power n p (S k) r.

(** a multiplied by the ring monomial with exponents u. *)
Definition shift (u : list nat) (a : list (monom * Z)) : list (monom * Z) :=
  map (fun x => (mprod (Mon (-1) u) (fst x), snd x)) a.

(** p is a combination of elements of G with polynomial coefficients. *)
Inductive combination (n : nat) (G : list (monom * Z) -> Prop) : list (monom * Z) -> Prop :=
| comb_zero p : (forall m, coef p m = 0) -> combination n G p
| comb_add p q u g c : combination n G q -> G g -> length u = n ->
    (forall m, coef p m = coef q m + c * coef (shift u g) m) -> combination n G p.

(** v divides m, both as module monomials. *)
Definition mdivides (v m : monom) : Prop :=
  (pos v = -1 \/ pos v = pos m) /\ length (vars v) = length (vars m) /\
  forall i, (expo (vars v) i <= expo (vars m) i)%nat.

(** The greatest common divisor of the coefficients is 1. *)
Definition primitive (l : list (monom * Z)) : Prop :=
  forall d, (forall m, (d | coef l m)) -> d = 1 \/ d = -1.

(** A valid polynomial object; two objects over the same ring with the same order. *)
Definition valid_poly (p : poly) : Prop := canonical (pto p) (pbo p) (psize p) (terms p).
Definition same_ring (p a : poly) : Prop := psize p = psize a /\ pto p = pto a /\ pbo p = pbo a.

(** The reducers for which reduction is proved: all terms in the component of the reduced monomial;
    with asserts compiled in, moreover ring terms or a single term. *)
Definition reducer (dbg : bool) (m : monom) (a : list (monom * Z)) : Prop :=
  in_component (pos m) a /\ (dbg = true -> pos m = -1 \/ length a = 1%nat).

(** All monomials of l are smaller than m. *)
Definition all_below (t : pos_order) (o : base_order) (m : monom) (l : list (monom * Z)) : Prop :=
  Forall (fun x => module_gt t o m (fst x)) l.

(** A search procedure for reducers taken from the set G: it always answers, and every answer is a
    non-zero valid polynomial whose leading monomial divides the monomial asked for. *)
Definition good_find (dbg : bool) (t : pos_order) (o : base_order) (n : nat)
    (G : list (monom * Z) -> Prop) (find : monom -> outcome (option poly)) : Prop :=
  forall m, mono n m -> exists w, find m = Ok w /\ forall a, w = Some a ->
    valid_poly a /\ psize a = n /\ pto a = t /\ pbo a = o /\ G (terms a) /\ reducer dbg m (terms a) /\
    exists v d a', terms a = (v, d) :: a' /\ mdivides v m.

(** r is, up to a non-zero factor of f, congruent to f modulo G. *)
Definition congruent (n : nat) (G : list (monom * Z) -> Prop) (f r : list (monom * Z)) : Prop :=
  exists k q, k <> 0 /\ combination n G q /\ forall m, coef r m = k * coef f m + coef q m.

(** The operations of a polynomial object, with the preconditions under which C09 holds:
    [operation dbg p r] says that r can be the value of p after one call. *)
Inductive operation (dbg : bool) (p : poly) : outcome poly -> Prop :=
| op_copy : operation dbg p (p_copy dbg p)
| op_minus : operation dbg p (p_minus dbg p)
| op_add a : valid_poly a -> same_ring p a -> operation dbg p (p_add dbg p a)
| op_sub a : valid_poly a -> same_ring p a -> operation dbg p (p_sub dbg p a)
| op_add_const c : terms p <> [] -> pbo p <> OAlex -> c <> 0 -> operation dbg p (p_add_const dbg p c)
| op_sub_const c : terms p <> [] -> pbo p <> OAlex -> c <> 0 -> operation dbg p (p_sub_const dbg p c)
| op_mult_const c : operation dbg p (p_mult_const dbg p c)
| op_mult a : valid_poly a -> same_ring p a -> ring_poly (terms p) \/ ring_poly (terms a) -> operation dbg p (p_mult dbg p a)
| op_pow k : ring_poly (terms p) \/ (k <= 1)%nat -> operation dbg p (p_pow dbg p k)
| op_mul_var k : (k < psize p)%nat -> operation dbg p (p_mul_var dbg k p)
| op_pp : operation dbg p (p_pp dbg p)
| op_reduction a m c l v d l' : valid_poly a -> same_ring p a -> terms p = (m, c) :: l -> terms a = (v, d) :: l' ->
    mdivides v m -> reducer dbg m (terms a) -> operation dbg p (p_reduction dbg p a)
| op_redMaybe a : valid_poly a -> same_ring p a -> terms p <> [] -> terms a <> [] ->
    ring_poly (terms p) -> ring_poly (terms a) -> operation dbg p (p_redMaybe dbg p a).

(** All values an object can take by any number of calls. *)
Inductive history (dbg : bool) (p : poly) : outcome poly -> Prop :=
| hist_refl : history dbg p (Ok p)
| hist_step q r : history dbg p (Ok q) -> operation dbg q r -> history dbg p r.
