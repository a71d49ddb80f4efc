(** What JanetPolyInt should compute: ideals over the rationals, stated with integer polynomials, and the
    histories of one object. *)
From Coq Require Import ZArith List Bool Arith.
From Verif Require Import Outcome MonomModel MonomSpec PolyModel PolySpec JanetSpec JanetPolyModel TQModel.
Import ListNotations.
Local Open Scope Z_scope.

(** A polynomial object over Z[x1..xn] with the given order and no module terms. *)
Definition ring_input (t : pos_order) (o : base_order) (n : nat) (p : poly) : Prop :=
  valid_poly p /\ psize p = n /\ pto p = t /\ pbo p = o /\ ring_poly (terms p).

(** The polynomials of a list, as a set of term lists. *)
Definition among (F : list poly) : list (monom * Z) -> Prop := fun g => exists f, In f F /\ terms f = g.

(** p lies in the ideal that F generates over the rational numbers: a non-zero integer multiple of p is
    a combination of elements of F with polynomial coefficients. *)
Definition rational_member (n : nat) (G : list (monom * Z) -> Prop) (p : list (monom * Z)) : Prop :=
  exists k q, k <> 0 /\ combination n G q /\ forall m, coef q m = k * coef p m.

(** r and p differ by an element of the ideal of G, up to non-zero integer factors. *)
Definition reduces_to (n : nat) (G : list (monom * Z) -> Prop) (p r : list (monom * Z)) : Prop :=
  exists k l q, k <> 0 /\ l <> 0 /\ combination n G q /\ forall m, l * coef r m = k * coef p m + coef q m.

(** All histories of one object: pushes of ring polynomials and calls of build, algorithmTQ and
    algorithmTQ1, in any order; F are the polynomials pushed so far. *)
Inductive jp_history (dbg : bool) (t : pos_order) (o : base_order) (n : nat) : list poly -> jpoly -> Prop :=
| hist_new : jp_history dbg t o n [] jp_empty
| hist_push F J a J' : jp_history dbg t o n F J -> ring_input t o n a -> jp_push dbg J a = Ok J' ->
    jp_history dbg t o n (a :: F) J'
| hist_build F J fuel J' : jp_history dbg t o n F J -> jp_build fuel dbg J = Ok J' -> jp_history dbg t o n F J'
| hist_tq F J one fuel J' : jp_history dbg t o n F J -> jp_tq one fuel dbg J = Ok J' -> jp_history dbg t o n F J'.

(** The elements of the basis: the polynomial 1 when isOne() is true, otherwise what begin() iterates over. *)
Definition basis (J : jpoly) : list poly :=
  match jone J with Some w => [wpol w] | None => map snd (jt J) end.

(** The same after algorithmTQ2. *)
Definition basis2 (J : jpoly2) : list poly :=
  match j2one J with Some w => [wpol w] | None => map item_poly (j2t J) end.

(** The exponents of the leading monomial. *)
Definition lead (p : poly) : list nat := match terms p with (m, _) :: _ => vars m | [] => [] end.

(** u are the exponents of the variable number i. *)
Definition is_variable (n i : nat) (u : list nat) : Prop :=
  length u = n /\ forall j, (j < n)%nat -> expo u j = if (j =? i)%nat then 1%nat else 0%nat.

(** The local test for involutive bases: for every element g of the basis and every variable x_i that is
    non-multiplicative for it, the normal form of x_i * g is 0. *)
Definition passes_local_test (t : pos_order) (o : base_order) (n : nat) (J : jpoly) : Prop :=
  forall g i u x, In g (basis J) -> (i < n)%nat -> janet_nm (map lead (basis J)) (lead g) i ->
    is_variable n i u -> ring_input t o n x -> (forall m, coef (terms x) m = coef (shift u (terms g)) m) ->
    exists fuel r, jp_nf fuel false J x = Ok r /\ terms r = [].

(** [k] is the number of monomials in n variables of degree at most s that satisfy P. *)
Definition number_of (n s : nat) (P : list nat -> Prop) (k : nat) : Prop :=
  exists L : list (list nat), NoDup L /\ length L = k /\ forall m, In m L <-> length m = n /\ (total m <= s)%nat /\ P m.

(** m is the leading monomial of a non-zero element of the ideal of F. *)
Definition leading_in_ideal (t : pos_order) (o : base_order) (n : nat) (F : list poly) (m : list nat) : Prop :=
  exists f, ring_input t o n f /\ terms f <> [] /\ rational_member n (among F) (terms f) /\ lead f = m.
