(** Property theorems C75: the monomials of the Python module ginv.  Model: CyMonomModel.v; specification: CyMonomSpec.v. *)
From Coq Require Import ZArith List Bool Permutation.
From Verif Require Import Outcome MonomModel MonomSpec RandPermModel CyMonomModel CyMonomSpec CyMonomProofs.
Import ListNotations.
Local Open Scope Z_scope.

(** zero(size, pos) makes the monomial 1 at position pos ... *)
Theorem C75_zero : forall (dbg : bool) (size pos : Z), 1 < size <= INT_MAX -> -1 <= pos <= INT_MAX ->
  makes (cy_zero dbg size pos) pos (repeat 0 (Z.to_nat size)).
Proof. exact zero_ok. Qed.
Print Assumptions C75_zero.

(** ... and raises an exception for every other pair of ints. *)
Theorem C75_zero_refuses : forall (dbg : bool) (size pos : Z), ~ (1 < size <= INT_MAX /\ -1 <= pos <= INT_MAX) ->
  exists e, raises (cy_zero dbg size pos) e.
Proof. exact zero_raises. Qed.
Print Assumptions C75_zero_refuses.

(** variable(v, size, pos) makes the variable number v, if there is one ... *)
Theorem C75_variable : forall (dbg : bool) (v size pos : Z),
  1 < size <= INT_MAX -> -1 <= pos <= INT_MAX -> 0 <= v < size ->
  makes (cy_variable dbg v size pos) pos (unit_at (Z.to_nat v) (Z.to_nat size)).
Proof. exact variable_ok. Qed.
Print Assumptions C75_variable.

(** ... otherwise it does not raise an exception: it writes outside of the monomial. *)
Theorem C75_variable_outside : forall v size pos : Z,
  1 < size <= INT_MAX -> -1 <= pos <= INT_MAX -> INT_MIN <= v <= INT_MAX -> ~ 0 <= v < size ->
  cy_variable false v size pos = Undef /\ cy_variable true v size pos = AssertFail.
Proof. exact variable_outside. Qed.
Print Assumptions C75_variable_outside.

(** len, pos, degree, bool, list and [k] show the monomial. *)
Theorem C75_reads : forall (dbg : bool) (x : mobj) (p : Z) (e : list Z), shows x p e ->
  cy_len x = Ok (Ret (Z.of_nat (length e))) /\ cy_pos x = Ok (Ret p) /\ cy_degree x = Ok (Ret (sum e)) /\
  cy_bool x = Ok (Ret (0 <? sum e)) /\ cy_list dbg x = Ok (Ret e) /\
  (forall k, Z.of_nat (length e) <= INT_MAX -> 0 <= k < Z.of_nat (length e) -> cy_getitem dbg x k = Ok (Ret (nth (Z.to_nat k) e 0))).
Proof. exact reads_ok. Qed.
Print Assumptions C75_reads.

(** Every other index, x[-1] for example, reads outside of the monomial instead of raising IndexError. *)
Theorem C75_getitem_outside : forall (x : mobj) (p : Z) (e : list Z) (k : Z),
  shows x p e -> INT_MIN <= k <= INT_MAX -> ~ 0 <= k < Z.of_nat (length e) ->
  cy_getitem false x k = Undef /\ cy_getitem true x k = AssertFail.
Proof. exact getitem_outside. Qed.
Print Assumptions C75_getitem_outside.

(** "A call on monomials and ints returns or raises an exception" is false. *)
Theorem C75_never_crashes_refuted : exists x y,
  shows x (-1) [1; 2] /\ cy_getitem false x (-1) = Undef /\ cy_variable false 2 2 (-1) = Undef /\ cy_mul false x ANone = Undef /\
  cy_next false None 1 [0] = Undef /\ shows y (-1) [INT_MAX; 0] /\ cy_mul false x (AMonom y) = Undef.
Proof. exact never_crashes_refuted. Qed.
Print Assumptions C75_never_crashes_refuted.

(** The product adds the exponents and keeps the position, or overflows. *)
Theorem C75_product : forall (dbg : bool) (x y : mobj) (p : Z) (e : list Z) (q : Z) (f : list Z),
  shows x p e -> shows y q f -> length e = length f -> p = -1 \/ q = -1 ->
  if sum e + sum f <=? INT_MAX then makes (cy_mul dbg x (AMonom y)) (Z.max p q) (pairwise Z.add e f)
  else cy_mul dbg x (AMonom y) = Undef.
Proof. exact mul_ok. Qed.
Print Assumptions C75_product.

(** Factors of different sizes or two module monomials are refused. *)
Theorem C75_product_refuses : forall (dbg : bool) (x y : mobj) (p : Z) (e : list Z) (q : Z) (f : list Z),
  shows x p e -> shows y q f -> length e <> length f \/ (0 <= p /\ 0 <= q) -> raises (cy_mul dbg x (AMonom y)) AssertionError.
Proof. exact mul_raises. Qed.
Print Assumptions C75_product_refuses.

(** Powers. *)
Theorem C75_power : forall (dbg : bool) (x : mobj) (e : list Z) (k : Z), shows x (-1) e -> 0 <= k <= INT_MAX ->
  if sum e * k <=? INT_MAX then makes (cy_pow dbg x k) (-1) (map (fun z => z * k) e) else cy_pow dbg x k = Undef.
Proof. exact pow_ok. Qed.
Print Assumptions C75_power.

(** Powers of module monomials and negative or huge powers are refused. *)
Theorem C75_power_refuses : forall (dbg : bool) (x : mobj) (p : Z) (e : list Z) (k : Z),
  shows x p e -> 0 <= p \/ k < 0 \/ INT_MAX < k -> exists e, raises (cy_pow dbg x k) e.
Proof. exact pow_raises. Qed.
Print Assumptions C75_power_refuses.

(** divisiable decides divisibility. *)
Theorem C75_divisiable : forall (dbg : bool) (x y : mobj) (p : Z) (e : list Z) (q : Z) (f : list Z),
  shows x p e -> shows y q f -> length e = length f ->
  exists b, cy_divisiable dbg x (AMonom y) = Ok (Ret b) /\ (b = true <-> divides q f p e).
Proof. exact divisiable_ok. Qed.
Print Assumptions C75_divisiable.

(** Quotients. *)
Theorem C75_quotient : forall (dbg : bool) (x y : mobj) (p : Z) (e : list Z) (q : Z) (f : list Z),
  shows x p e -> shows y q f -> owner y = true -> length e = length f -> divides q f p e ->
  makes (cy_truediv dbg x (AMonom y)) p (pairwise Z.sub e f).
Proof. exact truediv_ok. Qed.
Print Assumptions C75_quotient.

(** A divisor that does not divide is refused. *)
Theorem C75_quotient_refuses : forall (dbg : bool) (x y : mobj) (p : Z) (e : list Z) (q : Z) (f : list Z),
  shows x p e -> shows y q f -> owner y = true -> ~ (length e = length f /\ divides q f p e) ->
  raises (cy_truediv dbg x (AMonom y)) AssertionError.
Proof. exact truediv_raises. Qed.
Print Assumptions C75_quotient_refuses.

(** "If y divides x then x / y is the quotient" is false: lm() of a polynomial is not accepted as a divisor. *)
Theorem C75_quotient_of_views_refuted : exists x y,
  shows x 0 [2; 1] /\ shows y (-1) [1; 1] /\ cy_divisiable false x (AMonom y) = Ok (Ret true) /\ raises (cy_truediv false x (AMonom y)) TypeError.
Proof. exact quotient_of_views_refuted. Qed.
Print Assumptions C75_quotient_of_views_refuted.

(** (x / y) * y is x ... *)
Theorem C75_quotient_times_divisor : forall (dbg : bool) (x y : mobj) (p : Z) (e f : list Z),
  shows x p e -> shows y (-1) f -> owner y = true -> length e = length f -> Forall2 Z.le f e ->
  makes (pdo r <- cy_truediv dbg x (AMonom y); cy_mul dbg r (AMonom y)) p e.
Proof. exact div_then_mul. Qed.
Print Assumptions C75_quotient_times_divisor.

(** ... but never for a divisor in a component of a module. *)
Theorem C75_quotient_in_module : forall (dbg : bool) (x y : mobj) (p : Z) (e f : list Z),
  shows x p e -> shows y p f -> 0 <= p -> owner y = true -> length e = length f -> Forall2 Z.le f e ->
  raises (pdo r <- cy_truediv dbg x (AMonom y); cy_mul dbg r (AMonom y)) AssertionError.
Proof. exact div_then_mul_module. Qed.
Print Assumptions C75_quotient_in_module.

(** lex, deglex and alex compare the exponents in the order of that name, without regard to the positions. *)
Theorem C75_compare : forall (dbg : bool) (o : base_order) (x y : mobj) (p : Z) (e : list Z) (q : Z) (f : list Z),
  shows x p e -> shows y q f -> length e = length f ->
  exists r, cy_cmp dbg o x (AMonom y) = Ok (Ret r) /\ (r = 1 <-> base_gt o (nats e) (nats f)) /\ (r = -1 <-> base_gt o (nats f) (nats e)) /\
    (r = 0 <-> e = f) /\ (r = 1 \/ r = 0 \/ r = -1).
Proof. exact cmp_ok. Qed.
Print Assumptions C75_compare.

(** setPos. *)
Theorem C75_setPos : forall (dbg : bool) (x : mobj) (p : Z) (e : list Z) (p' : Z), shows x p e -> -1 <= p' <= INT_MAX ->
  exists x', cy_setPos dbg x p' = Ok (Ret x') /\ owner x' = owner x /\ shows x' p' e.
Proof. exact setPos_ok. Qed.
Print Assumptions C75_setPos.

(** Positions below -1 are refused. *)
Theorem C75_setPos_refuses : forall (dbg : bool) (x : mobj) (p : Z) (e : list Z) (p' : Z), shows x p e -> ~ -1 <= p' <= INT_MAX ->
  exists er, raises (cy_setPos dbg x p') er.
Proof. exact setPos_raises. Qed.
Print Assumptions C75_setPos_refuses.

(** permutation(p) moves the exponents. *)
Theorem C75_permutation : forall (dbg : bool) (x : mobj) (p : Z) (e : list Z) (l : list nat), shows x p e -> Permutation (seq 0 (length e)) l ->
  makes (cy_permutation dbg x l) p (map (fun j => nth j e 0) l).
Proof. exact permutation_ok. Qed.
Print Assumptions C75_permutation.

(** After rand_init, next makes ring monomials of the size and with a degree between the bounds, whatever is drawn. *)
Theorem C75_random : forall (dbg : bool) (size deg1 deg2 : Z),
  1 < size <= INT_MAX -> 0 < deg1 < deg2 -> deg2 <= INT_MAX ->
  exists s, cy_rand_init dbg size deg1 deg2 = Ok (Ret s) /\
  forall deg draws, deg1 <= deg <= deg2 -> Z.of_nat (length draws) = deg -> Forall (fun v => 0 <= v < size) draws ->
  exists e, makes (cy_next dbg s deg draws) (-1) e /\ Z.of_nat (length e) = size /\ sum e = deg.
Proof. exact rand_ok. Qed.
Print Assumptions C75_random.

(** Objects made by the bare constructors monom() and const_monom() raise AssertionError. *)
Theorem C75_empty_object : forall (dbg : bool) (x : mobj) (k : Z) (l : list nat) (o : base_order) (y : mobj),
  ptr x = None -> INT_MIN <= k <= INT_MAX ->
  raises (cy_bool x) AssertionError /\ raises (cy_len x) AssertionError /\ raises (cy_pos x) AssertionError /\ raises (cy_degree x) AssertionError /\
  raises (cy_getitem dbg x k) AssertionError /\ raises (cy_list dbg x) AssertionError /\ raises (cy_permutation dbg x l) AssertionError /\
  raises (cy_pow dbg x k) AssertionError /\ raises (cy_setPos dbg x k) AssertionError /\
  raises (cy_divisiable dbg x (AMonom y)) AssertionError /\ raises (cy_mul dbg x (AMonom y)) AssertionError /\ raises (cy_cmp dbg o x (AMonom y)) AssertionError.
Proof. exact null_ok. Qed.
Print Assumptions C75_empty_object.

(** Also as arguments. *)
Theorem C75_empty_argument : forall (dbg : bool) (x : mobj) (p : Z) (e : list Z) (y : mobj) (o : base_order), shows x p e -> ptr y = None ->
  raises (cy_divisiable dbg x (AMonom y)) AssertionError /\ raises (cy_mul dbg x (AMonom y)) AssertionError /\ raises (cy_cmp dbg o x (AMonom y)) AssertionError.
Proof. exact null_arg_ok. Qed.
Print Assumptions C75_empty_argument.

(** order() tells the names given to to_monom. *)
Theorem C75_order_names : forall (t : pos_order) (o : base_order), order_of_int (order_int t o) = (t, o).
Proof. exact order_ok. Qed.
Print Assumptions C75_order_names.

Example C75_example :
  (pdo x <- cy_variable false 1 3 (-1); pdo y <- cy_variable false 0 3 2; pdo z <- cy_pow false x 4; pdo w <- cy_mul false y (AMonom z);
   pdo q <- cy_truediv false w (AMonom x); pdo r <- cy_permutation false q [2; 0; 1]%nat; pdo l <- cy_list false r;
   pdo p <- cy_pos r; pdo d <- cy_degree r; pdo b <- cy_cmp false ODegLex r (AMonom x); Ok (Ret (l, p, d, b))) = Ok (Ret ([0; 1; 3], 2, 4, 1)).
Proof. reflexivity. Qed.
