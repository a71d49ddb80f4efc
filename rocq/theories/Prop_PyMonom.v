(** Properties C55 and C56: monomials of the Python package pyginv. *)
From Coq Require Import ZArith List Bool Arith Lia.
From Verif Require Import Outcome MonomModel MonomSpec PolySpec PyMonomModel PyMonomSpec PyMonomProofs PyTop.
Import ListNotations.
Local Open Scope Z_scope.

(* ---- C55 ---- *)
Theorem C55_total_order : forall (o : py_order) (n : nat), total_order (mono n) (py_cmp o) eq.
Proof. exact py_total. Qed.
Print Assumptions C55_total_order.

Theorem C55_meaning : forall (o : py_order) (n : nat) (a b : monom), mono n a -> mono n b ->
  (py_cmp o a b = 1 <-> py_greater o a b).
Proof. exact py_meaning. Qed.
Print Assumptions C55_meaning.

(** The Python operators >, <, >=, <=, ==. *)
Theorem C55_operators : forall (o : py_order) (n : nat) (a b : monom), mono n a -> mono n b ->
  (py_gt o a b = true <-> py_greater o a b) /\ (py_lt o a b = true <-> py_greater o b a) /\
  (py_ge o a b = true <-> ~ py_greater o b a) /\ (py_le o a b = true <-> ~ py_greater o a b) /\ (py_eq o a b = true <-> a = b).
Proof. exact py_above. Qed.
Print Assumptions C55_operators.

Theorem C55_multiplicative : forall (o : py_order) (n : nat) (a b c a' b' : monom), mono n a -> mono n b -> mono n c ->
  py_mul a c = Ok a' -> py_mul b c = Ok b' -> py_greater o a b -> py_greater o a' b'.
Proof. exact py_mul_monotone. Qed.
Print Assumptions C55_multiplicative.

Theorem C55_unit_least : forall (o : py_order) (n : nat) (a : monom), mono n a -> a <> py_unit n -> py_greater o a (py_unit n).
Proof. exact py_unit_least. Qed.
Print Assumptions C55_unit_least.

(** k bounds the number of unknown functions. *)
Theorem C55_no_infinite_descent : forall (o : py_order) (n : nat) (k : Z) (f : nat -> monom),
  ~ (forall i, pmono n k (f i) /\ py_greater o (f i) (f (S i))).
Proof. exact py_no_descent. Qed.
Print Assumptions C55_no_infinite_descent.

(** The bound is needed: each further unknown function is smaller. *)
Theorem C55_descent_without_bound : forall o : py_order, exists f : nat -> monom, forall i, mono 0 (f i) /\ py_greater o (f i) (f (S i)).
Proof. exact py_descent. Qed.
Print Assumptions C55_descent_without_bound.

(** x*y against x^2 with x > y, and positions 0, 1, none. *)
Example C55_ex : py_cmp POTlex (Mon 0 [0; 3]%nat) (Mon 1 [5; 5]%nat) = 1 /\ py_cmp TOPlex (Mon 1 [2; 0]%nat) (Mon 0 [1; 1]%nat) = 1 /\
  py_cmp TOPdeglex (Mon (-1) [1; 1]%nat) (Mon 0 [1; 1]%nat) = -1 /\ py_cmp POTdeglex (Mon 0 [1; 1]%nat) (Mon 0 [0; 2]%nat) = 1 /\
  pmono 2 2 (Mon 1 [5; 5]%nat).
Proof. repeat split; try (vm_compute; reflexivity); cbn; lia. Qed.

(* ---- C56 ---- *)
Theorem C56_product : forall (n : nat) (a b : monom), mono n a -> mono n b ->
  py_mul a b = (if (pos a =? -1) || (pos b =? -1) then Ok (mprod a b) else AssertFail).
Proof. exact py_product. Qed.
Print Assumptions C56_product.

Theorem C56_divisible : forall (n : nat) (m a : monom), mono n m -> mono n a -> (py_divisible m a = true <-> mdivides a m).
Proof. exact py_divisible_iff. Qed.
Print Assumptions C56_divisible.

Theorem C56_divisible_true : forall (n : nat) (m a : monom), mono n m -> mono n a ->
  (py_divisible_true m a = true <-> mdivides a m /\ vars a <> vars m).
Proof. exact py_true_divisor. Qed.
Print Assumptions C56_divisible_true.

Theorem C56_quotient : forall (n : nat) (m a : monom), mono n m -> mono n a ->
  (mdivides a m -> exists q, py_div m a = Ok q /\ mono n q) /\ (~ mdivides a m -> py_div m a = AssertFail) /\
  (forall q, mono n q -> (py_div m a = Ok q <-> (pos q = -1 \/ pos a = -1) /\ mprod q a = m)).
Proof. exact py_quotient. Qed.
Print Assumptions C56_quotient.

Theorem C56_prolong : forall (n : nat) (m : monom) (v : nat), mono n m ->
  ((v < n)%nat -> py_prolong m v = Ok (mprod m (Mon (-1) (incr v (repeat 0%nat n))))) /\ ((n <= v)%nat -> py_prolong m v = AssertFail).
Proof. exact py_prolongation. Qed.
Print Assumptions C56_prolong.

Theorem C56_power : forall (n : nat) (m : monom) (j : nat), mono n m ->
  py_pow m (Z.of_nat j) = (if pos m =? -1 then Ok (Mon (-1) (map (fun x => (x * j)%nat) (vars m))) else AssertFail).
Proof. exact py_power_monom. Qed.
Print Assumptions C56_power.

(** Exponents of lcm and gcd. *)
Theorem C56_lcm_gcd_partial : forall (n : nat) (a b : monom), mono n a -> mono n b -> pos a = -1 \/ pos b = -1 \/ pos a = pos b ->
  exists c d, py_lcm a b = Ok c /\ py_gcd a b = Ok d /\ mono n c /\ mono n d /\ pos c = -1 /\ pos d = -1 /\
    forall i, (i < n)%nat -> expo (vars c) i = Nat.max (expo (vars a) i) (expo (vars b) i) /\ expo (vars d) i = Nat.min (expo (vars a) i) (expo (vars b) i).
Proof. exact py_lcm_ring. Qed.
Print Assumptions C56_lcm_gcd_partial.

(** The lcm of two multiples of the same unknown function is accepted by the assert and is a multiple of neither. *)
Theorem C56_lcm_loses_function : forall (n : nat) (a b : monom), mono n a -> mono n b -> pos a = pos b -> pos a <> -1 ->
  exists c, py_lcm a b = Ok c /\ ~ mdivides a c /\ ~ mdivides b c.
Proof. exact py_lcm_loses_function. Qed.
Print Assumptions C56_lcm_loses_function.

Theorem C56_lcm_refuted : exists (a b c : monom), mono 2 a /\ mono 2 b /\ py_lcm a b = Ok c /\ ~ mdivides a c.
Proof.
  exists (Mon 0 [1; 0]%nat), (Mon 0 [0; 1]%nat), (Mon (-1) [1; 1]%nat). repeat split; try (cbn; lia). intros ([H|H] & _); discriminate H.
Qed.
Print Assumptions C56_lcm_refuted.

(** nonmult returns the first variable in which the argument is greater; it fails exactly for divisors. *)
Theorem C56_nonmult : forall (n : nat) (a b : monom), mono n a -> mono n b -> pos a = pos b ->
  (forall v, py_nonmult a b = Ok v <-> (v < n)%nat /\ (expo (vars a) v < expo (vars b) v)%nat /\
     forall j, (j < v)%nat -> (expo (vars b) j <= expo (vars a) j)%nat) /\
  (py_nonmult a b = AssertFail <-> mdivides b a).
Proof. exact py_nonmult_least. Qed.
Print Assumptions C56_nonmult.

Theorem C56_expand : forall (n : nat) (m : monom), mono n m -> forall v, count v (py_expand m) = expo (vars m) v.
Proof. exact py_expand_spec. Qed.
Print Assumptions C56_expand.

(** gradus yields every monomial of the degree exactly once. *)
Theorem C56_gradus : forall (n d : nat) (p : Z), NoDup (py_gradus n d p) /\
  forall m, In m (py_gradus n d p) <-> pos m = p /\ length (vars m) = n /\ total (vars m) = d.
Proof. exact py_gradus_spec. Qed.
Print Assumptions C56_gradus.

Theorem C56_hash : forall (o : py_order) (n : nat) (h : list Z -> Z) (a b : monom), mono n a -> mono n b ->
  py_eq o a b = true -> py_hash h a = py_hash h b.
Proof. exact py_hash_eq. Qed.
Print Assumptions C56_hash.

Example C56_ex : mono 2 (Mon 1 [2; 3]%nat) /\ mono 2 (Mon (-1) [1; 3]%nat) /\ py_mul (Mon 1 [2; 3]%nat) (Mon (-1) [1; 3]%nat) = Ok (Mon 1 [3; 6]%nat) /\
  py_div (Mon 1 [2; 3]%nat) (Mon (-1) [1; 3]%nat) = Ok (Mon 1 [1; 0]%nat) /\ py_nonmult (Mon 0 [2; 3]%nat) (Mon 0 [1; 4]%nat) = Ok 1%nat /\
  py_expand (Mon 1 [2; 1]%nat) = [0; 0; 1]%nat /\ length (py_gradus 3 2 0) = 6%nat.
Proof. repeat split; try (vm_compute; reflexivity); cbn; lia. Qed.
