(** Property theorems C01-C07 (monomials).  Models: MonomModel.v; specification: MonomSpec.v. *)
From Coq Require Import ZArith List Bool.
From Verif Require Import Outcome MonomModel MonomSpec MonomProofs MonomCProofs.
Import ListNotations.
Local Open Scope Z_scope.

(** C01: each base order is a total order on exponent vectors ... *)
Theorem C01_orders_total : forall (o : base_order) (n : nat),
  total_order (mono n) (bcmp o) (fun a b => vars a = vars b).
Proof. exact bcmp_total. Qed.
Print Assumptions C01_orders_total.

(** ... namely the order it is documented to be. *)
Theorem C01_orders_meaning : forall (o : base_order) (n : nat) (a b : monom),
  mono n a -> mono n b -> (bcmp o a b = 1 <-> base_gt o (vars a) (vars b)).
Proof. exact bcmp_spec. Qed.
Print Assumptions C01_orders_meaning.

Example C01_ex : mono 3 (Mon (-1) [1;0;2]%nat) /\ mono 3 (Mon (-1) [1;1;0]%nat) /\
  lex (Mon (-1) [1;0;2]%nat) (Mon (-1) [1;1;0]%nat) = -1 /\
  deglex (Mon (-1) [1;0;2]%nat) (Mon (-1) [1;1;0]%nat) = 1 /\
  deglex (Mon (-1) [1;0;2]%nat) (Mon (-1) [0;2;1]%nat) = -1.
Proof. repeat split; vm_compute; congruence. Qed.

(** C02: lex and deglex are admissible. *)
Theorem C02_multiplicative : forall (o : base_order) (n : nat) (a b c : monom),
  mono n a -> mono n b -> mono n c -> bcmp o (mul a c) (mul b c) = bcmp o a b.
Proof. exact bcmp_mult. Qed.
Print Assumptions C02_multiplicative.

Theorem C02_unit_minimal : forall (o : base_order) (n : nat) (a : monom),
  o <> OAlex -> mono n a -> vars a <> repeat 0%nat n -> bcmp o a (unit_monom n (-1)) = 1.
Proof. exact bcmp_unit_min. Qed.
Print Assumptions C02_unit_minimal.

Theorem C02_no_infinite_descent : forall (o : base_order) (n : nat) (f : nat -> monom),
  o <> OAlex -> ~ (forall i, mono n (f i) /\ bcmp o (f i) (f (S i)) = 1).
Proof. exact bcmp_no_chain. Qed.
Print Assumptions C02_no_infinite_descent.

Example C02_ex : ODegLex <> OAlex /\ mono 2 (Mon (-1) [0;3]%nat) /\ [0;3]%nat <> repeat 0%nat 2 /\
  mul (Mon (-1) [0;3]%nat) (Mon (-1) [2;1]%nat) = Mon (-1) [2;4]%nat.
Proof. repeat split; vm_compute; congruence. Qed.

(** C03: alex is compatible with multiplication (C02_multiplicative and C01_orders_total hold for it), but
    it is not admissible: 1 is its maximum and there are infinite descending chains in every ring. *)
Theorem C03_alex_multiplicative_partial : forall (n : nat) (a b c : monom),
  mono n a -> mono n b -> mono n c -> bcmp OAlex (mul a c) (mul b c) = bcmp OAlex a b.
Proof. exact (bcmp_mult OAlex). Qed.
Print Assumptions C03_alex_multiplicative_partial.

Theorem C03_alex_infinite_descent_refuted : forall n : nat, (0 < n)%nat ->
  exists f : nat -> monom, forall i, mono n (f i) /\ bcmp OAlex (f i) (f (S i)) = 1.
Proof. exact alex_chain_ex. Qed.
Print Assumptions C03_alex_infinite_descent_refuted.

Theorem C03_alex_unit_is_maximal_refuted : forall (a : monom) (n : nat),
  size a = n -> vars a <> repeat 0%nat n -> alex (unit_monom n (-1)) a = 1.
Proof. exact alex_unit_max. Qed.
Print Assumptions C03_alex_unit_is_maximal_refuted.

Example C03_ex : size (Mon (-1) [0;1]%nat) = 2%nat /\ [0;1]%nat <> repeat 0%nat 2.
Proof. split; [reflexivity|discriminate]. Qed.

(** C04: the six module orders. *)
Theorem C04_module_orders_total : forall (code : Z) (t : pos_order) (o : base_order) (n : nat),
  decode_order code = Ok (t, o) -> total_order (mono n) (cmp1 t o) eq.
Proof. exact (fun _ t o n _ => cmp1_total t o n). Qed.
Print Assumptions C04_module_orders_total.

Theorem C04_module_orders_meaning : forall (t : pos_order) (o : base_order) (a b : monom),
  size a = size b -> (cmp1 t o a b = 1 <-> module_gt t o a b).
Proof. exact cmp1_spec. Qed.
Print Assumptions C04_module_orders_meaning.

Theorem C04_module_orders_multiplicative : forall (t : pos_order) (o : base_order) (a b c : monom),
  size a = size b -> size b = size c -> pos c = -1 -> cmp1 t o (mul a c) (mul b c) = cmp1 t o a b.
Proof. exact cmp1_mul. Qed.
Print Assumptions C04_module_orders_multiplicative.

Theorem C04_module_orders_no_infinite_descent :
  forall (t : pos_order) (o : base_order) (n : nat) (f : nat -> monom),
  o <> OAlex -> ~ (forall i, mono n (f i) /\ cmp1 t o (f i) (f (S i)) = 1).
Proof. exact cmp1_no_chain. Qed.
Print Assumptions C04_module_orders_no_infinite_descent.

Theorem C04_accepted_codes : forall (code : Z) (r : pos_order * base_order),
  decode_order code = Ok r ->
  (code = 0x11 /\ r = (TOP, OLex)) \/ (code = 0x12 /\ r = (TOP, ODegLex)) \/ (code = 0x14 /\ r = (TOP, OAlex)) \/
  (code = 0x21 /\ r = (POT, OLex)) \/ (code = 0x22 /\ r = (POT, ODegLex)) \/ (code = 0x24 /\ r = (POT, OAlex)).
Proof. exact decode_cases. Qed.
Print Assumptions C04_accepted_codes.

Example C04_ex : decode_order 0x22 = Ok (POT, ODegLex) /\ mono 2 (Mon 0 [5;5]%nat) /\
  cmp1 POT ODegLex (Mon 1 [0;0]%nat) (Mon 0 [5;5]%nat) = 1 /\
  cmp1 TOP ODegLex (Mon 1 [0;0]%nat) (Mon 0 [5;5]%nat) = -1.
Proof. repeat split; vm_compute; congruence. Qed.

(** C05: three-argument comparison, when the module position (if any) is on the first factor. *)
Theorem C05_three_argument_partial : forall (t : pos_order) (o : base_order) (m a b : monom),
  size m = size a -> size m = size b -> pos b = -1 -> cmp2 t o m a b = cmp1 t o m (mul a b).
Proof. exact cmp2_cmp1. Qed.
Print Assumptions C05_three_argument_partial.

Theorem C05_three_argument_base : forall (o : base_order) (m a b : monom),
  size m = size a -> size m = size b -> bcmp3 o m a b = bcmp o m (mul a b).
Proof. exact bcmp3_bcmp. Qed.
Print Assumptions C05_three_argument_base.

(** If the position is on the second factor, the position of the product is not looked at. *)
Theorem C05_second_factor_position_refuted : exists t o m a b,
  mono 2 m /\ mono 2 a /\ mono 2 b /\ pos a = -1 /\ pos b = 0 /\
  m = mul a b /\ cmp1 t o m (mul a b) = 0 /\ cmp2 t o m a b = 1.
Proof. exact cmp2_wrong. Qed.
Print Assumptions C05_second_factor_position_refuted.

Example C05_ex : size (Mon 0 [1;2]%nat) = size (Mon 0 [0;2]%nat) /\ pos (Mon (-1) [1;0]%nat) = -1 /\
  cmp2 POT OLex (Mon 0 [1;2]%nat) (Mon 0 [0;2]%nat) (Mon (-1) [1;0]%nat) = 0.
Proof. repeat split. Qed.

(** C06: divisibility, product, quotient. *)
Theorem C06_divisible_iff_product : forall (n : nat) (m a : monom), mono n m -> mono n a ->
  (divisiable m a = true <->
   exists c, mono n c /\ (pos a <> -1 -> pos c = -1) /\ (pos a = -1 -> pos c = pos m) /\ mul c a = m).
Proof. exact divisiable_spec. Qed.
Print Assumptions C06_divisible_iff_product.

Theorem C06_quotient : forall (n : nat) (m a : monom), mono n m -> mono n a -> divisiable m a = true ->
  addv (vars (div m a)) (vars a) = vars m /\ pos (div m a) = pos m /\ deg m = (deg (div m a) + deg a)%nat.
Proof. exact div_spec. Qed.
Print Assumptions C06_quotient.

Theorem C06_product_exponents : forall (a b : list nat) (i : nat),
  length a = length b -> expo (addv a b) i = (expo a i + expo b i)%nat.
Proof. exact expo_addv. Qed.
Print Assumptions C06_product_exponents.

Theorem C06_product_commutative : forall (n : nat) (a b : monom),
  mono n a -> mono n b -> pos a = -1 \/ pos b = -1 -> mul a b = mul b a.
Proof. exact mul_comm. Qed.
Print Assumptions C06_product_commutative.

Theorem C06_product_associative : forall (n : nat) (a b c : monom),
  mono n a -> mono n b -> mono n c ->
  (pos a = -1 /\ pos b = -1) \/ (pos b = -1 /\ pos c = -1) \/ (pos a = -1 /\ pos c = -1) ->
  mul a (mul b c) = mul (mul a b) c.
Proof. exact mul_assoc. Qed.
Print Assumptions C06_product_associative.

Theorem C06_product_unit : forall (n : nat) (a : monom), mono n a -> mul a (unit_monom n (-1)) = a.
Proof. exact mul_unit. Qed.
Print Assumptions C06_product_unit.

Theorem C06_gcd_degree : forall (n : nat) (a b : monom) (g : list nat), mono n a -> mono n b ->
  length g = n -> (forall i, (i < n)%nat -> expo g i = Nat.min (expo (vars a) i) (expo (vars b) i)) ->
  gcd_deg a b = total g.
Proof. exact gcd_is_min. Qed.
Print Assumptions C06_gcd_degree.

Theorem C06_lcm_degree : forall (n : nat) (a b : monom) (g : list nat), mono n a -> mono n b ->
  length g = n -> (forall i, (i < n)%nat -> expo g i = Nat.max (expo (vars a) i) (expo (vars b) i)) ->
  lcm_deg a b = total g.
Proof. exact lcm_is_max. Qed.
Print Assumptions C06_lcm_degree.

(** operator== ignores the module position; it decides equality of the exponent vectors. *)
Theorem C06_equality_is_on_exponents : forall (n : nat) (a b : monom),
  mono n a -> mono n b -> (eqm a b = true <-> vars a = vars b).
Proof. exact eqm_spec. Qed.
Print Assumptions C06_equality_is_on_exponents.

Example C06_ex : mono 3 (Mon 2 [3;1;2]%nat) /\ mono 3 (Mon 2 [1;1;0]%nat) /\
  divisiable (Mon 2 [3;1;2]%nat) (Mon 2 [1;1;0]%nat) = true /\
  divisiable (Mon 2 [3;1;2]%nat) (Mon 1 [1;1;0]%nat) = false /\
  div (Mon 2 [3;1;2]%nat) (Mon 2 [1;1;0]%nat) = Mon 2 [2;0;2]%nat /\
  gcd_deg (Mon 2 [3;1;2]%nat) (Mon (-1) [1;4;0]%nat) = 2%nat.
Proof. repeat split; vm_compute; congruence. Qed.

(** C07: the C++ objects.  [dbg] says whether asserts are compiled in. *)
Theorem C07_exponent : forall (dbg : bool) (n : nat) (m : cmonom) (i : nat), cvalid n m -> (i < n)%nat ->
  c_get dbg m (Z.of_nat i) = Ok (Z.of_nat (nth i (vars (value m)) 0%nat)).
Proof. exact c_get_ok. Qed.
Print Assumptions C07_exponent.

Theorem C07_unit : forall (dbg : bool) (n : nat) (p : Z),
  n <> 0%nat -> -1 <= p -> yields n (c_unit dbg (Z.of_nat n) p) (unit_monom n p).
Proof. exact c_unit_refines. Qed.
Print Assumptions C07_unit.

Theorem C07_variable : forall (dbg : bool) (v n : nat) (p : Z),
  (v < n)%nat -> -1 <= p -> yields n (c_var dbg (Z.of_nat v) (Z.of_nat n) p) (var_monom v n p).
Proof. exact c_var_refines. Qed.
Print Assumptions C07_variable.

Theorem C07_copy : forall (dbg : bool) (n : nat) (a : cmonom),
  cvalid n a -> yields n (c_copy dbg a) (value a).
Proof. exact c_copy_refines. Qed.
Print Assumptions C07_copy.

Theorem C07_times_variable : forall (dbg : bool) (n v : nat) (a : cmonom),
  cvalid n a -> (v < n)%nat ->
  if cdegree a + 1 <=? INT_MAX then yields n (c_mulvar dbg (Z.of_nat v) a) (mul_var v (value a))
  else c_mulvar dbg (Z.of_nat v) a = Undef.
Proof. exact c_mulvar_refines. Qed.
Print Assumptions C07_times_variable.

Theorem C07_assign_times_variable : forall (dbg : bool) (n v : nat) (m a : cmonom),
  cvalid n m -> cvalid n a -> (v < n)%nat ->
  if cdegree a + 1 <=? INT_MAX then yields n (c_multv dbg m (Z.of_nat v) a) (mul_var v (value a))
  else c_multv dbg m (Z.of_nat v) a = Undef.
Proof. exact c_multv_refines. Qed.
Print Assumptions C07_assign_times_variable.

Theorem C07_product : forall (dbg : bool) (n : nat) (a b : cmonom),
  cvalid n a -> cvalid n b -> cpos a = -1 \/ cpos b = -1 ->
  if cdegree a + cdegree b <=? INT_MAX then yields n (c_mul dbg a b) (mul (value a) (value b))
  else c_mul dbg a b = Undef.
Proof. exact c_mul_refines. Qed.
Print Assumptions C07_product.

Theorem C07_in_place_product : forall (dbg : bool) (n : nat) (a b : cmonom),
  cvalid n a -> cvalid n b -> cpos a = -1 \/ cpos b = -1 ->
  if cdegree a + cdegree b <=? INT_MAX then yields n (c_mult dbg a b) (mul (value a) (value b))
  else c_mult dbg a b = Undef.
Proof. exact c_mult_refines. Qed.
Print Assumptions C07_in_place_product.

Theorem C07_power : forall (dbg : bool) (n : nat) (a : cmonom) (k : Z),
  cvalid n a -> 0 <= k ->
  if cdegree a * k <=? INT_MAX then yields n (c_pow dbg a k) (powm (value a) (Z.to_nat k))
  else c_pow dbg a k = Undef.
Proof. exact c_pow_refines. Qed.
Print Assumptions C07_power.

Theorem C07_quotient : forall (dbg : bool) (n : nat) (m a : cmonom),
  cvalid n m -> cvalid n a -> divisiable (value m) (value a) = true ->
  yields n (c_div dbg m a) (div (value m) (value a)).
Proof. exact c_div_refines. Qed.
Print Assumptions C07_quotient.

Theorem C07_quotient_rejects : forall (n : nat) (m a : cmonom),
  cvalid n m -> cvalid n a -> divisiable (value m) (value a) = false -> c_div true m a = AssertFail.
Proof. exact c_div_assert. Qed.
Print Assumptions C07_quotient_rejects.

Theorem C07_divisibility_test : forall (dbg : bool) (n : nat) (m a : cmonom),
  cvalid n m -> cvalid n a -> c_divisiable dbg m a = Ok (divisiable (value m) (value a)).
Proof. exact c_divisiable_ok. Qed.
Print Assumptions C07_divisibility_test.

Theorem C07_equality_test : forall (dbg : bool) (n : nat) (m a : cmonom),
  cvalid n m -> cvalid n a -> c_eq dbg m a = Ok (eqm (value m) (value a)).
Proof. exact c_eq_ok. Qed.
Print Assumptions C07_equality_test.

Theorem C07_compare : forall (dbg : bool) (o : base_order) (n : nat) (m a : cmonom),
  cvalid n m -> cvalid n a -> c_bcmp dbg o m a = Ok (bcmp o (value m) (value a)).
Proof. exact c_bcmp_ok. Qed.
Print Assumptions C07_compare.

Theorem C07_compare_three : forall (dbg : bool) (o : base_order) (n : nat) (m a b : cmonom),
  cvalid n m -> cvalid n a -> cvalid n b -> cpos a = -1 \/ cpos b = -1 ->
  cdegree a + cdegree b <= INT_MAX ->
  c_bcmp3 dbg o m a b = Ok (bcmp3 o (value m) (value a) (value b)).
Proof. exact c_bcmp3_ok. Qed.
Print Assumptions C07_compare_three.

Theorem C07_gcd : forall (dbg : bool) (n : nat) (m a : cmonom),
  cvalid n m -> cvalid n a -> cpos m = -1 \/ cpos a = -1 ->
  c_gcd dbg m a = Ok (Z.of_nat (gcd_deg (value m) (value a))).
Proof. exact c_gcd_ok. Qed.
Print Assumptions C07_gcd.

Theorem C07_lcm : forall (dbg : bool) (n : nat) (m a : cmonom),
  cvalid n m -> cvalid n a -> cpos m = -1 \/ cpos a = -1 ->
  c_lcm dbg m a = (if Z.of_nat (lcm_deg (value m) (value a)) <=? INT_MAX
                   then Ok (Z.of_nat (lcm_deg (value m) (value a))) else Undef).
Proof. exact c_lcm_ok. Qed.
Print Assumptions C07_lcm.

(** In a build with asserts the product of two valid objects succeeds exactly under the stated
    preconditions. *)
Theorem C07_product_debug_exact : forall (na nb : nat) (a b : cmonom), cvalid na a -> cvalid nb b ->
  ((exists c, c_mul true a b = Ok c) <->
   na = nb /\ (cpos a = -1 \/ cpos b = -1) /\ cdegree a + cdegree b <= INT_MAX).
Proof. exact c_mul_debug_iff. Qed.
Print Assumptions C07_product_debug_exact.

Example C07_ex : cvalid 2 (CMon 2 (-1) 3 [1;2]) /\ cvalid 2 (CMon 2 0 INT_MAX [INT_MAX;0]) /\
  c_mul false (CMon 2 (-1) 3 [1;2]) (CMon 2 0 INT_MAX [INT_MAX;0]) = Undef /\
  c_mul true (CMon 2 (-1) 3 [1;2]) (CMon 2 0 3 [0;3]) = Ok (CMon 2 0 6 [1;5]).
Proof.
  unfold cvalid; repeat split; try reflexivity; try (vm_compute; congruence);
    repeat constructor; vm_compute; congruence.
Qed.
