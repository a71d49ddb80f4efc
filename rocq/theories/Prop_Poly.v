(** Properties C09-C17, C41 and C42 of PolyInt. *)
From Coq Require Import ZArith List Bool Arith Lia.
From Verif Require Import Outcome MonomModel MonomSpec PolyModel PolySpec PolyMemModel PolyMemSpec PolyTopProofs.
Import ListNotations.
Local Open Scope Z_scope.

(* ---- C09 ---- *)
(** No call fails and every value stays canonical, over any sequence of calls. *)
Theorem C09_history_partial : forall (dbg : bool) (p : poly) (r : outcome poly),
  valid_poly p -> history dbg p r -> exists q, r = Ok q /\ valid_poly q /\ same_ring p q.
Proof. exact c09_history. Qed.
Print Assumptions C09_history_partial.

Theorem C09_constant : forall (dbg : bool) (t : pos_order) (o : base_order) (n : nat) (c : Z), c <> 0 ->
  exists r, p_const dbg t o n c = Ok r /\ valid_poly r /\ psize r = n /\ pto r = t /\ pbo r = o /\
    forall m, coef (terms r) m = c * coef (one n) m.
Proof. exact c09_const. Qed.
Print Assumptions C09_constant.

Theorem C09_from_monomial : forall (dbg : bool) (t : pos_order) (o : base_order) (n : nat) (u : monom), mono n u ->
  exists r, p_monom dbg t o u = Ok r /\ valid_poly r /\ psize r = n /\ pto r = t /\ pbo r = o /\
    forall m, coef (terms r) m = (if monom_eq_dec u m then 1 else 0).
Proof. exact c09_monom. Qed.
Print Assumptions C09_from_monomial.

Theorem C09_times_variable : forall (dbg : bool) (k : nat) (p : poly), valid_poly p -> (k < psize p)%nat ->
  exists r, p_mul_var dbg k p = Ok r /\ same_ring p r /\ valid_poly r /\
    forall m, coef (terms r) m = prod_coef [(Mon (-1) (incr k (repeat 0%nat (psize p))), 1)] (terms p) m.
Proof. exact c09_mul_var. Qed.
Print Assumptions C09_times_variable.

(** The constant 0 gives a polynomial with a zero coefficient. *)
Theorem C09_zero_constant_refuted : exists r, p_const false TOP OLex 1 0 = Ok r /\ ~ valid_poly r.
Proof. exact c09_refuted_const. Qed.
Print Assumptions C09_zero_constant_refuted.

Example C09_ex : valid_poly (px ODegLex) /\
  history true (px ODegLex) (p_mult true (px ODegLex) (px ODegLex)) /\
  p_mult true (px ODegLex) (px ODegLex) = Ok (Poly TOP ODegLex 1 [(Mon (-1) [2%nat], 1)]).
Proof.
  split; [apply px_valid|]. split; [|reflexivity].
  eapply hist_step; [apply hist_refl|]. apply op_mult; [apply px_valid|apply same_ring_refl|left; repeat constructor].
Qed.

(* ---- C10 ---- *)
Theorem C10_add : forall (dbg : bool) (p a : poly), valid_poly p -> valid_poly a -> same_ring p a ->
  exists r, p_add dbg p a = Ok r /\ same_ring p r /\ valid_poly r /\
    forall m, coef (terms r) m = coef (terms p) m + coef (terms a) m.
Proof. exact c10_add. Qed.
Print Assumptions C10_add.

Theorem C10_sub : forall (dbg : bool) (p a : poly), valid_poly p -> valid_poly a -> same_ring p a ->
  exists r, p_sub dbg p a = Ok r /\ same_ring p r /\ valid_poly r /\
    forall m, coef (terms r) m = coef (terms p) m - coef (terms a) m.
Proof. exact c10_sub. Qed.
Print Assumptions C10_sub.

Theorem C10_minus : forall (dbg : bool) (p : poly), valid_poly p ->
  exists r, p_minus dbg p = Ok r /\ same_ring p r /\ valid_poly r /\ forall m, coef (terms r) m = - coef (terms p) m.
Proof. exact c10_minus. Qed.
Print Assumptions C10_minus.

Theorem C10_times_integer : forall (dbg : bool) (p : poly) (c : Z), valid_poly p ->
  exists r, p_mult_const dbg p c = Ok r /\ same_ring p r /\ valid_poly r /\
    forall m, coef (terms r) m = c * coef (terms p) m.
Proof. exact c10_scale. Qed.
Print Assumptions C10_times_integer.

Example C10_ex :
  let p := Poly TOP OLex 2 [(Mon (-1) [1;0]%nat, 2); (Mon (-1) [0;1]%nat, 3)] in
  let a := Poly TOP OLex 2 [(Mon (-1) [1;0]%nat, -2); (Mon (-1) [0;0]%nat, 1)] in
  valid_terms TOP OLex (terms p) = true /\ valid_terms TOP OLex (terms a) = true /\ same_ring p a /\
  p_add true p a = Ok (Poly TOP OLex 2 [(Mon (-1) [0;1]%nat, 3); (Mon (-1) [0;0]%nat, 1)]) /\
  p_sub true p a = Ok (Poly TOP OLex 2 [(Mon (-1) [1;0]%nat, 4); (Mon (-1) [0;1]%nat, 3); (Mon (-1) [0;0]%nat, -1)]).
Proof. repeat split. Qed.

(* ---- C11 ---- *)
Theorem C11_product : forall (dbg : bool) (p a : poly), valid_poly p -> valid_poly a -> same_ring p a ->
  ring_poly (terms p) \/ ring_poly (terms a) ->
  exists r, p_mult dbg p a = Ok r /\ same_ring p r /\ valid_poly r /\
    forall m, coef (terms r) m = prod_coef (terms p) (terms a) m.
Proof. exact c11_mult. Qed.
Print Assumptions C11_product.

Example C11_ex :
  let p := Poly TOP OLex 2 [(Mon (-1) [1;0]%nat, 1); (Mon (-1) [0;1]%nat, 1)] in
  let a := Poly TOP OLex 2 [(Mon (-1) [1;0]%nat, 1); (Mon (-1) [0;1]%nat, -1)] in
  valid_terms TOP OLex (terms p) = true /\ valid_terms TOP OLex (terms a) = true /\ same_ring p a /\ ring_poly (terms p) /\
  p_mult true p a = Ok (Poly TOP OLex 2 [(Mon (-1) [2;0]%nat, 1); (Mon (-1) [0;2]%nat, -1)]).
Proof. repeat split; repeat constructor. Qed.

(* ---- C12 ---- *)
Theorem C12_power_partial : forall (dbg : bool) (p : poly) (k : nat), valid_poly p -> (1 <= k)%nat ->
  ring_poly (terms p) \/ k = 1%nat ->
  exists r, p_pow dbg p k = Ok r /\ same_ring p r /\ valid_poly r /\ is_power (psize p) (terms p) k (terms r).
Proof. exact c12_pow. Qed.
Print Assumptions C12_power_partial.

(** pow(0) gives 0, not 1. *)
Theorem C12_power_zero_refuted : exists p r, valid_poly p /\ p_pow true p 0 = Ok r /\ ~ is_power (psize p) (terms p) 0 (terms r).
Proof. exact c12_refuted. Qed.
Print Assumptions C12_power_zero_refuted.

Example C12_ex :
  let p := Poly TOP OLex 2 [(Mon (-1) [1;0]%nat, 1); (Mon (-1) [0;1]%nat, 1)] in
  p_pow true p 3 = Ok (Poly TOP OLex 2 [(Mon (-1) [3;0]%nat, 1); (Mon (-1) [2;1]%nat, 3); (Mon (-1) [1;2]%nat, 3); (Mon (-1) [0;3]%nat, 1)]) /\
  ring_poly (terms p).
Proof. split; [reflexivity|repeat constructor]. Qed.

(* ---- C13 ---- *)
Theorem C13_add_constant_partial : forall (dbg : bool) (p : poly) (c : Z), valid_poly p -> terms p <> [] -> pbo p <> OAlex -> c <> 0 ->
  exists r, p_add_const dbg p c = Ok r /\ same_ring p r /\ valid_poly r /\
    forall m, coef (terms r) m = coef (terms p) m + c * coef (one (psize p)) m.
Proof. exact c13_add. Qed.
Print Assumptions C13_add_constant_partial.

Theorem C13_sub_constant_partial : forall (dbg : bool) (p : poly) (c : Z), valid_poly p -> terms p <> [] -> pbo p <> OAlex -> c <> 0 ->
  exists r, p_sub_const dbg p c = Ok r /\ same_ring p r /\ valid_poly r /\
    forall m, coef (terms r) m = coef (terms p) m - c * coef (one (psize p)) m.
Proof. exact c13_sub. Qed.
Print Assumptions C13_sub_constant_partial.

Theorem C13_zero_constant_refuted : exists p r, valid_poly p /\ terms p <> [] /\ p_add_const false p 0 = Ok r /\ ~ valid_poly r /\
  p_add_const true p 0 = AssertFail.
Proof. exact c13_refuted_zero. Qed.
Print Assumptions C13_zero_constant_refuted.

Theorem C13_zero_polynomial_refuted : exists p, valid_poly p /\ p_add_const false p 5 = Undef /\ p_add_const true p 5 = AssertFail.
Proof. exact c13_refuted_empty. Qed.
Print Assumptions C13_zero_polynomial_refuted.

Theorem C13_alex_refuted : exists p r, valid_poly p /\ terms p <> [] /\ p_add_const false p 5 = Ok r /\ ~ valid_poly r /\
  p_add_const true p 5 = AssertFail.
Proof. exact c13_refuted_alex. Qed.
Print Assumptions C13_alex_refuted.

Example C13_ex : p_add_const true (px ODegLex) 7 = Ok (Poly TOP ODegLex 1 [(Mon (-1) [1%nat], 1); (Mon (-1) [0%nat], 7)]) /\
  valid_poly (px ODegLex).
Proof. split; [reflexivity|apply px_valid]. Qed.

(* ---- C14 ---- *)
Theorem C14_reduction : forall (dbg : bool) (f a : poly) m c f' v d a', valid_poly f -> valid_poly a -> same_ring f a ->
  terms f = (m, c) :: f' -> terms a = (v, d) :: a' -> mdivides v m -> reducer dbg m (terms a) ->
  exists r k1 k2 u, p_reduction dbg f a = Ok r /\ same_ring f r /\ valid_poly r /\
    k1 <> 0 /\ Z.gcd k1 k2 = 1 /\ length u = psize f /\ mprod (Mon (-1) u) v = m /\
    (forall w, coef (terms r) w = k1 * coef (terms f) w - k2 * coef (shift u (terms a)) w) /\
    coef (terms r) m = 0 /\ all_below (pto f) (pbo f) m (terms r).
Proof. exact c14. Qed.
Print Assumptions C14_reduction.

Example C14_ex :
  let f := Poly TOP ODegLex 2 [(Mon (-1) [2;0]%nat, 4); (Mon (-1) [0;1]%nat, 1)] in
  let a := Poly TOP ODegLex 2 [(Mon (-1) [1;0]%nat, 6); (Mon (-1) [0;0]%nat, 5)] in
  valid_terms TOP ODegLex (terms f) = true /\ valid_terms TOP ODegLex (terms a) = true /\
  divisiable (Mon (-1) [2;0]%nat) (Mon (-1) [1;0]%nat) = true /\ reducer true (Mon (-1) [2;0]%nat) (terms a) /\
  p_reduction true f a = Ok (Poly TOP ODegLex 2 [(Mon (-1) [1;0]%nat, -10); (Mon (-1) [0;1]%nat, 3)]).
Proof. repeat split; try reflexivity; [repeat constructor|left; reflexivity]. Qed.

(* ---- C15 ---- *)
Theorem C15_primitive_part : forall (dbg : bool) (p : poly), valid_poly p -> terms p <> [] ->
  exists r g, p_pp dbg p = Ok r /\ same_ring p r /\ valid_poly r /\ g <> 0 /\
    (forall m, coef (terms p) m = g * coef (terms r) m) /\ primitive (terms r) /\
    (g < 0 -> length (terms p) = 1%nat).
Proof. exact c15_pp. Qed.
Print Assumptions C15_primitive_part.

Theorem C15_is_primitive : forall (dbg : bool) (p : poly), valid_poly p -> terms p <> [] ->
  exists b, p_isPp dbg p = Ok b /\ (b = true <-> primitive (terms p)).
Proof. exact c15_isPp. Qed.
Print Assumptions C15_is_primitive.

Example C15_ex :
  let p := Poly TOP OLex 1 [(Mon (-1) [1%nat], 6); (Mon (-1) [0%nat], -4)] in
  valid_terms TOP OLex (terms p) = true /\ p_isPp true p = Ok false /\
  p_pp true p = Ok (Poly TOP OLex 1 [(Mon (-1) [1%nat], 3); (Mon (-1) [0%nat], -2)]).
Proof. repeat split. Qed.

(* ---- C16 ---- *)
Theorem C16_tail_reduction : forall (dbg : bool) (f a : poly) pre m c rest v d a', valid_poly f -> valid_poly a -> same_ring f a ->
  terms f = pre ++ (m, c) :: rest -> terms a = (v, d) :: a' -> mdivides v m -> reducer dbg m (terms a) ->
  exists k1 k2 u l, red_tail dbg f pre ((m, c) :: rest) a = Ok (map (fun x => (fst x, snd x * k1)) pre, l) /\
    canonical (pto f) (pbo f) (psize f) (map (fun x => (fst x, snd x * k1)) pre ++ l) /\
    k1 <> 0 /\ Z.gcd k1 k2 = 1 /\ length u = psize f /\ mprod (Mon (-1) u) v = m /\
    (forall w, coef (map (fun x => (fst x, snd x * k1)) pre ++ l) w = k1 * coef (terms f) w - k2 * coef (shift u (terms a)) w) /\
    coef (map (fun x => (fst x, snd x * k1)) pre ++ l) m = 0 /\
    all_below (pto f) (pbo f) m l.
Proof. exact c16. Qed.
Print Assumptions C16_tail_reduction.

(** redMaybe(a): eliminates the leading monomial of a from f. *)
Theorem C16_reduce_if_present : forall (dbg : bool) (f a : poly) v d a', valid_poly f -> valid_poly a -> same_ring f a -> terms f <> [] ->
  terms a = (v, d) :: a' -> ring_poly (terms f) -> ring_poly (terms a) ->
  exists r k1 k2, p_redMaybe dbg f a = Ok r /\ same_ring f r /\ valid_poly r /\ k1 <> 0 /\
    (forall w, coef (terms r) w = k1 * coef (terms f) w - k2 * coef (terms a) w) /\ coef (terms r) v = 0.
Proof. exact c16_redMaybe. Qed.
Print Assumptions C16_reduce_if_present.

Example C16_ex :
  let f := Poly TOP ODegLex 1 [(Mon (-1) [3]%nat, 1); (Mon (-1) [2]%nat, 1); (Mon (-1) [0]%nat, 1)] in
  let a := Poly TOP ODegLex 1 [(Mon (-1) [1]%nat, 2); (Mon (-1) [0]%nat, 1)] in
  red_tail true f [(Mon (-1) [3]%nat, 1)] [(Mon (-1) [2]%nat, 1); (Mon (-1) [0]%nat, 1)] a =
    Ok ([(Mon (-1) [3]%nat, 2)], [(Mon (-1) [1]%nat, -1); (Mon (-1) [0]%nat, 2)]) /\
  reducer true (Mon (-1) [2]%nat) (terms a).
Proof. split; [reflexivity|]. split; [repeat constructor|left; reflexivity]. Qed.

(* ---- C17 ---- *)
Theorem C17_nf : forall (dbg : bool) G find (p : poly), pbo p <> OAlex -> valid_poly p ->
  good_find dbg (pto p) (pbo p) (psize p) G find ->
  exists N, forall fuel, (N <= fuel)%nat -> exists r k, p_nf fuel dbg find p = Ok (r, k) /\
    same_ring p r /\ valid_poly r /\ congruent (psize p) G (terms p) (terms r) /\
    (terms r = [] \/ exists m c l, terms r = (m, c) :: l /\ find m = Ok None).
Proof. exact c17_nf. Qed.
Print Assumptions C17_nf.

Theorem C17_nfTail : forall (dbg : bool) G find (p : poly), pbo p <> OAlex -> valid_poly p ->
  good_find dbg (pto p) (pbo p) (psize p) G find ->
  exists N, forall fuel, (N <= fuel)%nat -> exists r k, p_nfTail fuel dbg find p = Ok (r, k) /\
    same_ring p r /\ valid_poly r /\ congruent (psize p) G (terms p) (terms r) /\
    head (map fst (terms r)) = head (map fst (terms p)) /\
    Forall (fun x => find (fst x) = Ok None) (tl (terms r)).
Proof. exact c17_nfTail. Qed.
Print Assumptions C17_nfTail.

(** nf followed by nfTail *)
Theorem C17_full_normal_form : forall (dbg : bool) G find (p : poly), pbo p <> OAlex -> valid_poly p ->
  good_find dbg (pto p) (pbo p) (psize p) G find ->
  exists N, forall fuel, (N <= fuel)%nat -> exists q j r k,
    p_nf fuel dbg find p = Ok (q, j) /\ p_nfTail fuel dbg find q = Ok (r, k) /\
    same_ring p r /\ valid_poly r /\ congruent (psize p) G (terms p) (terms r) /\
    Forall (fun x => find (fst x) = Ok None) (terms r).
Proof. exact c17_full. Qed.
Print Assumptions C17_full_normal_form.

(** For every order, alex included: when nf ends, the result is right. *)
Theorem C17_nf_any_order : forall (dbg : bool) G find (p : poly) fuel r k, valid_poly p ->
  good_find dbg (pto p) (pbo p) (psize p) G find -> p_nf fuel dbg find p = Ok (r, k) ->
  same_ring p r /\ valid_poly r /\ congruent (psize p) G (terms p) (terms r) /\
  (terms r = [] \/ exists m c l, terms r = (m, c) :: l /\ find m = Ok None).
Proof. exact c17_nf_any. Qed.
Print Assumptions C17_nf_any_order.

Theorem C17_isNf : forall (dbg : bool) G find (p : poly), valid_poly p -> good_find dbg (pto p) (pbo p) (psize p) G find ->
  exists b, p_isNf find p = Ok b /\ (b = true <-> Forall (fun x => find (fst x) = Ok None) (tl (terms p))).
Proof. exact c17_isNf. Qed.
Print Assumptions C17_isNf.

(** With alex, nf does not end: x modulo x - x^2. *)
Theorem C17_alex_does_not_end : forall (dbg : bool) (fuel k r0 : nat),
  nf_loop fuel dbg alex_find r0 (Poly TOP OAlex 1 [(Mon (-1) [S k], 1)]) = OutOfFuel.
Proof. exact c17_alex_diverges. Qed.
Print Assumptions C17_alex_does_not_end.

Example C17_ex : good_find true TOP ODegLex 1 (fun g => g = terms C17_G) C17_find /\
  p_nf 5 true C17_find (Poly TOP ODegLex 1 [(Mon (-1) [4%nat], 1); (Mon (-1) [0%nat], 1)]) =
    Ok (Poly TOP ODegLex 1 [(Mon (-1) [1%nat], 1); (Mon (-1) [0%nat], 8)], 3%nat).
Proof. exact C17_ex_proof. Qed.

(* ---- C41 ---- *)
(** Reducing (in a build without asserts) by a reducer with terms in several components is wrong. *)
Theorem C41_components_refuted : exists f a r, valid_poly f /\ valid_poly a /\ same_ring f a /\
  (forall m c l v d l', terms f = (m, c) :: l -> terms a = (v, d) :: l' -> mdivides v m) /\
  p_reduction false f a = Ok r /\
  forall k1 k2 u, k1 <> 0 -> length u = 1%nat ->
    ~ (forall w, coef (terms r) w = k1 * coef (terms f) w - k2 * coef (shift u (terms a)) w).
Proof. exact c41_refuted. Qed.
Print Assumptions C41_components_refuted.

(** With asserts even a reducer in the same single component is rejected. *)
Theorem C41_assert_refuted : exists f a, valid_poly f /\ valid_poly a /\ same_ring f a /\
  (forall m c l v d l', terms f = (m, c) :: l -> terms a = (v, d) :: l' -> mdivides v m) /\
  in_component 0 (terms f) /\ in_component 0 (terms a) /\ p_reduction true f a = AssertFail.
Proof. exact c41_debug_refuted. Qed.
Print Assumptions C41_assert_refuted.

(** A ring polynomial as reducer of a module element leaves equal terms uncombined. *)
Theorem C41_ring_reducer_refuted : exists f a r, valid_poly f /\ valid_poly a /\ same_ring f a /\ in_component 0 (terms f) /\ ring_poly (terms a) /\
  (forall m c l v d l', terms f = (m, c) :: l -> terms a = (v, d) :: l' -> mdivides v m) /\
  p_reduction false f a = Ok r /\ ~ valid_poly r /\ p_reduction true f a = AssertFail.
Proof. exact c41_ring_reducer_refuted. Qed.
Print Assumptions C41_ring_reducer_refuted.

(** redMaybe compares exponents only and reduces a term of one component by a polynomial of another. *)
Theorem C41_redMaybe_refuted : exists f a r, valid_poly f /\ valid_poly a /\ same_ring f a /\
  p_redMaybe false f a = Ok r /\ terms r <> terms f /\ (forall x, In x (terms f) -> pos (fst x) = 0) /\
  (forall x, In x (terms a) -> pos (fst x) = 1) /\ p_redMaybe true f a = AssertFail.
Proof. exact c41_redMaybe_refuted. Qed.
Print Assumptions C41_redMaybe_refuted.

(** What remains true: reducers all of whose terms are in the component of the reduced monomial
    (f itself may have terms in any components). *)
Theorem C41_one_component_partial : forall (f a : poly) m c f' v d a', valid_poly f -> valid_poly a -> same_ring f a ->
  terms f = (m, c) :: f' -> terms a = (v, d) :: a' -> mdivides v m -> in_component (pos m) (terms a) ->
  exists r k1 k2 u, p_reduction false f a = Ok r /\ valid_poly r /\ k1 <> 0 /\ length u = psize f /\ mprod (Mon (-1) u) v = m /\
    (forall w, coef (terms r) w = k1 * coef (terms f) w - k2 * coef (shift u (terms a)) w).
Proof. exact c41_partial. Qed.
Print Assumptions C41_one_component_partial.

Example C41_ex :
  let f := Poly POT OLex 1 [(Mon 1 [1%nat], 1); (Mon 0 [3%nat], 2)] in
  let a := Poly POT OLex 1 [(Mon 1 [1%nat], 1); (Mon 1 [0%nat], 1)] in
  in_component 1 (terms a) /\
  p_reduction false f a = Ok (Poly POT OLex 1 [(Mon 1 [0%nat], -1); (Mon 0 [3%nat], 2)]).
Proof. split; [repeat constructor|reflexivity]. Qed.

(* ---- C42 ---- *)
(** Terms held before plus terms taken = terms held after plus terms given back. *)
Theorem C42_mult_partial : forall (dbg : bool) (p a r : poly), p_mult dbg p a = Ok r ->
  ~ (length (terms a) = 1%nat /\ (1 < length (terms p))%nat) ->
  let c := mult_mem (pto p) (pbo p) (terms p) (terms a) in
  res c = terms r /\ (length (terms p) + taken c = length (terms r) + given c)%nat.
Proof. exact c42_mult. Qed.
Print Assumptions C42_mult_partial.

(** Multiplying a polynomial of at least two terms by a one-term polynomial loses its old terms. *)
Theorem C42_mult_leak_refuted : exists p a r, valid_poly p /\ valid_poly a /\ same_ring p a /\ p_mult true p a = Ok r /\
  res (mult_mem (pto p) (pbo p) (terms p) (terms a)) = terms r /\
  (length (terms p) + taken (mult_mem (pto p) (pbo p) (terms p) (terms a)) >
   length (terms r) + given (mult_mem (pto p) (pbo p) (terms p) (terms a)))%nat.
Proof. exact c42_refuted. Qed.
Print Assumptions C42_mult_leak_refuted.

(** ... exactly all but one of them. *)
Theorem C42_mult_leak_size : forall (t : pos_order) (o : base_order) (p a : list (monom * Z)), length a = 1%nat -> (1 < length p)%nat ->
  (length p + taken (mult_mem t o p a) = length (res (mult_mem t o p a)) + given (mult_mem t o p a) + (length p - 1))%nat.
Proof. exact PolyMemProofs.mult_mem_leak. Qed.
Print Assumptions C42_mult_leak_size.

Theorem C42_add : forall (t : pos_order) (o : base_order) (p a : list (monom * Z)),
  res (add_mem t o p a) = add_terms t o p a /\
  (length p + taken (add_mem t o p a) = length (res (add_mem t o p a)) + given (add_mem t o p a))%nat.
Proof. exact PolyMemProofs.add_mem_ok. Qed.
Print Assumptions C42_add.

Theorem C42_add_constant : forall (n : nat) (l : list (monom * Z)) (c : Z),
  res (add_const_mem n l c) = add_const_terms n l c /\
  (length l + taken (add_const_mem n l c) = length (res (add_const_mem n l c)) + given (add_const_mem n l c))%nat.
Proof. exact PolyMemProofs.add_const_mem_ok. Qed.
Print Assumptions C42_add_constant.

Theorem C42_reduction : forall (dbg : bool) (p a r : poly), p_reduction dbg p a = Ok r ->
  exists c, reduction_mem dbg p a = Ok c /\ res c = terms r /\ (length (terms p) + taken c = length (terms r) + given c)%nat.
Proof. exact c42_reduction. Qed.
Print Assumptions C42_reduction.

Theorem C42_redMaybe : forall (dbg : bool) (p a r : poly), p_redMaybe dbg p a = Ok r -> terms a <> [] ->
  exists c, redMaybe_mem dbg p a = Ok c /\ res c = terms r /\ (length (terms p) + taken c = length (terms r) + given c)%nat.
Proof. exact c42_redMaybe. Qed.
Print Assumptions C42_redMaybe.

(** Over any sequence of calls on an object, the leaking kind of product excepted ... *)
Theorem C42_history_partial : forall (dbg : bool) (p r : poly) (k g : nat), mem_run dbg p k g r ->
  (length (terms p) + k = length (terms r) + g)%nat.
Proof. intros dbg p r k g. exact (c42_run dbg p k g r). Qed.
Print Assumptions C42_history_partial.

(** ... so an object that was empty at first has given back everything once it is destroyed. *)
Theorem C42_lifetime_partial : forall (dbg : bool) (p r : poly) (k g : nat), terms p = [] -> mem_run dbg p k g r ->
  k = (g + given (clear_mem (terms r)))%nat.
Proof. intros dbg p r k g. exact (c42_life dbg p k g r). Qed.
Print Assumptions C42_lifetime_partial.

(** Reducing x + 1 by x - 1: one term is destroyed, one changed; from the empty object on, 2 taken. *)
Example C42_run_ex :
  let z := Poly TOP OLex 1 [] in
  let p := Poly TOP OLex 1 [(Mon (-1) [1%nat], 1); (Mon (-1) [0%nat], 1)] in
  let a := Poly TOP OLex 1 [(Mon (-1) [1%nat], 1); (Mon (-1) [0%nat], -1)] in
  mem_run true z (2 + (0 + 0)) (0 + (1 + 0)) (Poly TOP OLex 1 [(Mon (-1) [0%nat], 2)]).
Proof.
  intros z p a. apply (mem_step true z (assign_mem [] (terms p)) p); [exact (mem_assign true z p)|].
  apply (mem_step true p (Cnt [(Mon (-1) [0%nat], 2)] 0 1) (Poly TOP OLex 1 [(Mon (-1) [0%nat], 2)]) 0 0); [|constructor]. apply (mem_reduction true p a); reflexivity.
Qed.

Example C42_ex :
  let c := mult_mem TOP OLex [(Mon (-1) [1%nat], 1); (Mon (-1) [0%nat], 1)] [(Mon (-1) [1%nat], 1); (Mon (-1) [0%nat], -1)] in
  res c = [(Mon (-1) [2%nat], 1); (Mon (-1) [0%nat], -1)] /\ taken c = 4%nat /\ given c = 4%nat.
Proof. repeat split. Qed.
