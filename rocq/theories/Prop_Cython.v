(** C45: the Python operators on polynomials.  [coef l m] is the coefficient of m in the terms l;
    [Returns r] is a Python result, [AssertionError] a Python exception. *)
From Coq Require Import ZArith List Bool Lia.
From Verif Require Import Outcome MonomModel MonomSpec PolyModel PolySpec PolyProofs PolyTopProofs CythonModel CythonProofs.
Import ListNotations.
Local Open Scope Z_scope.

(** p + q *)
Theorem C45_add : forall (dbg : bool) (p q : poly), valid_poly p -> valid_poly q -> same_ring p q ->
  exists r, py_add dbg (PPoly p) (PPoly q) = Ok (Returns r) /\ same_ring p r /\ valid_poly r /\
    forall m, coef (terms r) m = coef (terms p) m + coef (terms q) m.
Proof. exact c45_add. Qed.
Print Assumptions C45_add.

(** p - q *)
Theorem C45_sub : forall (dbg : bool) (p q : poly), valid_poly p -> valid_poly q -> same_ring p q ->
  exists r, py_sub dbg (PPoly p) (PPoly q) = Ok (Returns r) /\ same_ring p r /\ valid_poly r /\
    forall m, coef (terms r) m = coef (terms p) m - coef (terms q) m.
Proof. exact c45_sub. Qed.
Print Assumptions C45_sub.

(** p * q *)
Theorem C45_mul : forall (dbg : bool) (p q : poly), valid_poly p -> valid_poly q -> same_ring p q ->
  ring_poly (terms p) \/ ring_poly (terms q) ->
  exists r, py_mul dbg (PPoly p) (PPoly q) = Ok (Returns r) /\ same_ring p r /\ valid_poly r /\
    forall m, coef (terms r) m = prod_coef (terms p) (terms q) m.
Proof. exact c45_mul. Qed.
Print Assumptions C45_mul.

(** Operands of different rings or orders raise an exception in all three operators. *)
Theorem C45_incomparable : forall (dbg : bool) (p q : poly), valid_poly p -> valid_poly q -> ~ same_ring p q ->
  py_add dbg (PPoly p) (PPoly q) = Ok AssertionError /\ py_sub dbg (PPoly p) (PPoly q) = Ok AssertionError /\
  py_mul dbg (PPoly p) (PPoly q) = Ok AssertionError.
Proof. exact c45_incomparable. Qed.
Print Assumptions C45_incomparable.

(** -p *)
Theorem C45_neg : forall (dbg : bool) (p : poly), valid_poly p ->
  exists r, py_neg dbg p = Ok (Returns r) /\ same_ring p r /\ valid_poly r /\ forall m, coef (terms r) m = - coef (terms p) m.
Proof. exact c45_neg. Qed.
Print Assumptions C45_neg.

(** p + c and c + p.  Missing: p = 0, c = 0, order alex (see C13; p = 0 raises AssertionError). *)
Theorem C45_add_int_partial : forall (dbg : bool) (p : poly) (c : Z), valid_poly p -> terms p <> [] -> pbo p <> OAlex -> c <> 0 ->
  exists r, py_add dbg (PPoly p) (PInt c) = Ok (Returns r) /\ py_add dbg (PInt c) (PPoly p) = Ok (Returns r) /\
    same_ring p r /\ valid_poly r /\ forall m, coef (terms r) m = coef (terms p) m + c * coef (one (psize p)) m.
Proof. exact c45_add_int. Qed.
Print Assumptions C45_add_int_partial.

(** c - p.  Missing: as above. *)
Theorem C45_int_sub_partial : forall (dbg : bool) (p : poly) (c : Z), valid_poly p -> terms p <> [] -> pbo p <> OAlex -> c <> 0 ->
  exists r, py_sub dbg (PInt c) (PPoly p) = Ok (Returns r) /\
    same_ring p r /\ valid_poly r /\ forall m, coef (terms r) m = c * coef (one (psize p)) m - coef (terms p) m.
Proof. exact c45_int_sub. Qed.
Print Assumptions C45_int_sub_partial.

(** p - c is wrong: __sub__ calls add, so for every non-zero c it returns something else. *)
Theorem C45_sub_int_always_wrong : forall (dbg : bool) (p : poly) (c : Z), valid_poly p -> terms p <> [] -> pbo p <> OAlex -> c <> 0 ->
  exists r m, py_sub dbg (PPoly p) (PInt c) = Ok (Returns r) /\ coef (terms r) m <> coef (terms p) m - c * coef (one (psize p)) m.
Proof. exact c45_sub_int. Qed.
Print Assumptions C45_sub_int_always_wrong.

(** The witness x - 3. *)
Theorem C45_sub_int_refuted : exists (p : poly) (c : Z) (r : poly) (m : monom), valid_poly p /\
  py_sub true (PPoly p) (PInt c) = Ok (Returns r) /\ coef (terms r) m <> coef (terms p) m - c * coef (one (psize p)) m.
Proof. exact c45_sub_int_witness. Qed.
Print Assumptions C45_sub_int_refuted.

(** p * c and c * p.  Missing: p = 0, which raises AssertionError. *)
Theorem C45_mul_int_partial : forall (dbg : bool) (p : poly) (c : Z), valid_poly p -> terms p <> [] ->
  exists r, py_mul dbg (PPoly p) (PInt c) = Ok (Returns r) /\ py_mul dbg (PInt c) (PPoly p) = Ok (Returns r) /\
    same_ring p r /\ valid_poly r /\ forall m, coef (terms r) m = c * coef (terms p) m.
Proof. exact c45_mul_int. Qed.
Print Assumptions C45_mul_int_partial.

(** The zero polynomial and an int: every operator raises. *)
Theorem C45_zero_int_raises : forall (dbg : bool) (p : poly) (c : Z), valid_poly p -> terms p = [] ->
  py_add dbg (PPoly p) (PInt c) = Ok AssertionError /\ py_mul dbg (PPoly p) (PInt c) = Ok AssertionError /\
  py_sub dbg (PInt c) (PPoly p) = Ok AssertionError.
Proof. exact c45_zero. Qed.
Print Assumptions C45_zero_int_raises.

(** p ** k.  Missing: k = 0 (C12_power_zero_refuted). *)
Theorem C45_pow_partial : forall (dbg : bool) (p : poly) (k : Z), valid_poly p -> 1 <= k -> ring_poly (terms p) \/ k = 1 ->
  exists r, py_pow dbg p k = Ok (Returns r) /\ same_ring p r /\ valid_poly r /\ is_power (psize p) (terms p) (Z.to_nat k) (terms r).
Proof. exact c45_pow. Qed.
Print Assumptions C45_pow_partial.

(** x^2 - y and x + 300. *)
Example C45_ex :
  let p := Poly TOP OLex 2 [(Mon (-1) [2;0]%nat, 1); (Mon (-1) [0;1]%nat, -1)] in
  let q := Poly TOP OLex 2 [(Mon (-1) [1;0]%nat, 1); (Mon (-1) [0;0]%nat, 300)] in
  valid_poly p /\ valid_poly q /\ same_ring p q /\ ring_poly (terms p) /\ terms p <> [] /\ pbo p <> OAlex /\
  py_sub true (PPoly p) (PPoly q) =
    Ok (Returns (Poly TOP OLex 2 [(Mon (-1) [2;0]%nat, 1); (Mon (-1) [1;0]%nat, -1); (Mon (-1) [0;1]%nat, -1); (Mon (-1) [0;0]%nat, -300)])) /\
  py_sub true (PPoly q) (PInt 300) = Ok (Returns (Poly TOP OLex 2 [(Mon (-1) [1;0]%nat, 1); (Mon (-1) [0;0]%nat, 600)])) /\
  py_sub true (PInt 300) (PPoly q) = Ok (Returns (Poly TOP OLex 2 [(Mon (-1) [1;0]%nat, -1)])) /\
  py_pow true p 2 = Ok (Returns (Poly TOP OLex 2 [(Mon (-1) [4;0]%nat, 1); (Mon (-1) [2;1]%nat, -2); (Mon (-1) [0;2]%nat, 1)])).
Proof.
  cbv zeta. split; [apply canonical_iff; repeat constructor; cbn; try reflexivity; lia|].
  split; [apply canonical_iff; repeat constructor; cbn; try reflexivity; lia|].
  split; [repeat split|]. split; [repeat constructor|]. split; [discriminate|]. split; [discriminate|].
  repeat split; vm_compute; reflexivity.
Qed.
