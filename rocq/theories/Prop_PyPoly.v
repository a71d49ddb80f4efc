(** Properties C57 and C58: polynomials of the Python package pyginv (values; for sharing of objects see C59). *)
From Coq Require Import ZArith List Bool Arith Lia.
From Verif Require Import Outcome MonomModel MonomSpec PolySpec PyMonomModel PyMonomSpec PyPolyModel PyPolySpec PyPolyProofs PyRedProofs PyTop PyExamples.
Import ListNotations.
Local Open Scope Z_scope.

(* ---- C57 ---- *)
Theorem C57_add : forall (o : py_order) (n : nat) (k : Z) (p q : ppoly), py_canonical o n k p -> py_canonical o n k q ->
  py_yields o n k (py_add o p q) (fun m => coef p m + coef q m).
Proof. exact py_add_yields. Qed.
Print Assumptions C57_add.

Theorem C57_sub : forall (o : py_order) (n : nat) (k : Z) (p q : ppoly), py_canonical o n k p -> py_canonical o n k q ->
  py_yields o n k (py_sub o p q) (fun m => coef p m - coef q m).
Proof. exact py_sub_yields. Qed.
Print Assumptions C57_sub.

Theorem C57_neg : forall (o : py_order) (n : nat) (k : Z) (p : ppoly), py_canonical o n k p ->
  py_canonical o n k (py_neg p) /\ forall m, coef (py_neg p) m = - coef p m.
Proof. intros o n k p C. split; [exact (py_neg_canonical o n k p C)|exact (py_neg_coef p)]. Qed.
Print Assumptions C57_neg.

Theorem C57_add_int : forall (o : py_order) (n : nat) (k : Z) (p : ppoly) (c : Z), 0 <= k -> py_canonical o n k p ->
  py_yields o n k (py_add_int o n p c) (fun m => coef p m + (if monom_eq_dec (py_unit n) m then c else 0)) /\
  py_yields o n k (py_radd_int o n c p) (fun m => coef p m + (if monom_eq_dec (py_unit n) m then c else 0)).
Proof. intros o n k p c K C. split; exact (py_add_int_yields o n k p c K C). Qed.
Print Assumptions C57_add_int.

Theorem C57_sub_int : forall (o : py_order) (n : nat) (k : Z) (p : ppoly) (c : Z), 0 <= k -> py_canonical o n k p ->
  py_yields o n k (py_sub_int o n p c) (fun m => coef p m - (if monom_eq_dec (py_unit n) m then c else 0)).
Proof. exact py_sub_int_yields. Qed.
Print Assumptions C57_sub_int.

(** int - p gives p - int. *)
Theorem C57_rsub_int_swapped : forall (o : py_order) (n : nat) (k : Z) (p : ppoly) (c : Z), 0 <= k -> py_canonical o n k p ->
  py_yields o n k (py_rsub_int o n c p) (fun m => coef p m - (if monom_eq_dec (py_unit n) m then c else 0)).
Proof. exact py_sub_int_yields. Qed.
Print Assumptions C57_rsub_int_swapped.

Theorem C57_rsub_int_refuted : exists (p : ppoly) (c : Z), py_canonical TOPdeglex 2 0 p /\
  ~ py_yields TOPdeglex 2 0 (py_rsub_int TOPdeglex 2 c p) (fun m => (if monom_eq_dec (py_unit 2) m then c else 0) - coef p m).
Proof.
  exists e_q, 0. split; [exact e_q_ok|]. intros (r & E & _ & H). injection E as <-. specialize (H (Mon (-1) [1; 1]%nat)).
  vm_compute in H. discriminate H.
Qed.
Print Assumptions C57_rsub_int_refuted.

Theorem C57_mul : forall (o : py_order) (n : nat) (k : Z) (p q : ppoly), py_canonical o n k p -> py_canonical o n k q ->
  ring_poly p \/ ring_poly q -> py_yields o n k (py_times o p q) (prod_coef p q).
Proof. exact py_times_product. Qed.
Print Assumptions C57_mul.

(** Two polynomials both with unknown functions have no product. *)
Theorem C57_mul_fails : forall (o : py_order) (n : nat) (k : Z) (p q : ppoly), py_canonical o n k p -> py_canonical o n k q ->
  ~ ring_poly p -> ~ ring_poly q -> py_times o p q = AssertFail.
Proof. exact py_times_fails. Qed.
Print Assumptions C57_mul_fails.

Theorem C57_mul_int : forall (o : py_order) (n : nat) (k : Z) (p : ppoly) (c : Z), 0 <= k -> py_canonical o n k p ->
  py_yields o n k (py_times_int o n p c) (fun m => c * coef p m).
Proof. exact py_times_int_yields. Qed.
Print Assumptions C57_mul_int.

Theorem C57_pow : forall (o : py_order) (n : nat) (k : Z) (p : ppoly) (j : nat), 0 <= k -> py_canonical o n k p -> ring_poly p \/ (j <= 1)%nat ->
  exists r, py_power o n p (Z.of_nat j) = Ok r /\ py_canonical o n k r /\ is_power n p j r.
Proof. exact py_power_ok. Qed.
Print Assumptions C57_pow.

Theorem C57_mult : forall (o : py_order) (n : nat) (k : Z) (p : ppoly) (m : monom) (c : Z), py_canonical o n k p -> pmono n k m -> c <> 0 ->
  pos m = -1 \/ ring_poly p -> py_yields o n k (py_mult o p m c) (prod_coef [(m, c)] p).
Proof. exact py_mult_yields. Qed.
Print Assumptions C57_mult.

Theorem C57_prolong : forall (o : py_order) (n : nat) (k : Z) (p : ppoly) (v : nat), 0 <= k -> py_canonical o n k p -> (v < n)%nat ->
  py_yields o n k (py_prolong_poly o p v) (prod_coef [(Mon (-1) (incr v (repeat 0%nat n)), 1)] p).
Proof. exact py_prolong_yields. Qed.
Print Assumptions C57_prolong.

(** The list is determined by the coefficients: == on lists of terms is equality of polynomials. *)
Theorem C57_unique : forall (o : py_order) (n : nat) (k : Z) (p q : ppoly), py_canonical o n k p -> py_canonical o n k q ->
  (forall m, coef p m = coef q m) -> p = q.
Proof. exact py_canonical_unique. Qed.
Print Assumptions C57_unique.

Example C57_ex : py_canonical TOPdeglex 2 1 e_u /\ py_canonical TOPdeglex 2 1 e_q /\ ring_poly e_q /\
  py_times TOPdeglex e_u e_q = Ok [(Mon 0 [2; 1]%nat, 3); (Mon (-1) [1; 2]%nat, 3); (Mon 0 [1; 0]%nat, 1); (Mon (-1) [0; 1]%nat, 1)] /\
  py_power TOPdeglex 2 e_q 2 = Ok [(Mon (-1) [2; 2]%nat, 9); (Mon (-1) [1; 1]%nat, 6); (Mon (-1) [0; 0]%nat, 1)] /\
  py_sub TOPdeglex e_q e_q = Ok [].
Proof. split; [exact e_u_ok|]. split; [exact e_q_ok1|]. split; [repeat constructor|]. repeat split; vm_compute; reflexivity. Qed.

(* ---- C58 ---- *)
Theorem C58_reduction : forall (o : py_order) (n : nat) (k : Z) (p : ppoly) (i : nat) (m : monom) (c : Z) (u : monom) (d : Z) (q : ppoly),
  0 <= k -> py_canonical o n k p -> nth_error p i = Some (m, c) ->
  py_canonical o n k ((u, d) :: q) -> pos u = pos m -> mdivides u m ->
  exists r k1 k2 s, py_reduction o p i ((u, d) :: q) = Ok r /\ py_canonical o n k r /\ k1 <> 0 /\ length s = n /\
    (forall x, coef r x = k1 * coef p x + k2 * coef (shift s ((u, d) :: q)) x) /\
    coef r m = 0 /\ (forall x, mono n x -> py_greater o x m -> coef r x = k1 * coef p x).
Proof. exact py_reduction_spec. Qed.
Print Assumptions C58_reduction.

Theorem C58_reduce : forall (o : py_order) (n : nat) (k : Z) (p : ppoly) (u : monom) (d : Z) (q : ppoly),
  0 <= k -> p <> [] -> py_canonical o n k p -> py_canonical o n k ((u, d) :: q) ->
  exists r k1 s k2, py_reduce o p ((u, d) :: q) = Ok r /\ py_canonical o n k r /\ k1 <> 0 /\ length s = n /\
    (forall x, coef r x = k1 * coef p x + k2 * coef (shift s ((u, d) :: q)) x) /\ coef r u = 0.
Proof. exact py_reduce_ok. Qed.
Print Assumptions C58_reduce.

Theorem C58_pp : forall (o : py_order) (n : nat) (k : Z) (p : ppoly), py_canonical o n k p -> p <> [] ->
  exists r g, py_pp o p = Ok r /\ py_canonical o n k r /\ g <> 0 /\ (forall m, coef p m = g * coef r m) /\
    primitive r /\ (g < 0 -> length p = 1%nat).
Proof. exact py_pp_ok. Qed.
Print Assumptions C58_pp.

(** NFhead ends for every set of reducers. *)
Theorem C58_NFhead : forall (o : py_order) (n : nat) (k : Z) (G : ppoly -> Prop) (find : monom -> outcome (option ppoly)) (p : ppoly),
  0 <= k -> py_good_find o n k G find -> py_canonical o n k p ->
  exists N r, (forall fuel, (N <= fuel)%nat -> py_nfhead fuel o find p = Ok r) /\ py_canonical o n k r /\ congruent n G p r /\
    (r = [] \/ exists m c l, r = (m, c) :: l /\ irreducible find m).
Proof. exact py_nfhead_spec. Qed.
Print Assumptions C58_NFhead.

Theorem C58_NFtail : forall (o : py_order) (n : nat) (k : Z) (G : ppoly -> Prop) (find : monom -> outcome (option ppoly)) (m : monom) (c : Z) (p : ppoly),
  0 <= k -> py_good_find o n k G find -> py_canonical o n k ((m, c) :: p) ->
  exists N d r, (forall fuel, (N <= fuel)%nat -> py_nftail fuel o find ((m, c) :: p) = Ok ((m, d) :: r)) /\
    py_canonical o n k ((m, d) :: r) /\ congruent n G ((m, c) :: p) ((m, d) :: r) /\ Forall (fun x => irreducible find (fst x)) r.
Proof. exact py_nftail_spec. Qed.
Print Assumptions C58_NFtail.

(** S: the leading terms cancel. *)
Theorem C58_spoly_partial : forall (o : py_order) (n : nat) (k : Z) (mp : monom) (kp : Z) (p : ppoly) (mq : monom) (kq : Z) (q : ppoly),
  0 <= k -> py_canonical o n k ((mp, kp) :: p) -> py_canonical o n k ((mq, kq) :: q) -> pos mp = -1 -> pos mq = -1 ->
  exists r s t g l, py_spoly o ((mp, kp) :: p) ((mq, kq) :: q) = Ok r /\ py_canonical o n k r /\
    length s = n /\ length t = n /\ g <> 0 /\ length l = n /\
    (forall i, (i < n)%nat -> expo l i = Nat.max (expo (vars mp) i) (expo (vars mq) i)) /\
    mprod (Mon (-1) s) mp = Mon (-1) l /\ mprod (Mon (-1) t) mq = Mon (-1) l /\
    (forall x, g * coef r x = kq * coef (shift s ((mp, kp) :: p)) x - kp * coef (shift t ((mq, kq) :: q)) x) /\
    py_below o (Mon (-1) l) r.
Proof. exact py_spoly_ring. Qed.
Print Assumptions C58_spoly_partial.

(** With unknown functions S never works, even for the same function. *)
Theorem C58_spoly_module_fails : forall (o : py_order) (n : nat) (k : Z) (mp : monom) (kp : Z) (p : ppoly) (mq : monom) (kq : Z) (q : ppoly),
  py_canonical o n k ((mp, kp) :: p) -> py_canonical o n k ((mq, kq) :: q) ->
  pos mp <> -1 \/ pos mq <> -1 -> py_spoly o ((mp, kp) :: p) ((mq, kq) :: q) = AssertFail.
Proof. exact py_spoly_module. Qed.
Print Assumptions C58_spoly_module_fails.

Theorem C58_spoly_refuted : exists p : ppoly, py_canonical TOPdeglex 2 1 p /\ p <> [] /\ py_spoly TOPdeglex p p = AssertFail.
Proof. exists e_u. split; [exact e_u_ok|]. split; [discriminate|vm_compute; reflexivity]. Qed.
Print Assumptions C58_spoly_refuted.

Example C58_ex : py_canonical TOPdeglex 2 0 e_p /\ py_good_find TOPdeglex 2 0 (eq e_q) (py_find1 e_q) /\
  py_reduction TOPdeglex e_p 0 e_q = Ok [(Mon (-1) [0; 2]%nat, 12); (Mon (-1) [1; 0]%nat, -20)] /\
  py_nfhead 5 TOPdeglex (py_find1 e_q) e_p = Ok [(Mon (-1) [0; 2]%nat, 12); (Mon (-1) [1; 0]%nat, -20)] /\
  py_pp TOPdeglex e_p = Ok [(Mon (-1) [2; 1]%nat, 1); (Mon (-1) [0; 2]%nat, 2); (Mon (-1) [1; 0]%nat, -3)] /\
  py_spoly TOPdeglex e_p e_q = Ok [(Mon (-1) [0; 2]%nat, 12); (Mon (-1) [1; 0]%nat, -20)].
Proof.
  split; [exact e_p_ok|]. split; [apply py_find1_good; [discriminate|exact e_q_ok]|]. repeat split; vm_compute; reflexivity.
Qed.
