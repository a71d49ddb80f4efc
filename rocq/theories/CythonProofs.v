(** Proofs for Prop_Cython.v. *)
From Coq Require Import ZArith List Bool Arith Lia.
From Coq Require HexString.
From Verif Require Import Outcome MonomModel MonomSpec MonomProofs PolyModel PolySpec PolyProofs PolyTopProofs CythonModel.
Import ListNotations.
Local Open Scope Z_scope.

Lemma hex_read c : integer_of_str (py_hex c) = c.
Proof. apply HexString.to_Z_of_Z. Qed.

Lemma p_copy_id dbg p : valid_poly p -> p_copy dbg p = Ok p.
Proof.
  intro V. unfold p_copy. rewrite map_id. replace (with_terms p (terms p)) with p by (destruct p; reflexivity).
  unfold checked, assert_. destruct dbg; [|reflexivity]. unfold assertValid.
  rewrite (canonical_valid _ _ _ _ V). reflexivity.
Qed.

Lemma py_bool_true p : terms p <> [] -> py_bool p = true.
Proof. unfold py_bool. destruct (terms p); [congruence|reflexivity]. Qed.

Lemma same_ring_sym p q : same_ring p q -> same_ring q p.
Proof. intros (A & B & C). split; [|split]; symmetry; assumption. Qed.
Lemma same_ring_trans p q r : same_ring p q -> same_ring q r -> same_ring p r.
Proof. intros (A & B & C) (A' & B' & C'). split; [|split]; etransitivity; eassumption. Qed.

Lemma fold_sum_swap {A B} (f : A -> B -> Z) (l : list A) (r : list B) :
  fold_right Z.add 0 (map (fun x => fold_right Z.add 0 (map (f x) r)) l) =
  fold_right Z.add 0 (map (fun y => fold_right Z.add 0 (map (fun x => f x y) l)) r).
Proof.
  assert (Z0 : forall r : list B, fold_right Z.add 0 (map (fun _ => 0) r) = 0).
  { intro r'. induction r' as [|y r' IH]; cbn; [reflexivity|]. exact IH. }
  assert (P : forall (g h : B -> Z) r, fold_right Z.add 0 (map (fun y => g y + h y) r) =
    fold_right Z.add 0 (map g r) + fold_right Z.add 0 (map h r)).
  { intros g h r'. induction r' as [|y r' IH]; cbn; [reflexivity|]. rewrite IH. lia. }
  induction l as [|x l IH]; cbn [map fold_right]; [symmetry; apply Z0|].
  rewrite IH. symmetry. apply (P (f x) (fun y => fold_right Z.add 0 (map (fun x => f x y) l))).
Qed.

Lemma fold_map_ext {A} (f g : A -> Z) l : (forall x, In x l -> f x = g x) ->
  fold_right Z.add 0 (map f l) = fold_right Z.add 0 (map g l).
Proof.
  induction l as [|x l IH]; intro H; cbn [map fold_right]; [reflexivity|].
  rewrite (H x (or_introl eq_refl)), IH; [reflexivity|]. intros y Y. apply H. right. exact Y.
Qed.

Lemma prod_coef_swap n p q m : Forall (fun x => mono n (fst x)) p -> Forall (fun x => mono n (fst x)) q ->
  ring_poly p \/ ring_poly q -> prod_coef p q m = prod_coef q p m.
Proof.
  intros P Q R. unfold prod_coef. rewrite fold_sum_swap. apply fold_map_ext. intros y Y. apply fold_map_ext. intros x X.
  rewrite (mprod_comm n (fst x) (fst y)).
  - destruct (monom_eq_dec _ m); [ring|reflexivity].
  - rewrite Forall_forall in P. apply P, X.
  - rewrite Forall_forall in Q. apply Q, Y.
  - destruct R as [R | R]; unfold ring_poly in R; rewrite Forall_forall in R; [left; apply R, X|right; apply R, Y].
Qed.

Lemma c45_add dbg p q : valid_poly p -> valid_poly q -> same_ring p q ->
  exists r, py_add dbg (PPoly p) (PPoly q) = Ok (Returns r) /\ same_ring p r /\ valid_poly r /\
    forall m, coef (terms r) m = coef (terms p) m + coef (terms q) m.
Proof.
  intros P Q S. pose proof (same_ring_sym _ _ S) as S'. destruct (c10_add dbg q p Q P S') as (r & E & R & V & F).
  exists r. unfold py_add, py_add_m. rewrite p_copy_id by exact Q. cbn [bind]. rewrite (same_ring_comparable _ _ S'), E. cbn [bind].
  split; [reflexivity|]. split; [exact (same_ring_trans _ _ _ S R)|]. split; [exact V|]. intro m. rewrite F. lia.
Qed.

Lemma c45_neg dbg p : valid_poly p ->
  exists r, py_neg dbg p = Ok (Returns r) /\ same_ring p r /\ valid_poly r /\ forall m, coef (terms r) m = - coef (terms p) m.
Proof.
  intro P. destruct (c10_minus dbg p P) as (r & E & R & V & F). exists r. unfold py_neg. rewrite p_copy_id by exact P. cbn [bind].
  rewrite E. cbn [bind]. split; [reflexivity|]. split; [exact R|]. split; [exact V|exact F].
Qed.

Lemma c45_sub dbg p q : valid_poly p -> valid_poly q -> same_ring p q ->
  exists r, py_sub dbg (PPoly p) (PPoly q) = Ok (Returns r) /\ same_ring p r /\ valid_poly r /\
    forall m, coef (terms r) m = coef (terms p) m - coef (terms q) m.
Proof.
  intros P Q S. pose proof (same_ring_sym _ _ S) as S'. destruct (c10_sub dbg q p Q P S') as (d & E & R & V & F).
  destruct (c45_neg dbg d V) as (r & E' & R' & V' & F').
  exists r. unfold py_sub, py_sub_m. rewrite p_copy_id by exact Q. cbn [bind]. rewrite (same_ring_comparable _ _ S'), E. cbn [bind].
  split; [exact E'|]. split; [exact (same_ring_trans _ _ _ S (same_ring_trans _ _ _ R R'))|]. split; [exact V'|].
  intro m. rewrite F', F. lia.
Qed.

Lemma c45_mul dbg p q : valid_poly p -> valid_poly q -> same_ring p q -> ring_poly (terms p) \/ ring_poly (terms q) ->
  exists r, py_mul dbg (PPoly p) (PPoly q) = Ok (Returns r) /\ same_ring p r /\ valid_poly r /\
    forall m, coef (terms r) m = prod_coef (terms p) (terms q) m.
Proof.
  intros P Q S M. pose proof (same_ring_sym _ _ S) as S'.
  destruct (c11_mult dbg q p Q P S') as (r & E & R & V & F); [tauto|].
  exists r. unfold py_mul, py_mul_m. rewrite p_copy_id by exact Q. cbn [bind]. rewrite (same_ring_comparable _ _ S'), E. cbn [bind].
  split; [reflexivity|]. split; [exact (same_ring_trans _ _ _ S R)|]. split; [exact V|]. intro m. rewrite F.
  destruct P as (_ & P & _). destruct Q as (_ & Q & _). destruct S as (S & _). rewrite S in P.
  apply (prod_coef_swap (psize q)); [exact Q|exact P|tauto].
Qed.

Lemma c45_incomparable dbg p q : valid_poly p -> valid_poly q -> ~ same_ring p q ->
  py_add dbg (PPoly p) (PPoly q) = Ok AssertionError /\ py_sub dbg (PPoly p) (PPoly q) = Ok AssertionError /\
  py_mul dbg (PPoly p) (PPoly q) = Ok AssertionError.
Proof.
  intros P Q N. assert (C : comparable q p = false).
  { destruct (comparable q p) eqn:E; [|reflexivity]. destruct N. apply same_ring_sym, comparable_same_ring, E. }
  unfold py_add, py_add_m, py_sub, py_sub_m, py_mul, py_mul_m. rewrite p_copy_id by exact Q. cbn [bind]. rewrite C. auto.
Qed.

(** int operands *)
Lemma add_int dbg p c : valid_poly p -> terms p <> [] -> pbo p <> OAlex -> c <> 0 ->
  exists r, py_add_m dbg p (PInt c) = Ok (Returns r) /\ same_ring p r /\ valid_poly r /\
    forall m, coef (terms r) m = coef (terms p) m + c * coef (one (psize p)) m.
Proof.
  intros P N O C. destruct (c13_add dbg p c P N O C) as (r & E & R & V & F). exists r. unfold py_add_m.
  rewrite p_copy_id by exact P. cbn [bind]. rewrite (py_bool_true p N), hex_read, E. cbn [bind]. auto.
Qed.
Lemma c45_add_int dbg p c : valid_poly p -> terms p <> [] -> pbo p <> OAlex -> c <> 0 ->
  exists r, py_add dbg (PPoly p) (PInt c) = Ok (Returns r) /\ py_add dbg (PInt c) (PPoly p) = Ok (Returns r) /\
    same_ring p r /\ valid_poly r /\ forall m, coef (terms r) m = coef (terms p) m + c * coef (one (psize p)) m.
Proof.
  intros P N O C. destruct (add_int dbg p c P N O C) as (r & E & R & V & F). exists r. unfold py_add. auto.
Qed.
Lemma c45_int_sub dbg p c : valid_poly p -> terms p <> [] -> pbo p <> OAlex -> c <> 0 ->
  exists r, py_sub dbg (PInt c) (PPoly p) = Ok (Returns r) /\
    same_ring p r /\ valid_poly r /\ forall m, coef (terms r) m = c * coef (one (psize p)) m - coef (terms p) m.
Proof.
  intros P N O C. destruct (c13_sub dbg p c P N O C) as (d & E & R & V & F). destruct (c45_neg dbg d V) as (r & E' & R' & V' & F').
  exists r. unfold py_sub, py_sub_m. rewrite p_copy_id by exact P. cbn [bind]. rewrite (py_bool_true p N), hex_read, E. cbn [bind].
  split; [exact E'|]. split; [exact (same_ring_trans _ _ _ R R')|]. split; [exact V'|]. intro m. rewrite F', F. lia.
Qed.
Lemma c45_sub_int dbg p c : valid_poly p -> terms p <> [] -> pbo p <> OAlex -> c <> 0 ->
  exists r m, py_sub dbg (PPoly p) (PInt c) = Ok (Returns r) /\ coef (terms r) m <> coef (terms p) m - c * coef (one (psize p)) m.
Proof.
  intros P N O C. destruct (add_int dbg p c P N O C) as (r & E & R & V & F). exists r, (Mon (-1) (repeat 0%nat (psize p))).
  split; [exact E|]. rewrite F. unfold one. cbn [coef]. destruct (monom_eq_dec _ _) as [_|D]; [lia|congruence].
Qed.
Lemma c45_mul_int dbg p c : valid_poly p -> terms p <> [] ->
  exists r, py_mul dbg (PPoly p) (PInt c) = Ok (Returns r) /\ py_mul dbg (PInt c) (PPoly p) = Ok (Returns r) /\
    same_ring p r /\ valid_poly r /\ forall m, coef (terms r) m = c * coef (terms p) m.
Proof.
  intros P N. destruct (c10_scale dbg p c P) as (r & E & R & V & F). exists r. unfold py_mul, py_mul_m.
  rewrite p_copy_id by exact P. cbn [bind]. rewrite (py_bool_true p N), hex_read, E. cbn [bind]. auto.
Qed.
Lemma c45_zero dbg p c : valid_poly p -> terms p = [] ->
  py_add dbg (PPoly p) (PInt c) = Ok AssertionError /\ py_mul dbg (PPoly p) (PInt c) = Ok AssertionError /\
  py_sub dbg (PInt c) (PPoly p) = Ok AssertionError.
Proof.
  intros P N. unfold py_add, py_mul, py_sub, py_add_m, py_mul_m, py_sub_m. rewrite p_copy_id by exact P. cbn [bind].
  unfold py_bool. rewrite N. cbn. auto.
Qed.
Lemma c45_pow dbg p k : valid_poly p -> 1 <= k -> ring_poly (terms p) \/ k = 1 ->
  exists r, py_pow dbg p k = Ok (Returns r) /\ same_ring p r /\ valid_poly r /\ is_power (psize p) (terms p) (Z.to_nat k) (terms r).
Proof.
  intros P K R. destruct (c12_pow dbg p (Z.to_nat k) P) as (r & E & S & V & F); [lia| |].
  - destruct R as [R | R]; [left; exact R|right]. subst. reflexivity.
  - exists r. unfold py_pow. destruct (Z.ltb_spec k 0); [lia|]. rewrite p_copy_id by exact P. cbn [bind]. rewrite E. cbn [bind]. auto.
Qed.
Lemma c45_sub_int_witness : exists (p : poly) (c : Z) (r : poly) (m : monom), valid_poly p /\
  py_sub true (PPoly p) (PInt c) = Ok (Returns r) /\ coef (terms r) m <> coef (terms p) m - c * coef (one (psize p)) m.
Proof.
  exists (px OLex), 3. destruct (c45_sub_int true (px OLex) 3 (px_valid _)) as (r & m & H); [discriminate|discriminate|lia|].
  exists r, m. split; [apply px_valid|exact H].
Qed.
