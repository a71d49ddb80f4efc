(** Proofs about PyMonomModel.v. *)
From Coq Require Import ZArith List Bool Arith Lia Wellfounded.
From Verif Require Import Outcome MonomModel MonomSpec MonomProofs PyMonomModel PyMonomSpec.
Import ListNotations.
Local Open Scope Z_scope.

Lemma py_lex_lexv a : forall b, py_lex a b = lexv a b.
Proof.
  induction a as [|x a IH]; intros [|y b]; try reflexivity. cbn [py_lex lexv]. rewrite IH.
  destruct (Nat.eqb_spec x y) as [->|N]; [now rewrite Nat.ltb_irrefl|].
  destruct (Nat.ltb_spec y x); [reflexivity|]. destruct (Nat.ltb_spec x y); [reflexivity|lia].
Qed.

Lemma py_last_lexv a : forall b, py_last a b = - lexv a b.
Proof.
  induction a as [|x a IH]; intros [|y b]; try reflexivity. cbn [py_last lexv]. rewrite IH.
  destruct (Nat.eqb_spec x y) as [->|N]; [now rewrite Nat.ltb_irrefl|].
  destruct (Nat.ltb_spec x y); [destruct (Nat.ltb_spec y x); [lia|reflexivity]|].
  destruct (Nat.ltb_spec y x); [reflexivity|lia].
Qed.

Lemma py_deglex_deglexv a b : length (vars a) = length (vars b) -> py_deglex a b = deglexv (vars a) (vars b).
Proof.
  intro L. unfold py_deglex, deglexv, py_degree. fold (degv (vars a)) (degv (vars b)).
  destruct (Nat.ltb_spec (degv (vars b)) (degv (vars a))); [reflexivity|].
  destruct (Nat.ltb_spec (degv (vars a)) (degv (vars b))); [reflexivity|].
  rewrite py_last_lexv. destruct (Nat.eqb_spec (degv (vars a)) 0) as [E|]; [|reflexivity].
  assert (E' : degv (vars b) = 0%nat) by lia.
  rewrite (degv_zero _ E), (degv_zero _ E'), L. rewrite lexv_refl. reflexivity.
Qed.

(** The Python orders are the C++ orders after renumbering the positions. *)
Definition renum (k : Z) (m : monom) : monom := Mon (if pos m =? -1 then -1 else k - pos m) (vars m).
Definition torder (o : py_order) : pos_order := match o with POTlex | POTdeglex => POT | _ => TOP end.
Definition border (o : py_order) : base_order := match o with POTlex | TOPlex => OLex | _ => ODegLex end.

Lemma renum_mono n k m : mono n m -> pos m <= k -> mono n (renum k m).
Proof. intros [L P] H. split; [exact L|]. cbn [renum pos]. destruct (Z.eqb_spec (pos m) (-1)); lia. Qed.

Lemma renum_inj n k a b : mono n a -> mono n b -> pos a <= k -> pos b <= k -> renum k a = renum k b -> a = b.
Proof.
  intros [_ A] [_ B] Ka Kb E. destruct a as [p u], b as [q v]. unfold renum in E. cbn [pos vars] in *.
  injection E as E ->. f_equal. destruct (Z.eqb_spec p (-1)), (Z.eqb_spec q (-1)); lia.
Qed.

Lemma py_cmp_cmp1 n k o a b : mono n a -> mono n b -> pos a <= k -> pos b <= k ->
  py_cmp o a b = cmp1 (torder o) (border o) (renum k a) (renum k b).
Proof.
  intros [La Pa] [Lb Pb] Ka Kb.
  assert (D : py_deglex a b = deglexv (vars a) (vars b)) by (apply py_deglex_deglexv; congruence).
  assert (P : pos a <> pos b -> py_pos (pos a) (pos b) = poscmp (pos (renum k a)) (pos (renum k b))).
  { intro N. unfold py_pos, poscmp. cbn [renum pos].
    destruct (Z.eqb_spec (pos a) (-1)) as [Ea|Ea], (Z.eqb_spec (pos b) (-1)) as [Eb|Eb]; cbn [orb negb andb]; try lia.
    - destruct (Z.eqb_spec (-1) (k - pos b)); [lia|]. destruct (Z.ltb_spec (k - pos b) (-1)); [lia|reflexivity].
    - destruct (Z.eqb_spec (k - pos a) (-1)); [lia|]. destruct (Z.ltb_spec (-1) (k - pos a)); [reflexivity|lia].
    - destruct (Z.eqb_spec (k - pos a) (k - pos b)); [lia|].
      destruct (Z.ltb_spec (pos a) (pos b)), (Z.ltb_spec (k - pos b) (k - pos a)); try reflexivity; lia. }
  assert (Q : poscmp (pos (renum k a)) (pos (renum k b)) = if pos a =? pos b then 0 else py_pos (pos a) (pos b)).
  { destruct (Z.eqb_spec (pos a) (pos b)) as [E|E]; [|symmetry; apply P, E].
    unfold poscmp. cbn [renum pos]. rewrite E. now rewrite Z.eqb_refl. }
  assert (R : (pos (renum k a) =? pos (renum k b)) = (pos a =? pos b)).
  { cbn [renum pos]. destruct (Z.eqb_spec (pos a) (-1)), (Z.eqb_spec (pos b) (-1)), (Z.eqb_spec (pos a) (pos b)); try lia;
    apply Z.eqb_neq || apply Z.eqb_eq; lia. }
  destruct o; cbn [py_cmp torder border cmp1 bcmp]; unfold lex, deglex; rewrite ?R, ?Q; cbn [renum vars];
    rewrite ?py_lex_lexv, ?D; try reflexivity;
    try (destruct (Z.eqb_spec (pos a) (pos b)); reflexivity).
  - destruct (Z.eqb_spec (lexv (vars a) (vars b)) 0); reflexivity.
  - destruct (Z.eqb_spec (deglexv (vars a) (vars b)) 0); reflexivity.
Qed.

Lemma py_total o n : total_order (mono n) (py_cmp o) eq.
Proof.
  destruct (cmp1_total (torder o) (border o) n) as (R & E & A & T).
  split; [|split; [|split]].
  - intros a b Ha Hb. rewrite (py_cmp_cmp1 n (Z.max (pos a) (pos b))); try assumption; try lia.
    apply R; apply renum_mono; try assumption; lia.
  - intros a b Ha Hb. split.
    + intro H1. rewrite (py_cmp_cmp1 n (Z.max (pos a) (pos b))) in H1; try assumption; try lia.
      apply E in H1; try (apply renum_mono; try assumption; lia).
      apply (renum_inj n (Z.max (pos a) (pos b))); try assumption; lia.
    + intros ->. rewrite (py_cmp_cmp1 n (pos b)); try assumption; try lia.
      apply E; try (apply renum_mono; try assumption; lia). reflexivity.
  - intros a b Ha Hb. rewrite !(py_cmp_cmp1 n (Z.max (pos a) (pos b))); try assumption; try lia.
    apply A; apply renum_mono; try assumption; lia.
  - intros a b d Ha Hb Hd. set (k := Z.max (pos a) (Z.max (pos b) (pos d))).
    rewrite !(py_cmp_cmp1 n k); try assumption; try lia. apply T; apply renum_mono; try assumption; lia.
Qed.

Lemma py_meaning o n a b : mono n a -> mono n b -> (py_cmp o a b = 1 <-> py_greater o a b).
Proof.
  intros A B. set (k := Z.max (pos a) (pos b)).
  rewrite (py_cmp_cmp1 n k); try assumption; try lia. rewrite cmp1_spec; [|cbn; destruct A, B; unfold size; cbn; congruence].
  assert (P : pos (renum k b) < pos (renum k a) <-> pos_above (pos a) (pos b)).
  { cbn [renum pos]. unfold pos_above. destruct A as [_ A], B as [_ B].
    destruct (Z.eqb_spec (pos a) (-1)), (Z.eqb_spec (pos b) (-1)); lia. }
  assert (Q : pos (renum k a) = pos (renum k b) <-> pos a = pos b).
  { cbn [renum pos]. destruct A as [_ A], B as [_ B]. destruct (Z.eqb_spec (pos a) (-1)), (Z.eqb_spec (pos b) (-1)); lia. }
  destruct o; cbn [torder border module_gt py_greater base_gt]; cbn [renum vars] in *; rewrite ?P, ?Q; tauto.
Qed.

Lemma py_mul_ok a b : pos a = -1 \/ pos b = -1 -> py_mul a b = Ok (Mon (Z.max (pos a) (pos b)) (py_zip Nat.add (vars a) (vars b))).
Proof. intro H. unfold py_mul, assert_. replace ((pos a =? -1) || (pos b =? -1)) with true; [reflexivity|]. symmetry. lia. Qed.

Lemma py_zip_add a b : py_zip Nat.add a b = addv a b.
Proof. unfold py_zip. revert b. induction a as [|x a IH]; intros [|y b]; try reflexivity. cbn. f_equal. apply IH. Qed.
Lemma py_zip_sub a b : py_zip Nat.sub a b = subv a b.
Proof. unfold py_zip. revert b. induction a as [|x a IH]; intros [|y b]; try reflexivity. cbn. f_equal. apply IH. Qed.
Lemma py_zip_expo f a b i : length a = length b -> (i < length a)%nat -> expo (py_zip f a b) i = f (expo a i) (expo b i).
Proof.
  unfold py_zip. revert b i. induction a as [|x a IH]; intros [|y b] i L I; try discriminate; cbn in I; [lia|].
  destruct i as [|i]; [reflexivity|]. cbn. apply IH; [now injection L|lia].
Qed.
Lemma py_zip_length f a b : length a = length b -> length (py_zip f a b) = length a.
Proof. intro L. unfold py_zip. rewrite map_length, combine_length. lia. Qed.

(** py_mul succeeds exactly when at most one factor is a module monomial, and then is the product. *)
Lemma py_mul_mul n a b c : mono n a -> mono n b -> py_mul a b = Ok c -> mono n c /\ c = mul a b /\ (pos a = -1 \/ pos b = -1).
Proof.
  intros [La Pa] [Lb Pb] H. unfold py_mul, assert_ in H. cbn [andb] in H.
  destruct ((pos a =? -1) || (pos b =? -1)) eqn:E; cbn [negb] in H; [|discriminate].
  apply orb_true_iff in E. rewrite !Z.eqb_eq in E. injection H as <-. split; [|split; [|exact E]].
  - split; [cbn; rewrite py_zip_length; congruence|cbn; lia].
  - unfold mul, mul_pos. rewrite py_zip_add. f_equal.
    destruct (Z.eqb_spec (pos a) (-1)), (Z.leb_spec 0 (pos b)); lia.
Qed.

Lemma py_cmp_mul o n a b c a' b' : mono n a -> mono n b -> mono n c ->
  py_mul a c = Ok a' -> py_mul b c = Ok b' -> py_cmp o a' b' = py_cmp o a b.
Proof.
  intros A B C Ha Hb.
  apply (py_mul_mul n) in Ha as (A' & -> & Pa); [|assumption..]. apply (py_mul_mul n) in Hb as (B' & -> & Pb); [|assumption..].
  assert (Sab : size a = size b) by (destruct A, B; unfold size; congruence).
  assert (Sbc : size b = size c) by (destruct C, B; unfold size; congruence).
  destruct (Z.eq_dec (pos c) (-1)) as [E|E].
  - set (k := Z.max (pos a) (pos b)).
    assert (pos (mul a c) = pos a /\ pos (mul b c) = pos b) as [Xa Xb].
    { unfold mul. cbn [pos]. rewrite E, !mul_pos_ring. auto. }
    rewrite !(py_cmp_cmp1 n k); try assumption; try lia.
    rewrite <- (cmp1_mul (torder o) (border o) (renum k a) (renum k b) c); [|exact Sab|exact Sbc|exact E].
    f_equal; unfold renum, mul in *; cbn [pos vars] in *; f_equal; rewrite ?Xa, ?Xb, E; rewrite mul_pos_ring; reflexivity.
  - assert (pos a = -1 /\ pos b = -1) as [Ea Eb] by lia.
    assert (pos (mul a c) = pos c /\ pos (mul b c) = pos c) as [Xa Xb].
    { unfold mul, mul_pos. cbn [pos]. rewrite Ea, Eb. cbn. destruct (Z.leb_spec 0 (pos c)); auto. }
    set (k := pos c).
    rewrite (py_cmp_cmp1 n k); try assumption; try lia. rewrite (py_cmp_cmp1 n (-1) o a b); try assumption; try lia.
    rewrite <- (cmp1_mul (torder o) (border o) (renum (-1) a) (renum (-1) b) (Mon (-1) (vars c))); [|exact Sab|exact Sbc|reflexivity].
    assert (K : forall t b0 p q u v, cmp1 t b0 (Mon p u) (Mon p v) = cmp1 t b0 (Mon q u) (Mon q v)).
    { intros. destruct t; cbn [cmp1 pos]; rewrite ?Z.eqb_refl; unfold bcmp, lex, deglex, alex, poscmp; cbn [pos vars]; rewrite ?Z.eqb_refl; reflexivity. }
    unfold renum. rewrite Xa, Xb. unfold mul. cbn [pos vars]. rewrite Ea, Eb. apply K.
Qed.

Lemma py_unit_min o n a : mono n a -> a <> py_unit n -> py_cmp o a (py_unit n) = 1.
Proof.
  intros A N. assert (U : mono n (py_unit n)) by (split; [apply repeat_length|cbn; lia]).
  destruct (py_total o n) as (R & E & _ & _).
  assert (L : forall v, length v = n -> 0 <= lexv v (repeat 0%nat n)) by (intros; apply lexv_unit; assumption).
  assert (D : forall v, length v = n -> 0 <= deglexv v (repeat 0%nat n)) by (intros; apply deglexv_unit; assumption).
  assert (Z0 : py_cmp o a (py_unit n) <> 0) by (intro H; apply E in H; auto).
  destruct A as [La Pa]. destruct (R a (py_unit n)) as [H|[H|H]]; [split; assumption|exact U|exact H|contradiction|].
  exfalso. destruct o; cbn [py_cmp] in H; cbv zeta in H; unfold py_pos in H; cbn [py_unit pos vars Z.eqb Pos.eqb orb] in H;
    rewrite ?py_lex_lexv in H; rewrite ?py_deglex_deglexv in H by (cbn; rewrite repeat_length; congruence); cbn [vars py_unit] in H.
  - pose proof (L _ La). destruct (Z.eqb_spec (pos a) (-1)); lia.
  - pose proof (L _ La). destruct (Z.eqb_spec (lexv (vars a) (repeat 0%nat n)) 0); cbn [negb] in H; [destruct (Z.eqb_spec (pos a) (-1)); lia|lia].
  - pose proof (D _ La). destruct (Z.eqb_spec (pos a) (-1)); lia.
  - pose proof (D _ La). destruct (Z.eqb_spec (deglexv (vars a) (repeat 0%nat n)) 0); cbn [negb] in H; [destruct (Z.eqb_spec (pos a) (-1)); lia|lia].
Qed.

(** With finitely many unknown functions there is no infinite descent. *)
Definition pylt (o : py_order) (n : nat) (k : Z) (a b : monom) : Prop := pmono n k a /\ pmono n k b /\ py_cmp o b a = 1.

Lemma pylt_wf o n k : well_founded (pylt o n k).
Proof.
  assert (W := mlt_wf (torder o) (border o) n ltac:(destruct o; discriminate)).
  apply (wf_incl _ _ (fun a b => mlt (torder o) (border o) n (renum k a) (renum k b))).
  - intros a b ([A Ka] & [B Kb] & H). unfold mlt. rewrite (py_cmp_cmp1 n k) in H; try assumption; try lia.
    split; [apply renum_mono; [assumption|lia]|]. split; [apply renum_mono; [assumption|lia]|exact H].
  - apply wf_inverse_image. exact W.
Qed.

Lemma py_no_chain o n k (f : nat -> monom) : ~ (forall i, pmono n k (f i) /\ py_cmp o (f i) (f (S i)) = 1).
Proof.
  intro H. apply (wf_no_chain _ (pylt_wf o n k) f). intro i. split; [apply H|]. split; apply H.
Qed.

(** With infinitely many, there is. *)
Lemma py_chain o : exists f : nat -> monom, forall i, mono 0 (f i) /\ py_cmp o (f i) (f (S i)) = 1.
Proof.
  exists (fun i => Mon (Z.of_nat i) []). intro i. split; [split; [reflexivity|cbn [pos]; lia]|].
  assert (P : py_pos (Z.of_nat i) (Z.of_nat (S i)) = 1).
  { unfold py_pos. destruct (Z.eqb_spec (Z.of_nat i) (-1)); [lia|]. destruct (Z.ltb_spec (Z.of_nat i) (Z.of_nat (S i))); [|lia].
    cbn [negb andb]. rewrite orb_true_r. reflexivity. }
  assert (Q : (Z.of_nat i =? Z.of_nat (S i)) = false) by (apply Z.eqb_neq; lia).
  destruct o; cbn [py_cmp py_lex vars]; cbv zeta; unfold py_deglex; cbn [vars pos py_degree fold_right rev py_last negb Z.eqb]; rewrite ?Q, ?P; reflexivity.
Qed.

(* ---------------------------------------------------------------- arithmetic *)

Lemma py_div_ok n m a : mono n m -> mono n a ->
  py_div m a = if py_divisible m a then Ok (Mon (if pos a =? -1 then pos m else -1) (subv (vars m) (vars a))) else AssertFail.
Proof. intros _ _. unfold py_div, assert_. cbn [andb]. rewrite py_zip_sub. destruct (py_divisible m a); reflexivity. Qed.

Lemma py_divisible_spec n m a : mono n m -> mono n a ->
  (py_divisible m a = true <-> exists q, mono n q /\ py_mul q a = Ok m).
Proof.
  intros [Lm Pm] [La Pa]. unfold py_divisible.
  assert (F : forall u v, length u = length v ->
    (forallb (fun p => negb (Nat.ltb (fst p) (snd p))) (combine u v) = true <-> gev u v = true)).
  { induction u as [|x u IH]; intros [|y v] L; try discriminate; [cbn; tauto|]. cbn [combine forallb gev fst snd].
    rewrite andb_true_iff, IH by (now injection L).
    destruct (Nat.ltb_spec x y), (Nat.leb_spec y x); try lia; cbn [negb]; intuition discriminate. }
  destruct (negb (pos m =? pos a) && negb (pos a =? -1)) eqn:E.
  - split; [discriminate|]. intros (q & [Lq Pq] & H). apply (py_mul_mul n) in H as (_ & H & C); [|split; assumption..].
    exfalso. apply andb_true_iff in E as [E1 E2]. rewrite negb_true_iff, Z.eqb_neq in E1, E2.
    assert (pos q = -1) by lia. apply E1. rewrite H. unfold mul, mul_pos. cbn [pos].
    replace (pos q) with (-1) by lia. cbn. destruct (Z.leb_spec 0 (pos a)); reflexivity.
  - rewrite F by congruence. split.
    + intro G. exists (Mon (if pos a =? -1 then pos m else -1) (subv (vars m) (vars a))).
      split; [split; [cbn; rewrite subv_length; congruence|cbn [pos]; destruct (Z.eqb_spec (pos a) (-1)); lia]|].
      rewrite py_mul_ok; cbn [pos vars]; [|destruct (Z.eqb_spec (pos a) (-1)); auto].
      rewrite py_zip_add, addv_subv by (congruence || assumption). destruct m as [pm vm]. cbn [pos vars] in *. f_equal. f_equal.
      destruct (Z.eqb_spec (pos a) (-1)) as [Ea|Ea]; [lia|].
      cbn [negb] in E. rewrite andb_true_r, negb_false_iff, Z.eqb_eq in E. lia.
    + intros (q & [Lq Pq] & H). apply (py_mul_mul n) in H as (_ & -> & C); [|split; assumption..].
      unfold mul. cbn [vars]. apply gev_addv. congruence.
Qed.

(** Division inverts multiplication. *)
Lemma py_mul_div n a b c : mono n a -> mono n b -> py_mul a b = Ok c -> py_div c b = Ok a.
Proof.
  intros A B H. assert (D : py_divisible c b = true).
  { apply (py_divisible_spec n); [|assumption|exists a; split; assumption]. apply (py_mul_mul n) in H; tauto. }
  rewrite (py_div_ok n); [|apply (py_mul_mul n) in H; tauto|assumption]. rewrite D.
  apply (py_mul_mul n) in H as (C & -> & P); [|assumption..]. unfold mul. cbn [pos vars].
  destruct A as [La Pa], B as [Lb Pb]. rewrite subv_addv by congruence. destruct a as [p u]. cbn [pos vars] in *. f_equal. f_equal.
  unfold mul_pos. destruct (Z.eqb_spec (pos b) (-1)) as [Eb|Eb].
  - rewrite Eb. cbn. destruct (Z.eqb_spec p (-1)); lia.
  - lia.
Qed.

Lemma py_div_mul n m a q : mono n m -> mono n a -> py_div m a = Ok q -> mono n q /\ py_mul q a = Ok m.
Proof.
  intros M A H. rewrite (py_div_ok n) in H by assumption. destruct (py_divisible m a) eqn:D; [|discriminate].
  apply (py_divisible_spec n) in D as (q' & Q & D); [|assumption..].
  pose proof (py_mul_div n q' a m Q A D) as H'. rewrite (py_div_ok n) in H' by assumption.
  destruct (py_divisible m a); [|discriminate]. rewrite H in H'. injection H' as ->. auto.
Qed.

Lemma py_divisible_true_spec n m a : mono n m -> mono n a ->
  (py_divisible_true m a = true <-> exists q, mono n q /\ py_mul q a = Ok m /\ vars q <> repeat 0%nat n).
Proof.
  intros M A. unfold py_divisible_true. rewrite andb_true_iff, (py_divisible_spec n) by assumption. rewrite Nat.ltb_lt.
  unfold py_degree. fold (degv (vars m)) (degv (vars a)).
  assert (D : forall q, mono n q -> py_mul q a = Ok m -> degv (vars m) = (degv (vars q) + degv (vars a))%nat).
  { intros q [Lq Pq] H. apply (py_mul_mul n) in H as (_ & -> & _); [|split; assumption|assumption]. unfold mul. cbn [vars].
    apply degv_addv. destruct A. congruence. }
  split.
  - intros [(q & Q & H) L]. exists q. split; [exact Q|]. split; [exact H|]. intro E. rewrite (D q Q H), E, degv_repeat in L. lia.
  - intros (q & Q & H & N). split; [exists q; auto|]. rewrite (D q Q H).
    destruct (Nat.eq_dec (degv (vars q)) 0) as [Z|]; [|lia]. exfalso. apply N. rewrite (degv_zero _ Z). f_equal. apply Q.
Qed.

Lemma prolong_incr l v : forall s, map (fun x => (snd x + (if Nat.eqb (fst x) v then 1 else 0))%nat) (combine (seq s (length l)) l) =
  if Nat.ltb v s then l else incr (v - s) l.
Proof.
  induction l as [|x l IH]; intro s; [cbn [length seq combine map]; destruct (Nat.ltb v s); [reflexivity|destruct (v - s)%nat; reflexivity]|].
  cbn [length seq combine map fst snd]. rewrite IH. destruct (Nat.eqb_spec s v) as [->|N].
  - rewrite Nat.ltb_irrefl, Nat.sub_diag. cbn [incr]. destruct (Nat.ltb_spec v (S v)); [|lia]. f_equal. lia.
  - destruct (Nat.ltb_spec v s), (Nat.ltb_spec v (S s)); try lia; [f_equal; lia|].
    replace (v - s)%nat with (S (v - S s)) by lia. cbn [incr]. f_equal. lia.
Qed.

Lemma py_prolong_ok n m v : mono n m -> (v < n)%nat -> py_prolong m v = Ok (mul_var v m).
Proof.
  intros [L P] H. unfold py_prolong, assert_. rewrite L. destruct (Nat.ltb_spec v n); [|lia]. cbn [andb negb].
  unfold mul_var. rewrite <- L at 1. rewrite prolong_incr. cbn. now rewrite Nat.sub_0_r.
Qed.

Lemma py_var_ok n i : (i < n)%nat -> py_var n i = var_monom i n (-1).
Proof.
  intro H. unfold py_var, var_monom. f_equal. apply expo_ext; [now rewrite map_length, seq_length, incr_length, repeat_length|].
  intros j J. rewrite map_length, seq_length in J. rewrite incr_expo, expo_repeat. unfold expo.
  rewrite (nth_indep _ _ (if Nat.eqb i 0 then 1 else 0)%nat) by (now rewrite map_length, seq_length).
  change (if Nat.eqb i 0 then 1%nat else 0%nat) with ((fun j => if Nat.eqb i j then 1%nat else 0%nat) 0%nat).
  rewrite map_nth, seq_nth by assumption. cbn [Nat.add]. rewrite repeat_length.
  destruct (Nat.eqb_spec i j) as [->|N].
  - rewrite Nat.eqb_refl. destruct (Nat.ltb_spec j n); [reflexivity|lia].
  - destruct (Nat.eqb_spec j i); [congruence|reflexivity].
Qed.

Lemma py_pow_ok n m k : mono n m -> pos m = -1 -> py_pow m (Z.of_nat k) = Ok (powm m k).
Proof.
  intros [L P] E. unfold py_pow, assert_, powm. rewrite E. cbn [Z.eqb Pos.eqb negb andb].
  destruct (Z.leb_spec 0 (Z.of_nat k)); [|lia]. cbn [negb]. now rewrite Nat2Z.id.
Qed.

(** lcm and gcd of ring monomials are the maximum and the minimum of the exponents. *)
Lemma py_lcm_ok n a b : mono n a -> mono n b -> pos a = -1 \/ pos b = -1 \/ pos a = pos b ->
  exists c, py_lcm a b = Ok c /\ mono n c /\ pos c = -1 /\ forall i, (i < n)%nat -> expo (vars c) i = Nat.max (expo (vars a) i) (expo (vars b) i).
Proof.
  intros [La Pa] [Lb Pb] H. exists (Mon (-1) (py_zip Nat.max (vars a) (vars b))). unfold py_lcm, assert_.
  split; [replace ((pos a =? -1) || (pos b =? -1) || (pos a =? pos b)) with true; [reflexivity|]; symmetry; lia|].
  split; [split; [cbn; rewrite py_zip_length; congruence|cbn; lia]|]. split; [reflexivity|].
  intros i I. cbn [vars]. apply py_zip_expo; congruence.
Qed.
Lemma py_gcd_ok n a b : mono n a -> mono n b -> pos a = -1 \/ pos b = -1 \/ pos a = pos b ->
  exists c, py_gcd a b = Ok c /\ mono n c /\ pos c = -1 /\ forall i, (i < n)%nat -> expo (vars c) i = Nat.min (expo (vars a) i) (expo (vars b) i).
Proof.
  intros [La Pa] [Lb Pb] H. exists (Mon (-1) (py_zip Nat.min (vars a) (vars b))). unfold py_gcd, assert_.
  split; [replace ((pos a =? -1) || (pos b =? -1) || (pos a =? pos b)) with true; [reflexivity|]; symmetry; lia|].
  split; [split; [cbn; rewrite py_zip_length; congruence|cbn; lia]|]. split; [reflexivity|].
  intros i I. cbn [vars]. apply py_zip_expo; congruence.
Qed.

(** For two multiples of the same unknown function, the result of lcm is not a multiple of either. *)
Lemma py_lcm_module n a b c : mono n a -> mono n b -> pos a <> -1 -> py_lcm a b = Ok c -> py_divisible c a = false.
Proof.
  intros A B N H. unfold py_lcm, assert_ in H. destruct ((pos a =? -1) || (pos b =? -1) || (pos a =? pos b)); [|discriminate].
  injection H as <-. unfold py_divisible. cbn [pos]. destruct (Z.eqb_spec (-1) (pos a)); [lia|].
  destruct (Z.eqb_spec (pos a) (-1)); [lia|reflexivity].
Qed.

(** nonmult *)
Lemma nonmult_from_spec a : forall b i v, length a = length b ->
  (py_nonmult_from i a b = Ok v <-> exists k, v = (i + k)%nat /\ (k < length a)%nat /\ (expo a k < expo b k)%nat /\
     forall j, (j < k)%nat -> (expo b j <= expo a j)%nat).
Proof.
  induction a as [|x a IH]; intros [|y b] i v L; try discriminate.
  - cbn. split; [discriminate|]. intros (k & _ & K & _). cbn in K. lia.
  - cbn [py_nonmult_from]. destruct (Nat.ltb_spec x y) as [C|C].
    + split.
      * intros [= <-]. exists 0%nat. cbn. repeat split; try lia.
      * intros (k & -> & K & E & F). destruct k as [|k]; [f_equal; lia|]. specialize (F 0%nat ltac:(lia)). cbn in F. lia.
    + rewrite IH by (now injection L). split.
      * intros (k & -> & K & E & F). exists (S k). cbn [length]. repeat split; try lia; [exact E|].
        intros [|j] J; [exact C|]. apply F. lia.
      * intros (k & -> & K & E & F). destruct k as [|k]; [cbn in E; lia|]. exists k. cbn [length] in K.
        repeat split; try lia; [exact E|]. intros j J. apply (F (S j)). lia.
Qed.

Lemma py_nonmult_spec n a b v : mono n a -> mono n b -> pos a = pos b ->
  (py_nonmult a b = Ok v <-> (v < n)%nat /\ (expo (vars a) v < expo (vars b) v)%nat /\
     forall j, (j < v)%nat -> (expo (vars b) j <= expo (vars a) j)%nat).
Proof.
  intros [La Pa] [Lb Pb] E. unfold py_nonmult, assert_. rewrite E, Z.eqb_refl. cbn [negb andb].
  rewrite nonmult_from_spec by congruence. rewrite La. split.
  - intros (k & -> & K & X & F). cbn. auto.
  - intros (K & X & F). exists v. auto.
Qed.

Lemma py_nonmult_fails n a b : mono n a -> mono n b -> pos a = pos b ->
  (py_nonmult a b = AssertFail <-> py_divisible a b = true).
Proof.
  intros [La Pa] [Lb Pb] E. unfold py_nonmult, assert_, py_divisible. rewrite E, Z.eqb_refl. cbn [negb andb].
  assert (F : forall u v i, length u = length v ->
    (py_nonmult_from i u v = AssertFail <-> forallb (fun p => negb (Nat.ltb (fst p) (snd p))) (combine u v) = true)).
  { induction u as [|x u IH]; intros [|y v] i L; try discriminate; [cbn; tauto|]. cbn [combine forallb py_nonmult_from fst snd].
    destruct (Nat.ltb_spec x y); cbn [negb andb]; [split; discriminate|]. apply IH. now injection L. }
  apply F. congruence.
Qed.

(** expand *)
Definition times (n : nat) (r : outcome monom) (v : nat) : outcome monom := do x <- r; py_mul x (py_var n v).

Lemma count_cons i v l : count i (v :: l) = ((if Nat.eqb i v then 1 else 0) + count i l)%nat.
Proof. unfold count. cbn [filter]. destruct (Nat.eqb i v); reflexivity. Qed.
Lemma count_app i l r : count i (l ++ r) = (count i l + count i r)%nat.
Proof. unfold count. rewrite filter_app, app_length. reflexivity. Qed.
Lemma count_repeat i v k : count i (repeat v k) = if Nat.eqb i v then k else 0%nat.
Proof.
  induction k as [|k IH]; [cbn; destruct (Nat.eqb i v); reflexivity|]. cbn [repeat]. rewrite count_cons, IH. destruct (Nat.eqb i v); lia.
Qed.

Lemma times_ok n m v : mono n m -> (v < n)%nat -> times n (Ok m) v = Ok (mul_var v m).
Proof.
  intros M V. unfold times. cbn [bind]. rewrite py_var_ok by assumption.
  assert (X : mono n (var_monom v n (-1))) by (split; [cbn; now rewrite incr_length, repeat_length|cbn; lia]).
  rewrite py_mul_ok by (right; reflexivity). rewrite (mul_var_mul n) by assumption. unfold mul. f_equal. rewrite py_zip_add. f_equal.
  cbn [pos var_monom]. rewrite mul_pos_ring. destruct M. lia.
Qed.

Lemma product_of n l : forall m, mono n m -> Forall (fun v => (v < n)%nat) l ->
  exists r, fold_left (times n) l (Ok m) = Ok r /\ mono n r /\ pos r = pos m /\
    forall i, expo (vars r) i = (expo (vars m) i + (if Nat.ltb i n then count i l else 0))%nat.
Proof.
  induction l as [|v l IH]; intros m M F.
  - exists m. repeat split; try apply M. intro i. destruct (Nat.ltb i n); cbn; lia.
  - inversion F as [|? ? V F']; subst. cbn [fold_left]. rewrite times_ok by assumption.
    assert (M' : mono n (mul_var v m)) by (split; [cbn; rewrite incr_length; apply M|cbn; apply M]).
    destruct (IH _ M' F') as (r & E & R & P & X). exists r. split; [exact E|]. split; [exact R|]. split; [exact P|].
    intro i. rewrite X. cbn [mul_var vars]. rewrite incr_expo, count_cons. destruct M as [L _]. rewrite L.
    destruct (Nat.eqb_spec i v) as [->|N]; cbn [andb].
    + destruct (Nat.ltb_spec v n); cbn [Nat.add]; lia.
    + destruct (Nat.ltb i n); cbn [Nat.add]; lia.
Qed.

Lemma count_expand_from i u : forall s, count i (flat_map (fun x => repeat (fst x) (snd x)) (combine (seq s (length u)) u)) =
  if Nat.ltb i s then 0%nat else expo u (i - s).
Proof.
  induction u as [|x u IH]; intro s; [cbn [length seq combine flat_map]; unfold expo; destruct (Nat.ltb i s), (i - s)%nat; reflexivity|].
  cbn [length seq combine flat_map fst snd]. rewrite count_app, count_repeat, IH.
  destruct (Nat.eqb_spec i s) as [->|N].
  - rewrite Nat.ltb_irrefl, Nat.sub_diag. destruct (Nat.ltb_spec s (S s)); [|lia]. cbn. lia.
  - destruct (Nat.ltb_spec i s), (Nat.ltb_spec i (S s)); try lia. replace (i - s)%nat with (S (i - S s)) by lia. reflexivity.
Qed.

Lemma py_expand_count m i : count i (py_expand m) = expo (vars m) i.
Proof. unfold py_expand. rewrite count_expand_from. cbn. now rewrite Nat.sub_0_r. Qed.

Lemma py_expand_range n m : mono n m -> Forall (fun v => (v < n)%nat) (py_expand m).
Proof.
  intros [L P]. unfold py_expand. apply Forall_forall. intros v H. apply in_flat_map in H as ([k e] & I & R).
  apply repeat_spec in R. subst v. apply in_combine_l in I. apply in_seq in I. cbn [fst]. lia.
Qed.

Lemma py_expand_product n m : mono n m -> fold_left (times n) (py_expand m) (Ok (py_unit n)) = Ok (Mon (-1) (vars m)).
Proof.
  intro M. assert (U : mono n (py_unit n)) by (split; [apply repeat_length|cbn; lia]).
  destruct (product_of n _ _ U (py_expand_range n m M)) as (r & E & R & P & X). rewrite E. f_equal. destruct r as [p u].
  cbn [pos vars] in *. rewrite P. cbn. f_equal. destruct R as [Lr _], M as [L _]. cbn [vars] in Lr.
  apply expo_ext; [congruence|]. intros i I. rewrite X. cbn [py_unit vars]. rewrite expo_repeat, py_expand_count. destruct (Nat.ltb_spec i n); [reflexivity|lia].
Qed.

(** gradus *)
Lemma NoDup_app_intro {A} (a b : list A) : NoDup a -> NoDup b -> (forall x, In x a -> In x b -> False) -> NoDup (a ++ b).
Proof.
  induction a as [|x a IH]; intros N M D; [exact M|]. inversion N as [|? ? X N']; subst. cbn. constructor.
  - rewrite in_app_iff. intros [I|I]; [auto|]. apply (D x); [now left|exact I].
  - apply IH; auto. intros y Y Y'. apply (D y); [now right|exact Y'].
Qed.
Lemma NoDup_map_inj {A B} (f : A -> B) l : (forall x y, In x l -> In y l -> f x = f y -> x = y) -> NoDup l -> NoDup (map f l).
Proof.
  induction l as [|x l IH]; intros I N; [constructor|]. inversion N as [|? ? X N']; subst. cbn. constructor.
  - intro H. apply in_map_iff in H as (y & E & Y). apply I in E; [subst y; auto|now right|now left].
  - apply IH; [|assumption]. intros a b Ha Hb. apply I; now right.
Qed.

Definition cnt (s k : nat) (c : list nat) : list nat := map (fun i => count i c) (seq s k).

Lemma comb_range l : forall d c, In c (py_comb l d) -> length c = d /\ forall x, In x c -> In x l.
Proof.
  induction l as [|y l IHl]; intros d c H.
  - cbn in H. destruct d; [|contradiction]. destruct H as [<-|[]]. split; [reflexivity|]. intros x [].
  - revert c H. induction d as [|d IHd]; intros c H.
    + destruct H as [<-|[]]. split; [reflexivity|]. intros x [].
    + change (In c (map (cons y) (py_comb (y :: l) d) ++ py_comb l (S d))) in H. apply in_app_or in H as [H|H].
      * apply in_map_iff in H as (c' & <- & H). destruct (IHd _ H) as [L I]. split; [cbn; lia|].
        intros x [->|X]; [now left|now apply I].
      * destruct (IHl _ _ H) as [L I]. split; [exact L|]. intros x X. right. now apply I.
Qed.

Lemma comb_step s k d : map (cnt s (S k)) (py_comb (seq s (S k)) (S d)) =
  map (incr 0) (map (cnt s (S k)) (py_comb (seq s (S k)) d)) ++ map (cons 0%nat) (map (cnt (S s) k) (py_comb (seq (S s) k) (S d))).
Proof.
  cbn [seq]. change (py_comb (s :: seq (S s) k) (S d)) with (map (cons s) (py_comb (s :: seq (S s) k) d) ++ py_comb (seq (S s) k) (S d)).
  rewrite map_app, !map_map. f_equal.
  - apply map_ext_in. intros c _. unfold cnt. cbn [seq map incr]. rewrite count_cons, Nat.eqb_refl. f_equal.
    apply map_ext_in. intros i I. apply in_seq in I. rewrite count_cons. destruct (Nat.eqb_spec i s); [lia|reflexivity].
  - apply map_ext_in. intros c C. unfold cnt. cbn [seq map]. f_equal.
    destruct (comb_range _ _ _ C) as [_ R]. unfold count.
    destruct (filter (Nat.eqb s) c) as [|x f] eqn:F; [reflexivity|]. exfalso.
    assert (I : In x (filter (Nat.eqb s) c)) by (rewrite F; now left). apply filter_In in I as [I E].
    apply Nat.eqb_eq in E. subst x. apply R, in_seq in I. lia.
Qed.

Lemma comb_vectors k : forall s d,
  NoDup (map (cnt s k) (py_comb (seq s k) d)) /\
  forall v, In v (map (cnt s k) (py_comb (seq s k) d)) <-> length v = k /\ degv v = d.
Proof.
  induction k as [|k IHk]; intros s d.
  - cbn [seq]. destruct d as [|d]; cbn.
    + split; [repeat constructor; intros []|]. intro v. split.
      * intros [<-|[]]. auto.
      * intros [L _]. left. now destruct v.
    + split; [constructor|]. intro v. split; [intros []|]. intros [L D]. destruct v; [discriminate D|discriminate L].
  - revert s. induction d as [|d IHd]; intro s.
    + cbn [seq py_comb map]. assert (Z : cnt s (S k) [] = repeat 0%nat (S k)).
      { unfold cnt. apply expo_ext; [now rewrite map_length, seq_length, repeat_length|]. intros i I. rewrite expo_repeat.
        unfold expo. change (fun i => count i []) with (fun _ : nat => 0%nat).
        clear. generalize (seq s (S k)) as l. induction i as [|i IH]; intros [|x l]; cbn; auto. }
      change (py_comb (s :: seq (S s) k) 0) with [@nil nat]. cbn [map]. rewrite Z.
      split; [repeat constructor; intros []|]. intro v. split.
      * intros [<-|[]]. split; [apply repeat_length|apply degv_repeat].
      * intros [L D]. left. rewrite (degv_zero v D), L. reflexivity.
    + rewrite comb_step. destruct (IHd s) as [N1 I1]. destruct (IHk (S s) (S d)) as [N2 I2].
      set (A := map (cnt s (S k)) (py_comb (seq s (S k)) d)) in *. set (B := map (cnt (S s) k) (py_comb (seq (S s) k) (S d))) in *.
      split.
      * apply NoDup_app_intro.
        -- apply NoDup_map_inj; [|exact N1]. intros x y _ _ E. destruct x as [|a x], y as [|b y]; try reflexivity; try discriminate E.
           cbn in E. injection E as -> ->. reflexivity.
        -- apply NoDup_map_inj; [|exact N2]. intros x y _ _ E. now injection E.
        -- intros v Hv Hv'. apply in_map_iff in Hv as (x & <- & X). apply in_map_iff in Hv' as (y & E & _).
           destruct x; cbn in E; discriminate E.
      * intro v. rewrite in_app_iff, !in_map_iff. split.
        -- intros [(x & <- & X)|(x & <- & X)].
           ++ apply I1 in X as [L D]. destruct x as [|a x]; [discriminate L|]. split; [exact L|]. cbn [incr]. rewrite degv_cons in *. lia.
           ++ apply I2 in X as [L D]. split; [cbn; lia|]. rewrite degv_cons. lia.
        -- intros [L D]. destruct v as [|a v]; [discriminate L|]. destruct a as [|a].
           ++ right. exists v. split; [reflexivity|]. apply I2. rewrite degv_cons in D. cbn in L. lia.
           ++ left. exists (a :: v). split; [reflexivity|]. apply I1. rewrite degv_cons in *. cbn in L |- *. lia.
Qed.

Lemma fold_incr_cnt n c : forall v, length v = n -> (forall x, In x c -> (x < n)%nat) ->
  length (fold_left (fun r k => incr k r) c v) = n /\
  forall i, (i < n)%nat -> expo (fold_left (fun r k => incr k r) c v) i = (expo v i + count i c)%nat.
Proof.
  induction c as [|x c IH]; intros v L R; cbn [fold_left].
  - split; [exact L|]. intros i I. cbn. lia.
  - assert (L' : length (incr x v) = n) by (rewrite incr_length; exact L).
    destruct (IH _ L' (fun y Y => R y (or_intror Y))) as [A B]. split; [exact A|]. intros i I. rewrite (B i I), incr_expo, count_cons, L.
    assert (X := R x (or_introl eq_refl)). destruct (Nat.eqb_spec i x) as [->|]; cbn [andb]; [|lia].
    destruct (Nat.ltb_spec x n); lia.
Qed.

Lemma py_gradus_vectors n d p : py_gradus n d p = map (Mon p) (map (cnt 0 n) (py_comb (seq 0 n) d)).
Proof.
  unfold py_gradus. rewrite map_map. apply map_ext_in. intros c C. f_equal.
  destruct (comb_range _ _ _ C) as [_ R].
  destruct (fold_incr_cnt n c (repeat 0%nat n) (repeat_length _ _)) as [L E].
  { intros x X. apply R, in_seq in X. lia. }
  apply expo_ext; [unfold cnt; rewrite map_length, seq_length; exact L|].
  intros i I. rewrite L in I. rewrite E by exact I. rewrite expo_repeat. cbn [Nat.add]. unfold cnt, expo.
  rewrite (nth_indep _ _ (count 0 c)) by (now rewrite map_length, seq_length).
  rewrite (map_nth (fun i => count i c)), seq_nth by exact I. reflexivity.
Qed.

Lemma py_gradus_spec n d p : NoDup (py_gradus n d p) /\
  forall m, In m (py_gradus n d p) <-> pos m = p /\ length (vars m) = n /\ total (vars m) = d.
Proof.
  rewrite py_gradus_vectors. destruct (comb_vectors n 0 d) as [N I]. split.
  - apply NoDup_map_inj; [|exact N]. intros x y _ _ E. now injection E.
  - intro m. rewrite in_map_iff. split.
    + intros (v & <- & V). apply I in V as [L D]. cbn. rewrite <- degv_total. auto.
    + intros (P & L & D). exists (vars m). split; [destruct m; cbn in *; congruence|]. apply I. rewrite degv_total. auto.
Qed.

Lemma py_eq_hash o n h a b : mono n a -> mono n b -> py_eq o a b = true -> py_hash h a = py_hash h b.
Proof. intros A B E. unfold py_eq in E. apply Z.eqb_eq in E. apply (py_total o n) in E; [|assumption..]. now rewrite E. Qed.
