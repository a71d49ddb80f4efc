From Coq Require Import ZArith List Bool Lia Permutation.
From Verif Require Import Outcome MonomModel MonomSpec MonomProofs MonomCProofs RandPermModel RandPermProofs CyMonomModel CyMonomSpec.
Import ListNotations.
Local Open Scope Z_scope.

Lemma in_int_iff z : in_int z = true <-> INT_MIN <= z <= INT_MAX.
Proof. unfold in_int. rewrite andb_true_iff, !Z.leb_le. tauto. Qed.
Lemma cint_ok {A} z (k : pyo A) : INT_MIN <= z <= INT_MAX -> to_cint z k = k.
Proof. intro H. unfold to_cint. now rewrite (proj2 (in_int_iff z) H). Qed.
Lemma min_max : INT_MIN < -1 /\ 1 < INT_MAX.
Proof. unfold INT_MIN, INT_MAX. lia. Qed.
Lemma shows_nonneg x p e : shows x p e -> Forall (fun z => 0 <= z) e /\ -1 <= p /\ sum e <= INT_MAX /\ e <> [].
Proof. intros (c & _ & (S & N & L & P & F & D & B) & Hp & He). subst. repeat split; auto. - unfold sum. lia. - intro E. rewrite E in N. now apply N. Qed.
Lemma nonneg_sum e : Forall (fun z => 0 <= z) e -> 0 <= sum e.
Proof. induction 1; cbn; [lia|]. fold (sum l). lia. Qed.
Lemma nats_inj a : forall b, Forall (fun z => 0 <= z) a -> Forall (fun z => 0 <= z) b -> nats a = nats b -> a = b.
Proof.
  induction a as [|x a IH]; intros [|y b] Fa Fb E; try discriminate; [reflexivity|]. cbn in E. injection E as E1 E2.
  inversion Fa; inversion Fb; subst. f_equal; [lia|]. now apply IH.
Qed.
Lemma yields_makes (dbg : bool) n r m p e : Forall (fun z => 0 <= z) e -> length e = n -> yields n r m -> m = Mon p (nats e) ->
  makes (pdo c <- lift r; Ok (Ret (fresh c))) p e.
Proof.
  intros F L (c & -> & V & E) ->. exists (fresh c). split; [reflexivity|]. split; [reflexivity|]. exists c. split; [reflexivity|].
  unfold value in E. injection E as E1 E2. split; [now rewrite L|]. split; [exact E1|].
  apply nats_inj; [apply V|exact F|exact E2].
Qed.

Lemma zeros_nonneg n : Forall (fun z => 0 <= z) (repeat 0 n).
Proof. induction n; cbn; constructor; auto. lia. Qed.
Lemma nats_zeros n : nats (repeat 0 n) = repeat 0%nat n.
Proof. induction n; cbn; [reflexivity|]. now f_equal. Qed.

Theorem zero_ok dbg size pos : 1 < size <= INT_MAX -> -1 <= pos <= INT_MAX -> makes (cy_zero dbg size pos) pos (repeat 0 (Z.to_nat size)).
Proof.
  intros H1 H2. pose proof min_max. unfold cy_zero. rewrite !cint_ok by lia. unfold passert.
  rewrite (proj2 (Z.ltb_lt _ _)), (proj2 (Z.leb_le _ _)) by lia. cbn [andb].
  apply (yields_makes dbg (Z.to_nat size) _ (unit_monom (Z.to_nat size) pos)); [apply zeros_nonneg|apply repeat_length| |].
  - pose proof (c_unit_refines dbg (Z.to_nat size) pos) as R. rewrite Z2Nat.id in R by lia. apply R; lia.
  - unfold unit_monom. now rewrite nats_zeros.
Qed.
Theorem zero_raises dbg size pos : ~ (1 < size <= INT_MAX /\ -1 <= pos <= INT_MAX) -> exists e, raises (cy_zero dbg size pos) e.
Proof.
  intro H. unfold cy_zero, raises, to_cint, passert. destruct (in_int size) eqn:E1; [|eauto]. destruct (in_int pos) eqn:E2; [|eauto].
  apply in_int_iff in E1, E2. destruct (Z.ltb_spec 1 size); cbn [andb]; [|eauto]. destruct (Z.leb_spec (-1) pos); [|eauto]. lia.
Qed.

Lemma unit_at_length v n : length (unit_at v n) = n.
Proof. unfold unit_at. now rewrite map_length, seq_length. Qed.
Lemma unit_at_nonneg v n : Forall (fun z => 0 <= z) (unit_at v n).
Proof. unfold unit_at. apply Forall_map, Forall_forall. intros i _. destruct (Nat.eqb i v); lia. Qed.
Lemma nats_unit v n : nats (unit_at v n) = map (fun i => if Nat.eqb i v then 1%nat else 0%nat) (seq 0 n).
Proof. unfold nats, unit_at. rewrite map_map. apply map_ext. intro i. now destruct (Nat.eqb i v). Qed.

Lemma incr_zeros_from k n s : (s <= k)%nat -> incr (k - s) (repeat 0%nat n) = map (fun i => if Nat.eqb i k then 1%nat else 0%nat) (seq s n).
Proof.
  revert s. induction n as [|n IH]; intros s H; [now destruct (k - s)%nat|]. cbn [repeat seq map].
  destruct (Nat.eqb_spec s k) as [->|N].
  - rewrite Nat.sub_diag. cbn [incr]. f_equal. clear IH H. enough (forall n s, (k < s)%nat -> repeat 0%nat n = map (fun i => if Nat.eqb i k then 1%nat else 0%nat) (seq s n)) as W by (apply W; lia).
    clear. induction n as [|n IH]; intros s H; [reflexivity|]. cbn. destruct (Nat.eqb_spec s k); [lia|]. f_equal. apply IH. lia.
  - replace (k - s)%nat with (S (k - S s)) by lia. cbn [incr]. f_equal. apply IH. lia.
Qed.
Theorem variable_ok dbg v size pos : 1 < size <= INT_MAX -> -1 <= pos <= INT_MAX -> 0 <= v < size ->
  makes (cy_variable dbg v size pos) pos (unit_at (Z.to_nat v) (Z.to_nat size)).
Proof.
  intros H1 H2 H3. pose proof min_max. unfold cy_variable. rewrite !cint_ok by lia. unfold passert.
  rewrite (proj2 (Z.ltb_lt _ _)), (proj2 (Z.leb_le _ _)) by lia. cbn [andb].
  apply (yields_makes dbg (Z.to_nat size) _ (var_monom (Z.to_nat v) (Z.to_nat size) pos)); [apply unit_at_nonneg|apply unit_at_length| |].
  - pose proof (c_var_refines dbg (Z.to_nat v) (Z.to_nat size) pos) as R. rewrite !Z2Nat.id in R by lia. apply R; lia.
  - unfold var_monom. rewrite nats_unit. pose proof (incr_zeros_from (Z.to_nat v) (Z.to_nat size) 0) as W. rewrite Nat.sub_0_r in W. now rewrite W by lia.
Qed.
Lemma incr_at_out l : forall k, (length l <= k)%nat -> c_incr_at k l = Undef.
Proof.
  induction l as [|x l IH]; intros k H; [now destruct k|]. destruct k as [|k]; [cbn in H; lia|]. cbn [c_incr_at]. rewrite IH; [reflexivity|]. cbn in H. lia.
Qed.
(** A variable that does not exist: memory outside the monomial is written (release) or the process is aborted. *)
Theorem variable_outside v size pos : 1 < size <= INT_MAX -> -1 <= pos <= INT_MAX -> INT_MIN <= v <= INT_MAX -> ~ 0 <= v < size ->
  cy_variable false v size pos = Undef /\ cy_variable true v size pos = AssertFail.
Proof.
  intros H1 H2 H3 H4. pose proof min_max. unfold cy_variable. rewrite !cint_ok by lia. unfold passert.
  rewrite (proj2 (Z.ltb_lt _ _)), (proj2 (Z.leb_le _ _)) by lia. cbn [andb]. unfold c_var, assert_.
  rewrite (proj2 (Z.ltb_lt 0 size)) by lia. rewrite (proj2 (Z.leb_le (-1) pos)) by lia. cbn [negb andb].
  destruct (Z.leb_spec size 0); [lia|]. split.
  - unfold c_incr. destruct (Z.ltb_spec v 0); [reflexivity|]. rewrite incr_at_out; [reflexivity|]. rewrite repeat_length. lia.
  - destruct (Z.leb_spec 0 v), (Z.ltb_spec v size); try lia; reflexivity.
Qed.

Theorem reads_ok dbg x p e : shows x p e ->
  cy_len x = Ok (Ret (Z.of_nat (length e))) /\ cy_pos x = Ok (Ret p) /\ cy_degree x = Ok (Ret (sum e)) /\
  cy_bool x = Ok (Ret (0 <? sum e)) /\ cy_list dbg x = Ok (Ret e) /\
  (forall k, Z.of_nat (length e) <= INT_MAX -> 0 <= k < Z.of_nat (length e) -> cy_getitem dbg x k = Ok (Ret (nth (Z.to_nat k) e 0))).
Proof.
  intros (c & E & V & Hp & He). assert (V' := V). destruct V as (S & N & L & P & F & D & B). unfold cy_len, cy_pos, cy_degree, cy_bool, cy_list, cy_getitem, with_ptr. rewrite E.
  assert (G : forall i, (i < length e)%nat -> c_get dbg c (Z.of_nat i) = Ok (nth i e 0)).
  { intros i H. rewrite (c_get_ok dbg _ _ _ V' H). f_equal. unfold value. cbn [vars]. rewrite He. change 0%nat with (Z.to_nat 0). rewrite map_nth. apply Z2Nat.id.
    apply (proj1 (Forall_forall _ _) F). rewrite He. now apply nth_In. }
  split; [now rewrite S|]. split; [now rewrite Hp|]. split; [rewrite D, He; reflexivity|]. split; [rewrite D, He; reflexivity|]. split.
  - rewrite S, Nat2Z.id.
    assert (W : forall k i, (i + k = length e)%nat -> iter_from dbg c k (Z.of_nat i) = Ok (skipn i e)).
    { induction k as [|k IH]; intros i H.
      - cbn [iter_from]. rewrite skipn_all2 by lia. reflexivity.
      - cbn [iter_from]. rewrite G by lia. cbn [bind]. replace (Z.of_nat i + 1) with (Z.of_nat (Datatypes.S i)) by lia. rewrite IH by lia. cbn [bind].
        f_equal. clear -H. revert i H. induction e as [|x e IH]; intros i H; [cbn in H; lia|]. destruct i as [|i]; [reflexivity|]. cbn. rewrite <- (IH i) by (cbn in H; lia). reflexivity. }
    specialize (W (length e) 0%nat eq_refl). cbn [Z.of_nat] in W. rewrite W. reflexivity.
  - intros k HM Hk. pose proof min_max. rewrite cint_ok by lia. rewrite <- (Z2Nat.id k) at 1 by lia. rewrite G by lia. reflexivity.
Qed.
(** Every index outside, also the negative ones that Python programs use to count from the end. *)
Theorem getitem_outside x p e k : shows x p e -> INT_MIN <= k <= INT_MAX -> ~ 0 <= k < Z.of_nat (length e) ->
  cy_getitem false x k = Undef /\ cy_getitem true x k = AssertFail.
Proof.
  intros (c & E & (S & N & L & P & F & D & B) & Hp & He) Hk H. unfold cy_getitem, with_ptr. rewrite E, !cint_ok by exact Hk. unfold c_get, assert_. cbn [andb]. split.
  - destruct (Z.ltb_spec k 0); [reflexivity|]. rewrite (proj2 (nth_error_None _ _)); [reflexivity|]. lia.
  - rewrite S. destruct (Z.leb_spec 0 k), (Z.ltb_spec k (Z.of_nat (length e))); try lia; reflexivity.
Qed.

Lemma pairwise_length f a b : length a = length b -> length (pairwise f a b) = length a.
Proof. intro H. unfold pairwise. rewrite map_length, combine_length. lia. Qed.
Lemma shows_value x p e c : ptr x = Some c -> cvalid (length e) c -> cpos c = p -> cvars c = e -> value c = Mon p (nats e).
Proof. intros _ _ <- <-. reflexivity. Qed.
Lemma addv_nats a : forall b, Forall (fun z => 0 <= z) a -> Forall (fun z => 0 <= z) b -> length a = length b ->
  Forall (fun z => 0 <= z) (pairwise Z.add a b) /\ addv (nats a) (nats b) = nats (pairwise Z.add a b).
Proof.
  induction a as [|x a IH]; intros [|y b] Fa Fb L; try discriminate; [split; [constructor|reflexivity]|].
  inversion Fa; inversion Fb; subst. destruct (IH b) as [I1 I2]; auto. split.
  - constructor; [cbn; lia|exact I1].
  - cbn. f_equal; [lia|exact I2].
Qed.
Lemma two_ok {A} x y p (e : list Z) q (f : list Z) (k : cmonom -> cmonom -> pyo A) c d : ptr x = Some c -> ptr y = Some d ->
  cvalid (length e) c -> cvalid (length f) d -> cpos c = p -> cpos d = q ->
  with_two x (AMonom y) k = if Nat.eqb (length e) (length f) then k c d else Ok (Raises AssertionError).
Proof.
  intros E1 E2 (S1 & _) (S2 & _) _ _. unfold with_two, with_ptr. rewrite E1, E2. unfold passert. rewrite S1, S2.
  destruct (Nat.eqb_spec (length e) (length f)) as [->|N]; [now rewrite Z.eqb_refl|]. rewrite (proj2 (Z.eqb_neq _ _)) by lia. reflexivity.
Qed.

Theorem mul_ok dbg x y p e q f : shows x p e -> shows y q f -> length e = length f -> p = -1 \/ q = -1 ->
  if sum e + sum f <=? INT_MAX then makes (cy_mul dbg x (AMonom y)) (Z.max p q) (pairwise Z.add e f)
  else cy_mul dbg x (AMonom y) = Undef.
Proof.
  intros (c & E1 & V1 & P1 & H1) (d & E2 & V2 & P2 & H2) L HP. unfold cy_mul. rewrite (two_ok _ _ p e q f _ c d) by assumption.
  rewrite L, Nat.eqb_refl. unfold passert. rewrite P1, P2.
  assert (T : ((p =? -1) || (q =? -1)) = true) by (apply orb_true_iff; rewrite !Z.eqb_eq; exact HP). rewrite T.
  pose proof (c_mul_refines dbg (length e) c d V1) as R. rewrite <- L in V2. specialize (R V2). rewrite P1, P2 in R. specialize (R HP).
  assert (D1 : cdegree c = sum e) by (destruct V1 as (_ & _ & _ & _ & _ & D & _); rewrite D, H1; reflexivity).
  assert (D2 : cdegree d = sum f) by (destruct V2 as (_ & _ & _ & _ & _ & D & _); rewrite D, H2; reflexivity).
  rewrite D1, D2 in R. assert (F1 : Forall (fun z => 0 <= z) e) by (rewrite <- H1; apply V1). assert (F2 : Forall (fun z => 0 <= z) f) by (rewrite <- H2; apply V2).
  destruct (addv_nats e f F1 F2 L) as [A1 A2]. destruct (sum e + sum f <=? INT_MAX).
  - apply (yields_makes dbg (length e) _ _ _ _ A1 (pairwise_length _ _ _ L) R). unfold mul. rewrite (shows_value x p e c), (shows_value y q f d); auto; [|now rewrite <- L].
    cbn [pos vars]. rewrite A2. f_equal. unfold mul_pos. assert (-1 <= p) by (rewrite <- P1; apply V1). assert (-1 <= q) by (rewrite <- P2; apply V2).
    repeat match goal with |- context [if ?b then _ else _] => destruct b eqn:? end; rewrite ?Z.eqb_eq, ?Z.eqb_neq, ?Z.ltb_lt, ?Z.ltb_ge, ?Z.leb_le in *; lia.
  - rewrite R. reflexivity.
Qed.
Theorem mul_raises dbg x y p e q f : shows x p e -> shows y q f -> length e <> length f \/ (0 <= p /\ 0 <= q) ->
  raises (cy_mul dbg x (AMonom y)) AssertionError.
Proof.
  intros (c & E1 & V1 & P1 & H1) (d & E2 & V2 & P2 & H2) H. unfold raises, cy_mul. rewrite (two_ok _ _ p e q f _ c d) by assumption.
  destruct (Nat.eqb_spec (length e) (length f)) as [L|L]; [|reflexivity]. destruct H as [H|[H3 H4]]; [contradiction|].
  unfold passert. rewrite P1, P2. destruct (Z.eqb_spec p (-1)); [lia|]. destruct (Z.eqb_spec q (-1)); [lia|]. reflexivity.
Qed.

Lemma powm_nats e k : Forall (fun z => 0 <= z) e -> 0 <= k ->
  Forall (fun z => 0 <= z) (map (fun z => z * k) e) /\ map (fun x => (x * Z.to_nat k)%nat) (nats e) = nats (map (fun z => z * k) e).
Proof.
  intros F Hk. split.
  - apply Forall_map. eapply Forall_impl; [|exact F]. intros; cbn in *; nia.
  - unfold nats. rewrite !map_map. apply map_ext_Forall. eapply Forall_impl; [|exact F]. cbn. intros. now rewrite Z2Nat.inj_mul.
Qed.
Theorem pow_ok dbg x e k : shows x (-1) e -> 0 <= k <= INT_MAX ->
  if sum e * k <=? INT_MAX then makes (cy_pow dbg x k) (-1) (map (fun z => z * k) e) else cy_pow dbg x k = Undef.
Proof.
  intros (c & E1 & V1 & P1 & H1) Hk. pose proof min_max. unfold cy_pow. rewrite cint_ok by lia. unfold with_ptr. rewrite E1. unfold passert.
  rewrite P1, Z.eqb_refl, (proj2 (Z.leb_le 0 k)) by lia.
  pose proof (c_pow_refines dbg (length e) c k V1) as R. specialize (R (proj1 Hk)).
  assert (D1 : cdegree c = sum e) by (destruct V1 as (_ & _ & _ & _ & _ & D & _); rewrite D, H1; reflexivity). rewrite D1 in R.
  assert (F1 : Forall (fun z => 0 <= z) e) by (rewrite <- H1; apply V1). destruct (powm_nats e k F1) as [A1 A2]; [lia|].
  destruct (sum e * k <=? INT_MAX).
  - apply (yields_makes dbg (length e) _ _ _ _ A1 (map_length _ _) R). unfold powm. rewrite (shows_value x (-1) e c) by auto. cbn [pos vars]. now rewrite <- A2.
  - rewrite R. reflexivity.
Qed.
Theorem pow_raises dbg x p e k : shows x p e -> 0 <= p \/ k < 0 \/ INT_MAX < k -> exists e, raises (cy_pow dbg x k) e.
Proof.
  intros (c & E1 & V1 & P1 & H1) H. unfold raises, cy_pow, to_cint. destruct (in_int k) eqn:E; [|eauto]. apply in_int_iff in E. unfold with_ptr. rewrite E1. unfold passert. rewrite P1.
  destruct (Z.eqb_spec p (-1)); [|eauto]. destruct (Z.leb_spec 0 k); [|eauto]. lia.
Qed.

Lemma gev_nats a : forall b, Forall (fun z => 0 <= z) a -> Forall (fun z => 0 <= z) b -> length a = length b ->
  (gev (nats a) (nats b) = true <-> Forall2 Z.le b a).
Proof.
  induction a as [|x a IH]; intros [|y b] Fa Fb L; try discriminate; [split; [constructor|reflexivity]|].
  inversion Fa; inversion Fb; subst. cbn [nats map gev]. fold (nats a) (nats b). destruct (Nat.leb_spec (Z.to_nat y) (Z.to_nat x)) as [Q|Q].
  - rewrite IH by auto. split; [intro; constructor; [lia|assumption]|intro Q1; now inversion Q1].
  - split; [discriminate|]. intro Q1. inversion Q1; subst. lia.
Qed.

Theorem divisiable_ok dbg x y p e q f : shows x p e -> shows y q f -> length e = length f ->
  exists b, cy_divisiable dbg x (AMonom y) = Ok (Ret b) /\ (b = true <-> divides q f p e).
Proof.
  intros (c & E1 & V1 & P1 & H1) (d & E2 & V2 & P2 & H2) L. unfold cy_divisiable. rewrite (two_ok _ _ p e q f _ c d) by assumption. rewrite L, Nat.eqb_refl.
  assert (V2' : cvalid (length e) d) by now rewrite L. rewrite (c_divisiable_ok dbg (length e)) by assumption. eexists. split; [reflexivity|].
  unfold divisiable. rewrite (shows_value x p e c), (shows_value y q f d) by auto. cbn [pos vars]. rewrite andb_true_iff, orb_true_iff, !Z.eqb_eq.
  assert (F1 : Forall (fun z => 0 <= z) e) by (rewrite <- H1; apply V1). assert (F2 : Forall (fun z => 0 <= z) f) by (rewrite <- H2; apply V2).
  rewrite (gev_nats e f) by auto. unfold divides. split; intros [[Q|Q] R]; auto.
Qed.
Lemma subv_nats a : forall b, Forall (fun z => 0 <= z) a -> Forall (fun z => 0 <= z) b -> Forall2 Z.le b a ->
  Forall (fun z => 0 <= z) (pairwise Z.sub a b) /\ subv (nats a) (nats b) = nats (pairwise Z.sub a b).
Proof.
  induction a as [|x a IH]; intros [|y b] Fa Fb L; try solve [inversion L]; [split; [constructor|reflexivity]|].
  inversion Fa; inversion Fb; inversion L; subst. destruct (IH b) as [I1 I2]; auto. split.
  - constructor; [cbn; lia|exact I1].
  - cbn. f_equal; [lia|exact I2].
Qed.
Lemma yields_makes2 (dbg : bool) n r m p e (g : cmonom -> outcome cmonom) m0 : Forall (fun z => 0 <= z) e -> length e = n ->
  yields n r m0 -> (forall c, cvalid n c -> value c = m0 -> yields n (g c) m) -> m = Mon p (nats e) ->
  makes (pdo c <- lift r; pdo c' <- lift (g c); Ok (Ret (fresh c'))) p e.
Proof.
  intros F L (c & -> & V & E) G Hm. cbn [lift bind pbind]. exact (yields_makes dbg n _ m p e F L (G c V E) Hm).
Qed.
Theorem truediv_ok dbg x y p e q f : shows x p e -> shows y q f -> owner y = true -> length e = length f -> divides q f p e ->
  makes (cy_truediv dbg x (AMonom y)) p (pairwise Z.sub e f).
Proof.
  intros S1 S2 O L D. destruct (divisiable_ok dbg x y p e q f S1 S2 L) as (b & E & I). unfold cy_truediv. rewrite O, E. cbn [pbind bind]. apply I in D as D'. subst b. unfold passert.
  destruct S1 as (c & E1 & V1 & P1 & H1), S2 as (d & E2 & V2 & P2 & H2). unfold with_ptr. rewrite E1, E2.
  assert (F1 : Forall (fun z => 0 <= z) e) by (rewrite <- H1; apply V1). assert (F2 : Forall (fun z => 0 <= z) f) by (rewrite <- H2; apply V2).
  destruct (subv_nats e f F1 F2 (proj2 D)) as [A1 A2].
  apply (yields_makes2 dbg (length e) _ (Mon p (nats (pairwise Z.sub e f))) p _ (fun r => c_div dbg r d) (value c)); auto.
  - now apply pairwise_length.
  - now apply c_copy_refines.
  - intros r Vr Er. replace (Mon p (nats (pairwise Z.sub e f))) with (div (value r) (value d)).
    + apply c_div_refines; auto; [now rewrite L|]. rewrite Er. unfold divisiable. rewrite (shows_value x p e c), (shows_value y q f d) by auto. cbn [pos vars].
      rewrite (proj2 (gev_nats e f F1 F2 L)) by apply D. rewrite andb_true_r. apply orb_true_iff. rewrite !Z.eqb_eq. destruct D as [[D|D] _]; auto.
    + rewrite Er. unfold div. rewrite (shows_value x p e c), (shows_value y q f d) by auto. cbn [pos vars]. now rewrite A2.
Qed.
Theorem truediv_raises dbg x y p e q f : shows x p e -> shows y q f -> owner y = true -> ~ (length e = length f /\ divides q f p e) ->
  raises (cy_truediv dbg x (AMonom y)) AssertionError.
Proof.
  intros S1 S2 O D. unfold raises, cy_truediv. rewrite O. destruct (Nat.eq_dec (length e) (length f)) as [L|L].
  - destruct (divisiable_ok dbg x y p e q f S1 S2 L) as (b & -> & I). cbn [pbind bind]. destruct b; [|reflexivity]. exfalso. apply D. split; [exact L|now apply I].
  - destruct S1 as (c & E1 & V1 & P1 & H1), S2 as (d & E2 & V2 & P2 & H2). unfold cy_divisiable. rewrite (two_ok _ _ p e q f _ c d) by assumption.
    rewrite (proj2 (Nat.eqb_neq _ _) L). reflexivity.
Qed.
(** A divisor that is not a monom, such as the leading monomial lm() of a polynomial, is refused. *)
Theorem truediv_const dbg x y : owner y = false -> raises (cy_truediv dbg x (AMonom y)) TypeError.
Proof. intro O. unfold raises, cy_truediv. now rewrite O. Qed.

Lemma back_exps e : forall f, Forall2 Z.le f e -> pairwise Z.add (pairwise Z.sub e f) f = e.
Proof.
  induction e as [|x e IH]; intros f H; inversion H; subst; [reflexivity|]. change (x - x0 + x0 :: pairwise Z.add (pairwise Z.sub e l) l = x :: e). rewrite IH by assumption. f_equal. lia.
Qed.
Lemma sum_back e : forall f, Forall2 Z.le f e -> sum (pairwise Z.sub e f) + sum f = sum e.
Proof.
  induction e as [|x e IH]; intros f H; inversion H; subst; [reflexivity|]. change ((x - x0) + sum (pairwise Z.sub e l) + (x0 + sum l) = x + sum e). rewrite <- (IH l) by assumption. lia.
Qed.
Theorem div_then_mul dbg x y p e f : shows x p e -> shows y (-1) f -> owner y = true -> length e = length f -> Forall2 Z.le f e ->
  makes (pdo r <- cy_truediv dbg x (AMonom y); cy_mul dbg r (AMonom y)) p e.
Proof.
  intros S1 S2 O L D. destruct (truediv_ok dbg x y p e (-1) f S1 S2 O L) as (r & -> & Or & Sr); [split; auto|]. cbn [pbind bind].
  pose proof (mul_ok dbg r y p _ (-1) f Sr S2) as R. rewrite pairwise_length in R by exact L. specialize (R L (or_intror eq_refl)).
  rewrite sum_back, back_exps in R by exact D. destruct (shows_nonneg _ _ _ S1) as (_ & Pp & B & _). rewrite (proj2 (Z.leb_le _ _) B) in R. now rewrite Z.max_l in R by lia.
Qed.
(** Within a component of a module the quotient stays in the component, and the product with the divisor is refused. *)
Theorem div_then_mul_module dbg x y p e f : shows x p e -> shows y p f -> 0 <= p -> owner y = true -> length e = length f -> Forall2 Z.le f e ->
  raises (pdo r <- cy_truediv dbg x (AMonom y); cy_mul dbg r (AMonom y)) AssertionError.
Proof.
  intros S1 S2 P O L D. destruct (truediv_ok dbg x y p e p f S1 S2 O L) as (r & -> & Or & Sr); [split; auto|]. cbn [pbind bind].
  apply (mul_raises dbg r y p (pairwise Z.sub e f) p f Sr S2). right. lia.
Qed.

Theorem cmp_ok dbg o x y p e q f : shows x p e -> shows y q f -> length e = length f ->
  exists r, cy_cmp dbg o x (AMonom y) = Ok (Ret r) /\ (r = 1 <-> base_gt o (nats e) (nats f)) /\ (r = -1 <-> base_gt o (nats f) (nats e)) /\ (r = 0 <-> e = f) /\
    (r = 1 \/ r = 0 \/ r = -1).
Proof.
  intros (c & E1 & V1 & P1 & H1) (d & E2 & V2 & P2 & H2) L. unfold cy_cmp. rewrite (two_ok _ _ p e q f _ c d) by assumption. rewrite L, Nat.eqb_refl.
  assert (V2' : cvalid (length e) d) by now rewrite L. rewrite (c_bcmp_ok dbg o (length e)) by assumption. eexists. split; [reflexivity|].
  assert (F1 : Forall (fun z => 0 <= z) e) by (rewrite <- H1; apply V1). assert (F2 : Forall (fun z => 0 <= z) f) by (rewrite <- H2; apply V2).
  rewrite bcmp_bcmpv, (shows_value x p e c), (shows_value y q f d) by auto. cbn [vars].
  assert (LL : length (nats e) = length (nats f)) by (unfold nats; rewrite !map_length; exact L).
  destruct (bcmp_total o (length e)) as (T1 & T2 & T3 & T4).
  assert (M1 : mono (length e) (Mon (-1) (nats e))) by (split; [unfold nats; cbn; now rewrite map_length|cbn; lia]).
  assert (M2 : mono (length e) (Mon (-1) (nats f))) by (split; [unfold nats; cbn; now rewrite map_length, L|cbn; lia]).
  specialize (T1 _ _ M1 M2). specialize (T2 _ _ M1 M2). specialize (T3 _ _ M1 M2). rewrite !bcmp_bcmpv in *. cbn [vars] in *.
  split; [apply bcmpv_spec; exact LL|]. split; [rewrite <- bcmpv_spec by (symmetry; exact LL); rewrite T3; lia|]. split; [|exact T1].
  rewrite T2. split; [now apply nats_inj|now intros ->].
Qed.
Theorem setPos_ok dbg x p e p' : shows x p e -> -1 <= p' <= INT_MAX -> exists x', cy_setPos dbg x p' = Ok (Ret x') /\ owner x' = owner x /\ shows x' p' e.
Proof.
  intros (c & E1 & V1 & P1 & H1) H. pose proof min_max. unfold cy_setPos. rewrite cint_ok by lia. unfold with_ptr. rewrite E1. unfold passert, assert_. rewrite (proj2 (Z.leb_le _ _)) by lia.
  rewrite andb_false_r. eexists. split; [reflexivity|]. split; [reflexivity|]. eexists. split; [reflexivity|]. destruct V1 as (S & N & L & P & F & D & B).
  split; [|split; [reflexivity|exact H1]]. repeat split; auto. cbn. lia.
Qed.
Theorem setPos_raises dbg x p e p' : shows x p e -> ~ -1 <= p' <= INT_MAX -> exists er, raises (cy_setPos dbg x p') er.
Proof.
  intros (c & E1 & V1 & P1 & H1) H. unfold raises, cy_setPos, to_cint. destruct (in_int p') eqn:E; [|eauto]. apply in_int_iff in E. unfold with_ptr. rewrite E1. unfold passert.
  destruct (Z.leb_spec (-1) p'); [lia|eauto].
Qed.
Theorem permutation_ok dbg x p e l : shows x p e -> Permutation (seq 0 (length e)) l ->
  makes (cy_permutation dbg x l) p (map (fun j => nth j e 0) l).
Proof.
  intros (c & E1 & V1 & P1 & H1) HP. pose proof (Permutation_length HP) as HL. rewrite seq_length in HL. unfold cy_permutation, with_ptr. rewrite E1. unfold passert.
  assert (S : csize c = Z.of_nat (length e)) by apply V1. rewrite S, <- HL, Z.eqb_refl. destruct (c_copy_refines dbg (length e) c V1) as (r & -> & Vr & Er). cbn [lift bind pbind].
  destruct (c08_permute dbg (length e) r c l Vr V1 HP) as (r' & -> & Vr' & Dr & Pr & _ & N). cbn [lift bind pbind].
  exists (fresh r'). split; [reflexivity|]. split; [reflexivity|]. exists r'. split; [reflexivity|]. rewrite map_length, <- HL. split; [exact Vr'|]. split.
  - rewrite Pr. unfold value in Er. injection Er as Er _. congruence.
  - assert (L' : length (cvars r') = length l) by (destruct Vr' as (_ & _ & L' & _); lia).
    apply nth_ext with (d := 0) (d' := 0); [now rewrite map_length|]. intros i Hi. rewrite L' in Hi.
    destruct (nth_error l i) as [j|] eqn:Ej; [|apply nth_error_None in Ej; lia]. specialize (N _ _ Ej). rewrite H1 in N.
    rewrite (nth_indep (map (fun j => nth j e 0) l) 0 (nth 0%nat e 0)) by now rewrite map_length. rewrite (map_nth (fun j => nth j e 0)). rewrite (nth_error_nth _ _ _ Ej).
    assert (In j l) by (eapply nth_error_In; eauto). assert (In j (seq 0 (length e))) as Hj by (eapply Permutation_in; [symmetry; exact HP|assumption]). apply in_seq in Hj.
    rewrite (nth_error_nth' e 0) in N by lia. now apply nth_error_nth with (d := 0) in N.
Qed.
Theorem rand_ok dbg size deg1 deg2 : 1 < size <= INT_MAX -> 0 < deg1 < deg2 -> deg2 <= INT_MAX ->
  exists s, cy_rand_init dbg size deg1 deg2 = Ok (Ret s) /\
  forall deg draws, deg1 <= deg <= deg2 -> Z.of_nat (length draws) = deg -> Forall (fun v => 0 <= v < size) draws ->
  exists e, makes (cy_next dbg s deg draws) (-1) e /\ Z.of_nat (length e) = size /\ sum e = deg.
Proof.
  intros H1 H2 H3. pose proof min_max. exists (Some (size, deg1, deg2)). split.
  - unfold cy_rand_init. rewrite !cint_ok by lia. unfold passert, assert_. rewrite (proj2 (Z.ltb_lt 1 size)), (proj2 (Z.ltb_lt 0 deg1)), (proj2 (Z.ltb_lt deg1 deg2)), (proj2 (Z.ltb_lt 0 size)), (proj2 (Z.leb_le deg1 deg2)) by lia.
    cbn [andb negb]. now rewrite andb_false_r.
  - intros deg draws Hd HL HF. unfold cy_next. pose proof (c_unit_refines dbg (Z.to_nat size) (-1)) as R. rewrite Z2Nat.id in R by lia.
    destruct R as (a & -> & Va & Ea); [lia|lia|]. cbn [lift bind pbind].
    destruct (c_rand_next_ok dbg (Z.to_nat size) a deg draws) as (r & -> & Vr & Dr & Pr); auto; [lia|eapply Forall_impl; [|exact HF]; cbn; intros; lia|].
    cbn [lift bind pbind]. exists (cvars r). assert (L : length (cvars r) = Z.to_nat size) by apply Vr. split.
    + exists (fresh r). split; [reflexivity|]. split; [reflexivity|]. exists r. split; [reflexivity|]. rewrite L. split; [exact Vr|]. split; [|reflexivity].
      rewrite Pr. unfold value in Ea. now injection Ea as Ea _.
    + rewrite L. split; [lia|]. destruct Vr as (_ & _ & _ & _ & _ & D & _). unfold sum. congruence.
Qed.
Theorem null_ok dbg x k l o y : ptr x = None -> INT_MIN <= k <= INT_MAX ->
  raises (cy_bool x) AssertionError /\ raises (cy_len x) AssertionError /\ raises (cy_pos x) AssertionError /\ raises (cy_degree x) AssertionError /\
  raises (cy_getitem dbg x k) AssertionError /\ raises (cy_list dbg x) AssertionError /\ raises (cy_permutation dbg x l) AssertionError /\
  raises (cy_pow dbg x k) AssertionError /\ raises (cy_setPos dbg x k) AssertionError /\
  raises (cy_divisiable dbg x (AMonom y)) AssertionError /\ raises (cy_mul dbg x (AMonom y)) AssertionError /\ raises (cy_cmp dbg o x (AMonom y)) AssertionError.
Proof.
  intros E H. unfold raises, cy_bool, cy_len, cy_pos, cy_degree, cy_getitem, cy_list, cy_permutation, cy_pow, cy_setPos, cy_divisiable, cy_mul, cy_cmp, with_two, with_ptr. rewrite E, !cint_ok by exact H. repeat split.
Qed.
Theorem null_arg_ok dbg x p e y o : shows x p e -> ptr y = None ->
  raises (cy_divisiable dbg x (AMonom y)) AssertionError /\ raises (cy_mul dbg x (AMonom y)) AssertionError /\ raises (cy_cmp dbg o x (AMonom y)) AssertionError.
Proof.
  intros (c & E & _) N. unfold raises, cy_divisiable, cy_mul, cy_cmp, with_two, with_ptr. rewrite E, N. repeat split.
Qed.
Theorem order_ok t o : order_of_int (order_int t o) = (t, o).
Proof. now destruct t, o. Qed.

Theorem never_crashes_refuted : exists x y,
  shows x (-1) [1; 2] /\ cy_getitem false x (-1) = Undef /\ cy_variable false 2 2 (-1) = Undef /\ cy_mul false x ANone = Undef /\
  cy_next false None 1 [0] = Undef /\ shows y (-1) [INT_MAX; 0] /\ cy_mul false x (AMonom y) = Undef.
Proof.
  exists (fresh (CMon 2 (-1) 3 [1; 2])), (fresh (CMon 2 (-1) INT_MAX [INT_MAX; 0])).
  split; [eexists; repeat split; try discriminate; repeat constructor; discriminate|]. do 4 (split; [reflexivity|]).
  split; [eexists; repeat split; try discriminate; repeat constructor; discriminate|reflexivity].
Qed.
Theorem quotient_of_views_refuted : exists x y,
  shows x 0 [2; 1] /\ shows y (-1) [1; 1] /\ cy_divisiable false x (AMonom y) = Ok (Ret true) /\ raises (cy_truediv false x (AMonom y)) TypeError.
Proof.
  exists (fresh (CMon 2 0 3 [2; 1])), (MObj false (Some (CMon 2 (-1) 2 [1; 1]))).
  split; [eexists; repeat split; try discriminate; repeat constructor; discriminate|].
  split; [eexists; repeat split; try discriminate; repeat constructor; discriminate|]. split; reflexivity.
Qed.
