From Coq Require Import ZArith List Bool Lia.
From Verif Require Import Outcome MonomModel MonomSpec PolyModel PolySpec PolyProofs JanetPolyModel SizeModel SizeSpec PolyNfProofs PolyLifeProofs.
From Verif Require UtilModel UtilProofs.
Import ListNotations.
Local Open Scope Z_scope.

Lemma limbs_words c : words c (limbs c).
Proof.
  change (limbs c) with (UtilModel.limbs c). destruct (Z.eq_dec c 0) as [->|N]; [left; split; reflexivity|right].
  split; [pose proof (UtilProofs.limbs_pos c N); lia|]. split; [apply UtilProofs.limbs_lb; exact N|apply UtilProofs.limbs_ub].
Qed.
Lemma words_unique c k1 k2 : words c k1 -> words c k2 -> k1 = k2.
Proof.
  assert (K : forall j k, 0 < j -> 0 < k -> 2 ^ (64 * (j - 1)) <= Z.abs c -> Z.abs c < 2 ^ (64 * k) -> j <= k).
  { intros j k Hj Hk A B. assert (L : 2 ^ (64 * (j - 1)) < 2 ^ (64 * k)) by lia. apply Z.pow_lt_mono_r_iff in L; lia. }
  assert (Z0 : forall k, 0 < k -> 2 ^ (64 * (k - 1)) <= Z.abs 0 -> False).
  { intros k Hk A. pose proof (Z.pow_pos_nonneg 2 (64 * (k - 1))). cbn [Z.abs] in A. lia. }
  intros [[A1 A2]|(A1 & A2 & A3)] [[B1 B2]|(B1 & B2 & B3)].
  - congruence.
  - exfalso. rewrite A1 in B2. exact (Z0 _ B1 B2).
  - exfalso. rewrite B1 in A2. exact (Z0 _ A1 A2).
  - pose proof (K k1 k2 A1 B1 A2 B3). pose proof (K k2 k1 B1 A1 B2 A3). lia.
Qed.
Definition tl_sum (l : list term) : Z := fold_right (fun x s => limbs (snd x) + s) 0 l.
Lemma total_sum l : total_words l (tl_sum l).
Proof. induction l as [|[m c] l IH]; [constructor|]. cbn [tl_sum fold_right snd]. constructor; [apply limbs_words|exact IH]. Qed.
Lemma total_unique l s : total_words l s -> s = tl_sum l.
Proof. induction 1 as [|m c l k s W _ ->]; [reflexivity|]. cbn [tl_sum fold_right snd]. rewrite (words_unique c k (limbs c) W (limbs_words c)). reflexivity. Qed.
Lemma limbs_ge0 c : 0 <= limbs c. Proof. exact (UtilProofs.limbs_nonneg c). Qed.
Lemma tl_sum_ge0 l : 0 <= tl_sum l.
Proof. induction l as [|[m c] l IH]; [cbn; lia|]. cbn [tl_sum fold_right snd]. fold (tl_sum l). pose proof (limbs_ge0 c). lia. Qed.

Lemma norm_loop_spec l : forall a, norm_loop a l = if (a + tl_sum l <=? int_max) || match l with [] => true | _ => false end then Ok (a + tl_sum l) else Undef.
Proof.
  induction l as [|[m c] l IH]; intro a; [cbn; rewrite orb_true_r, Z.add_0_r; reflexivity|].
  cbn [norm_loop tl_sum fold_right snd]. fold (tl_sum l). rewrite orb_false_r. pose proof (tl_sum_ge0 l).
  destruct (Z.leb_spec (a + limbs c) int_max) as [L|L].
  - rewrite IH. replace (a + (limbs c + tl_sum l)) with (a + limbs c + tl_sum l) by lia.
    destruct l; [|rewrite orb_false_r; reflexivity]. cbn [tl_sum fold_right]. rewrite orb_true_r, !Z.add_0_r. apply Z.leb_le in L. rewrite L. reflexivity.
  - destruct (Z.leb_spec (a + (limbs c + tl_sum l)) int_max); [lia|reflexivity].
Qed.
Lemma norm_int_spec p : p_norm_int p = if p_norm p <=? int_max then Ok (p_norm p) else Undef.
Proof.
  unfold p_norm_int. rewrite norm_loop_spec. change (p_norm p) with (tl_sum (terms p)). cbn [Z.add].
  destruct (terms p); [reflexivity|rewrite orb_false_r; reflexivity].
Qed.

Lemma c106_norm p n : p_norm_int p = Ok n <-> total_words (terms p) n /\ n <= int_max.
Proof.
  rewrite norm_int_spec. split.
  - destruct (Z.leb_spec (p_norm p) int_max) as [L|L]; [|discriminate]. intro H. injection H as <-. split; [apply total_sum|exact L].
  - intros [T L]. apply total_unique in T. change (tl_sum (terms p)) with (p_norm p) in T. subst n. apply Z.leb_le in L. rewrite L. reflexivity.
Qed.
Lemma c106_outcome p : (exists n, p_norm_int p = Ok n) \/ (p_norm_int p = Undef /\ exists n, total_words (terms p) n /\ int_max < n).
Proof.
  rewrite norm_int_spec. destruct (Z.leb_spec (p_norm p) int_max) as [L|L]; [left; eauto|right]. split; [reflexivity|].
  exists (p_norm p). split; [apply total_sum|exact L].
Qed.

Lemma pow_limbs e : 0 <= e -> 0 < 2 ^ e /\ limbs (2 ^ e) = e / 64 + 1.
Proof.
  intro G. assert (Q : 0 < 2 ^ e) by (apply Z.pow_pos_nonneg; lia). split; [exact Q|].
  unfold limbs. destruct (Z.eqb_spec (2 ^ e) 0) as [E|_]; [rewrite E in Q; lia|].
  rewrite Z.abs_eq by lia. rewrite Z.log2_pow2 by exact G. reflexivity.
Qed.
Lemma pow_holdable e : 0 <= e -> e < 64 * int_max -> holdable (2 ^ e).
Proof.
  intros G L. unfold holdable. assert (Q : 0 < 2 ^ e) by (apply Z.pow_pos_nonneg; lia). rewrite Z.abs_eq by (apply Z.lt_le_incl; exact Q).
  apply Z.pow_lt_mono_r; [reflexivity| |exact L]. apply Z.le_trans with e; [exact G|apply Z.lt_le_incl; exact L].
Qed.
Lemma big : exists B, 0 < B /\ holdable B /\ limbs B = 2 ^ 30 + 1.
Proof.
  assert (X : exists e, 0 <= e /\ e < 64 * int_max /\ e / 64 = 2 ^ 30) by (exists (64 * 2 ^ 30); split; [discriminate|split; reflexivity]).
  destruct X as (e & G & L & D). destruct (pow_limbs e G) as [P Q]. exists (2 ^ e).
  split; [exact P|]. split; [exact (pow_holdable e G L)|]. rewrite Q, D. reflexivity.
Qed.
Lemma two_terms_valid B : 0 < B -> valid_poly (Poly TOP OLex 1 [(Mon (-1) [1%nat], B); (Mon (-1) [0%nat], B)]).
Proof. intro P. apply canonical_iff. split; [repeat constructor|]. split; repeat constructor; cbn; try reflexivity; lia. Qed.
Lemma c106_refuted : exists p, valid_poly p /\ Forall (fun x => holdable (snd x)) (terms p) /\ length (terms p) = 2%nat /\ p_norm_int p = Undef.
Proof.
  destruct big as (B & P & H & L). exists (Poly TOP OLex 1 [(Mon (-1) [1%nat], B); (Mon (-1) [0%nat], B)]).
  split; [exact (two_terms_valid B P)|]. split; [repeat constructor; exact H|]. split; [reflexivity|].
  rewrite norm_int_spec. unfold p_norm. cbn [terms fold_right snd]. rewrite L. reflexivity.
Qed.

Lemma c106_minus dbg p r : p_minus dbg p = Ok r -> p_norm_int r = p_norm_int p.
Proof.
  intro H. unfold p_minus in H. apply checked_ok in H. subst r. rewrite !norm_int_spec.
  replace (p_norm (with_terms p (neg_terms (terms p)))) with (p_norm p); [reflexivity|].
  unfold p_norm. cbn [terms with_terms]. induction (terms p) as [|[m c] l IH]; [reflexivity|].
  cbn [neg_terms map fold_right fst snd]. change (limbs (- c)) with (UtilModel.limbs (- c)). rewrite UtilProofs.limbs_opp. f_equal. exact IH.
Qed.

Lemma int_div_limbs dbg c g k : int_div dbg c g = Ok k -> limbs k <= limbs c.
Proof.
  unfold int_div. destruct (Z.eqb_spec g 0) as [|N]; [discriminate|]. destruct (Z.eqb_spec (c mod g) 0) as [M|]; [|destruct dbg; discriminate].
  intro H. injection H as <-. apply (UtilProofs.limbs_le (c / g) c). apply Z.div_exact in M; [|exact N].
  rewrite M at 2. rewrite Z.abs_mul. assert (1 <= Z.abs g) by lia. pose proof (Z.abs_nonneg (c / g)). nia.
Qed.
Lemma div_terms_sum dbg g : forall l r, div_terms dbg g l = Ok r -> tl_sum r <= tl_sum l.
Proof.
  induction l as [|[m c] l IH]; intros r H; cbn [div_terms] in H; [injection H as <-; reflexivity|].
  destruct (int_div dbg c g) as [k| | | |] eqn:D; cbn [bind] in H; try discriminate.
  destruct (div_terms dbg g l) as [x| | | |]; cbn [bind] in H; try discriminate.
  injection H as <-. cbn [tl_sum fold_right snd]. fold (tl_sum x). fold (tl_sum l). specialize (IH x eq_refl). apply int_div_limbs in D. lia.
Qed.
Lemma p_pp_norm dbg p r : p_pp dbg p = Ok r -> p_norm r <= p_norm p.
Proof.
  unfold p_pp. destruct (terms p) as [|[m c] l] eqn:T; [intro H; injection H as <-; lia|].
  destruct (Z.abs c =? 1); [intro H; injection H as <-; lia|].
  destruct (gcd_loop dbg c l) as [[g|]| | | |]; cbn [bind]; try discriminate; [|intro H; injection H as <-; lia].
  destruct (div_terms dbg g ((m, c) :: l)) as [x| | | |] eqn:D; cbn [bind]; try discriminate.
  destruct (p_isPp dbg (with_terms p x)); cbn [bind]; try discriminate.
  unfold assert_. destruct (dbg && _); [discriminate|]. intro H. injection H as <-.
  unfold p_norm. cbn [terms with_terms]. rewrite T. exact (div_terms_sum _ _ _ _ D).
Qed.
Lemma c106_pp dbg p r n : p_pp dbg p = Ok r -> p_norm_int p = Ok n -> exists n', p_norm_int r = Ok n' /\ n' <= n.
Proof.
  intros H E. apply p_pp_norm in H. rewrite norm_int_spec in E. destruct (Z.leb_spec (p_norm p) int_max) as [L|L]; [|discriminate].
  injection E as <-. exists (p_norm r). split; [|exact H]. rewrite norm_int_spec. assert (Q : p_norm r <= int_max) by lia. apply Z.leb_le in Q. rewrite Q. reflexivity.
Qed.

Lemma limbs_one c : c <> 0 -> (limbs c = 1 <-> Z.abs c < 2 ^ 64).
Proof.
  intro N. pose proof (UtilProofs.limbs_pos c N) as P. change (UtilModel.limbs c) with (limbs c) in P.
  pose proof (UtilProofs.limbs_spec c 1 ltac:(lia)) as Q. change (UtilModel.limbs c) with (limbs c) in Q. change (64 * 1) with 64 in Q. split; intro H; [apply Q; lia|apply Q in H; lia].
Qed.
Lemma nz_sum l : Forall (fun x : term => snd x <> 0) l -> Z.of_nat (length l) <= tl_sum l /\ (tl_sum l = Z.of_nat (length l) <-> Forall (fun x => Z.abs (snd x) < 2 ^ 64) l).
Proof.
  induction 1 as [|[m c] l N _ [I1 I2]]; [cbn; split; [lia|split; [constructor|reflexivity]]|].
  cbn [snd] in N. cbn [tl_sum fold_right snd length]. fold (tl_sum l). rewrite Nat2Z.inj_succ.
  pose proof (UtilProofs.limbs_pos c N) as P. change (UtilModel.limbs c) with (limbs c) in P. pose proof (limbs_one c N) as O. split; [lia|]. split.
  - intro H. constructor; [apply O; cbn [snd]; lia|apply I2; lia].
  - intro H. inversion_clear H as [|? ? A B]. cbn [snd] in A. apply O in A. apply I2 in B. lia.
Qed.
Lemma c106_length p n : valid_poly p -> p_norm_int p = Ok n ->
  Z.of_nat (length (terms p)) <= n /\ (n = Z.of_nat (length (terms p)) <-> Forall (fun x => Z.abs (snd x) < 2 ^ 64) (terms p)).
Proof.
  intros V E. apply canonical_iff in V as (_ & _ & N). apply c106_norm in E as [T _]. apply total_unique in T. subst n. apply nz_sum. exact N.
Qed.
