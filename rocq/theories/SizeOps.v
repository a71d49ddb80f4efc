From Coq Require Import ZArith List Bool Lia.
From Verif Require Import Outcome MonomModel MonomSpec PolyModel PolySpec PolyProofs JanetPolyModel SizeModel SizeSpec SizeProofs PolyLifeProofs PolyMemProofs.
From Verif Require UtilModel UtilProofs.
Import ListNotations.
Local Open Scope Z_scope.

Lemma sum_cons m c l : tl_sum ((m, c) :: l) = limbs c + tl_sum l.
Proof. reflexivity. Qed.
Lemma limbs_sum c d : c <> 0 -> d <> 0 -> limbs (c + d) <= limbs c + limbs d.
Proof.
  intros C D. pose proof (UtilProofs.limbs_add c d) as A. pose proof (UtilProofs.limbs_pos c C) as P. pose proof (UtilProofs.limbs_pos d D) as Q.
  change UtilModel.limbs with limbs in *. lia.
Qed.
Lemma limbs_prod c d : limbs (c * d) <= limbs c + limbs d.
Proof.
  pose proof (limbs_ge0 c). pose proof (limbs_ge0 d). apply (proj2 (UtilProofs.limbs_spec (c * d) (limbs c + limbs d) ltac:(lia))).
  rewrite Z.abs_mul, Z.mul_add_distr_l, Z.pow_add_r by lia.
  pose proof (UtilProofs.limbs_ub c) as A. pose proof (UtilProofs.limbs_ub d) as B. change UtilModel.limbs with limbs in A, B.
  apply Z.mul_lt_mono_nonneg; auto using Z.abs_nonneg.
Qed.
Lemma add_sum t o p : nz p -> forall a, nz a -> tl_sum (add_terms t o p a) <= tl_sum p + tl_sum a.
Proof.
  induction p as [|[m c] p IH]; intros Np; [intros a _; destruct a as [|[n d] a]; cbn [add_terms tl_sum fold_right]; lia|].
  pose proof (Forall_inv Np) as C. cbn [snd] in C. apply Forall_inv_tail in Np.
  induction a as [|[n d] a IHa]; intros Na; [cbn [add_terms tl_sum fold_right]; lia|].
  pose proof (Forall_inv Na) as D. cbn [snd] in D. pose proof (Forall_inv_tail Na) as Na'.
  cbn [add_terms]. destruct (cmp1 t o m n =? 1).
  - rewrite sum_cons. specialize (IH Np _ Na). rewrite !sum_cons in *. lia.
  - destruct (cmp1 t o m n =? -1).
    + rewrite sum_cons. specialize (IHa Na'). cbn [add_terms] in IHa. rewrite !sum_cons in *. lia.
    + specialize (IH Np a Na'). pose proof (limbs_ge0 c). pose proof (limbs_ge0 d). destruct (Z.eqb_spec (c + d) 0); rewrite !sum_cons; [lia|].
      pose proof (limbs_sum c d C D). lia.
Qed.
Lemma scale_sum c l : tl_sum (scale c l) <= tl_sum l + Z.of_nat (length l) * limbs c.
Proof.
  induction l as [|[m d] l IH]; [cbn; lia|]. change (scale c ((m, d) :: l)) with ((m, d * c) :: scale c l). rewrite !sum_cons.
  pose proof (limbs_prod d c). cbn [length]. rewrite Nat2Z.inj_succ. lia.
Qed.

Lemma add_nz t o p : nz p -> forall a, nz a -> nz (add_terms t o p a).
Proof.
  induction p as [|[m c] p IH]; intros Np; [intros a Na; destruct a; exact Na|].
  pose proof (Forall_inv Np) as C. cbn [snd] in C. pose proof (Forall_inv_tail Np) as Np'.
  induction a as [|[n d] a IHa]; intros Na; [exact Np|].
  pose proof (Forall_inv Na) as D. cbn [snd] in D. pose proof (Forall_inv_tail Na) as Na'.
  cbn [add_terms]. destruct (cmp1 t o m n =? 1); [constructor; [exact C|exact (IH Np' _ Na)]|].
  destruct (cmp1 t o m n =? -1); [constructor; [exact D|exact (IHa Na')]|].
  destruct (Z.eqb_spec (c + d) 0) as [|N]; [exact (IH Np' a Na')|constructor; [exact N|exact (IH Np' a Na')]].
Qed.
Definition times (m : monom) (c : Z) (l : list term) : list term := map (fun x => (mul (fst x) m, snd x * c)) l.
Lemma times_nz m c l : c <> 0 -> nz l -> nz (times m c l).
Proof. intros C H. induction H as [|[u d] l D _ IH]; constructor; [|exact IH]. cbn [snd] in *. apply Z.neq_mul_0. split; assumption. Qed.
Lemma times_sum m c l : tl_sum (times m c l) <= tl_sum l + Z.of_nat (length l) * limbs c.
Proof.
  induction l as [|[u d] l IH]; [cbn; lia|]. change (times m c ((u, d) :: l)) with ((mul u m, d * c) :: times m c l). rewrite !sum_cons.
  pose proof (limbs_prod d c). cbn [length]. rewrite Nat2Z.inj_succ. lia.
Qed.
Lemma loop_sum dbg t o a : nz a -> forall p s r, nz p -> nz s -> mult_loop dbg t o s p a = Ok r ->
  tl_sum r <= tl_sum s + Z.of_nat (length p) * tl_sum a + Z.of_nat (length a) * tl_sum p.
Proof.
  intro Na. induction p as [|[m c] p IH]; intros s r Np Ns H; cbn [mult_loop] in H; [injection H as <-; cbn; lia|].
  pose proof (Forall_inv Np) as C. cbn [snd] in C. pose proof (Forall_inv_tail Np) as Np'.
  destruct (mulmon dbg m c a) as [x| | | |] eqn:M; cbn [bind] in H; try discriminate. apply mulmon_map in M. fold (times m c a) in M. subst x.
  specialize (IH _ r Np' (add_nz t o s Ns _ (times_nz m c a C Na)) H). pose proof (add_sum t o s Ns _ (times_nz m c a C Na)).
  pose proof (times_sum m c a). unfold merge_terms in IH. rewrite sum_cons. cbn [length]. rewrite Nat2Z.inj_succ. lia.
Qed.
Lemma mult_sum dbg t o p a r : nz p -> nz a -> mult_terms dbg t o p a = Ok r ->
  tl_sum r <= Z.of_nat (length p) * tl_sum a + Z.of_nat (length a) * tl_sum p.
Proof.
  intros Np Na H. destruct p as [|[m c] p]; [injection H as <-; cbn; lia|]. destruct a as [|[n d] a].
  - destruct p; injection H as <-; cbn [tl_sum fold_right length Z.of_nat]; lia.
  - destruct p as [|y p].
    + cbn [mult_terms] in H. apply mulmon_map in H. fold (times m c ((n, d) :: a)) in H. subst r. pose proof (times_sum m c ((n, d) :: a)).
      rewrite (sum_cons m c). change (tl_sum []) with 0. change (Z.of_nat (length [(m, c)])) with 1. lia.
    + destruct a as [|b a].
      * cbn [mult_terms] in H. apply mulmon_map in H. fold (times n d ((m, c) :: y :: p)) in H. subst r. pose proof (times_sum n d ((m, c) :: y :: p)).
        rewrite (sum_cons n d). change (tl_sum []) with 0. change (Z.of_nat (length [(n, d)])) with 1. lia.
      * cbn [mult_terms] in H. pose proof (loop_sum dbg t o _ Na _ _ _ Np (Forall_nil _) H) as Q. change (tl_sum []) with 0 in Q. lia.
Qed.

Lemma nz_valid p : valid_poly p -> nz (terms p).
Proof. intro V. apply canonical_iff in V as (_ & _ & N). exact N. Qed.
Lemma norm_le p n B : p_norm_int p = Ok n -> tl_sum (terms p) <= B -> n <= B.
Proof. intros E L. apply c106_norm in E as [T _]. apply total_unique in T. lia. Qed.
Lemma norm_eq p n : p_norm_int p = Ok n -> tl_sum (terms p) = n.
Proof. intros E. apply c106_norm in E as [T _]. symmetry. exact (total_unique _ _ T). Qed.
Lemma neg_sum l : tl_sum (neg_terms l) = tl_sum l.
Proof. induction l as [|[m c] l IH]; [reflexivity|]. change (neg_terms ((m, c) :: l)) with ((m, - c) :: neg_terms l). rewrite !sum_cons, IH. change (limbs (- c)) with (UtilModel.limbs (- c)). rewrite UtilProofs.limbs_opp. reflexivity. Qed.
Lemma neg_nz l : nz l -> nz (neg_terms l).
Proof. induction 1 as [|[m c] l C _ IH]; constructor; [cbn [snd] in *; lia|exact IH]. Qed.

Lemma c106_add dbg p a r x y n : valid_poly p -> valid_poly a -> p_add dbg p a = Ok r ->
  p_norm_int p = Ok x -> p_norm_int a = Ok y -> p_norm_int r = Ok n -> n <= x + y.
Proof.
  intros Vp Va H X Y N. unfold p_add, assert_ in H. destruct (dbg && _); [discriminate|]. apply checked_ok in H. subst r.
  apply (norm_le _ _ _ N). cbn [terms with_terms]. rewrite <- (norm_eq _ _ X), <- (norm_eq _ _ Y). apply add_sum; apply nz_valid; assumption.
Qed.
Lemma c106_sub dbg p a r x y n : valid_poly p -> valid_poly a -> p_sub dbg p a = Ok r ->
  p_norm_int p = Ok x -> p_norm_int a = Ok y -> p_norm_int r = Ok n -> n <= x + y.
Proof.
  intros Vp Va H X Y N. unfold p_sub, assert_ in H. destruct (dbg && _); [discriminate|]. apply checked_ok in H. subst r.
  apply (norm_le _ _ _ N). cbn [terms with_terms]. rewrite <- (norm_eq _ _ X), <- (norm_eq _ _ Y), sub_terms_neg, <- (neg_sum (terms a)).
  apply add_sum; [apply nz_valid; assumption|apply neg_nz, nz_valid; assumption].
Qed.
Lemma c106_mult dbg p a r x y n : valid_poly p -> valid_poly a -> p_mult dbg p a = Ok r ->
  p_norm_int p = Ok x -> p_norm_int a = Ok y -> p_norm_int r = Ok n ->
  n <= Z.of_nat (length (terms a)) * x + Z.of_nat (length (terms p)) * y.
Proof.
  intros Vp Va H X Y N. unfold p_mult, assert_ in H. destruct (dbg && _); [discriminate|].
  destruct (mult_terms dbg (pto p) (pbo p) (terms p) (terms a)) as [l| | | |] eqn:M; cbn [bind] in H; try discriminate. apply checked_ok in H. subst r.
  apply (norm_le _ _ _ N). cbn [terms with_terms]. rewrite <- (norm_eq _ _ X), <- (norm_eq _ _ Y).
  pose proof (mult_sum dbg _ _ _ _ _ (nz_valid p Vp) (nz_valid a Va) M). lia.
Qed.
