(** Proofs about PolyModel, continued: powers, constants, reductions, primitive parts, normal forms. *)
From Coq Require Import ZArith List Bool Arith Lia Sorted Znumtheory.
From Verif Require Import Outcome MonomModel MonomSpec MonomProofs PolyModel PolySpec PolyProofs.
Import ListNotations.
Local Open Scope Z_scope.

(* ------------------------------------------------------------------------------------------ *)
(** * Powers *)

Lemma mprod_unit n u : mono n u -> mprod (Mon (-1) (repeat 0%nat n)) u = u.
Proof.
  intros [L H]. unfold mprod. cbn [pos vars]. cbn [Z.eqb]. rewrite vsum_addv, addv_comm, addv_zero by exact L.
  destruct u; reflexivity.
Qed.

Lemma prod_one n p m : monos n p -> prod_coef (one n) p m = coef p m.
Proof.
  intro M. rewrite prod_coef_sumc, coef_sumc. unfold one. cbn [sumc].
  rewrite (sumc_ext _ (ind m) p); [lia|]. intros x Hx. unfold monos in M. rewrite Forall_forall in M.
  rewrite (mprod_unit n) by (apply M; exact Hx). reflexivity.
Qed.

Lemma pow_loop_ok dbg p : pvalid p -> ring_poly (terms p) -> forall k j tmp, pvalid tmp -> comparable p tmp = true ->
  is_power (psize p) (terms p) j (terms tmp) ->
  exists r, pow_loop dbg k tmp p = Ok r /\ comparable p r = true /\ pvalid r /\ is_power (psize p) (terms p) (j + k) (terms r).
Proof.
  intros P R. induction k as [|k IH]; intros j tmp V C W; cbn [pow_loop].
  - exists tmp. rewrite Nat.add_0_r. split; [reflexivity|]. split; [exact C|]. split; assumption.
  - assert (C' : comparable tmp p = true) by (apply comparable_eq in C; apply comparable_eq; intuition congruence).
    destruct (p_mult_ok dbg tmp p V P C' (or_intror R)) as (q & E & Cq & Vq & F). rewrite E. cbn [bind].
    destruct (IH (S j) q) as (r & H); [exact Vq| |econstructor; [exact W|exact F]|].
    + apply comparable_eq in C. apply comparable_eq in Cq. apply comparable_eq. intuition congruence.
    + exists r. replace (j + S k)%nat with (S j + k)%nat by lia. exact H.
Qed.

Lemma p_pow_ok dbg p k : pvalid p -> (1 <= k)%nat -> ring_poly (terms p) \/ k = 1%nat ->
  exists r, p_pow dbg p k = Ok r /\ comparable p r = true /\ pvalid r /\ is_power (psize p) (terms p) k (terms r).
Proof.
  intros P K R.
  assert (W1 : is_power (psize p) (terms p) 1 (terms p)).
  { econstructor; [apply power_0; reflexivity|]. intro m. symmetry. apply prod_one.
    apply canonical_iff in P. tauto. }
  destruct k as [|[|k]]; [lia| |].
  - exists p. split; [reflexivity|]. split; [apply comparable_refl|]. split; assumption.
  - destruct R as [R|R]; [|lia].
    assert (Ec : p_copy dbg p = Ok p).
    { unfold p_copy. rewrite map_id. rewrite checked_ok; destruct p; [reflexivity|exact P]. }
    unfold p_pow. rewrite Ec. cbn [bind].
    destruct (pow_loop_ok dbg p P R (S k) 1 p P (comparable_refl p) W1) as (r & H). exists r. exact H.
Qed.

(* ------------------------------------------------------------------------------------------ *)
(** * Adding an integer constant *)

Lemma sorted_app t o l r : sorted t o (l ++ r) <->
  sorted t o l /\ sorted t o r /\ Forall (fun x => below t o (fst x) r) l.
Proof.
  induction l as [|x l IH]; cbn [app].
  - split; [intro H; split; [constructor|split; [exact H|constructor]]|tauto].
  - rewrite !sorted_below, IH, Forall_cons_iff. unfold below at 1. rewrite Forall_app. unfold below. tauto.
Qed.

Lemma unit_below t o n m : o <> OAlex -> mono n m -> m <> unit_monom n (-1) -> cmp1 t o m (unit_monom n (-1)) = 1.
Proof.
  intros O [L P] N.
  assert (U : mono n (unit_monom n (-1))) by (split; [apply repeat_length|cbn; lia]).
  destruct (list_eq_dec Nat.eq_dec (vars m) (repeat 0%nat n)) as [E|E].
  - assert (0 <= pos m). { destruct (Z.eq_dec (pos m) (-1)); [|lia]. exfalso. apply N. destruct m as [p w]; cbn [pos vars] in *. unfold unit_monom. congruence. }
    assert (B : bcmp o m (unit_monom n (-1)) = 0).
    { apply (proj1 (proj2 (bcmp_total o n))); [split; assumption|assumption|exact E]. }
    unfold cmp1. destruct t; rewrite B; cbn [pos unit_monom]; unfold poscmp;
      destruct (Z.eqb_spec (pos m) (-1)); try lia; destruct (Z.ltb_spec (-1) (pos m)); try lia; reflexivity.
  - assert (B : bcmp o m (unit_monom n (-1)) = 1) by (apply bcmp_unit_min; [assumption|split; assumption|assumption]).
    unfold cmp1. destruct t; rewrite B; cbn [pos unit_monom].
    + reflexivity.
    + unfold poscmp. destruct (Z.eqb_spec (pos m) (-1)); [reflexivity|]. destruct (Z.ltb_spec (-1) (pos m)); lia.
Qed.

Definition uterm (n : nat) (c : Z) : list term := if c =? 0 then [] else [(unit_monom n (-1), c)].

Lemma const_skip n m : mono n m -> (Nat.ltb 0 (deg m) || (0 <=? pos m)) = false <-> m = unit_monom n (-1).
Proof.
  intros [L P]. rewrite orb_false_iff, Nat.ltb_ge, Z.leb_gt. split.
  - intros [D Q]. assert (deg m = 0%nat) by lia. unfold deg in H. apply degv_zero in H. rewrite L in H.
    destruct m as [p w]; cbn [pos vars] in *. unfold unit_monom. f_equal; [lia|exact H].
  - intros ->. unfold deg. cbn [vars pos unit_monom]. rewrite degv_repeat. lia.
Qed.

Lemma add_const_merge t o n l c : o <> OAlex -> canonical t o n l -> c <> 0 ->
  add_const_terms n l c = add_terms t o l [(unit_monom n (-1), c)].
Proof.
  intros O. induction l as [|[m d] l IH]; intros C N; [reflexivity|].
  apply canonical_iff in C as C'. destruct C' as (S & M & Z). apply sorted_below in S. destruct S as [B S].
  apply Forall_cons_iff in M. apply Forall_cons_iff in Z. destruct M as [Hm M], Z as [Hd Z]. cbn [fst snd] in *.
  cbn [add_const_terms]. rewrite add_terms_cons.
  destruct (Nat.ltb 0 (deg m) || (0 <=? pos m)) eqn:E.
  - assert (m <> unit_monom n (-1)) by (intro X; apply (const_skip n m Hm) in X; congruence).
    rewrite (unit_below t o n m O Hm H). cbn [Z.eqb Pos.eqb]. f_equal. apply IH; [|assumption]. apply canonical_iff. auto.
  - apply (const_skip n m Hm) in E. subst m.
    assert (X : cmp1 t o (unit_monom n (-1)) (unit_monom n (-1)) = 0) by (apply cmp1_eq; reflexivity).
    rewrite X. cbn [Z.eqb]. rewrite add_terms_nil_r. reflexivity.
Qed.

Lemma sub_const_add n l c : sub_const_terms n l c = add_const_terms n l (- c).
Proof. induction l as [|[m d] l IH]; cbn [sub_const_terms add_const_terms]; [reflexivity|]. rewrite IH. reflexivity. Qed.

Lemma p_add_const_ok dbg p c : pvalid p -> terms p <> [] -> pbo p <> OAlex -> c <> 0 ->
  exists r, p_add_const dbg p c = Ok r /\ comparable p r = true /\ pvalid r /\
    forall m, coef (terms r) m = coef (terms p) m + c * coef (one (psize p)) m.
Proof.
  intros P N O C. unfold p_add_const. destruct (terms p) as [|[m d] l] eqn:E; [congruence|]. rewrite <- E in *.
  apply canonical_iff in P as P'. destruct P' as (S & M & Z).
  assert (Sz : size m = psize p). { rewrite E in M. apply Forall_inv in M. exact (proj1 M). }
  rewrite Sz, (add_const_merge (pto p) (pbo p) (psize p)) by assumption.
  assert (U : canonical (pto p) (pbo p) (psize p) [(unit_monom (psize p) (-1), c)]).
  { split; [repeat constructor|]. split; constructor; try constructor; [apply repeat_length|cbn; lia|exact C]. }
  assert (R := add_canonical _ _ _ _ _ P U).
  eexists. split; [apply checked_ok; exact R|]. split; [apply comparable_with|]. split; [exact R|].
  intro u. cbn [terms with_terms]. rewrite !coef_sumc. apply canonical_iff in U.
  rewrite (add_sumc _ _ (psize p)) by tauto. cbn [sumc one]. unfold unit_monom. lia.
Qed.

Lemma p_sub_const_add dbg p c : p_sub_const dbg p c = p_add_const dbg p (- c).
Proof. unfold p_sub_const, p_add_const. destruct (terms p) as [|[m d] l]; [reflexivity|]. now rewrite sub_const_add. Qed.

(* ------------------------------------------------------------------------------------------ *)
(** * Reduction *)

Lemma cmp2_mul t o n m v w : mono n m -> mono n v -> mono n w -> pos v = pos w -> cmp2 t o m v w = cmp1 t o m (mul v w).
Proof.
  intros Hm Hv Hw E. set (w' := Mon (-1) (vars w)).
  assert (Hw' : mono n w') by (destruct Hw; split; [assumption|cbn; lia]).
  assert (X : mul v w = mul v w').
  { unfold mul, mul_pos. cbn [vars pos w']. f_equal. rewrite E. cbn. destruct (Z.leb_spec 0 (pos w)); [|destruct (Z.eqb_spec (pos w) (-1)); congruence].
    destruct (Z.eqb_spec (pos w) (-1)); [lia|reflexivity]. }
  rewrite X, <- (cmp2_cmp1 t o m v w'); try (eapply mono_size; eassumption); [|reflexivity].
  reflexivity.
Qed.

Lemma red_terms_eq dbg t o n k1 k2 m2 : mono n m2 -> forall p a, monos n p -> monos n a ->
  in_component (pos m2) a -> (dbg = true -> pos m2 = -1 \/ a = []) ->
  red_terms dbg t o k1 k2 m2 p a = Ok (add_terms t o (scale k1 p) (mulp m2 k2 a)).
Proof.
  intro Hw. refine (merge_ind _ _ _ _).
  - intros a M A I D. rewrite add_terms_nil_l. destruct a as [|y a]; [reflexivity|].
    change (red_terms dbg t o k1 k2 m2 [] (y :: a)) with (mulmon dbg m2 k2 (y :: a)).
    apply mulmon_ok. intro X. destruct (D X) as [E|E]; [|discriminate E].
    apply Forall_forall. intros; right; exact E.
  - intros p M A I D. cbn [mulp map]. rewrite add_terms_nil_r. destruct p as [|[m c] p]; reflexivity.
  - intros [m c] p [v d] a H1 H2 H3 M A I D.
    apply Forall_cons_iff in M as [Hm M']. apply Forall_cons_iff in A as [Hv A']. apply Forall_cons_iff in I as [Iv I'].
    cbn [fst] in *.
    assert (M : monos n ((m, c) :: p)) by (constructor; assumption).
    assert (A : monos n ((v, d) :: a)) by (constructor; assumption).
    assert (I : in_component (pos m2) ((v, d) :: a)) by (constructor; assumption).
    assert (D' : dbg = true -> pos m2 = -1 \/ a = []) by (intro X; destruct (D X) as [E|E]; [left; exact E|discriminate E]).
    change (red_terms dbg t o k1 k2 m2 ((m, c) :: p) ((v, d) :: a)) with
      (do r <- cmp2_ dbg t o m v m2;
        if r =? 1 then do l <- red_terms dbg t o k1 k2 m2 p ((v, d) :: a); Ok ((m, c * k1) :: l)
        else if r =? -1 then do w <- mul_ dbg v m2; do l <- red_terms dbg t o k1 k2 m2 ((m, c) :: p) a; Ok ((w, d * k2) :: l)
        else do l <- red_terms dbg t o k1 k2 m2 p a;
             if c * k1 + d * k2 =? 0 then Ok l else Ok ((m, c * k1 + d * k2) :: l)).
    assert (Pos : dbg = true -> ((pos v =? -1) || (pos m2 =? -1)) = true).
    { intro X. destruct (D X) as [E|E]; [rewrite E; now rewrite orb_true_r|discriminate E]. }
    assert (E1 : cmp2_ dbg t o m v m2 = Ok (cmp1 t o m (mul v m2))).
    { unfold cmp2_. rewrite (cmp2_mul t o n) by assumption. destruct dbg; [|reflexivity].
      rewrite assert_true; [reflexivity|]. rewrite (Pos eq_refl). apply orb_true_r. }
    assert (E2 : mul_ dbg v m2 = Ok (mul v m2)).
    { unfold mul_. destruct dbg; [|reflexivity]. apply assert_true. apply Pos. reflexivity. }
    rewrite E1, E2. cbn [bind]. rewrite (H1 M' A I D), (H2 M A' I' D'), (H3 M' A' I' D'). cbn [bind].
    change (scale k1 ((m, c) :: p)) with ((m, c * k1) :: scale k1 p).
    change (mulp m2 k2 ((v, d) :: a)) with ((mul v m2, d * k2) :: mulp m2 k2 a).
    rewrite add_terms_cons.
    destruct (cmp1 t o m (mul v m2) =? 1); [reflexivity|].
    destruct (cmp1 t o m (mul v m2) =? -1); [reflexivity|].
    destruct (c * k1 + d * k2 =? 0); reflexivity.
Qed.

Lemma divisiable_mdivides n m v : mono n m -> mono n v -> (divisiable m v = true <-> mdivides v m).
Proof.
  intros [Lm Pm] [Lv Pv]. unfold divisiable, mdivides.
  rewrite andb_true_iff, orb_true_iff, !Z.eqb_eq, (gev_spec (vars m) (vars v)) by congruence.
  split.
  - intros [P G]. split; [intuition congruence|]. split; [congruence|].
    intro i. destruct (Nat.lt_ge_cases i (length (vars m))); [apply G; exact H|rewrite (expo_out (vars v)) by lia; lia].
  - intros (P & L & G). split; [intuition congruence|]. intros; apply G.
Qed.

Lemma int_div_exact dbg a b : b <> 0 -> (b | a) -> int_div dbg a b = Ok (a / b).
Proof.
  intros B D. unfold int_div. destruct (Z.eqb_spec b 0); [congruence|].
  apply Zdivide_mod in D. rewrite D. reflexivity.
Qed.

Lemma red_factors_ok dbg n m c v d : mono n m -> mono n v -> c <> 0 -> d <> 0 -> mdivides v m ->
  exists k1 k2, red_factors dbg m c v d = Ok (div m v, k1, k2) /\ k1 <> 0 /\ k2 <> 0 /\ k1 * c + k2 * d = 0 /\ Z.gcd k1 k2 = 1.
Proof.
  intros Hm Hv C D V. unfold red_factors. assert (V' := proj2 (divisiable_mdivides n m v Hm Hv) V). rewrite V'.
  unfold divisiable in V'. apply andb_true_iff in V' as [_ V']. rewrite V'. rewrite andb_false_r. cbn [negb].
  unfold int_gcd. rewrite assert_true by (destruct (Z.eqb_spec c 0), (Z.eqb_spec d 0); cbn; congruence). cbn [bind].
  assert (G : Z.gcd c d <> 0) by (intro X; apply Z.gcd_eq_0_l in X; congruence).
  assert (Dc : (Z.gcd c d | c)) by apply Z.gcd_divide_l. assert (Dd : (Z.gcd c d | d)) by apply Z.gcd_divide_r.
  rewrite !int_div_exact by assumption. cbn [bind].
  exists (d / Z.gcd c d), (- (c / Z.gcd c d)). split; [reflexivity|].
  destruct Dc as [x Ex], Dd as [y Ey].
  assert (X : c / Z.gcd c d = x) by (symmetry; apply Z.div_unique_exact; lia).
  assert (Y : d / Z.gcd c d = y) by (symmetry; apply Z.div_unique_exact; lia).
  rewrite X, Y. assert (x <> 0) by (intro; subst x; lia). assert (y <> 0) by (intro; subst y; lia).
  split; [assumption|]. split; [lia|]. split.
  - rewrite Ex at 1. rewrite Ey at 2. lia.
  - rewrite Z.gcd_opp_r, Z.gcd_comm, <- X, <- Y. apply Z.gcd_div_gcd; [assumption|reflexivity].
Qed.

Lemma div_mul n m v : mono n m -> mono n v -> mdivides v m -> pos v = pos m -> mul v (div m v) = m.
Proof.
  intros [Lm Pm] [Lv Pv] D E. assert (D' := proj2 (divisiable_mdivides n m v (conj Lm Pm) (conj Lv Pv)) D).
  unfold divisiable in D'. apply andb_true_iff in D'. destruct D' as [_ G].
  unfold mul, div. cbn [pos vars]. rewrite addv_comm, addv_subv by (assumption || congruence).
  unfold mul_pos. rewrite E. destruct m as [p l]; cbn in *. f_equal.
  destruct (Z.leb_spec 0 p); [reflexivity|]. destruct (Z.eqb_spec p (-1)); congruence.
Qed.

Lemma div_mono n m v : mono n m -> mono n v -> mono n (div m v).
Proof. intros [Lm Pm] [Lv Pv]. split; cbn [vars pos div]; [rewrite subv_length; congruence|exact Pm]. Qed.

Lemma mulp_shift n m c a : mono n m -> monos n a -> in_component (pos m) a ->
  forall f, sumc f (mulp m c a) = c * sumc f (shift (vars m) a).
Proof.
  intros Hm M I f. rewrite sumc_mulp. f_equal. unfold shift.
  assert (E : forall l, monos n l -> in_component (pos m) l -> sumc (fun u => f (mul u m)) l =
     sumc f (map (fun x => (mprod (Mon (-1) (vars m)) (fst x), snd x)) l)); [|apply E; assumption].
  clear a M I. induction l as [|[u d] l IH]; intros M I; [reflexivity|].
  apply Forall_cons_iff in M as [Hu M]. apply Forall_cons_iff in I as [Iu I]. cbn [fst] in *.
  cbn [map sumc fst snd]. rewrite (IH M I). do 2 f_equal. f_equal.
  unfold mul, mprod. cbn [pos vars]. rewrite vsum_addv, addv_comm. f_equal. rewrite Iu.
  unfold mul_pos. cbn. destruct (Z.leb_spec 0 (pos m)); [reflexivity|]. destruct (Z.eqb_spec (pos m) (-1)); congruence.
Qed.

(** One reduction step on the part of the polynomial from the reduced term on. *)
Lemma reduce_step dbg t o n m c rest v d a :
  canonical t o n ((m, c) :: rest) -> canonical t o n ((v, d) :: a) -> mdivides v m -> reducer dbg m ((v, d) :: a) ->
  exists k1 k2 l, red_factors dbg m c v d = Ok (div m v, k1, k2) /\
    red_terms dbg t o k1 k2 (div m v) rest a = Ok l /\
    k1 <> 0 /\ k2 <> 0 /\ Z.gcd k1 k2 = 1 /\ k1 * c + k2 * d = 0 /\
    canonical t o n l /\ below t o m l /\
    forall f, sumc f l = k1 * sumc f ((m, c) :: rest) + k2 * sumc f (shift (subv (vars m) (vars v)) ((v, d) :: a)).
Proof.
  intros Cp Ca V [I D]. apply canonical_iff in Cp as (Sp & Mp & Np). apply canonical_iff in Ca as (Sa & Ma & Na).
  apply sorted_below in Sp as [Bp Sp]. apply sorted_below in Sa as [Ba Sa].
  apply Forall_cons_iff in Mp as [Hm Mp]. apply Forall_cons_iff in Np as [Hc Np].
  apply Forall_cons_iff in Ma as [Hv Ma]. apply Forall_cons_iff in Na as [Hd Na]. cbn [fst snd] in *.
  apply Forall_cons_iff in I as [Iv I]. cbn [fst] in Iv.
  destruct (red_factors_ok dbg n m c v d Hm Hv Hc Hd V) as (k1 & k2 & E & K1 & K2 & Q & G).
  assert (Hw := div_mono n m v Hm Hv).
  exists k1, k2, (add_terms t o (scale k1 rest) (mulp (div m v) k2 a)).
  split; [exact E|]. split.
  { apply (red_terms_eq dbg t o n); try assumption. intro X. destruct (D X) as [Y|Y]; [left; exact Y|right].
    destruct a; [reflexivity|discriminate Y]. }
  split; [exact K1|]. split; [exact K2|]. split; [exact G|]. split; [exact Q|].
  assert (U : uniform (div m v) a) by (right; exists (pos m); exact I).
  assert (C1 : canonical t o n (scale k1 rest)) by (apply scale_canonical; [exact K1|apply canonical_iff; auto]).
  assert (C2 : canonical t o n (mulp (div m v) k2 a)) by (apply mulp_canonical; auto; apply canonical_iff; auto).
  split; [apply add_canonical; assumption|]. split.
  { apply add_below; [apply scale_below; exact Bp|]. rewrite <- (div_mul n m v Hm Hv V Iv) at 1.
    apply (mulp_below t o n); auto. right. exists (pos m). constructor; assumption. }
  intro f. apply canonical_iff in C1, C2. rewrite (add_sumc t o n) by tauto.
  rewrite sumc_scale. rewrite (mulp_shift n) by assumption. cbn [div vars].
  unfold shift at 2. cbn [map sumc fst snd]. fold (shift (subv (vars m) (vars v)) a).
  assert (X : mprod (Mon (-1) (subv (vars m) (vars v))) v = m).
  { rewrite <- (div_mul n m v Hm Hv V Iv) at 2. unfold mprod, mul. cbn [pos vars div]. rewrite vsum_addv, addv_comm. cbn [Z.eqb Pos.eqb].
    f_equal. rewrite Iv. unfold mul_pos. destruct (Z.leb_spec 0 (pos m)); [reflexivity|]. destruct (Z.eqb_spec (pos m) (-1)); congruence. }
  rewrite X. assert (k1 * (c * f m) + k2 * (d * f m) = 0).
  { replace (k1 * (c * f m) + k2 * (d * f m)) with ((k1 * c + k2 * d) * f m) by ring. rewrite Q. ring. }
  lia.
Qed.


Lemma p_reduction_ok dbg f a m c f' v d a' : pvalid f -> pvalid a -> comparable f a = true ->
  terms f = (m, c) :: f' -> terms a = (v, d) :: a' -> mdivides v m -> reducer dbg m (terms a) ->
  exists r k1 k2 u, p_reduction dbg f a = Ok r /\ comparable f r = true /\ pvalid r /\
    k1 <> 0 /\ k2 <> 0 /\ Z.gcd k1 k2 = 1 /\ length u = psize f /\ mprod (Mon (-1) u) v = m /\
    (forall w, coef (terms r) w = k1 * coef (terms f) w + k2 * coef (shift u (terms a)) w) /\
    below (pto f) (pbo f) m (terms r).
Proof.
  intros P A C Ef Ea V R. assert (C' := C). apply comparable_eq in C'. destruct C' as (E1 & E2 & E3).
  unfold p_reduction. rewrite assert_true by exact C. 
  unfold pvalid, valid_poly in A. rewrite <- E1, <- E2, <- E3 in A. unfold pvalid, valid_poly in P. rewrite Ef in P |- *. rewrite Ea in A, R |- *.
  destruct (reduce_step dbg _ _ _ _ _ _ _ _ _ P A V R) as (k1 & k2 & l & F1 & F2 & K1 & K2 & G & Q & Cl & B & S).
  rewrite F1. cbn [bind]. rewrite F2. cbn [bind].
  assert (Hm : mono (psize f) m) by (apply canonical_iff in P; destruct P as (_ & M & _); exact (Forall_inv M)).
  assert (Hv : mono (psize f) v) by (apply canonical_iff in A; destruct A as (_ & M & _); exact (Forall_inv M)).
  exists (with_terms f l), k1, k2, (subv (vars m) (vars v)).
  split; [apply checked_ok; exact Cl|]. split; [apply comparable_with|]. split; [exact Cl|].
  split; [exact K1|]. split; [exact K2|]. split; [exact G|].
  destruct Hm as [Lm Pm], Hv as [Lv Pv].
  split; [rewrite subv_length; congruence|]. split.
  { assert (Iv : pos v = pos m) by (destruct R as [I _]; exact (Forall_inv I)).
    rewrite <- (div_mul (psize f) m v (conj Lm Pm) (conj Lv Pv) V Iv) at 2. unfold mprod, mul. cbn [pos vars div].
    rewrite vsum_addv, addv_comm. cbn [Z.eqb Pos.eqb]. f_equal. rewrite Iv. unfold mul_pos.
    destruct (Z.leb_spec 0 (pos m)); [reflexivity|]. destruct (Z.eqb_spec (pos m) (-1)); congruence. }
  split; [|exact B]. intro w. cbn [terms with_terms]. rewrite !coef_sumc. apply S.
Qed.

Lemma coef_app l r m : coef (l ++ r) m = coef l m + coef r m.
Proof. rewrite !coef_sumc. apply sumc_app. Qed.

Lemma red_tail_ok dbg f a pre m c rest v d a' : pvalid f -> pvalid a -> comparable f a = true ->
  terms f = pre ++ (m, c) :: rest -> terms a = (v, d) :: a' -> mdivides v m -> reducer dbg m (terms a) ->
  exists k1 k2 u l, red_tail dbg f pre ((m, c) :: rest) a = Ok (scale k1 pre, l) /\
    pvalid (with_terms f (scale k1 pre ++ l)) /\
    k1 <> 0 /\ k2 <> 0 /\ Z.gcd k1 k2 = 1 /\ length u = psize f /\ mprod (Mon (-1) u) v = m /\
    (forall w, coef (scale k1 pre ++ l) w = k1 * coef (terms f) w + k2 * coef (shift u (terms a)) w) /\
    below (pto f) (pbo f) m l.
Proof.
  intros P A C Ef Ea V R. assert (C' := C). apply comparable_eq in C'. destruct C' as (E1 & E2 & E3).
  unfold red_tail. rewrite assert_true by exact C.
  unfold pvalid, valid_poly in A. rewrite <- E1, <- E2, <- E3 in A. rewrite Ea in A, R |- *.
  unfold pvalid, valid_poly in P. rewrite Ef in P. apply canonical_iff in P as (Sf & Mf & Nf).
  apply sorted_app in Sf as (S1 & S2 & S3). apply Forall_app in Mf as [M1 M2]. apply Forall_app in Nf as [N1 N2].
  assert (P : canonical (pto f) (pbo f) (psize f) ((m, c) :: rest)) by (apply canonical_iff; auto).
  destruct (reduce_step dbg _ _ _ _ _ _ _ _ _ P A V R) as (k1 & k2 & l & F1 & F2 & K1 & K2 & G & Q & Cl & B & S).
  rewrite F1. cbn [bind]. rewrite F2. cbn [bind].
  assert (Hm : mono (psize f) m) by exact (Forall_inv M2).
  assert (Hv : mono (psize f) v) by (apply canonical_iff in A; destruct A as (_ & M & _); exact (Forall_inv M)).
  assert (Cr : pvalid (with_terms f (scale k1 pre ++ l))).
  { unfold pvalid, valid_poly. cbn [pto pbo psize terms with_terms]. apply canonical_iff in Cl as (Sl & Ml & Nl). apply canonical_iff. split; [|split].
    - apply sorted_app. split; [apply scale_sorted; exact S1|]. split; [exact Sl|]. apply Forall_map. cbn [fst].
      rewrite Forall_forall in *. intros x Hx. specialize (S3 x Hx).
      apply (below_trans _ _ (psize f) _ m); [exact (Forall_inv S3)|exact B|apply M1; exact Hx|exact Hm|exact Ml].
    - apply Forall_app. split; [apply scale_monos; exact M1|exact Ml].
    - apply Forall_app. split; [apply scale_nz; assumption|exact Nl]. }
  exists k1, k2, (subv (vars m) (vars v)), l.
  rewrite checked_ok by exact Cr. cbn [bind].
  split; [reflexivity|]. split; [exact Cr|]. split; [exact K1|]. split; [exact K2|]. split; [exact G|].
  destruct Hm as [Lm Pm], Hv as [Lv Pv].
  split; [rewrite subv_length; congruence|]. split.
  { assert (Iv : pos v = pos m) by (destruct R as [I _]; exact (Forall_inv I)).
    rewrite <- (div_mul (psize f) m v (conj Lm Pm) (conj Lv Pv) V Iv) at 2. unfold mprod, mul. cbn [pos vars div].
    rewrite vsum_addv, addv_comm. cbn [Z.eqb Pos.eqb]. f_equal. rewrite Iv. unfold mul_pos.
    destruct (Z.leb_spec 0 (pos m)); [reflexivity|]. destruct (Z.eqb_spec (pos m) (-1)); congruence. }
  split; [|exact B]. intro w. rewrite Ef, !coef_app, !coef_sumc, S, sumc_scale. lia.
Qed.
