(** The statements of Prop_Poly.v. *)
From Coq Require Import ZArith List Bool Arith Lia Sorted Znumtheory.
From Verif Require Import Outcome MonomModel MonomSpec MonomProofs PolyModel PolySpec PolyProofs PolyRedProofs
  PolyNfProofs PolyMemModel PolyMemSpec PolyMemProofs.
Import ListNotations.
Local Open Scope Z_scope.

Lemma same_ring_comparable p a : same_ring p a -> comparable p a = true.
Proof. apply comparable_eq. Qed.
Lemma comparable_same_ring p a : comparable p a = true -> same_ring p a.
Proof. apply comparable_eq. Qed.
Lemma same_ring_refl p : same_ring p p.
Proof. split; [|split]; reflexivity. Qed.

Lemma same_ring_with p l : same_ring p (with_terms p l).
Proof. split; [|split]; reflexivity. Qed.

Lemma c10_add dbg p a : valid_poly p -> valid_poly a -> same_ring p a ->
  exists r, p_add dbg p a = Ok r /\ same_ring p r /\ valid_poly r /\ forall m, coef (terms r) m = coef (terms p) m + coef (terms a) m.
Proof.
  intros P A C. destruct (p_add_ok dbg p a P A (same_ring_comparable _ _ C)) as (r & E & Cr & V & F).
  exists r. split; [exact E|]. split; [apply comparable_same_ring; exact Cr|]. split; [exact V|exact F].
Qed.
Lemma c10_sub dbg p a : valid_poly p -> valid_poly a -> same_ring p a ->
  exists r, p_sub dbg p a = Ok r /\ same_ring p r /\ valid_poly r /\ forall m, coef (terms r) m = coef (terms p) m - coef (terms a) m.
Proof.
  intros P A C. destruct (p_sub_ok dbg p a P A (same_ring_comparable _ _ C)) as (r & E & Cr & V & F).
  exists r. split; [exact E|]. split; [apply comparable_same_ring; exact Cr|]. split; [exact V|exact F].
Qed.
Lemma c10_minus dbg p : valid_poly p ->
  exists r, p_minus dbg p = Ok r /\ same_ring p r /\ valid_poly r /\ forall m, coef (terms r) m = - coef (terms p) m.
Proof.
  intros P. destruct (p_minus_ok dbg p P) as (r & E & Cr & V & F).
  exists r. split; [exact E|]. split; [apply comparable_same_ring; exact Cr|]. split; [exact V|exact F].
Qed.
Lemma c10_scale dbg p c : valid_poly p ->
  exists r, p_mult_const dbg p c = Ok r /\ same_ring p r /\ valid_poly r /\ forall m, coef (terms r) m = c * coef (terms p) m.
Proof.
  intros P. destruct (p_mult_const_ok dbg p c P) as (r & E & Cr & V & F).
  exists r. split; [exact E|]. split; [apply comparable_same_ring; exact Cr|]. split; [exact V|exact F].
Qed.
Lemma c11_mult dbg p a : valid_poly p -> valid_poly a -> same_ring p a -> ring_poly (terms p) \/ ring_poly (terms a) ->
  exists r, p_mult dbg p a = Ok r /\ same_ring p r /\ valid_poly r /\ forall m, coef (terms r) m = prod_coef (terms p) (terms a) m.
Proof.
  intros P A C M. destruct (p_mult_ok dbg p a P A (same_ring_comparable _ _ C) M) as (r & E & Cr & V & F).
  exists r. split; [exact E|]. split; [apply comparable_same_ring; exact Cr|]. split; [exact V|exact F].
Qed.
Lemma c12_pow dbg p k : valid_poly p -> (1 <= k)%nat -> ring_poly (terms p) \/ k = 1%nat ->
  exists r, p_pow dbg p k = Ok r /\ same_ring p r /\ valid_poly r /\ is_power (psize p) (terms p) k (terms r).
Proof.
  intros P K R. destruct (p_pow_ok dbg p k P K R) as (r & E & Cr & V & F).
  exists r. split; [exact E|]. split; [apply comparable_same_ring; exact Cr|]. split; [exact V|exact F].
Qed.

(** What is_power means does not depend on the list chosen for the intermediate powers. *)
Lemma prod_coef_ext p p' q : (forall m, coef p m = coef p' m) -> forall m, prod_coef p q m = prod_coef p' q m.
Proof. intros H m. rewrite !prod_coef_sumc. apply sumc_coef. exact H. Qed.

Lemma is_power_fun n p k : forall r r', is_power n p k r -> is_power n p k r' -> forall m, coef r m = coef r' m.
Proof.
  induction k as [|k IH]; intros r r' H H' m.
  - inversion H as [? E|]; inversion H' as [? E'|]; subst. rewrite E, E'. reflexivity.
  - inversion H as [|? q ? Q E]; inversion H' as [|? q' ? Q' E']; subst. rewrite E, E'. apply prod_coef_ext. apply IH; assumption.
Qed.

Lemma c12_zero dbg p m : exists r, p_pow dbg p 0 = Ok r /\ coef (terms r) m = 0.
Proof. exists (with_terms p []). split; reflexivity. Qed.

Lemma c12_refuted : exists p r, valid_poly p /\ p_pow true p 0 = Ok r /\ ~ is_power (psize p) (terms p) 0 (terms r).
Proof.
  exists (Poly TOP OLex 1 [(Mon (-1) [1%nat], 1)]), (Poly TOP OLex 1 []). split; [|split].
  - apply canonical_iff. split; [repeat constructor|]. split; constructor; try constructor; cbn; try reflexivity; lia.
  - reflexivity.
  - intro H. inversion H as [r E|]; subst. specialize (E (Mon (-1) [0%nat])). vm_compute in E. discriminate E.
Qed.

(** Constants. *)
Lemma c13_add dbg p c : valid_poly p -> terms p <> [] -> pbo p <> OAlex -> c <> 0 ->
  exists r, p_add_const dbg p c = Ok r /\ same_ring p r /\ valid_poly r /\
    forall m, coef (terms r) m = coef (terms p) m + c * coef (one (psize p)) m.
Proof.
  intros P N O C. destruct (p_add_const_ok dbg p c P N O C) as (r & E & Cr & V & F).
  exists r. split; [exact E|]. split; [apply comparable_same_ring; exact Cr|]. split; [exact V|exact F].
Qed.
Lemma c13_sub dbg p c : valid_poly p -> terms p <> [] -> pbo p <> OAlex -> c <> 0 ->
  exists r, p_sub_const dbg p c = Ok r /\ same_ring p r /\ valid_poly r /\
    forall m, coef (terms r) m = coef (terms p) m - c * coef (one (psize p)) m.
Proof.
  intros P N O C. rewrite p_sub_const_add. destruct (c13_add dbg p (- c) P N O) as (r & E & Cr & V & F); [lia|].
  exists r. split; [exact E|]. split; [exact Cr|]. split; [exact V|]. intro m. rewrite F. lia.
Qed.

Definition px (o : base_order) : poly := Poly TOP o 1 [(Mon (-1) [1%nat], 1)].
Lemma px_valid o : valid_poly (px o).
Proof. apply canonical_iff. split; [repeat constructor|]. split; constructor; try constructor; cbn; try reflexivity; lia. Qed.

Lemma not_valid_zero p m l : terms p = (m, 0) :: l -> ~ valid_poly p.
Proof. intros E V. apply canonical_iff in V as (_ & _ & N). rewrite E in N. apply Forall_inv in N. cbn in N. congruence. Qed.

Lemma c13_refuted_zero : exists p r, valid_poly p /\ terms p <> [] /\ p_add_const false p 0 = Ok r /\ ~ valid_poly r /\
  p_add_const true p 0 = AssertFail.
Proof.
  exists (px OLex), (Poly TOP OLex 1 [(Mon (-1) [1%nat], 1); (Mon (-1) [0%nat], 0)]).
  split; [apply px_valid|]. split; [discriminate|]. split; [reflexivity|]. split; [|reflexivity].
  intro V. apply canonical_iff in V as (_ & _ & N). apply Forall_inv_tail, Forall_inv in N. cbn in N. congruence.
Qed.
Lemma c13_refuted_empty : exists p, valid_poly p /\ p_add_const false p 5 = Undef /\ p_add_const true p 5 = AssertFail.
Proof. exists (Poly TOP OLex 1 []). split; [split; [constructor|split; constructor]|]. split; reflexivity. Qed.
Lemma c13_refuted_alex : exists p r, valid_poly p /\ terms p <> [] /\ p_add_const false p 5 = Ok r /\ ~ valid_poly r /\
  p_add_const true p 5 = AssertFail.
Proof.
  exists (px OAlex), (Poly TOP OAlex 1 [(Mon (-1) [1%nat], 1); (Mon (-1) [0%nat], 5)]).
  split; [apply px_valid|]. split; [discriminate|]. split; [reflexivity|]. split; [|reflexivity].
  intro V. apply canonical_valid in V. vm_compute in V. discriminate V.
Qed.
Lemma c09_refuted_const : exists r, p_const false TOP OLex 1 0 = Ok r /\ ~ valid_poly r.
Proof.
  exists (Poly TOP OLex 1 [(Mon (-1) [0%nat], 0)]). split; [reflexivity|]. eapply not_valid_zero. reflexivity.
Qed.
Lemma c09_const dbg t o n c : c <> 0 -> exists r, p_const dbg t o n c = Ok r /\ valid_poly r /\ psize r = n /\ pto r = t /\ pbo r = o /\
  forall m, coef (terms r) m = c * coef (one n) m.
Proof.
  intro C. assert (V : valid_poly (Poly t o n [(unit_monom n (-1), c)])).
  { apply canonical_iff. split; [repeat constructor|]. split; constructor; try constructor; cbn; [apply repeat_length|lia|exact C]. }
  eexists. split; [apply checked_ok; exact V|]. split; [exact V|]. split; [reflexivity|]. split; [reflexivity|]. split; [reflexivity|].
  intro m. cbn [terms coef one]. unfold unit_monom. destruct (monom_eq_dec _ m); lia.
Qed.
Lemma c09_monom dbg t o n u : mono n u -> exists r, p_monom dbg t o u = Ok r /\ valid_poly r /\ psize r = n /\ pto r = t /\ pbo r = o /\
  forall m, coef (terms r) m = (if monom_eq_dec u m then 1 else 0).
Proof.
  intro H. assert (E : size u = n) by exact (proj1 H). unfold p_monom. rewrite E.
  assert (V : valid_poly (Poly t o n [(u, 1)])).
  { apply canonical_iff. split; [repeat constructor|]. split; constructor; try constructor; cbn; [exact (proj1 H)|exact (proj2 H)|lia]. }
  eexists. split; [apply checked_ok; exact V|]. split; [exact V|]. split; [reflexivity|]. split; [reflexivity|]. split; [reflexivity|].
  intro m. cbn [terms coef]. lia.
Qed.
Lemma c09_mul_var dbg k p : valid_poly p -> (k < psize p)%nat -> exists r, p_mul_var dbg k p = Ok r /\ same_ring p r /\ valid_poly r /\
  forall m, coef (terms r) m = prod_coef [(Mon (-1) (incr k (repeat 0%nat (psize p))), 1)] (terms p) m.
Proof.
  intros P K. apply canonical_iff in P as (S & M & N).
  set (v := var_monom k (psize p) (-1)).
  assert (Hv : mono (psize p) v) by (split; [cbn; rewrite incr_length; apply repeat_length|cbn; lia]).
  assert (E : map (fun x => (mul_var k (fst x), snd x)) (terms p) = mulp v 1 (terms p)).
  { apply map_ext_in. intros x Hx. unfold monos in M. rewrite Forall_forall in M. rewrite (mul_var_mul (psize p)) by (auto; apply M; exact Hx).
    fold v. f_equal. lia. }
  assert (V : valid_poly (with_terms p (mulp v 1 (terms p)))).
  { apply mulp_canonical; [exact Hv|lia|left; reflexivity|apply canonical_iff; auto]. }
  unfold p_mul_var. rewrite E. eexists. split; [apply checked_ok; exact V|]. split; [apply same_ring_with|]. split; [exact V|].
  intro m. cbn [terms with_terms]. rewrite coef_sumc, sumc_mulp, prod_coef_sumc. cbn [sumc].
  rewrite (sumc_ext (fun v0 => ind m (mprod (Mon (-1) (incr k (repeat 0%nat (psize p)))) v0)) (fun u => ind m (mul u v)) (terms p)); [lia|]. intros x Hx. f_equal.
  unfold monos in M. rewrite Forall_forall in M.
  change (Mon (-1) (incr k (repeat 0%nat (psize p)))) with v. 
  rewrite (mprod_comm (psize p)); auto. symmetry. apply (mul_mprod (psize p)); auto.
Qed.

(** Reductions. *)
Lemma below_all t o n m l : mono n m -> monos n l -> below t o m l -> all_below t o m l.
Proof.
  intros Hm M B. unfold all_below, below, monos in *. rewrite Forall_forall in *. intros x Hx.
  apply cmp1_spec; [eapply mono_size; eauto|auto].
Qed.

Lemma c14 dbg f a m c f' v d a' : valid_poly f -> valid_poly a -> same_ring f a ->
  terms f = (m, c) :: f' -> terms a = (v, d) :: a' -> mdivides v m -> reducer dbg m (terms a) ->
  exists r k1 k2 u, p_reduction dbg f a = Ok r /\ same_ring f r /\ valid_poly r /\
    k1 <> 0 /\ Z.gcd k1 k2 = 1 /\ length u = psize f /\ mprod (Mon (-1) u) v = m /\
    (forall w, coef (terms r) w = k1 * coef (terms f) w - k2 * coef (shift u (terms a)) w) /\
    coef (terms r) m = 0 /\ all_below (pto f) (pbo f) m (terms r).
Proof.
  intros P A C Ef Ea V R.
  destruct (p_reduction_ok dbg f a m c f' v d a' P A (same_ring_comparable _ _ C) Ef Ea V R)
    as (r & k1 & k2 & u & E & Cr & Vr & K1 & K2 & G & Lu & Hu & S & B).
  assert (Hm : mono (psize f) m).
  { apply canonical_iff in P as (_ & M & _). rewrite Ef in M. exact (Forall_inv M). }
  assert (Mr : monos (psize f) (terms r)).
  { apply canonical_iff in Vr as (_ & M & _). apply comparable_eq in Cr as (Es & _). rewrite Es. exact M. }
  exists r, k1, (- k2), u. split; [exact E|]. split; [apply comparable_same_ring; exact Cr|]. split; [exact Vr|].
  split; [exact K1|]. split; [now rewrite Z.gcd_opp_r|]. split; [exact Lu|]. split; [exact Hu|].
  split; [intro w; rewrite S; lia|]. split; [eapply coef_below; eauto|]. eapply below_all; eauto.
Qed.

Lemma c16 dbg f a pre m c rest v d a' : valid_poly f -> valid_poly a -> same_ring f a ->
  terms f = pre ++ (m, c) :: rest -> terms a = (v, d) :: a' -> mdivides v m -> reducer dbg m (terms a) ->
  exists k1 k2 u l, red_tail dbg f pre ((m, c) :: rest) a = Ok (map (fun x => (fst x, snd x * k1)) pre, l) /\
    canonical (pto f) (pbo f) (psize f) (map (fun x => (fst x, snd x * k1)) pre ++ l) /\
    k1 <> 0 /\ Z.gcd k1 k2 = 1 /\ length u = psize f /\ mprod (Mon (-1) u) v = m /\
    (forall w, coef (map (fun x => (fst x, snd x * k1)) pre ++ l) w = k1 * coef (terms f) w - k2 * coef (shift u (terms a)) w) /\
    coef (map (fun x => (fst x, snd x * k1)) pre ++ l) m = 0 /\
    all_below (pto f) (pbo f) m l.
Proof.
  intros P A C Ef Ea V R.
  destruct (red_tail_ok dbg f a pre m c rest v d a' P A (same_ring_comparable _ _ C) Ef Ea V R)
    as (k1 & k2 & u & l & E & Vr & K1 & K2 & G & Lu & Hu & S & B).
  assert (Hf : sorted (pto f) (pbo f) (pre ++ (m, c) :: rest) /\ monos (psize f) (pre ++ (m, c) :: rest)).
  { apply canonical_iff in P as (Sf & M & _). rewrite Ef in M, Sf. split; assumption. }
  destruct Hf as [Sf Mf]. apply sorted_app in Sf as (S1 & S2 & S3). apply Forall_app in Mf as [M1 M2].
  assert (Hm : mono (psize f) m) by exact (Forall_inv M2).
  assert (Mr : monos (psize f) l).
  { apply canonical_iff in Vr as (_ & M & _). apply Forall_app in M. tauto. }
  exists k1, (- k2), u, l. fold (scale k1 pre). split; [exact E|]. split; [exact Vr|].
  split; [exact K1|]. split; [now rewrite Z.gcd_opp_r|]. split; [exact Lu|]. split; [exact Hu|].
  split; [intro w; rewrite S; lia|]. split; [|eapply below_all; eauto].
  rewrite coef_app, (coef_below (pto f) (pbo f) (psize f) m l) by assumption. rewrite coef_scale.
  rewrite (coef_notin m pre); [lia|]. intro X. apply in_map_iff in X. destruct X as ([x e] & Ex & Hx). cbn [fst] in Ex. subst x.
  rewrite Forall_forall in S3. specialize (S3 _ Hx). apply Forall_inv in S3. cbn [fst] in S3.
  assert (Y : cmp1 (pto f) (pbo f) m m = 0) by (apply cmp1_eq; reflexivity). lia.
Qed.

(** redMaybe on ring polynomials *)
Lemma skip_gt_ok t o m : forall rest pre, exists p r, skip_gt t o m pre rest = (pre ++ p, r) /\ rest = p ++ r /\
  Forall (fun x : term => 0 < cmp1 t o (fst x) m) p /\ (forall x l, r = x :: l -> cmp1 t o (fst x) m <= 0).
Proof.
  induction rest as [|x rest IH]; intro pre; cbn [skip_gt].
  - exists [], []. rewrite app_nil_r. split; [reflexivity|]. split; [reflexivity|]. split; [constructor|discriminate].
  - destruct (Z.ltb_spec 0 (cmp1 t o (fst x) m)) as [G|G].
    + destruct (IH (pre ++ [x])) as (p & r & E & R & F & H). exists (x :: p), r. rewrite E, <- app_assoc. cbn [app].
      split; [reflexivity|]. split; [now rewrite R|]. split; [constructor; assumption|exact H].
    + exists [], (x :: rest). rewrite app_nil_r. split; [reflexivity|]. split; [reflexivity|]. split; [constructor|].
      intros y l Hy. injection Hy as -> ->. exact G.
Qed.

Lemma c16_redMaybe dbg f a v d a' : valid_poly f -> valid_poly a -> same_ring f a -> terms f <> [] ->
  terms a = (v, d) :: a' -> ring_poly (terms f) -> ring_poly (terms a) ->
  exists r k1 k2, p_redMaybe dbg f a = Ok r /\ same_ring f r /\ valid_poly r /\ k1 <> 0 /\
    (forall w, coef (terms r) w = k1 * coef (terms f) w - k2 * coef (terms a) w) /\ coef (terms r) v = 0.
Proof.
  intros P A C N Ea Rf Ra. unfold p_redMaybe. destruct (terms f) as [|x0 f0] eqn:Ef; [congruence|]. rewrite <- Ef in *. rewrite Ea.
  destruct (skip_gt_ok (pto f) (pbo f) v (terms f) []) as (pre & rest & E & Er & F & H).
  cbn [app] in E. rewrite Ef in E at 1. rewrite <- Ef in E. rewrite E.
  assert (Mf : sorted (pto f) (pbo f) (terms f) /\ monos (psize f) (terms f)) by (apply canonical_iff in P; tauto).
  destruct Mf as [Sf Mf]. rewrite Er in Sf, Mf, Rf. apply sorted_app in Sf as (S1 & S2 & S3). apply Forall_app in Mf as [M1 M2]. apply Forall_app in Rf as [R1 R2].
  destruct C as (C1 & C2 & C3).
  assert (Hv : mono (psize f) v).
  { apply canonical_iff in A as (_ & M & _). rewrite Ea, <- C1 in M. exact (Forall_inv M). }
  assert (Pv : pos v = -1) by (rewrite Ea in Ra; exact (Forall_inv Ra)).
  assert (Npre : coef pre v = 0).
  { apply coef_notin. intro X. apply in_map_iff in X. destruct X as ([x e] & Ex & Hx). cbn [fst] in Ex. subst x.
    rewrite Forall_forall in F. specialize (F _ Hx). cbn [fst] in F.
    assert (Y : cmp1 (pto f) (pbo f) v v = 0) by (apply cmp1_eq; reflexivity). lia. }
  assert (Same : coef rest v = 0 -> exists r k1 k2, Ok f = Ok r /\ same_ring f r /\ valid_poly r /\ k1 <> 0 /\
    (forall w, coef (terms r) w = k1 * coef (terms f) w - k2 * coef ((v, d) :: a') w) /\ coef (terms r) v = 0).
  { intro Z0. exists f, 1, 0. split; [reflexivity|]. split; [apply same_ring_refl|]. split; [exact P|]. split; [lia|].
    split; [intro; lia|]. rewrite Er, coef_app. lia. }
  destruct rest as [|[m c] rest].
  { apply Same. reflexivity. }
  assert (Hm : mono (psize f) m) by exact (Forall_inv M2).
  assert (Pm : pos m = -1) by exact (Forall_inv R2).
  destruct (eqm m v) eqn:Q.
  - apply (eqm_spec (psize f)) in Q; try assumption.
    assert (m = v) by (destruct m, v; cbn in *; congruence). subst m.
    assert (Dv : mdivides v v) by (split; [right; reflexivity|split; [reflexivity|intro; lia]]).
    assert (Rd : reducer dbg v (terms a)) by (split; [rewrite Pv; exact Ra|intros _; left; exact Pv]).
    destruct (c16 dbg f a pre v c rest v d a' P A (conj C1 (conj C2 C3)) Er Ea Dv Rd)
      as (k1 & k2 & u & l & E1 & V & K1 & G & Lu & Hu & S & Z0 & B).
    rewrite E1. cbn [bind]. eexists; exists k1, k2. split; [reflexivity|]. split; [apply same_ring_with|]. split; [exact V|].
    split; [exact K1|]. cbn [terms with_terms]. split; [|exact Z0]. intro w. rewrite S, Ea. do 2 f_equal.
    assert (U0 : u = repeat 0%nat (psize f)).
    { assert (X := f_equal (fun x => degv (vars x)) Hu). cbn [mprod vars] in X. rewrite vsum_addv, degv_addv in X by (destruct Hv; congruence).
      rewrite <- Lu. apply degv_zero. lia. }
    subst u. unfold shift. rewrite <- (map_id ((v, d) :: a')) at 2. f_equal. apply map_ext_in. intros x Hx. destruct x as [x e]. cbn [fst snd].
    f_equal. apply (mprod_unit (psize f)). apply canonical_iff in A as (_ & M & _). unfold monos in M. rewrite Forall_forall in M. rewrite C1. apply (M (x, e)). rewrite Ea. exact Hx.
  - apply Same. cbn [coef]. destruct (monom_eq_dec m v) as [->|Nm].
    { exfalso. assert (X : eqm v v = true) by (apply (eqm_spec (psize f)); auto). congruence. }
    specialize (H (m, c) rest eq_refl). cbn [fst] in H.
    assert (Sz : size m = size v) by (eapply mono_size; eauto).
    assert (G : cmp1 (pto f) (pbo f) v m = 1).
    { rewrite (cmp1_antisym _ _ m v Sz). destruct (cmp1_range (pto f) (pbo f) m v) as [X|[X|X]]; [lia| |lia].
      apply cmp1_eq in X; [congruence|exact Sz]. }
    apply sorted_below in S2 as [B S2]. cbn [fst] in B. apply Forall_cons_iff in M2 as [_ M2].
    rewrite (coef_below (pto f) (pbo f) (psize f) v rest); [reflexivity|exact Hv|exact M2|].
    apply (below_trans _ _ (psize f) v m); assumption.
Qed.

(** redMaybe and module elements: the equality test looks at the exponents only. *)
Lemma c41_redMaybe_refuted : exists f a r, valid_poly f /\ valid_poly a /\ same_ring f a /\
  p_redMaybe false f a = Ok r /\ terms r <> terms f /\ (forall x, In x (terms f) -> pos (fst x) = 0) /\
  (forall x, In x (terms a) -> pos (fst x) = 1) /\ p_redMaybe true f a = AssertFail.
Proof.
  exists (Poly TOP OLex 1 [(Mon 0 [1%nat], 1)]), (Poly TOP OLex 1 [(Mon 1 [1%nat], 1)]), (Poly TOP OLex 1 []).
  split; [|split; [|split; [|split; [|split; [|split; [|split]]]]]].
  - apply canonical_iff. split; [repeat constructor|]. split; constructor; try constructor; cbn; try reflexivity; lia.
  - apply canonical_iff. split; [repeat constructor|]. split; constructor; try constructor; cbn; try reflexivity; lia.
  - split; [|split]; reflexivity.
  - reflexivity.
  - discriminate.
  - intros x [<-|[]]. reflexivity.
  - intros x [<-|[]]. reflexivity.
  - reflexivity.
Qed.

(** Primitive parts. *)
Lemma c15_pp dbg p : valid_poly p -> terms p <> [] ->
  exists r g, p_pp dbg p = Ok r /\ same_ring p r /\ valid_poly r /\ g <> 0 /\
    (forall m, coef (terms p) m = g * coef (terms r) m) /\ primitive (terms r) /\ (g < 0 -> length (terms p) = 1%nat).
Proof.
  intros P N. destruct (p_pp_ok dbg p P) as (r & g & E & C & V & G & Hd & F & Pr & Ng).
  exists r, g. split; [exact E|]. split; [apply comparable_same_ring; exact C|]. split; [exact V|]. split; [exact G|]. split; [exact F|].
  split; [destruct Pr; [congruence|assumption]|exact Ng].
Qed.
Lemma c15_isPp dbg p : valid_poly p -> terms p <> [] -> exists b, p_isPp dbg p = Ok b /\ (b = true <-> primitive (terms p)).
Proof.
  intros P N. destruct (p_isPp_ok dbg p P) as (b & E & H). exists b. split; [exact E|]. rewrite H. tauto.
Qed.

(** Normal forms. *)
Lemma c17_nf dbg G find p : pbo p <> OAlex -> valid_poly p -> good_find dbg (pto p) (pbo p) (psize p) G find ->
  exists N, forall fuel, (N <= fuel)%nat -> exists r k, p_nf fuel dbg find p = Ok (r, k) /\
    same_ring p r /\ valid_poly r /\ congruent (psize p) G (terms p) (terms r) /\
    (terms r = [] \/ exists m c l, terms r = (m, c) :: l /\ find m = Ok None).
Proof.
  intros O P F. assert (I : inring (pto p) (pbo p) (psize p) p) by (split; [|split]; reflexivity).
  destruct (nf_terminates dbg _ _ _ G find F O p P I) as (N & r & k & H). exists N. intros fuel L.
  exists r, k. assert (E := H fuel 0%nat L). cbn [Nat.add] in E. split; [exact E|].
  destruct (nf_partial dbg _ _ _ G find F fuel p 0%nat r k P I E) as (V & (I1 & I2 & I3) & Cg & D).
  split; [split; [|split]; congruence|]. split; [exact V|]. split; assumption.
Qed.

Lemma c17_nf_any dbg G find p fuel r k : valid_poly p -> good_find dbg (pto p) (pbo p) (psize p) G find ->
  p_nf fuel dbg find p = Ok (r, k) ->
  same_ring p r /\ valid_poly r /\ congruent (psize p) G (terms p) (terms r) /\
  (terms r = [] \/ exists m c l, terms r = (m, c) :: l /\ find m = Ok None).
Proof.
  intros P F E. assert (I : inring (pto p) (pbo p) (psize p) p) by (split; [|split]; reflexivity).
  destruct (nf_partial dbg _ _ _ G find F fuel p 0%nat r k P I E) as (V & (I1 & I2 & I3) & Cg & D).
  split; [split; [|split]; congruence|]. split; [exact V|]. split; assumption.
Qed.

Lemma with_same p : with_terms p (terms p) = p.
Proof. destruct p; reflexivity. Qed.

Lemma c17_nfTail dbg G find p : pbo p <> OAlex -> valid_poly p -> good_find dbg (pto p) (pbo p) (psize p) G find ->
  exists N, forall fuel, (N <= fuel)%nat -> exists r k, p_nfTail fuel dbg find p = Ok (r, k) /\
    same_ring p r /\ valid_poly r /\ congruent (psize p) G (terms p) (terms r) /\
    head (map fst (terms r)) = head (map fst (terms p)) /\
    Forall (fun x => find (fst x) = Ok None) (tl (terms r)).
Proof.
  intros O P F. assert (I : inring (pto p) (pbo p) (psize p) p) by (split; [|split]; reflexivity).
  unfold p_nfTail. destruct (terms p) as [|x l] eqn:Et.
  { exists 0%nat. intros fuel _. exists p, 0%nat. rewrite Et. split; [reflexivity|]. split; [apply same_ring_refl|]. split; [exact P|].
    split; [apply congruent_refl|]. split; [reflexivity|constructor]. }
  assert (P' : pvalid (with_terms p ([x] ++ l))) by (cbn [app]; rewrite <- Et, with_same; exact P).
  destruct (nft_terminates dbg _ _ _ G find F O p [x] l P' I) as (N & r & k & H). exists N. intros fuel L.
  exists r, k. assert (E := H fuel 0%nat L). cbn [Nat.add] in E. split; [exact E|].
  destruct (nft_partial dbg _ _ _ G find F fuel p [x] l 0%nat r k) as (V & (I1 & I2 & I3) & Cg & D & Hh); auto; [discriminate|constructor|].
  split; [split; [|split]; congruence|]. split; [exact V|]. split; [exact Cg|].
  unfold head_mon in Hh. destruct (terms r) as [|y r']; [discriminate|]. cbn [map hd_error fst tl passed] in *. split; [congruence|exact D].
Qed.

Lemma c17_full dbg G find p : pbo p <> OAlex -> valid_poly p -> good_find dbg (pto p) (pbo p) (psize p) G find ->
  exists N, forall fuel, (N <= fuel)%nat -> exists q j r k, p_nf fuel dbg find p = Ok (q, j) /\ p_nfTail fuel dbg find q = Ok (r, k) /\
    same_ring p r /\ valid_poly r /\ congruent (psize p) G (terms p) (terms r) /\
    Forall (fun x => find (fst x) = Ok None) (terms r).
Proof.
  intros O P F. assert (I : inring (pto p) (pbo p) (psize p) p) by (split; [|split]; reflexivity).
  destruct (nf_terminates dbg _ _ _ G find F O p P I) as (N & q & j & H).
  assert (E := H N 0%nat (le_n N)). cbn [Nat.add] in E.
  destruct (nf_partial dbg _ _ _ G find F N p 0%nat q j P I E) as (V & (I1 & I2 & I3) & Cg & D).
  destruct (c17_nfTail dbg G find q) as (N' & H').
  { congruence. } { exact V. } { rewrite I1, I2, I3. exact F. }
  exists (N + N')%nat. intros fuel L. destruct (H' fuel) as (r & k & E2 & (J1 & J2 & J3) & Vr & Cr & Hd & T); [lia|].
  exists q, j, r, k. split; [apply (H fuel 0%nat); lia|]. split; [exact E2|]. split; [split; [|split]; congruence|].
  split; [exact Vr|]. split; [eapply congruent_trans; [exact Cg|rewrite <- I1; exact Cr]|].
  destruct (terms r) as [|[m c] l]; [constructor|]. constructor; [|exact T]. cbn [fst]. cbn [map hd_error fst] in Hd.
  destruct D as [D|(m' & c' & l' & D & Fm)]; rewrite D in Hd; [discriminate Hd|]. cbn [map hd_error fst] in Hd. congruence.
Qed.

Lemma c17_isNf dbg G find p : valid_poly p -> good_find dbg (pto p) (pbo p) (psize p) G find ->
  exists b, p_isNf find p = Ok b /\ (b = true <-> Forall (fun x => find (fst x) = Ok None) (tl (terms p))).
Proof.
  intros P F. unfold p_isNf. apply canonical_iff in P as (_ & M & _). destruct (terms p) as [|x l].
  - exists true. split; [reflexivity|]. split; [constructor|reflexivity].
  - apply (isnf_ok dbg _ _ _ G find F). inversion M; assumption.
Qed.

(** With alex the loop need not end: x reduced by x - x^2. *)
Definition alex_red : poly := Poly TOP OAlex 1 [(Mon (-1) [1%nat], 1); (Mon (-1) [2%nat], -1)].
Definition alex_find (m : monom) : outcome (option poly) :=
  if gev (vars m) [1%nat] && (pos m =? -1) then Ok (Some alex_red) else Ok None.

Lemma alex_step dbg k : p_reduction dbg (Poly TOP OAlex 1 [(Mon (-1) [S k], 1)]) alex_red = Ok (Poly TOP OAlex 1 [(Mon (-1) [S (S k)], 1)]).
Proof.
  unfold p_reduction. rewrite assert_true by reflexivity. cbn [terms alex_red].
  unfold red_factors. assert (D : divisiable (Mon (-1) [S k]) (Mon (-1) [1%nat]) = true) by reflexivity. rewrite D.
  rewrite andb_false_r. cbn [gev vars Nat.leb negb]. unfold int_gcd. rewrite assert_true by reflexivity. cbn [bind].
  change (Z.gcd 1 1) with 1. unfold int_div. cbn [Z.eqb]. cbn [Z.modulo Z.div_eucl]. cbn.
  assert (Q : mul (Mon (-1) [2%nat]) (div (Mon (-1) [S k]) (Mon (-1) [1%nat])) = Mon (-1) [S (S k)]).
  { unfold mul, div. cbn [pos vars addv subv]. f_equal. f_equal. lia. }
  destruct dbg; cbn [mul_ assert_ andb negb orb pos Z.eqb Pos.eqb bind checked assertValid terms with_terms valid_terms valid_from div]; rewrite Q; reflexivity.
Qed.

Lemma c17_alex_diverges dbg fuel : forall k r0, nf_loop fuel dbg alex_find r0 (Poly TOP OAlex 1 [(Mon (-1) [S k], 1)]) = OutOfFuel.
Proof.
  induction fuel as [|fuel IH]; intros k r0; cbn [nf_loop terms]; unfold alex_find at 1; cbn [gev vars Nat.leb pos andb Z.eqb Pos.eqb bind]; [reflexivity|].
  rewrite alex_step. cbn [bind]. apply IH.
Qed.

(** Module components. *)
Lemma c41_refuted : exists f a r, valid_poly f /\ valid_poly a /\ same_ring f a /\ (forall m c l v d l', terms f = (m, c) :: l -> terms a = (v, d) :: l' -> mdivides v m) /\
  p_reduction false f a = Ok r /\
  forall k1 k2 u, k1 <> 0 -> length u = 1%nat -> ~ (forall w, coef (terms r) w = k1 * coef (terms f) w - k2 * coef (shift u (terms a)) w).
Proof.
  exists (Poly POT OLex 1 [(Mon 1 [1%nat], 1)]), (Poly POT OLex 1 [(Mon 1 [1%nat], 1); (Mon 0 [0%nat], 1)]), (Poly POT OLex 1 [(Mon 1 [0%nat], -1)]).
  split; [|split; [|split; [|split; [|split]]]].
  - apply canonical_iff. split; [repeat constructor|]. split; constructor; try constructor; cbn; try reflexivity; lia.
  - apply canonical_iff. split; [repeat constructor|]. split; repeat constructor; cbn; try reflexivity; try lia; discriminate.
  - split; [|split]; reflexivity.
  - intros m c l v d l' E1 E2. injection E1 as <- <- <-. injection E2 as <- <- <-. split; [right; reflexivity|]. split; [reflexivity|intro i; cbn [vars]; apply le_n].
  - reflexivity.
  - intros k1 k2 u K L H. destruct u as [|x [|y u]]; try discriminate L.
    assert (A := H (Mon 0 [x])). assert (B := H (Mon 1 [0%nat])). cbn [terms] in *. unfold shift in A, B. cbn [map fst snd] in A, B.
    unfold mprod, vsum in A, B. cbn [pos vars combine map fst snd Z.eqb Pos.eqb] in A, B.
    rewrite Nat.add_0_r in A. cbn [coef] in A, B.
    destruct (monom_eq_dec (Mon 0 [x]) (Mon 0 [x])); [|congruence].
    destruct (monom_eq_dec (Mon 1 [0%nat]) (Mon 0 [x])); [discriminate|].
    destruct (monom_eq_dec (Mon 1 [1%nat]) (Mon 0 [x])); [discriminate|].
    destruct (monom_eq_dec (Mon 1 [(x + 1)%nat]) (Mon 0 [x])); [discriminate|].
    destruct (monom_eq_dec (Mon 1 [0%nat]) (Mon 1 [0%nat])); [|congruence].
    destruct (monom_eq_dec (Mon 1 [1%nat]) (Mon 1 [0%nat])); [discriminate|].
    destruct (monom_eq_dec (Mon 1 [(x + 1)%nat]) (Mon 1 [0%nat])) as [X|X]; [injection X; lia|]. 
    destruct (monom_eq_dec (Mon 0 [(x + 0)%nat]) (Mon 1 [0%nat])) as [X'|X']; [discriminate X'|].
    cbn [Z.add] in B. rewrite !Z.mul_0_r in B. discriminate B.
Qed.

Lemma c41_debug_refuted : exists f a, valid_poly f /\ valid_poly a /\ same_ring f a /\
  (forall m c l v d l', terms f = (m, c) :: l -> terms a = (v, d) :: l' -> mdivides v m) /\
  in_component 0 (terms f) /\ in_component 0 (terms a) /\ p_reduction true f a = AssertFail.
Proof.
  exists (Poly POT OLex 1 [(Mon 0 [1%nat], 1)]), (Poly POT OLex 1 [(Mon 0 [1%nat], 1); (Mon 0 [0%nat], 1)]).
  split; [|split; [|split; [|split; [|split; [|split]]]]].
  - apply canonical_iff. split; [repeat constructor|]. split; constructor; try constructor; cbn; try reflexivity; lia.
  - apply canonical_iff. split; [repeat constructor|]. split; repeat constructor; cbn; try reflexivity; try lia; discriminate.
  - split; [|split]; reflexivity.
  - intros m c l v d l' E1 E2. injection E1 as <- <- <-. injection E2 as <- <- <-. split; [right; reflexivity|]. split; [reflexivity|intro i; cbn [vars]; apply le_n].
  - repeat constructor.
  - repeat constructor.
  - reflexivity.
Qed.

(** A ring polynomial as reducer of a module element: equal terms are not combined. *)
Lemma c41_ring_reducer_refuted : exists f a r, valid_poly f /\ valid_poly a /\ same_ring f a /\ in_component 0 (terms f) /\ ring_poly (terms a) /\
  (forall m c l v d l', terms f = (m, c) :: l -> terms a = (v, d) :: l' -> mdivides v m) /\
  p_reduction false f a = Ok r /\ ~ valid_poly r /\ p_reduction true f a = AssertFail.
Proof.
  exists (Poly TOP OLex 1 [(Mon 0 [1%nat], 1); (Mon 0 [0%nat], 1)]), (Poly TOP OLex 1 [(Mon (-1) [1%nat], 1); (Mon (-1) [0%nat], 1)]),
    (Poly TOP OLex 1 [(Mon 0 [0%nat], 1); (Mon 0 [0%nat], -1)]).
  split; [|split; [|split; [|split; [|split; [|split; [|split; [|split]]]]]]].
  - apply canonical_iff. split; [repeat constructor|]. split; repeat constructor; cbn; try reflexivity; try lia; discriminate.
  - apply canonical_iff. split; [repeat constructor|]. split; repeat constructor; cbn; try reflexivity; try lia; discriminate.
  - split; [|split]; reflexivity.
  - repeat constructor.
  - repeat constructor.
  - intros m c l v d l' E1 E2. injection E1 as <- <- <-. injection E2 as <- <- <-. split; [left; reflexivity|]. split; [reflexivity|intro i; cbn [vars]; apply le_n].
  - reflexivity.
  - intro V. apply canonical_valid in V. vm_compute in V. discriminate V.
  - reflexivity.
Qed.

(** Memory. *)
Lemma c42_mult dbg p a r : p_mult dbg p a = Ok r -> ~ (length (terms a) = 1%nat /\ (1 < length (terms p))%nat) ->
  let c := mult_mem (pto p) (pbo p) (terms p) (terms a) in
  res c = terms r /\ (length (terms p) + taken c = length (terms r) + given c)%nat.
Proof.
  unfold p_mult, assert_. destruct (dbg && negb (comparable p a)); [discriminate|].
  destruct (mult_terms dbg (pto p) (pbo p) (terms p) (terms a)) as [l| | | |] eqn:E; cbn [bind]; try discriminate.
  unfold checked, assert_. destruct (dbg && _); [discriminate|]. intro H. injection H as <-. intro N. cbn zeta. cbn [terms with_terms].
  assert (R := mult_mem_res dbg _ _ _ _ _ E). split; [exact R|]. rewrite <- R. apply mult_mem_ok. exact N.
Qed.
Lemma c42_refuted : exists p a r, valid_poly p /\ valid_poly a /\ same_ring p a /\ p_mult true p a = Ok r /\
  res (mult_mem (pto p) (pbo p) (terms p) (terms a)) = terms r /\
  (length (terms p) + taken (mult_mem (pto p) (pbo p) (terms p) (terms a)) >
   length (terms r) + given (mult_mem (pto p) (pbo p) (terms p) (terms a)))%nat.
Proof.
  exists (Poly TOP OLex 1 [(Mon (-1) [1%nat], 1); (Mon (-1) [0%nat], 1)]), (px OLex), (Poly TOP OLex 1 [(Mon (-1) [2%nat], 1); (Mon (-1) [1%nat], 1)]).
  split; [|split; [|split; [|split; [|split]]]]; try reflexivity.
  - apply canonical_iff. split; [repeat constructor|]. split; repeat constructor; cbn; try reflexivity; try lia; discriminate.
  - apply px_valid.
  - split; [|split]; reflexivity.
  - cbn. lia.
Qed.

Lemma c42_call dbg p c r : mem_call dbg p c r -> res c = terms r /\ (length (terms p) + taken c = length (terms r) + given c)%nat.
Proof.
  assert (K : forall c l0 l, balanced c l0 l -> res c = l /\ (length l0 + taken c = length l + given c)%nat) by (intros c0 l0 l [E L]; rewrite <- E; auto).
  intros [a r' E|a r' E|k m d l r' Ep E|k m d l r' Ep E|k r' E|a r' E N|a|a c' r' E Ec|a c' r' E Ec].
  - unfold p_add, checked, assert_ in E. destruct (dbg && _); [discriminate|]. destruct (dbg && _); [discriminate|]. injection E as <-. apply K, add_mem_ok.
  - unfold p_sub, checked, assert_ in E. destruct (dbg && _); [discriminate|]. destruct (dbg && _); [discriminate|]. injection E as <-. apply K, sub_mem_ok.
  - unfold p_add_const in E. rewrite Ep in E. unfold checked, assert_ in E. destruct (dbg && _); [discriminate|]. injection E as <-. rewrite Ep. apply K, add_const_mem_ok.
  - unfold p_sub_const in E. rewrite Ep in E. unfold checked, assert_ in E. destruct (dbg && _); [discriminate|]. injection E as <-. rewrite Ep. apply K, sub_const_mem_ok.
  - eapply K, mult_const_mem_ok. exact E.
  - exact (c42_mult dbg p a r' E N).
  - apply K, assign_mem_ok.
  - destruct (reduction_mem_ok _ _ _ _ E) as (x & Ex & B). rewrite Ec in Ex. injection Ex as <-. apply K, B.
  - assert (Na : terms a <> []).
    { intro Z. unfold redMaybe_mem in Ec. rewrite Z in Ec. destruct dbg; discriminate. }
    destruct (redMaybe_mem_ok _ _ _ _ E Na) as (x & Ex & B). rewrite Ec in Ex. injection Ex as <-. apply K, B.
Qed.
Lemma c42_run dbg p k g r : mem_run dbg p k g r -> (length (terms p) + k = length (terms r) + g)%nat.
Proof. induction 1 as [p|p c q k g r C R IH]; [lia|]. apply c42_call in C as [_ C]. lia. Qed.
Lemma c42_life dbg p k g r : terms p = [] -> mem_run dbg p k g r -> k = (g + given (clear_mem (terms r)))%nat.
Proof. intros E R. apply c42_run in R. rewrite E in R. cbn [clear_mem given length] in *. lia. Qed.
Lemma c42_reduction dbg p a r : p_reduction dbg p a = Ok r ->
  exists c, reduction_mem dbg p a = Ok c /\ res c = terms r /\ (length (terms p) + taken c = length (terms r) + given c)%nat.
Proof. intro E. destruct (reduction_mem_ok _ _ _ _ E) as (c & Ec & R & L). exists c. rewrite <- R. auto. Qed.
Lemma c42_redMaybe dbg p a r : p_redMaybe dbg p a = Ok r -> terms a <> [] ->
  exists c, redMaybe_mem dbg p a = Ok c /\ res c = terms r /\ (length (terms p) + taken c = length (terms r) + given c)%nat.
Proof. intros E N. destruct (redMaybe_mem_ok _ _ _ _ E N) as (c & Ec & R & L). exists c. rewrite <- R. auto. Qed.

Lemma c09_operation dbg p r : valid_poly p -> operation dbg p r -> exists q, r = Ok q /\ valid_poly q /\ same_ring p q.
Proof.
  intros P [ | |a A C|a A C|c N O Z|c N O Z|c|a A C M|k R|k K| |a m c l v d l' A C E1 E2 D Rd|a A C N1 N2 R1 R2].
  - exists p. split; [|split; [exact P|apply same_ring_refl]]. unfold p_copy. rewrite map_id, with_same. apply checked_ok. exact P.
  - destruct (c10_minus dbg p P) as (q & E & S & V & _). exists q. auto.
  - destruct (c10_add dbg p a P A C) as (q & E & S & V & _). exists q. auto.
  - destruct (c10_sub dbg p a P A C) as (q & E & S & V & _). exists q. auto.
  - destruct (c13_add dbg p c P N O Z) as (q & E & S & V & _). exists q. auto.
  - destruct (c13_sub dbg p c P N O Z) as (q & E & S & V & _). exists q. auto.
  - destruct (c10_scale dbg p c P) as (q & E & S & V & _). exists q. auto.
  - destruct (c11_mult dbg p a P A C M) as (q & E & S & V & _). exists q. auto.
  - destruct k as [|k].
    + exists (with_terms p []). split; [reflexivity|]. split; [split; [constructor|split; constructor]|apply same_ring_with].
    + destruct (c12_pow dbg p (S k) P) as (q & E & S & V & _); [lia|destruct R; [left; assumption|right; lia]|]. exists q. auto.
  - destruct (c09_mul_var dbg k p P K) as (q & E & S & V & _). exists q. auto.
  - destruct (p_pp_ok dbg p P) as (q & g & E & S & V & _). exists q. split; [exact E|]. split; [exact V|apply comparable_same_ring; exact S].
  - destruct (c14 dbg p a m c l v d l' P A C E1 E2 D Rd) as (q & k1 & k2 & u & E & S & V & _). exists q. auto.
  - destruct (terms a) as [|[v d] a'] eqn:Ea; [congruence|]. rewrite <- Ea in *.
    destruct (c16_redMaybe dbg p a v d a' P A C N1 Ea R1 R2) as (q & k1 & k2 & E & S & V & _). exists q. auto.
Qed.

Lemma c09_history dbg p r : valid_poly p -> history dbg p r -> exists q, r = Ok q /\ valid_poly q /\ same_ring p q.
Proof.
  intros P H. induction H as [|q r H IH O].
  - exists p. split; [reflexivity|]. split; [exact P|apply same_ring_refl].
  - destruct IH as (q' & E & V & S). injection E as <-. destruct (c09_operation dbg q r V O) as (r' & E & V' & S').
    exists r'. split; [exact E|]. split; [exact V'|]. destruct S as (?&?&?), S' as (?&?&?). split; [|split]; congruence.
Qed.

Lemma c41_partial f a m c f' v d a' : valid_poly f -> valid_poly a -> same_ring f a ->
  terms f = (m, c) :: f' -> terms a = (v, d) :: a' -> mdivides v m -> in_component (pos m) (terms a) ->
  exists r k1 k2 u, p_reduction false f a = Ok r /\ valid_poly r /\ k1 <> 0 /\ length u = psize f /\ mprod (Mon (-1) u) v = m /\
    (forall w, coef (terms r) w = k1 * coef (terms f) w - k2 * coef (shift u (terms a)) w).
Proof.
  intros P A C E1 E2 D I. destruct (c14 false f a m c f' v d a' P A C E1 E2 D) as (r & k1 & k2 & u & E & S & V & K & G & L & Hu & F & _).
  { split; [exact I|discriminate]. }
  exists r, k1, k2, u. split; [exact E|]. split; [exact V|]. split; [exact K|]. split; [exact L|]. split; assumption.
Qed.

Definition C17_G : poly := Poly TOP ODegLex 1 [(Mon (-1) [2%nat], 2); (Mon (-1) [1%nat], -1)].
Definition C17_find (m : monom) : outcome (option poly) := if divisiable m (Mon (-1) [2%nat]) && (pos m =? -1) then Ok (Some C17_G) else Ok None.
Lemma C17_ex_proof : good_find true TOP ODegLex 1 (fun g => g = terms C17_G) C17_find /\
  p_nf 5 true C17_find (Poly TOP ODegLex 1 [(Mon (-1) [4%nat], 1); (Mon (-1) [0%nat], 1)]) =
    Ok (Poly TOP ODegLex 1 [(Mon (-1) [1%nat], 1); (Mon (-1) [0%nat], 8)], 3%nat).
Proof.
  split; [|reflexivity]. intros m Hm. unfold C17_find. destruct (divisiable m (Mon (-1) [2%nat]) && (pos m =? -1)) eqn:E.
  - exists (Some C17_G). split; [reflexivity|]. intros a Ha. injection Ha as <-.
    apply andb_true_iff in E. destruct E as [E P]. apply Z.eqb_eq in P.
    split; [|split; [reflexivity|split; [reflexivity|split; [reflexivity|split; [reflexivity|split]]]]].
    + apply PolyProofs.canonical_iff. split; [repeat constructor|]. split; repeat constructor; cbn; try reflexivity; try lia; discriminate.
    + split; [rewrite P; repeat constructor|left; exact P].
    + eexists _, _, _. split; [reflexivity|]. apply (PolyRedProofs.divisiable_mdivides 1); [exact Hm|split; [reflexivity|cbn; lia]|exact E].
  - exists None. split; [reflexivity|discriminate].
Qed.

