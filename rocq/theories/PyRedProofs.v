(** Proofs about PyPolyModel.v: powers, products with a term, reductions, primitive parts, normal forms. *)
From Coq Require Import ZArith List Bool Arith Lia Sorted Znumtheory Wellfounded.
From Verif Require Import Outcome MonomModel MonomSpec MonomProofs PolyModel PolySpec PolyProofs PolyRedProofs PolyNfProofs
  PyMonomModel PyMonomSpec PyMonomProofs PyPolyModel PyPolySpec PyPolyProofs.
Import ListNotations.
Local Open Scope Z_scope.

Lemma skipn_mid {X} (A : list X) x B : skipn (S (length A)) (A ++ x :: B) = B.
Proof. rewrite skipn_app, skipn_all2 by lia. replace (S (length A) - length A)%nat with 1%nat by lia. reflexivity. Qed.
Lemma firstn_mid {X} (A : list X) B : firstn (length A) (A ++ B) = A.
Proof. rewrite firstn_app, firstn_all, Nat.sub_diag. cbn. apply app_nil_r. Qed.

Section PyRed.
Variables (o : py_order) (n : nat) (k : Z).
Local Notation pgt := (pgt o).
Local Notation pmonos := (pmonos n k).
Local Notation psorted := (psorted o).
Local Notation pbelow := (pbelow o).

(* ---------------------------------------------------------------- times an integer, powers *)

Lemma ring_compatible p q : ring_poly p \/ ring_poly q -> compatible p q.
Proof.
  unfold ring_poly. intros H x y X Y. destruct H as [H|H]; rewrite Forall_forall in H; [left|right]; auto.
Qed.

Lemma py_of_int_ring c : ring_poly (py_of_int n c).
Proof. unfold py_of_int. destruct (c =? 0); repeat constructor. Qed.

Lemma py_times_int_yields p c : 0 <= k -> py_canonical o n k p ->
  py_yields o n k (py_times_int o n p c) (fun m => c * coef p m).
Proof.
  intros K P. unfold py_times_int. destruct (Z.eqb_spec c 1) as [->|].
  - exists p. split; [reflexivity|]. split; [exact P|]. intro m. lia.
  - destruct (py_times_yields o n k p (py_of_int n c) P (py_of_int_canonical o n k c K)) as (r & E & C & H);
      [apply ring_compatible; right; apply py_of_int_ring|].
    exists r. split; [exact E|]. split; [exact C|]. intro m. rewrite H, prod_coef_sumc, coef_sumc.
    apply py_canonical_iff in P as (_ & M & _). unfold py_of_int. destruct (Z.eqb_spec c 0) as [->|].
    + cbn [sumc]. rewrite sumc_zero. lia.
    + cbn [sumc]. rewrite <- sumc_mul. apply sumc_ext. intros x X. unfold PyPolyProofs.pmonos in M. rewrite Forall_forall in M.
      destruct (M x X) as [Mx _]. rewrite Z.add_0_r. f_equal. f_equal.
      rewrite (mprod_comm n); [apply (mprod_unit n); exact Mx|exact Mx|split; [apply repeat_length|cbn; lia]|right; reflexivity].
Qed.

Lemma pmonos_monos l : pmonos l -> monos n l.
Proof. intro H. eapply Forall_impl; [|exact H]. intros x X. apply X. Qed.

Lemma power_loop_ok p : py_canonical o n k p -> ring_poly p -> forall j i r, py_canonical o n k r -> is_power n p i r ->
  exists r', py_power_loop o p j r = Ok r' /\ py_canonical o n k r' /\ is_power n p (i + j) r'.
Proof.
  intros P R. induction j as [|j IH]; intros i r C W; cbn [py_power_loop].
  - exists r. rewrite Nat.add_0_r. auto.
  - destruct (py_times_yields o n k r p C P (ring_compatible _ _ (or_intror R))) as (q & -> & Cq & H). cbn [bind].
    destruct (IH (S i) q Cq) as (r' & H'); [econstructor; eauto|]. exists r'. now replace (i + S j)%nat with (S i + j)%nat by lia.
Qed.

Lemma py_power_ok p j : 0 <= k -> py_canonical o n k p -> ring_poly p \/ (j <= 1)%nat ->
  exists r, py_power o n p (Z.of_nat j) = Ok r /\ py_canonical o n k r /\ is_power n p j r.
Proof.
  intros K P R. unfold py_power, assert_. destruct (Z.leb_spec 0 (Z.of_nat j)); [|lia]. cbn [andb negb].
  destruct (Z.eqb_spec (Z.of_nat j) 0) as [E|E].
  - assert (j = O) by lia. subst j. exists (py_of_int n 1). split; [reflexivity|]. split; [apply py_of_int_canonical, K|].
    apply power_0. reflexivity.
  - assert (W : is_power n p 1 p).
    { econstructor; [apply power_0; reflexivity|]. intro m. symmetry. apply prod_one. apply pmonos_monos.
      apply py_canonical_iff in P. tauto. }
    rewrite Nat2Z.id. destruct j as [|[|j]]; [lia| |].
    + exists p. auto.
    + destruct R as [R|R]; [|lia]. destruct (power_loop_ok p P R (S j) 1 p P W) as (r & H'). exists r. exact H'.
Qed.

(* ---------------------------------------------------------------- maps of terms *)

Lemma map_canonical (g : monom -> monom) c p : c <> 0 -> py_canonical o n k p ->
  (forall x, In x p -> pmono n k (g (fst x))) -> (forall x y, In x p -> In y p -> pgt (fst x) (fst y) -> pgt (g (fst x)) (g (fst y))) ->
  py_canonical o n k (map (fun x => (g (fst x), c * snd x)) p).
Proof.
  intros Nc C. apply py_canonical_iff in C as (S & M & N). intros G Mon. apply py_canonical_iff. split; [|split].
  - clear N G. induction p as [|x p IH]; [constructor|]. apply psorted_cons in S as [B S]. inversion M; subst. cbn [map].
    apply psorted_cons. split.
    + cbn [fst]. unfold PyPolyProofs.pbelow in *. rewrite Forall_forall in *. intros y Y. apply in_map_iff in Y as (z & <- & Z).
      cbn [fst]. apply Mon; [now left|now right|auto].
    + apply IH; auto. intros y z Y Z. apply Mon; now right.
  - apply Forall_forall. intros y Y. apply in_map_iff in Y as (x & <- & X). cbn [fst]. apply G, X.
  - apply Forall_forall. intros y Y. apply in_map_iff in Y as (x & <- & X). cbn [snd]. unfold nz in N. rewrite Forall_forall in N.
    specialize (N x X). nia.
Qed.

Lemma map_sumc f (g : monom -> monom) c p : sumc f (map (fun x => (g (fst x), c * snd x)) p) = c * sumc (fun m => f (g m)) p.
Proof. induction p as [|[m d] p IH]; cbn [map sumc fst snd]; [lia|]. rewrite IH. lia. Qed.

Lemma map_terms_ok f (g : monom -> monom) c p : (forall x, In x p -> f (fst x) = Ok (g (fst x))) ->
  py_map_terms f c p = Ok (map (fun x => (g (fst x), c * snd x)) p).
Proof.
  induction p as [|[m d] p IH]; intro H; [reflexivity|]. cbn [py_map_terms].
  assert (E := H (m, d) (or_introl eq_refl)). cbn [fst] in E. rewrite E. cbn [bind fst]. rewrite IH; [reflexivity|]. intros x X. apply H. now right.
Qed.

Lemma psorted_recoef (h : pterm -> Z) l : psorted l -> psorted (map (fun x => (fst x, h x)) l).
Proof.
  induction l as [|x l IH]; intro S; [constructor|]. apply psorted_cons in S as [B S]. cbn [map]. apply psorted_cons. split; [|auto].
  cbn [fst]. unfold PyPolyProofs.pbelow in *. rewrite Forall_map. exact B.
Qed.

(** Multiplication by a monomial keeps the order. *)
Lemma pgt_mprod m a b : pmono n k m -> pmono n k a -> pmono n k b -> (pos m = -1 \/ (pos a = -1 /\ pos b = -1)) ->
  pgt a b -> pgt (mprod m a) (mprod m b).
Proof.
  intros M A B P G. assert (Pa : pos a = -1 \/ pos m = -1) by tauto. assert (Pb : pos b = -1 \/ pos m = -1) by tauto.
  destruct (pmono_mul n k a m A M Pa) as (a' & Ea & _ & Fa). destruct (pmono_mul n k b m B M Pb) as (b' & Eb & _ & Fb).
  rewrite (mprod_comm n m a), (mprod_comm n m b), <- Fa, <- Fb; try apply M; try apply A; try apply B; try tauto.
  unfold PyPolyProofs.pgt. rewrite (py_cmp_mul o n a b m a' b'); try assumption; [apply A|apply B|apply M].
Qed.

Lemma py_mult_yields p m c : py_canonical o n k p -> pmono n k m -> c <> 0 -> pos m = -1 \/ ring_poly p ->
  py_yields o n k (py_mult o p m c) (prod_coef [(m, c)] p).
Proof.
  intros P M N R. unfold py_mult, assert_. destruct (Z.eqb_spec c 0); [contradiction|]. cbn [andb negb].
  pose proof P as P'. apply py_canonical_iff in P' as (_ & Mp & _). unfold PyPolyProofs.pmonos in Mp. rewrite Forall_forall in Mp.
  assert (R' : forall x, In x p -> pos m = -1 \/ pos (fst x) = -1).
  { intros x X. destruct R as [R|R]; [now left|right]. unfold ring_poly in R. rewrite Forall_forall in R. auto. }
  rewrite (map_terms_ok _ (mprod m)).
  2:{ intros x X. destruct (pmono_mul n k m (fst x) M (Mp x X) (R' x X)) as (v & -> & _ & ->). reflexivity. }
  cbn [bind]. assert (C : py_canonical o n k (map (fun x => (mprod m (fst x), c * snd x)) p)).
  { apply map_canonical; auto.
    - intros x X. destruct (pmono_mul n k m (fst x) M (Mp x X) (R' x X)) as (v & _ & V & <-). exact V.
    - intros x y X Y G. apply pgt_mprod; auto. destruct (R' x X), (R' y Y); auto. }
  eexists. split; [apply (py_checked_ok o n k); exact C|]. split; [exact C|]. intro x. rewrite coef_sumc, map_sumc, prod_coef_sumc. cbn [sumc].
  rewrite Z.add_0_r. reflexivity.
Qed.

Lemma py_prolong_yields p v : 0 <= k -> py_canonical o n k p -> (v < n)%nat ->
  py_yields o n k (py_prolong_poly o p v) (prod_coef [(Mon (-1) (incr v (repeat 0%nat n)), 1)] p).
Proof.
  intros K P V. set (m := Mon (-1) (incr v (repeat 0%nat n))).
  assert (M : pmono n k m) by (split; [split; [cbn; now rewrite incr_length, repeat_length|cbn; lia]|cbn; lia]).
  pose proof P as P'. apply py_canonical_iff in P' as (_ & Mp & _). unfold PyPolyProofs.pmonos in Mp. rewrite Forall_forall in Mp.
  assert (E : py_prolong_poly o p v = py_mult o p m 1).
  { unfold py_prolong_poly, py_mult, assert_. cbn [Z.eqb negb andb].
    rewrite (map_terms_ok (fun m0 => py_prolong m0 v) (mprod m)), (map_terms_ok (fun m2 => py_mul m m2) (mprod m)); [reflexivity|..].
    - intros x X. destruct (pmono_mul n k m (fst x) M (Mp x X) (or_introl eq_refl)) as (w & -> & _ & ->). reflexivity.
    - intros x X. destruct (Mp x X) as [Mx _]. rewrite (py_prolong_ok n) by assumption. f_equal. rewrite (mul_var_mul n) by assumption.
      rewrite (mprod_comm n m) by (try apply M; try apply Mx; now left). unfold mprod, mul, var_monom, m. cbn [pos vars].
      destruct Mx as [L Px]. rewrite vsum_addv. reflexivity. }
  rewrite E. apply py_mult_yields; auto. lia.
Qed.

(* ---------------------------------------------------------------- pp *)

Lemma content_ok p : forall g, g <> 0 -> nz p ->
  match py_content g p with
  | None => forall d, (d | g) -> cdivs d p -> d = 1 \/ d = -1
  | Some g' => g' <> 0 /\ (g' | g) /\ cdivs g' p /\ (forall d, (d | g) -> cdivs d p -> (d | g')) /\ (p <> [] -> 0 < g')
  end.
Proof.
  induction p as [|[m c] p IH]; intros g Hg N; cbn [py_content].
  - repeat split; auto; [apply Z.divide_refl|constructor|congruence].
  - inversion N as [|? ? Nc Np]; subst. cbn [snd] in Nc. destruct (Z.eqb_spec g 1) as [->|G1].
    + intros d D _. apply Z.divide_1_r in D. lia.
    + assert (G : Z.gcd g c <> 0) by (intro E; apply Z.gcd_eq_0_l in E; contradiction). specialize (IH _ G Np).
      assert (Gp := Z.gcd_nonneg g c).
      destruct (py_content (Z.gcd g c) p) as [g'|] eqn:E.
      * destruct IH as (A & B & C & D & F). split; [exact A|]. split; [eapply Z.divide_trans; [exact B|apply Z.gcd_divide_l]|].
        split; [constructor; [cbn; eapply Z.divide_trans; [exact B|apply Z.gcd_divide_r]|exact C]|].
        split; [intros d H1 H2; inversion H2; subst; apply D; [apply Z.gcd_greatest; assumption|assumption]|].
        intros _. destruct p as [|y p]; [cbn in E; injection E as <-; lia|apply F; discriminate].
      * intros d H1 H2. inversion H2; subst. apply IH; [apply Z.gcd_greatest; assumption|assumption].
Qed.

Lemma py_primitive_list l : py_canonical o n k l -> (primitive l <-> forall d, cdivs d l -> d = 1 \/ d = -1).
Proof.
  intro C. apply py_canonical_iff in C as (S & M & N). unfold primitive. split; intros H d D; apply H.
  - intro m. clear S M N H. induction l as [|[u c] l IH]; [apply Z.divide_0_r|]. apply Forall_cons_iff in D as [Dc D]. cbn [coef].
    apply Z.divide_add_r; [|apply IH; exact D]. destruct (monom_eq_dec u m); [exact Dc|apply Z.divide_0_r].
  - apply Forall_forall. intros [u c] X. cbn [snd]. rewrite <- (pcoef_in o n k u c l S M X). apply D.
Qed.

Lemma py_pp_ok p : py_canonical o n k p -> p <> [] ->
  exists r g, py_pp o p = Ok r /\ py_canonical o n k r /\ g <> 0 /\ (forall m, coef p m = g * coef r m) /\
    primitive r /\ (g < 0 -> length p = 1%nat).
Proof.
  intros C Np. destruct p as [|[u c] p]; [congruence|]. unfold py_pp. pose proof C as C'. apply py_canonical_iff in C' as (S & M & N).
  inversion N as [|? ? Nc Nz]; subst. cbn [snd] in Nc. assert (H := content_ok p c Nc Nz).
  destruct (py_content c p) as [g|] eqn:E.
  - destruct H as (G & D1 & D2 & D3 & D4). assert (D : cdivs g ((u, c) :: p)) by (constructor; assumption).
    set (l := (u, c) :: p) in *. set (r := map (fun x => (fst x, snd x / g)) l).
    assert (X : forall x, In x l -> snd x = g * (snd x / g)).
    { intros x X. unfold cdivs in D. rewrite Forall_forall in D. apply Z_div_exact_full_2; [exact G|]. apply Z.mod_divide; auto. }
    assert (R : py_canonical o n k r).
    { apply py_canonical_iff. unfold r. split; [|split].
      - apply psorted_recoef. exact S.
      - unfold PyPolyProofs.pmonos. rewrite Forall_map. exact M.
      - unfold nz. rewrite Forall_map. unfold nz in N. rewrite Forall_forall in *. intros x I. cbn [snd]. specialize (N x I). specialize (X x I). nia. }
    exists r, g. split; [apply (py_checked_ok o n k); exact R|]. split; [exact R|]. split; [exact G|].
    assert (Co : forall m, coef l m = g * coef r m).
    { intro m. unfold r. clear -X. clearbody l. induction l as [|[v d] l IH]; [cbn; lia|]. cbn [map coef fst snd]. rewrite IH by (intros x I; apply X; now right).
      assert (Y := X (v, d) (or_introl eq_refl)). cbn [snd] in Y. destruct (monom_eq_dec v m); lia. }
    split; [exact Co|]. split.
    + apply py_primitive_list; [exact R|]. intros d Dd.
      assert (Y : (g * d | g)).
      { assert (W : cdivs (g * d) l).
        { unfold cdivs in *. rewrite Forall_forall in *. intros x I. rewrite (X x I). apply Z.mul_divide_mono_l.
          apply (Dd (fst x, snd x / g)). unfold r. apply in_map_iff. exists x. auto. }
        inversion W; subst. apply D3; assumption. }
      destruct Y as [e Y]. assert (e * d = 1) by nia. apply Z.mul_eq_1 in H. nia.
    + intro Ng. destruct p; [reflexivity|]. specialize (D4 ltac:(discriminate)). lia.
  - exists ((u, c) :: p), 1. split; [reflexivity|]. split; [exact C|]. split; [lia|]. split; [intro m; rewrite Z.mul_1_l; reflexivity|]. split; [|lia].
    apply py_primitive_list; [exact C|]. intros d D. inversion D; subst. apply H; assumption.
Qed.

(* ---------------------------------------------------------------- reduction *)

Definition scaled (c : Z) (p : ppoly) : ppoly := map (fun x => (fst x, snd x * c)) p.
Definition moved (m : monom) (c : Z) (p : ppoly) : ppoly := map (fun x => (mprod m (fst x), c * snd x)) p.

Lemma scaled_moved c p : pmonos p -> scaled c p = moved (py_unit n) c p.
Proof.
  unfold scaled, moved. intro M. apply map_ext_in. intros [x d] X. cbn [fst snd]. f_equal; [|lia].
  symmetry. apply (mprod_unit n). unfold PyPolyProofs.pmonos in M. rewrite Forall_forall in M. apply (M _ X).
Qed.

Lemma moved_canonical m c p : pmono n k m -> pos m = -1 -> c <> 0 -> py_canonical o n k p -> py_canonical o n k (moved m c p).
Proof.
  intros M P N C. pose proof C as C'. apply py_canonical_iff in C' as (_ & Mp & _). unfold PyPolyProofs.pmonos in Mp. rewrite Forall_forall in Mp.
  apply map_canonical; auto.
  - intros x X. destruct (pmono_mul n k m (fst x) M (Mp x X) (or_introl P)) as (v & _ & V & <-). exact V.
  - intros x y X Y G. apply pgt_mprod; auto.
Qed.

Lemma scaled_canonical c p : c <> 0 -> py_canonical o n k p -> py_canonical o n k (scaled c p).
Proof.
  intros N C. pose proof C as C'. apply py_canonical_iff in C' as (S & M & Z). apply py_canonical_iff. unfold scaled. split; [|split].
  - clear -S. induction p as [|x l IH]; [constructor|]. apply psorted_cons in S as [B S]. cbn [map]. apply psorted_cons. split; [|auto].
    cbn [fst]. unfold PyPolyProofs.pbelow in *. rewrite Forall_map. exact B.
  - unfold PyPolyProofs.pmonos. rewrite Forall_map. exact M.
  - unfold nz in *. rewrite Forall_map. eapply Forall_impl; [|exact Z]. cbn. intros. nia.
Qed.
Lemma scaled_sumc f c p : sumc f (scaled c p) = c * sumc f p.
Proof. unfold scaled. induction p as [|[m d] p IH]; cbn [map sumc fst snd]; [lia|]. rewrite IH. lia. Qed.
Lemma scaled_below m c p : pbelow m p -> pbelow m (scaled c p).
Proof. intro H. unfold PyPolyProofs.pbelow, scaled in *. rewrite Forall_map. exact H. Qed.

Lemma py_tail_ok m2 k2 q : pmono n k m2 -> pos m2 = -1 -> pmonos q -> py_tail m2 k2 q = Ok (moved m2 k2 q).
Proof.
  intros M P. induction q as [|[u d] q IH]; intro Q; [reflexivity|]. inversion Q as [|? ? Qu Qq]; subst. cbn [py_tail fst] in *.
  destruct (pmono_mul n k u m2 Qu M (or_intror P)) as (v & -> & _ & ->). cbn [bind]. rewrite (IH Qq). cbn [bind moved map fst snd].
  rewrite (mprod_comm n u m2); [|apply Qu|apply M|now right]. now replace (d * k2) with (k2 * d) by lia.
Qed.

Lemma red_merge_ok k1 k2 m2 : pmono n k m2 -> pos m2 = -1 -> forall p q, pmonos q ->
  py_red_merge o k1 k2 m2 p q = Ok (py_merge o (scaled k1 p) (moved m2 k2 q)).
Proof.
  intros M P. refine (merge_ind _ _ _ _); intros.
  - change (py_red_merge o k1 k2 m2 [] a) with (py_tail m2 k2 a). now rewrite py_tail_ok.
  - destruct p as [|[m c] p]; reflexivity.
  - destruct x as [m c], y as [u d]. inversion H2 as [|? ? Qu Qq]; subst. cbn [fst] in *.
    change (py_red_merge o k1 k2 m2 ((m, c) :: p) ((u, d) :: a)) with
      (do um <- py_mul u m2;
       let x := py_cmp o m um in
       if 0 <? x then do r <- py_red_merge o k1 k2 m2 p ((u, d) :: a); Ok ((m, c * k1) :: r)
       else if x <? 0 then do r <- py_red_merge o k1 k2 m2 ((m, c) :: p) a; Ok ((um, d * k2) :: r)
       else do r <- py_red_merge o k1 k2 m2 p a; Ok (if c * k1 + d * k2 =? 0 then r else (m, c * k1 + d * k2) :: r)).
    destruct (pmono_mul n k u m2 Qu M (or_intror P)) as (v & -> & _ & ->). cbn [bind]. cbv zeta.
    rewrite (H H2), (H0 Qq), (H1 Qq). cbn [scaled moved map fst snd]. rewrite py_merge_cons. cbv zeta.
    rewrite (mprod_comm n u m2); [|apply Qu|apply M|now right]. replace (d * k2) with (k2 * d) by lia.
    destruct (0 <? py_cmp o m (mprod m2 u)); [reflexivity|]. destruct (py_cmp o m (mprod m2 u) <? 0); [reflexivity|].
    cbn [bind]. destruct (c * k1 + k2 * d =? 0); reflexivity.
Qed.

Lemma psorted_app l r : psorted (l ++ r) <-> psorted l /\ psorted r /\ Forall (fun x => pbelow (fst x) r) l.
Proof.
  induction l as [|x l IH]; cbn [app].
  - split; [intro H; split; [constructor|split; [exact H|constructor]]|tauto].
  - rewrite !psorted_cons, IH, Forall_cons_iff. unfold PyPolyProofs.pbelow at 1. rewrite Forall_app. unfold PyPolyProofs.pbelow. tauto.
Qed.
Lemma pmonos_app l r : pmonos (l ++ r) <-> pmonos l /\ pmonos r.
Proof. apply Forall_app. Qed.
Lemma nz_app (l r : ppoly) : nz (l ++ r) <-> nz l /\ nz r.
Proof. apply Forall_app. Qed.

(** The cofactor. *)
Lemma py_div_same m u : mono n m -> mono n u -> pos u = pos m -> mdivides u m ->
  py_divisible m u = true /\ exists q, py_div m u = Ok (Mon (-1) q) /\ length q = n /\ mprod (Mon (-1) q) u = m.
Proof.
  intros M U P (_ & L & D). destruct M as [Lm Pm], U as [Lu Pu].
  assert (G : gev (vars m) (vars u) = true) by (apply gev_spec; [congruence|]; intros i I; apply D).
  assert (A : addv (subv (vars m) (vars u)) (vars u) = vars m) by (apply addv_subv; congruence).
  assert (Q : mono n (Mon (-1) (subv (vars m) (vars u)))) by (split; [cbn; rewrite subv_length; congruence|cbn; lia]).
  assert (T : py_mul (Mon (-1) (subv (vars m) (vars u))) u = Ok m).
  { rewrite py_mul_ok by (left; reflexivity). rewrite py_zip_add. cbn [pos vars]. rewrite A. rewrite Z.max_r by lia. rewrite P. now destruct m. }
  split.
  - apply (py_divisible_spec n); [split; assumption|split; assumption|]. eexists. split; [exact Q|exact T].
  - exists (subv (vars m) (vars u)). split; [apply (py_mul_div n _ u m); [exact Q|split; assumption|exact T]|].
    split; [apply Q|]. unfold mprod. cbn [pos vars Z.eqb]. rewrite vsum_addv, A. cbn. rewrite P. now destruct m.
Qed.

Lemma py_reduction_full A m c B u d q : py_canonical o n k (A ++ (m, c) :: B) -> py_canonical o n k ((u, d) :: q) ->
  pos u = pos m -> mdivides u m -> 0 <= k ->
  exists r' k1 k2 s, py_reduction o (A ++ (m, c) :: B) (length A) ((u, d) :: q) = Ok (scaled k1 A ++ r') /\
    py_canonical o n k (scaled k1 A ++ r') /\ pbelow m r' /\ k1 <> 0 /\ length s = n /\ mprod (Mon (-1) s) u = m /\
    forall x, coef (scaled k1 A ++ r') x = k1 * coef (A ++ (m, c) :: B) x + k2 * coef (shift s ((u, d) :: q)) x.
Proof.
  intros Cp Cq P D K. pose proof Cp as Cp'. pose proof Cq as Cq'.
  apply py_canonical_iff in Cp' as (Sp & Mp & Np). apply py_canonical_iff in Cq' as (Sq & Mq & Nq).
  apply psorted_app in Sp as (SA & Sm & BA). apply psorted_cons in Sm as [BB SB]. cbn [fst] in BB.
  apply pmonos_app in Mp as [MA MB]. inversion MB as [|? ? Mm MB']; subst. apply nz_app in Np as [NA NB]. inversion NB as [|? ? Nc NB']; subst.
  inversion Mq as [|? ? Mu Mq']; subst. inversion Nq as [|? ? Nd Nq']; subst. apply psorted_cons in Sq as [Bq Sq]. cbn [fst snd] in *.
  destruct (py_div_same m u (proj1 Mm) (proj1 Mu) P D) as (Dv & s & Es & Ls & Em).
  unfold py_reduction. rewrite nth_error_app2, Nat.sub_diag by lia. cbn [nth_error]. unfold assert_. rewrite Dv. cbn [andb negb].
  set (g := Z.gcd c d). rewrite Es. cbn [bind]. set (k1 := d / g). set (k2 := - (c / g)).
  assert (G0 : g <> 0) by (intro E; apply Z.gcd_eq_0_l in E; contradiction).
  assert (Ec : c = g * (c / g)) by (apply Z_div_exact_full_2; [exact G0|apply Z.mod_divide; [exact G0|apply Z.gcd_divide_l]]).
  assert (Ed : d = g * k1) by (apply Z_div_exact_full_2; [exact G0|apply Z.mod_divide; [exact G0|apply Z.gcd_divide_r]]).
  assert (K1 : k1 <> 0) by nia. assert (K2 : k2 <> 0) by (unfold k2; nia).
  set (m2 := Mon (-1) s) in *. assert (M2 : pmono n k m2) by (split; [split; [exact Ls|cbn; lia]|cbn; lia]).
  rewrite skipn_mid, firstn_mid.
  rewrite (red_merge_ok k1 k2 m2 M2 eq_refl B q Mq'). cbn [bind]. fold (scaled k1 A).
  set (r' := py_merge o (scaled k1 B) (moved m2 k2 q)).
  assert (CB : py_canonical o n k B) by (apply py_canonical_iff; auto).
  assert (Cq0 : py_canonical o n k q) by (apply py_canonical_iff; auto).
  assert (CsB := scaled_canonical k1 B K1 CB). assert (Cmq := moved_canonical m2 k2 q M2 eq_refl K2 Cq0).
  assert (Cr := merge_canonical o n k _ _ CsB Cmq). fold r' in Cr.
  assert (Br : pbelow m r').
  { apply merge_below; [apply scaled_below; exact BB|]. unfold PyPolyProofs.pbelow, moved. rewrite Forall_map. apply Forall_forall. intros x X. cbn [fst].
    rewrite <- Em. unfold PyPolyProofs.pmonos in Mq'. rewrite Forall_forall in Mq'. unfold PyPolyProofs.pbelow in Bq. rewrite Forall_forall in Bq.
    apply pgt_mprod; auto. }
  assert (CA : py_canonical o n k A) by (apply py_canonical_iff; auto). assert (CsA := scaled_canonical k1 A K1 CA).
  assert (CC : py_canonical o n k (scaled k1 A ++ r')).
  { apply py_canonical_iff in Cr as (S1 & S2 & S3). apply py_canonical_iff in CsA as (T1 & T2 & T3). apply py_canonical_iff.
    split; [|split; [apply pmonos_app; auto|apply nz_app; auto]]. apply psorted_app. split; [exact T1|]. split; [exact S1|].
    unfold scaled. rewrite Forall_map. rewrite Forall_forall in BA |- *. intros x X. cbn [fst]. specialize (BA x X).
    unfold PyPolyProofs.pmonos in MA. rewrite Forall_forall in MA.
    eapply (pbelow_trans o n k); [exact (Forall_inv BA)|exact Br|apply (MA x X)|apply Mm|exact S2]. }
  exists r', k1, k2, s. split; [apply (py_checked_ok o n k); exact CC|]. split; [exact CC|]. split; [exact Br|]. split; [exact K1|]. split; [exact Ls|]. split; [exact Em|].
  intro x. rewrite !coef_sumc, !sumc_app, scaled_sumc. unfold r'.
  rewrite (merge_sumc o n k) by (apply py_canonical_iff in CsB; apply py_canonical_iff in Cmq; tauto).
  rewrite scaled_sumc. unfold moved. rewrite map_sumc.
  assert (F : sumc (ind x) (shift s ((u, d) :: q)) = d * ind x m + sumc (fun v => ind x (mprod m2 v)) q).
  { unfold shift. cbn [map sumc fst snd]. fold m2. rewrite Em. f_equal. clear. induction q as [|[v e] q IH]; cbn [map sumc fst snd]; [reflexivity|]. now rewrite IH. }
  rewrite F. cbn [sumc]. assert (Z0 : k1 * c + k2 * d = 0).
  { assert (X : forall c d g k1 e : Z, c = g * e -> d = g * k1 -> k1 * c + - e * d = 0) by (intros ? ? ? ? ? -> ->; ring).
    exact (X _ _ _ _ _ Ec Ed). }
  set (T := sumc (fun v => ind x (mprod m2 v)) q). set (U := sumc (ind x) A). set (V := sumc (ind x) B).
  replace (k1 * (U + (c * ind x m + V)) + k2 * (d * ind x m + T)) with (k1 * U + (k1 * V + k2 * T) + (k1 * c + k2 * d) * ind x m) by ring.
  rewrite Z0. ring.
Qed.

Lemma py_reduction_ok A m c B u d q : py_canonical o n k (A ++ (m, c) :: B) -> py_canonical o n k ((u, d) :: q) ->
  pos u = pos m -> mdivides u m -> 0 <= k ->
  exists r' k1 k2 s, py_reduction o (A ++ (m, c) :: B) (length A) ((u, d) :: q) = Ok (scaled k1 A ++ r') /\
    py_canonical o n k (scaled k1 A ++ r') /\ pbelow m r' /\ k1 <> 0 /\ length s = n /\
    forall x, coef (scaled k1 A ++ r') x = k1 * coef (A ++ (m, c) :: B) x + k2 * coef (shift s ((u, d) :: q)) x.
Proof.
  intros Cp Cq P D K. destruct (py_reduction_full A m c B u d q Cp Cq P D K) as (r' & k1 & k2 & s & E & C & Br & K1 & Ls & _ & X). exists r', k1, k2, s. auto 10.
Qed.

Lemma pcanonical_mono A m c B : py_canonical o n k (A ++ (m, c) :: B) -> pmono n k m.
Proof. intro C. apply py_canonical_iff in C as (_ & M & _). apply pmonos_app in M as [_ M]. exact (Forall_inv M). Qed.

(* ---------------------------------------------------------------- reduce *)

Lemma position_ok lm : pmono n k lm -> forall p i, pmonos p -> psorted p ->
  match py_position o i p lm with
  | Some j => exists A c B, p = A ++ (lm, c) :: B /\ j = (i + length A)%nat
  | None => ~ In lm (map fst p)
  end.
Proof.
  intro L. induction p as [|[m c] p IH]; intros i M S; [cbn; tauto|]. cbn [py_position].
  inversion M as [|? ? Mm Mp]; subst. apply psorted_cons in S as [B S]. cbn [fst] in *.
  destruct (pcases o n m lm (proj1 Mm) (proj1 L)) as [[G E]|[[G E]|[-> E]]]; rewrite E; cbn [Z.ltb Z.eqb Z.compare].
  - specialize (IH (Datatypes.S i) Mp S). destruct (py_position o (Datatypes.S i) p lm) as [j|].
    + destruct IH as (A & d & B' & -> & ->). exists ((m, c) :: A), d, B'. split; [reflexivity|]. cbn [length]. lia.
    + cbn [map fst In]. intros [->|X]; [|auto]. apply (pgt_irrefl o n lm); [apply L|exact G].
  - cbn [map fst In]. intros [->|X]; [apply (pgt_irrefl o n lm); [apply L|exact G]|].
    apply in_map_iff in X as (y & <- & Y). unfold PyPolyProofs.pbelow in B. rewrite Forall_forall in B.
    apply (pgt_irrefl o n (fst y)); [apply L|]. apply (pgt_trans o n _ m); [apply L|apply Mm|apply L|exact G|apply B, Y].
  - exists [], c, p. split; [reflexivity|]. cbn. lia.
Qed.

Lemma mprod_unit_shift p : pmonos p -> shift (repeat 0%nat n) p = p.
Proof.
  intro M. unfold shift. rewrite <- (map_id p) at 2. apply map_ext_in. intros [x c] X. cbn [fst snd]. f_equal. apply (mprod_unit n).
  unfold PyPolyProofs.pmonos in M. rewrite Forall_forall in M. apply (M _ X).
Qed.

Lemma py_reduce_ok p u d q : 0 <= k -> p <> [] -> py_canonical o n k p -> py_canonical o n k ((u, d) :: q) ->
  exists r k1 s k2, py_reduce o p ((u, d) :: q) = Ok r /\ py_canonical o n k r /\ k1 <> 0 /\ length s = n /\
    (forall x, coef r x = k1 * coef p x + k2 * coef (shift s ((u, d) :: q)) x) /\ coef r u = 0.
Proof.
  intros K Np Cp Cq. pose proof Cp as Cp'. apply py_canonical_iff in Cp' as (S & M & _).
  pose proof Cq as Cq'. apply py_canonical_iff in Cq' as (_ & Mq & _). assert (Mu := Forall_inv Mq). cbn [fst] in Mu.
  assert (X := position_ok u Mu p 0%nat M S). unfold py_reduce. destruct p as [|x p]; [congruence|].
  destruct (py_position o 0 (x :: p) u) as [j|].
  - destruct X as (A & c & B & E & ->). rewrite E in Cp |- *. cbn [Nat.add].
    destruct (py_reduction_ok A u c B u d q Cp Cq eq_refl) as (r' & k1 & k2 & s & E' & C & Br & K1 & Ls & H);
      [split; [now right|split; [reflexivity|lia]]|exact K|].
    exists (scaled k1 A ++ r'), k1, s, k2. split; [exact E'|]. split; [exact C|]. split; [exact K1|]. split; [exact Ls|]. split; [exact H|].
    assert (N : ~ In u (map fst (scaled k1 A ++ r'))).
    { rewrite map_app, in_app_iff. intros [I|I]; apply in_map_iff in I as (y & Ey & Y).
      - unfold scaled in Y. apply in_map_iff in Y as (z & <- & Y). cbn [fst] in Ey.
        apply py_canonical_iff in Cp as (Sp & _ & _). apply psorted_app in Sp as (_ & _ & F). rewrite Forall_forall in F.
        assert (W := Forall_inv (F z Y)). cbn [fst] in W. rewrite Ey in W. apply (pgt_irrefl o n u); [apply Mu|exact W].
      - unfold PyPolyProofs.pbelow in Br. rewrite Forall_forall in Br. specialize (Br y Y). rewrite Ey in Br.
        apply (pgt_irrefl o n u); [apply Mu|exact Br]. }
    apply coef_notin. exact N.
  - exists (x :: p), 1, (repeat 0%nat n), 0. split; [reflexivity|]. split; [exact Cp|]. split; [lia|]. split; [apply repeat_length|].
    split; [|apply coef_notin; exact X]. intro y. rewrite Z.mul_1_l, Z.mul_0_l, Z.add_0_r. reflexivity.
Qed.

(* ---------------------------------------------------------------- normal forms *)

Section Find.
Variables (G : ppoly -> Prop) (find : monom -> outcome (option ppoly)).
Hypothesis find_ok : py_good_find o n k G find.
Hypothesis K : 0 <= k.

(** One step at any position. *)
Lemma nf_step A m c B : py_canonical o n k (A ++ (m, c) :: B) ->
  find m = Ok None \/
  exists q k1 r', find m = Ok (Some q) /\ truthy (Some q) = Some q /\
    py_reduction o (A ++ (m, c) :: B) (length A) q = Ok (scaled k1 A ++ r') /\
    py_canonical o n k (scaled k1 A ++ r') /\ pbelow m r' /\ k1 <> 0 /\
    forall f, congruent n G f (A ++ (m, c) :: B) -> congruent n G f (scaled k1 A ++ r').
Proof.
  intro C. assert (M := pcanonical_mono _ _ _ _ C). destruct (find_ok m M) as (w & Ew & H). destruct w as [q|]; [right|left; exact Ew].
  destruct (H q eq_refl) as (Cq & Gq & v & d & q' & -> & P & D).
  destruct (py_reduction_ok A m c B v d q' C Cq P D K) as (r' & k1 & k2 & s & E & C' & Br & K1 & Ls & Co).
  exists ((v, d) :: q'), k1, r'. split; [exact Ew|]. split; [reflexivity|]. split; [exact E|]. split; [exact C'|]. split; [exact Br|]. split; [exact K1|].
  intros f F. eapply congruent_step; [exact F|exact Gq|exact Ls|exact K1|exact Co].
Qed.

Lemma nfhead_ok p : py_canonical o n k p ->
  exists N r, (forall fuel, (N <= fuel)%nat -> py_nfhead fuel o find p = Ok r) /\ py_canonical o n k r /\ congruent n G p r /\
    (r = [] \/ exists m c l, r = (m, c) :: l /\ find m = Ok None).
Proof.
  assert (Nil : forall N fuel, (Datatypes.S N <= fuel)%nat -> py_nfhead fuel o find [] = Ok []).
  { intros N [|fuel] F; [lia|reflexivity]. }
  assert (X : forall m c l, py_canonical o n k ((m, c) :: l) ->
    exists N r, (forall fuel, (N <= fuel)%nat -> py_nfhead fuel o find ((m, c) :: l) = Ok r) /\ py_canonical o n k r /\ congruent n G ((m, c) :: l) r /\
    (r = [] \/ exists m c l, r = (m, c) :: l /\ find m = Ok None)).
  { intro m. induction m as [m IH] using (well_founded_induction (pylt_wf o n k)). intros c l C.
    destruct (nf_step [] m c l C) as [E|(q & k1 & r' & E & T & Er & C' & Br & K1 & Cg)].
    - exists 1%nat, ((m, c) :: l). split; [intros [|fuel] F; [lia|]; cbn [py_nfhead]; rewrite E; reflexivity|].
      split; [exact C|]. split; [apply congruent_refl|]. right. exists m, c, l. auto.
    - cbn [app scaled map length] in *. destruct r' as [|[m' c'] l'].
      + exists 2%nat, []. split; [|split; [exact C'|split; [apply Cg, congruent_refl|now left]]].
        intros [|fuel] F; [lia|]. cbn [py_nfhead]. rewrite E. cbn [bind]. rewrite T, Er. cbn [bind]. apply (Nil 0%nat). lia.
      + destruct (IH m') with (c := c') (l := l') as (N & r & H1 & H2 & H3 & H4); [|exact C'|].
        { split; [apply (pcanonical_mono [] _ _ _ C')|]. split; [apply (pcanonical_mono [] _ _ _ C)|exact (Forall_inv Br)]. }
        exists (Datatypes.S N), r. split.
        * intros [|fuel] F; [lia|]. cbn [py_nfhead]. rewrite E. cbn [bind]. rewrite T, Er. cbn [bind]. apply H1. lia.
        * split; [exact H2|]. split; [|exact H4]. eapply congruent_trans; [apply Cg, congruent_refl|exact H3]. }
  intro C. destruct p as [|[m c] l]; [|apply X; exact C].
  exists 1%nat, []. split; [apply (Nil 0%nat)|]. split; [exact C|]. split; [apply congruent_refl|now left].
Qed.

Definition settled (l : ppoly) : Prop := Forall (fun x => find (fst x) = Ok None) l.

Lemma nftail_loop_ok B : forall A a, py_canonical o n k (A ++ B) -> settled (skipn a A) -> (a <= length A)%nat ->
  exists N r, (forall fuel, (N <= fuel)%nat -> py_nftail_loop fuel o find (length A) (A ++ B) = Ok r) /\
    py_canonical o n k r /\ congruent n G (A ++ B) r /\ map fst (firstn a r) = map fst (firstn a A) /\ settled (skipn a r).
Proof.
  assert (Nil : forall A a, py_canonical o n k (A ++ []) -> settled (skipn a A) ->
    exists N r, (forall fuel, (N <= fuel)%nat -> py_nftail_loop fuel o find (length A) (A ++ []) = Ok r) /\
    py_canonical o n k r /\ congruent n G (A ++ []) r /\ map fst (firstn a r) = map fst (firstn a A) /\ settled (skipn a r)).
  { intros A a C S. exists 1%nat, A. rewrite app_nil_r in *. split; [|split; [exact C|split; [apply congruent_refl|auto]]].
    intros [|fuel] F; [lia|]. cbn [py_nftail_loop].
    replace (nth_error A (length A)) with (@None pterm); [reflexivity|]. symmetry. apply nth_error_None. lia. }
  assert (X : forall m c l A a, py_canonical o n k (A ++ (m, c) :: l) -> settled (skipn a A) -> (a <= length A)%nat ->
    exists N r, (forall fuel, (N <= fuel)%nat -> py_nftail_loop fuel o find (length A) (A ++ (m, c) :: l) = Ok r) /\
    py_canonical o n k r /\ congruent n G (A ++ (m, c) :: l) r /\ map fst (firstn a r) = map fst (firstn a A) /\ settled (skipn a r)).
  { intro m. induction m as [m IH] using (well_founded_induction (pylt_wf o n k)). intros c l A a C S La.
    assert (Lm := pcanonical_mono _ _ _ _ C).
    assert (Step : forall fuel, py_nftail_loop (Datatypes.S fuel) o find (length A) (A ++ (m, c) :: l) =
      do w <- find m;
      match truthy w with
      | Some q => do p' <- py_reduction o (A ++ (m, c) :: l) (length A) q; py_nftail_loop fuel o find (length A) p'
      | None => py_nftail_loop fuel o find (Datatypes.S (length A)) (A ++ (m, c) :: l)
      end).
    { intro fuel. cbn [py_nftail_loop]. rewrite nth_error_app2, Nat.sub_diag by lia. reflexivity. }
    destruct (nf_step A m c l C) as [E|(q & k1 & r' & E & T & Er & C' & Br & K1 & Cg)].
    - (* next position *)
      assert (Y : exists N r, (forall fuel, (N <= fuel)%nat -> py_nftail_loop fuel o find (length (A ++ [(m, c)])) ((A ++ [(m, c)]) ++ l) = Ok r) /\
        py_canonical o n k r /\ congruent n G ((A ++ [(m, c)]) ++ l) r /\ map fst (firstn a r) = map fst (firstn a (A ++ [(m, c)])) /\ settled (skipn a r)).
      { assert (C1 : py_canonical o n k ((A ++ [(m, c)]) ++ l)) by (rewrite <- app_assoc; exact C).
        assert (S1 : settled (skipn a (A ++ [(m, c)]))).
        { rewrite skipn_app. replace (a - length A)%nat with 0%nat by lia. apply Forall_app. split; [exact S|]. repeat constructor. exact E. }
        destruct l as [|[m' c'] l']; [apply Nil; assumption|]. apply IH; [|exact C1|exact S1|rewrite app_length; lia].
        split; [apply (pcanonical_mono _ _ _ _ C1)|]. split; [exact Lm|].
        apply py_canonical_iff in C as (Sp & _ & _). apply psorted_app in Sp as (_ & Sp & _). apply psorted_cons in Sp as [Bm _]. exact (Forall_inv Bm). }
      destruct Y as (N & r & H1 & H2 & H3 & H4 & H5). rewrite app_length, <- !app_assoc in *. cbn [app length] in *. rewrite Nat.add_1_r in H1.
      exists (Datatypes.S N), r. split; [|split; [exact H2|split; [exact H3|split; [|exact H5]]]].
      + intros [|fuel] F; [lia|]. rewrite Step, E. cbn [bind truthy]. apply H1. lia.
      + rewrite H4. rewrite firstn_app. replace (a - length A)%nat with 0%nat by lia. cbn [firstn]. now rewrite app_nil_r.
    - (* reduction *)
      assert (S1 : settled (skipn a (scaled k1 A))).
      { unfold settled, scaled in *. rewrite skipn_map. rewrite Forall_map. exact S. }
      assert (Y : exists N r, (forall fuel, (N <= fuel)%nat -> py_nftail_loop fuel o find (length (scaled k1 A)) (scaled k1 A ++ r') = Ok r) /\
        py_canonical o n k r /\ congruent n G (scaled k1 A ++ r') r /\ map fst (firstn a r) = map fst (firstn a (scaled k1 A)) /\ settled (skipn a r)).
      { destruct r' as [|[m' c'] l']; [apply Nil; assumption|]. apply IH; [|exact C'|exact S1|unfold scaled; rewrite map_length; exact La].
        split; [apply (pcanonical_mono _ _ _ _ C')|]. split; [exact Lm|exact (Forall_inv Br)]. }
      destruct Y as (N & r & H1 & H2 & H3 & H4 & H5).
      replace (length (scaled k1 A)) with (length A) in H1 by (unfold scaled; now rewrite map_length).
      exists (Datatypes.S N), r. split; [|split; [exact H2|split; [|split; [|exact H5]]]].
      + intros [|fuel] F; [lia|]. rewrite Step, E. cbn [bind]. rewrite T, Er. cbn [bind]. apply H1. lia.
      + eapply congruent_trans; [apply Cg, congruent_refl|exact H3].
      + rewrite H4. unfold scaled. rewrite firstn_map, map_map. reflexivity. }
  intros A a C S La. destruct B as [|[m c] l]; [apply Nil; assumption|apply X; assumption].
Qed.

Lemma nftail_ok m c p : py_canonical o n k ((m, c) :: p) ->
  exists N d r, (forall fuel, (N <= fuel)%nat -> py_nftail fuel o find ((m, c) :: p) = Ok ((m, d) :: r)) /\
    py_canonical o n k ((m, d) :: r) /\ congruent n G ((m, c) :: p) ((m, d) :: r) /\ settled r.
Proof.
  intro C. destruct (nftail_loop_ok p [(m, c)] 1 C) as (N & r & H1 & H2 & H3 & H4 & H5); [constructor|cbn; lia|].
  destruct r as [|[u d] r]; [discriminate H4|]. cbn [firstn map fst] in H4. injection H4 as ->.
  exists N, d, r. cbn [skipn] in H5. auto.
Qed.
End Find.

(* ---------------------------------------------------------------- S *)

Lemma spoly_module mp kp p mq kq q : mono n mp -> mono n mq -> pos mp <> -1 \/ pos mq <> -1 ->
  py_spoly o ((mp, kp) :: p) ((mq, kq) :: q) = AssertFail.
Proof.
  intros Mp Mq N. unfold py_spoly, assert_. destruct (Z.eqb_spec (pos mp) (pos mq)) as [E|E]; cbn [andb negb]; [|reflexivity].
  assert (Np : pos mp <> -1) by (destruct N; congruence).
  destruct (py_lcm_ok n mp mq Mp Mq (or_intror (or_intror E))) as (c & Ec & _). rewrite Ec. cbn [bind].
  unfold py_div at 1. rewrite (py_lcm_module n mp mq c Mp Mq Np Ec). reflexivity.
Qed.

Lemma spoly_ring mp kp p mq kq q : 0 <= k -> py_canonical o n k ((mp, kp) :: p) -> py_canonical o n k ((mq, kq) :: q) ->
  pos mp = -1 -> pos mq = -1 ->
  exists r s t g l, py_spoly o ((mp, kp) :: p) ((mq, kq) :: q) = Ok r /\ py_canonical o n k r /\
    length s = n /\ length t = n /\ g <> 0 /\ length l = n /\
    (forall i, (i < n)%nat -> expo l i = Nat.max (expo (vars mp) i) (expo (vars mq) i)) /\
    mprod (Mon (-1) s) mp = Mon (-1) l /\ mprod (Mon (-1) t) mq = Mon (-1) l /\
    (forall x, g * coef r x = kq * coef (shift s ((mp, kp) :: p)) x - kp * coef (shift t ((mq, kq) :: q)) x) /\
    pbelow (Mon (-1) l) r.
Proof.
  intros K Cp Cq Pp Pq. assert (Mp := pcanonical_mono [] _ _ _ Cp). assert (Mq := pcanonical_mono [] _ _ _ Cq).
  pose proof Cp as Cp'. apply py_canonical_iff in Cp' as (Sp & MMp & Np). pose proof Cq as Cq'. apply py_canonical_iff in Cq' as (Sq & MMq & Nq).
  assert (Kp := Forall_inv Np). assert (Kq := Forall_inv Nq). cbn [snd] in Kp, Kq.
  apply psorted_cons in Sp as [Bp _]. apply psorted_cons in Sq as [Bq _]. cbn [fst] in Bp, Bq.
  unfold py_spoly, assert_. rewrite Pp, Pq, Z.eqb_refl. cbn [andb negb].
  destruct (py_lcm_ok n mp mq (proj1 Mp) (proj1 Mq) (or_introl Pp)) as (c & Ec & Mc & Pc & Xc). rewrite Ec. cbn [bind].
  assert (D : forall m, mono n m -> pos m = -1 -> (forall i, (i < n)%nat -> (expo (vars m) i <= expo (vars c) i)%nat) -> mdivides m c).
  { intros m [Lm _] Pm H. destruct Mc as [Lc _]. split; [right; congruence|]. split; [congruence|]. intro i.
    destruct (Nat.lt_ge_cases i n) as [I|I]; [auto|]. unfold expo. rewrite nth_overflow by lia. lia. }
  destruct (py_div_same c mp Mc (proj1 Mp)) as (_ & s & Es & Ls & Ems); [congruence|apply D; [apply Mp|exact Pp|intros i I; rewrite Xc by exact I; lia]|].
  destruct (py_div_same c mq Mc (proj1 Mq)) as (_ & t & Et & Lt & Emt); [congruence|apply D; [apply Mq|exact Pq|intros i I; rewrite Xc by exact I; lia]|].
  rewrite Es. cbn [bind]. set (g := Z.gcd kp kq).
  assert (G0 : g <> 0) by (intro E; apply Z.gcd_eq_0_l in E; contradiction).
  assert (Ep : kp = g * (kp / g)) by (apply Z_div_exact_full_2; [exact G0|apply Z.mod_divide; [exact G0|apply Z.gcd_divide_l]]).
  assert (Eq : kq = g * (kq / g)) by (apply Z_div_exact_full_2; [exact G0|apply Z.mod_divide; [exact G0|apply Z.gcd_divide_r]]).
  set (ep := kp / g) in *. set (eq := kq / g) in *. clearbody g ep eq. assert (Fp : ep <> 0) by nia. assert (Fq : eq <> 0) by nia.
  assert (R : forall u, length u = n -> pmono n k (Mon (-1) u)) by (intros u U; split; [split; [exact U|cbn; lia]|cbn; lia]).
  destruct (py_mult_yields _ (Mon (-1) s) eq Cp (R s Ls) Fq (or_introl eq_refl)) as (x & -> & Cx & Hx). cbn [bind]. rewrite Et. cbn [bind].
  destruct (py_mult_yields _ (Mon (-1) t) ep Cq (R t Lt) Fp (or_introl eq_refl)) as (y & -> & Cy & Hy). cbn [bind].
  destruct (py_sub_yields o n k x y Cx Cy) as (r & Er & Cr & Hr).
  exists r, s, t, g, (vars c). destruct Mc as [Lc _]. assert (Ec' : c = Mon (-1) (vars c)) by (destruct c; cbn in Pc |- *; congruence).
  rewrite <- Ec'.
  assert (SH : forall u e a v, prod_coef [(Mon (-1) u, e)] a v = e * coef (shift u a) v).
  { intros u e a v. rewrite prod_coef_sumc, coef_sumc. cbn [sumc]. rewrite Z.add_0_r. f_equal. unfold shift.
    induction a as [|[w b] a IH]; cbn [map sumc fst snd]; [reflexivity|]. now rewrite IH. }
  assert (Co : forall v, g * coef r v = kq * coef (shift s ((mp, kp) :: p)) v - kp * coef (shift t ((mq, kq) :: q)) v).
  { intro v. rewrite Hr, Hx, Hy, !SH. set (U := coef (shift s ((mp, kp) :: p)) v). set (V := coef (shift t ((mq, kq) :: q)) v).
    clearbody U V. rewrite Ep, Eq. ring. }
  split; [exact Er|]. split; [exact Cr|]. split; [exact Ls|]. split; [exact Lt|]. split; [exact G0|]. split; [exact Lc|]. split; [exact Xc|].
  split; [exact Ems|]. split; [exact Emt|]. split; [exact Co|].
  (* every monomial of r is below the lcm *)
  assert (Mc : mono n c) by (split; [exact Lc|lia]).
  assert (Below : forall u m a b (l : ppoly), length u = n -> mprod (Mon (-1) u) m = c -> pmono n k m -> pmonos l -> pbelow m l ->
    mono n b -> ~ pgt c b -> coef (shift u ((m, a) :: l)) b = if monom_eq_dec c b then a else 0).
  { intros u m a b l Lu Em Mm Ml Bl Mb Ng. unfold shift. cbn [map coef fst snd]. rewrite Em.
    rewrite (coef_notin b (map (fun x0 => (mprod (Mon (-1) u) (fst x0), snd x0)) l)); [lia|].
    intro I. rewrite map_map in I. apply in_map_iff in I as (z & Ez & Z). cbn [fst] in Ez. apply Ng. rewrite <- Em, <- Ez.
    unfold PyPolyProofs.pmonos in Ml. rewrite Forall_forall in Ml. unfold PyPolyProofs.pbelow in Bl. rewrite Forall_forall in Bl.
    apply pgt_mprod; auto. }
  unfold PyPolyProofs.pbelow. apply Forall_forall. intros [b e] I. cbn [fst].
  apply py_canonical_iff in Cr as (Sr & Mr & Nr). assert (Mb : mono n b) by (unfold PyPolyProofs.pmonos in Mr; rewrite Forall_forall in Mr; apply (Mr _ I)).
  assert (Eb := pcoef_in o n k b e r Sr Mr I). assert (Ne : e <> 0) by (unfold nz in Nr; rewrite Forall_forall in Nr; apply (Nr _ I)).
  destruct (pcases o n c b Mc Mb) as [[Gt _]|NG]; [exact Gt|exfalso].
  assert (Ng : ~ pgt c b).
  { intro H. destruct NG as [[H' _]|[<- _]]; [|apply (pgt_irrefl o n c Mc H)].
    apply (pgt_irrefl o n c Mc). apply (pgt_trans o n c b c); assumption. }
  specialize (Co b). rewrite Eb in Co. rewrite (Below s mp kp b p), (Below t mq kq b q) in Co; try assumption; try (eapply Forall_inv_tail; eassumption).
  destruct (monom_eq_dec c b); nia.
Qed.
End PyRed.
