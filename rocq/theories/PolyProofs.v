(** Proofs about PolyModel: linear operations, products, reductions. *)
From Coq Require Import ZArith List Bool Arith Lia Sorted Znumtheory.
From Verif Require Import Outcome MonomModel MonomSpec MonomProofs PolyModel PolySpec.
Import ListNotations.
Local Open Scope Z_scope.

(* ------------------------------------------------------------------------------------------ *)
(** * Canonical lists, in terms of cmp1 *)

Definition gt1 (t : pos_order) (o : base_order) (x y : term) : Prop := cmp1 t o (fst x) (fst y) = 1.
Definition monos (n : nat) (l : list term) : Prop := Forall (fun x => mono n (fst x)) l.
Definition nz (l : list term) : Prop := Forall (fun x : term => snd x <> 0) l.
Definition sorted (t : pos_order) (o : base_order) (l : list term) : Prop := StronglySorted (gt1 t o) l.
Definition below (t : pos_order) (o : base_order) (m : monom) (l : list term) : Prop :=
  Forall (fun x => cmp1 t o m (fst x) = 1) l.

Lemma mono_size n a b : mono n a -> mono n b -> size a = size b.
Proof. intros [A _] [B _]. unfold size. congruence. Qed.

Lemma canonical_iff t o n l : canonical t o n l <-> sorted t o l /\ monos n l /\ nz l.
Proof.
  unfold canonical, sorted, monos, nz. split; intros (S & M & N); (split; [|split; assumption]).
  - clear N. induction l as [|x l IH]; constructor; inversion S; inversion M; subst; auto.
    clear - H2 H5 H6. induction l as [|y l IH]; constructor; inversion H2; inversion H6; subst; auto.
    apply cmp1_spec; [eapply mono_size; eauto|assumption].
  - clear N. induction l as [|x l IH]; constructor; inversion S; inversion M; subst; auto.
    clear - H2 H5 H6. induction l as [|y l IH]; constructor; inversion H2; inversion H6; subst; auto.
    apply cmp1_spec; [eapply mono_size; eauto|assumption].
Qed.

Lemma sorted_below t o x l : sorted t o (x :: l) <-> below t o (fst x) l /\ sorted t o l.
Proof.
  unfold sorted, below. split.
  - intro H. inversion H; subst. split; assumption.
  - intros [H1 H2]. constructor; assumption.
Qed.

Lemma below_trans t o n m m' l : cmp1 t o m m' = 1 -> below t o m' l ->
  mono n m -> mono n m' -> monos n l -> below t o m l.
Proof.
  intros C B Hm Hm' M. revert B M. induction l as [|x l IH]; intros B M; constructor; inversion B; inversion M; subst.
  - eapply cmp1_trans; [eapply mono_size; [exact Hm|exact Hm']|eapply mono_size; eauto|exact C|assumption].
  - apply IH; assumption.
Qed.

Lemma valid_from_spec t o n m l : mono n m -> monos n l ->
  (valid_from t o m l = true <-> (below t o m l /\ sorted t o l /\ nz l)).
Proof.
  revert m. induction l as [|[u c] l IH]; intros m Hm M; cbn [valid_from].
  - split; intros _; [split; [constructor|split; constructor]|reflexivity].
  - apply Forall_cons_iff in M. destruct M as [Hu M]. cbn [fst] in Hu.
    assert (E : size m = size u) by (eapply mono_size; eauto).
    rewrite !andb_true_iff, (IH u Hu M), Z.ltb_lt, negb_true_iff, Z.eqb_neq.
    assert (A := cmp1_antisym t o m u E).
    split.
    + intros ((L & C) & B & S & N). 
      assert (G : cmp1 t o m u = 1) by (destruct (cmp1_range t o m u) as [|[|]]; lia).
      split; [|split].
      * constructor; [exact G|]. eapply (below_trans t o n); eassumption.
      * apply sorted_below. split; assumption.
      * constructor; assumption.
    + intros (B & S & N). apply Forall_cons_iff in B. apply Forall_cons_iff in N. apply sorted_below in S.
      cbn [fst snd] in *. destruct B, N, S. split; [split; [lia|assumption]|]. split; [|split]; assumption.
Qed.

Lemma valid_terms_spec t o n l : monos n l -> (valid_terms t o l = true <-> sorted t o l /\ nz l).
Proof.
  destruct l as [|[m c] l]; intro M; cbn [valid_terms].
  - split; [intros _; split; constructor|reflexivity].
  - apply Forall_cons_iff in M. destruct M as [Hm M].
    rewrite andb_true_iff, (valid_from_spec t o n m l Hm M), negb_true_iff, Z.eqb_neq, sorted_below.
    unfold nz. rewrite Forall_cons_iff. cbn [fst snd]. tauto.
Qed.

Lemma canonical_valid t o n l : canonical t o n l -> valid_terms t o l = true.
Proof. intro H. apply canonical_iff in H. destruct H as (S & M & N). apply (valid_terms_spec t o n); auto. Qed.

Lemma checked_ok dbg p : canonical (pto p) (pbo p) (psize p) (terms p) -> checked dbg p = Ok p.
Proof.
  intro H. unfold checked, assertValid. rewrite (canonical_valid _ _ _ _ H). unfold assert_.
  now rewrite andb_false_r.
Qed.

(* ------------------------------------------------------------------------------------------ *)
(** * Linear functionals on term lists *)

Fixpoint sumc (f : monom -> Z) (l : list term) : Z :=
  match l with [] => 0 | (m, c) :: l' => c * f m + sumc f l' end.

Definition ind (m : monom) (u : monom) : Z := if monom_eq_dec u m then 1 else 0.

Lemma coef_sumc l m : coef l m = sumc (ind m) l.
Proof. induction l as [|[u c] l IH]; cbn [coef sumc]; [reflexivity|]. rewrite IH. unfold ind. destruct (monom_eq_dec u m); lia. Qed.

Lemma sumc_ext f g l : (forall x, In x l -> f (fst x) = g (fst x)) -> sumc f l = sumc g l.
Proof.
  induction l as [|[m c] l IH]; intro H; [reflexivity|]. cbn [sumc].
  assert (E := H (m, c) (or_introl eq_refl)). cbn [fst] in E. rewrite E. rewrite IH; [reflexivity|].
  intros x Hx. apply H. right. exact Hx.
Qed.
Lemma sumc_app f l r : sumc f (l ++ r) = sumc f l + sumc f r.
Proof. induction l as [|[m c] l IH]; cbn [sumc app]; [reflexivity|]. rewrite IH. lia. Qed.
Lemma sumc_scale f k l : sumc f (scale k l) = k * sumc f l.
Proof. unfold scale. induction l as [|[m c] l IH]; cbn [sumc map fst snd]; [lia|]. rewrite IH. lia. Qed.
Lemma sumc_neg f l : sumc f (neg_terms l) = - sumc f l.
Proof. unfold neg_terms. induction l as [|[m c] l IH]; cbn [sumc map fst snd]; [lia|]. rewrite IH. lia. Qed.
Lemma sumc_add f g l : sumc (fun m => f m + g m) l = sumc f l + sumc g l.
Proof. induction l as [|[m c] l IH]; cbn [sumc]; [lia|]. rewrite IH. lia. Qed.
Lemma sumc_mul f k l : sumc (fun m => k * f m) l = k * sumc f l.
Proof. induction l as [|[m c] l IH]; cbn [sumc]; [lia|]. rewrite IH. lia. Qed.
Lemma sumc_zero l : sumc (fun _ => 0) l = 0.
Proof. induction l as [|[m c] l IH]; cbn [sumc]; [lia|]. rewrite IH. lia. Qed.

(** Any functional only depends on the coefficients. *)
Lemma sumc_coef_gen f l : forall L, NoDup L -> (forall x, In x l -> In (fst x) L) ->
  sumc f l = fold_right Z.add 0 (map (fun m => coef l m * f m) L).
Proof.
  induction l as [|[u c] l IH]; intros L ND Inc.
  - cbn [sumc coef]. induction L; cbn [map fold_right]; [reflexivity|]. rewrite <- IHL; [lia| now inversion ND|].
    intros x [].
  - cbn [sumc]. rewrite (IH L ND) by (intros x Hx; apply Inc; right; exact Hx).
    assert (Hu : In u L) by (apply (Inc (u, c)); left; reflexivity).
    clear IH Inc. induction L as [|v L IHL]; [destruct Hu|].
    inversion ND; subst. cbn [map fold_right coef]. destruct Hu as [->|Hu].
    + destruct (monom_eq_dec u u); [|congruence].
      assert (E : map (fun m => ((if monom_eq_dec u m then c else 0) + coef l m) * f m) L =
                  map (fun m => coef l m * f m) L).
      { apply map_ext_in. intros m Hm. destruct (monom_eq_dec u m); [subst; contradiction|lia]. }
      rewrite E. lia.
    + destruct (monom_eq_dec u v); [subst; contradiction|].
      specialize (IHL H2 Hu). cbn [coef] in IHL. lia.
Qed.

Lemma sumc_coef f l r : (forall m, coef l m = coef r m) -> sumc f l = sumc f r.
Proof.
  intro H. set (L := nodup monom_eq_dec (map fst l ++ map fst r)).
  rewrite (sumc_coef_gen f l L), (sumc_coef_gen f r L).
  - f_equal. apply map_ext. intro m. now rewrite H.
  - apply NoDup_nodup.
  - intros x Hx. apply nodup_In. apply in_or_app. right. apply in_map. exact Hx.
  - apply NoDup_nodup.
  - intros x Hx. apply nodup_In. apply in_or_app. left. apply in_map. exact Hx.
Qed.

Lemma coef_below t o n m l : mono n m -> monos n l -> below t o m l -> coef l m = 0.
Proof.
  intros Hm M B. induction l as [|[u c] l IH]; [reflexivity|]. cbn [coef].
  apply Forall_cons_iff in M. apply Forall_cons_iff in B. destruct M as [Hu M], B as [Bu B]. cbn [fst] in *.
  rewrite IH by assumption. destruct (monom_eq_dec u m) as [->|]; [|reflexivity].
  assert (E : cmp1 t o m m = 0) by (apply cmp1_eq; reflexivity). lia.
Qed.

Lemma coef_notin m l : ~ In m (map fst l) -> coef l m = 0.
Proof.
  induction l as [|[u c] l IH]; intro H; [reflexivity|]. cbn [coef map fst In] in *.
  rewrite IH by tauto. destruct (monom_eq_dec u m); [tauto|reflexivity].
Qed.

Lemma coef_in t o n m c l : sorted t o l -> monos n l -> In (m, c) l -> coef l m = c.
Proof.
  induction l as [|[u d] l IH]; intros S M H; [destruct H|].
  apply sorted_below in S. apply Forall_cons_iff in M. destruct S as [B S], M as [Hu M]. cbn [fst coef] in *.
  destruct H as [E|H].
  - inversion E; subst. destruct (monom_eq_dec m m); [|congruence]. rewrite (coef_below t o n m l); auto. lia.
  - assert (G := proj1 (Forall_forall _ _) B _ H). cbn [fst] in G.
    destruct (monom_eq_dec u m) as [->|]; [|now rewrite (IH S M H)].
    assert (E : cmp1 t o m m = 0) by (apply cmp1_eq; reflexivity). lia.
Qed.

(** Two canonical lists with the same coefficients are the same list. *)
Lemma canonical_unique t o n l : forall r, canonical t o n l -> canonical t o n r ->
  (forall m, coef l m = coef r m) -> l = r.
Proof.
  induction l as [|[m c] l IH]; intros r Cl Cr H; apply canonical_iff in Cl; apply canonical_iff in Cr.
  - destruct r as [|[u d] r]; [reflexivity|]. exfalso. destruct Cr as (S & M & N).
    assert (E := coef_in t o n u d _ S M (or_introl eq_refl)). rewrite <- H in E. cbn [coef] in E.
    apply Forall_inv in N. cbn [snd] in N. lia.
  - destruct Cl as (S & M & N). destruct r as [|[u d] r].
    + exfalso. assert (E := coef_in t o n m c _ S M (or_introl eq_refl)). rewrite H in E. cbn [coef] in E.
      apply Forall_inv in N. cbn [snd] in N. lia.
    + destruct Cr as (S' & M' & N').
      assert (Em := coef_in t o n m c _ S M (or_introl eq_refl)).
      assert (Eu := coef_in t o n u d _ S' M' (or_introl eq_refl)).
      assert (Nc := Forall_inv N). assert (Nd := Forall_inv N'). cbn [snd] in Nc, Nd.
      apply sorted_below in S. apply sorted_below in S'. destruct S as [B S], S' as [B' S'].
      apply Forall_cons_iff in M. apply Forall_cons_iff in M'. destruct M as [Hm M], M' as [Hu M']. cbn [fst] in *.
      assert (Sz : size m = size u) by (eapply mono_size; eauto).
      assert (m = u).
      { destruct (cmp1_range t o m u) as [G|[G|G]].
        - exfalso. assert (X : coef ((u, d) :: r) m = 0).
          { apply (coef_below t o n); [exact Hm|constructor; assumption|].
            constructor; [exact G|]. eapply (below_trans t o n); eassumption. }
          rewrite <- H in X. lia.
        - apply cmp1_eq in G; assumption.
        - exfalso. assert (G' : cmp1 t o u m = 1) by (rewrite (cmp1_antisym t o m u Sz); lia).
          assert (X : coef ((m, c) :: l) u = 0).
          { apply (coef_below t o n); [exact Hu|constructor; assumption|].
            constructor; [exact G'|]. eapply (below_trans t o n); eassumption. }
          rewrite H in X. lia. }
      subst u. assert (c = d) by (rewrite H in Em; lia). subst d. f_equal.
      apply IH.
      * apply canonical_iff. split; [|split]; [assumption|assumption|]. inversion N; assumption.
      * apply canonical_iff. split; [|split]; [assumption|assumption|]. inversion N'; assumption.
      * intro v. specialize (H v). cbn [coef] in H. lia.
Qed.

(* ------------------------------------------------------------------------------------------ *)
(** * add, sub *)

Section Merge.
Variables (t : pos_order) (o : base_order) (n : nat).

Lemma add_terms_nil_l a : add_terms t o [] a = a.
Proof. destruct a; reflexivity. Qed.
Lemma add_terms_nil_r p : add_terms t o p [] = p.
Proof. destruct p as [|[m c] p]; reflexivity. Qed.
Lemma add_terms_cons m c p u d a : add_terms t o ((m, c) :: p) ((u, d) :: a) =
  if cmp1 t o m u =? 1 then (m, c) :: add_terms t o p ((u, d) :: a)
  else if cmp1 t o m u =? -1 then (u, d) :: add_terms t o ((m, c) :: p) a
  else if c + d =? 0 then add_terms t o p a
  else (m, c + d) :: add_terms t o p a.
Proof. reflexivity. Qed.

(** Induction following the merge. *)
Lemma merge_ind (P : list term -> list term -> Prop) :
  (forall a, P [] a) -> (forall p, P p []) ->
  (forall x p y a, P p (y :: a) -> P (x :: p) a -> P p a -> P (x :: p) (y :: a)) ->
  forall p a, P p a.
Proof.
  intros H1 H2 H3. induction p as [|x p IHp]; [apply H1|]. induction a as [|y a IHa]; [apply H2|].
  apply H3; auto.
Qed.

Lemma cmp_cases m u : size m = size u ->
  (cmp1 t o m u = 1 /\ (cmp1 t o m u =? 1) = true) \/
  (cmp1 t o u m = 1 /\ cmp1 t o m u = -1 /\ (cmp1 t o m u =? 1) = false /\ (cmp1 t o m u =? -1) = true) \/
  (m = u /\ (cmp1 t o m u =? 1) = false /\ (cmp1 t o m u =? -1) = false).
Proof.
  intro E. assert (A := cmp1_antisym t o m u E). destruct (cmp1_range t o m u) as [G|[G|G]]; rewrite G.
  - left. split; reflexivity.
  - right. right. split; [apply cmp1_eq in G; assumption|split; reflexivity].
  - right. left. repeat split; try reflexivity. lia.
Qed.

Lemma add_sumc f p a : monos n p -> monos n a -> sumc f (add_terms t o p a) = sumc f p + sumc f a.
Proof.
  revert p a. refine (merge_ind _ _ _ _); intros.
  - rewrite add_terms_nil_l. reflexivity.
  - rewrite add_terms_nil_r. cbn [sumc]. lia.
  - destruct x as [m c], y as [u d]. rewrite add_terms_cons.
    assert (M : monos n p) by (inversion H2; assumption). assert (A : monos n a) by (inversion H3; assumption).
    apply Forall_inv in H2 as Hm. apply Forall_inv in H3 as Hu. cbn [fst] in *.
    destruct (cmp_cases m u (mono_size n m u Hm Hu)) as [(G & E1)|[(G & G' & E1 & E2)|(G & E1 & E2)]]; rewrite E1, ?E2.
    + cbn [sumc]. rewrite (H M H3). cbn [sumc]. lia.
    + cbn [sumc]. rewrite (H0 H2 A). cbn [sumc]. lia.
    + subst u. destruct (Z.eqb_spec (c + d) 0).
      * rewrite (H1 M A). cbn [sumc]. assert (c * f m + d * f m = 0) by (rewrite <- Z.mul_add_distr_r, e; lia). lia.
      * cbn [sumc]. rewrite (H1 M A). lia.
Qed.

Lemma add_monos p a : monos n p -> monos n a -> monos n (add_terms t o p a).
Proof.
  revert p a. refine (merge_ind _ _ _ _); intros.
  - now rewrite add_terms_nil_l.
  - now rewrite add_terms_nil_r.
  - destruct x as [m c], y as [u d]. rewrite add_terms_cons.
    assert (M : monos n p) by (inversion H2; assumption). assert (A : monos n a) by (inversion H3; assumption).
    apply Forall_inv in H2 as Hm. apply Forall_inv in H3 as Hu. cbn [fst] in *.
    destruct (cmp1 t o m u =? 1); [|destruct (cmp1 t o m u =? -1); [|destruct (c + d =? 0)]];
      try (constructor; [assumption|]); first [apply H | apply H0 | apply H1]; assumption.
Qed.

Lemma add_below v p a : below t o v p -> below t o v a -> below t o v (add_terms t o p a).
Proof.
  revert p a. refine (merge_ind _ _ _ _); intros.
  - now rewrite add_terms_nil_l.
  - now rewrite add_terms_nil_r.
  - destruct x as [m c], y as [u d]. rewrite add_terms_cons.
    assert (M : below t o v p) by (inversion H2; assumption). assert (A : below t o v a) by (inversion H3; assumption).
    apply Forall_inv in H2 as Hm. apply Forall_inv in H3 as Hu. cbn [fst] in *.
    destruct (cmp1 t o m u =? 1); [|destruct (cmp1 t o m u =? -1); [|destruct (c + d =? 0)]];
      try (constructor; [assumption|]); first [apply H | apply H0 | apply H1]; assumption.
Qed.

Lemma add_nz p a : nz p -> nz a -> nz (add_terms t o p a).
Proof.
  revert p a. refine (merge_ind _ _ _ _); intros.
  - now rewrite add_terms_nil_l.
  - now rewrite add_terms_nil_r.
  - destruct x as [m c], y as [u d]. rewrite add_terms_cons.
    assert (M : nz p) by (inversion H2; assumption). assert (A : nz a) by (inversion H3; assumption).
    apply Forall_inv in H2 as Hm. apply Forall_inv in H3 as Hu. cbn [snd] in *.
    destruct (cmp1 t o m u =? 1); [|destruct (cmp1 t o m u =? -1); [|destruct (Z.eqb_spec (c + d) 0)]];
      try (constructor; [assumption|]); first [apply H | apply H0 | apply H1]; assumption.
Qed.

Lemma add_sorted p a : monos n p -> monos n a -> sorted t o p -> sorted t o a -> sorted t o (add_terms t o p a).
Proof.
  revert p a. refine (merge_ind _ _ _ _); intros.
  - now rewrite add_terms_nil_l.
  - now rewrite add_terms_nil_r.
  - destruct x as [m c], y as [u d]. rewrite add_terms_cons.
    assert (M : monos n p) by (inversion H2; assumption). assert (A : monos n a) by (inversion H3; assumption).
    apply Forall_inv in H2 as Hm. apply Forall_inv in H3 as Hu.
    assert (S := H4). assert (S' := H5). apply sorted_below in S. apply sorted_below in S'. destruct S as [B S], S' as [B' S'].
    cbn [fst] in *.
    destruct (cmp_cases m u (mono_size n m u Hm Hu)) as [(G & E1)|[(G & G' & E1 & E2)|(G & E1 & E2)]]; rewrite E1, ?E2.
    + apply sorted_below. split; [|apply H; assumption]. apply add_below; [assumption|].
      constructor; [exact G|]. eapply (below_trans t o n); eassumption.
    + apply sorted_below. split; [|apply H0; assumption]. apply add_below; [|assumption].
      constructor; [exact G|]. eapply (below_trans t o n); eassumption.
    + subst u. destruct (c + d =? 0); [apply H1; assumption|].
      apply sorted_below. split; [apply add_below; assumption|apply H1; assumption].
Qed.

Lemma add_canonical p a : canonical t o n p -> canonical t o n a -> canonical t o n (add_terms t o p a).
Proof.
  intros H1 H2. apply canonical_iff in H1. apply canonical_iff in H2. destruct H1 as (?&?&?), H2 as (?&?&?).
  apply canonical_iff. split; [apply add_sorted; assumption|split; [apply add_monos; assumption|apply add_nz; assumption]].
Qed.

Lemma sub_terms_neg p a : sub_terms t o p a = add_terms t o p (neg_terms a).
Proof.
  revert p a. refine (merge_ind _ _ _ _); intros.
  - rewrite add_terms_nil_l. induction a as [|[u d] a IH]; [reflexivity|].
    cbn [neg_terms map fst snd]. cbn [sub_terms] in *. f_equal. exact IH.
  - destruct p as [|[m c] p]; reflexivity.
  - destruct x as [m c], y as [u d].
    change (sub_terms t o ((m, c) :: p) ((u, d) :: a)) with
      (if cmp1 t o m u =? 1 then (m, c) :: sub_terms t o p ((u, d) :: a)
       else if cmp1 t o m u =? -1 then (u, - d) :: sub_terms t o ((m, c) :: p) a
       else if c - d =? 0 then sub_terms t o p a
       else (m, c - d) :: sub_terms t o p a).
    cbn [neg_terms map fst snd]. rewrite add_terms_cons.
    rewrite H, H0, H1. reflexivity.
Qed.
End Merge.

Lemma neg_monos n l : monos n l -> monos n (neg_terms l).
Proof. unfold neg_terms. intro H. apply Forall_map. exact H. Qed.
Lemma neg_nz l : nz l -> nz (neg_terms l).
Proof. unfold neg_terms. intro H. apply Forall_map. eapply Forall_impl; [|exact H]. cbn. intros. lia. Qed.
Lemma map_sorted t o (f : term -> term) l : (forall x y, In x l -> In y l -> gt1 t o x y -> gt1 t o (f x) (f y)) ->
  sorted t o l -> sorted t o (map f l).
Proof.
  unfold sorted. induction l as [|x l IH]; intros H S; [constructor|]. inversion S; subst. cbn [map]. constructor.
  - apply IH; [|assumption]. intros; apply H; auto; right; assumption.
  - apply Forall_map. rewrite Forall_forall in *. intros y Hy. apply H; [left; reflexivity|right; exact Hy|apply H3; exact Hy].
Qed.
Lemma neg_sorted t o l : sorted t o l -> sorted t o (neg_terms l).
Proof. apply map_sorted. intros. exact H1. Qed.
Lemma neg_canonical t o n l : canonical t o n l -> canonical t o n (neg_terms l).
Proof.
  intro H. apply canonical_iff in H. destruct H as (S & M & N). apply canonical_iff.
  split; [apply neg_sorted|split; [apply neg_monos|apply neg_nz]]; assumption.
Qed.

Lemma scale_monos n k l : monos n l -> monos n (scale k l).
Proof. unfold scale. intro H. apply Forall_map. exact H. Qed.
Lemma scale_nz k l : k <> 0 -> nz l -> nz (scale k l).
Proof. unfold scale. intros K H. apply Forall_map. eapply Forall_impl; [|exact H]. cbn. intros. lia. Qed.
Lemma scale_sorted t o k l : sorted t o l -> sorted t o (scale k l).
Proof. apply map_sorted. intros. exact H1. Qed.
Lemma scale_below t o k v l : below t o v l -> below t o v (scale k l).
Proof. unfold scale. intro H. apply Forall_map. exact H. Qed.
Lemma scale_canonical t o n k l : k <> 0 -> canonical t o n l -> canonical t o n (scale k l).
Proof.
  intros K H. apply canonical_iff in H. destruct H as (S & M & N). apply canonical_iff.
  split; [apply scale_sorted|split; [apply scale_monos|apply scale_nz]]; assumption.
Qed.

Lemma comparable_refl p : comparable p p = true.
Proof. unfold comparable. rewrite Nat.eqb_refl. destruct (pto p), (pbo p); reflexivity. Qed.
Lemma comparable_with p l : comparable p (with_terms p l) = true.
Proof. exact (comparable_refl p). Qed.
Lemma comparable_eq p a : comparable p a = true <-> psize p = psize a /\ pto p = pto a /\ pbo p = pbo a.
Proof.
  unfold comparable. rewrite !andb_true_iff, Nat.eqb_eq.
  destruct (pto p), (pto a), (pbo p), (pbo a); cbn; intuition congruence.
Qed.

(** Valid polynomial objects. *)
Definition pvalid := valid_poly.

Lemma assert_true {A} dbg c (k : outcome A) : c = true -> assert_ dbg c k = k.
Proof. intros ->. unfold assert_. now rewrite andb_false_r. Qed.

Lemma p_add_ok dbg p a : pvalid p -> pvalid a -> comparable p a = true ->
  exists r, p_add dbg p a = Ok r /\ comparable p r = true /\ pvalid r /\
    forall m, coef (terms r) m = coef (terms p) m + coef (terms a) m.
Proof.
  intros P A C. assert (C' := C). apply comparable_eq in C'. destruct C' as (E1 & E2 & E3).
  unfold p_add. rewrite assert_true by exact C.
  unfold pvalid, valid_poly in A. rewrite <- E1, <- E2, <- E3 in A.
  assert (R : pvalid (with_terms p (add_terms (pto p) (pbo p) (terms p) (terms a)))) by (apply add_canonical; assumption).
  exists (with_terms p (add_terms (pto p) (pbo p) (terms p) (terms a))).
  split; [apply checked_ok; exact R|]. split; [apply comparable_with|]. split; [exact R|].
  intro m. cbn [terms with_terms]. rewrite !coef_sumc.
  apply canonical_iff in P, A. apply (add_sumc _ _ (psize p)); tauto.
Qed.

Lemma p_sub_ok dbg p a : pvalid p -> pvalid a -> comparable p a = true ->
  exists r, p_sub dbg p a = Ok r /\ comparable p r = true /\ pvalid r /\
    forall m, coef (terms r) m = coef (terms p) m - coef (terms a) m.
Proof.
  intros P A C. assert (C' := C). apply comparable_eq in C'. destruct C' as (E1 & E2 & E3).
  unfold p_sub. rewrite assert_true by exact C. rewrite sub_terms_neg.
  unfold pvalid, valid_poly in A. rewrite <- E1, <- E2, <- E3 in A. apply neg_canonical in A as A'.
  assert (R : pvalid (with_terms p (add_terms (pto p) (pbo p) (terms p) (neg_terms (terms a))))) by (apply add_canonical; assumption).
  exists (with_terms p (add_terms (pto p) (pbo p) (terms p) (neg_terms (terms a)))).
  split; [apply checked_ok; exact R|]. split; [apply comparable_with|]. split; [exact R|].
  intro m. cbn [terms with_terms]. rewrite !coef_sumc.
  apply canonical_iff in P, A'. rewrite (add_sumc _ _ (psize p)), sumc_neg by tauto. lia.
Qed.

Lemma p_minus_ok dbg p : pvalid p ->
  exists r, p_minus dbg p = Ok r /\ comparable p r = true /\ pvalid r /\ forall m, coef (terms r) m = - coef (terms p) m.
Proof.
  intro P. exists (with_terms p (neg_terms (terms p))).
  assert (R : pvalid (with_terms p (neg_terms (terms p)))) by (apply neg_canonical; exact P).
  split; [apply checked_ok; exact R|]. split; [apply comparable_with|]. split; [exact R|].
  intro m. cbn [terms with_terms]. rewrite !coef_sumc. apply sumc_neg.
Qed.

Lemma p_mult_const_ok dbg p c : pvalid p ->
  exists r, p_mult_const dbg p c = Ok r /\ comparable p r = true /\ pvalid r /\ forall m, coef (terms r) m = c * coef (terms p) m.
Proof.
  intro P. unfold p_mult_const.
  assert (Zr : pvalid (with_terms p [])) by (split; [constructor|split; constructor]).
  destruct (terms p) as [|x l] eqn:E.
  - exists p. split; [apply checked_ok; exact P|]. split; [apply comparable_refl|]. split; [exact P|].
    intro m. rewrite E. cbn [coef]. lia.
  - rewrite <- E. destruct (Z.eqb_spec c 0) as [->|N].
    + exists (with_terms p []). split; [apply checked_ok; exact Zr|]. split; [apply comparable_with|].
      split; [exact Zr|]. intro m. cbn [terms with_terms coef]. lia.
    + assert (R : pvalid (with_terms p (scale c (terms p)))) by (apply scale_canonical; assumption).
      exists (with_terms p (scale c (terms p))). split; [apply checked_ok; exact R|]. split; [apply comparable_with|].
      split; [exact R|]. intro m. cbn [terms with_terms]. rewrite !coef_sumc. apply sumc_scale.
Qed.

(* ------------------------------------------------------------------------------------------ *)
(** * Products *)

Lemma vsum_addv u v : vsum u v = addv u v.
Proof. unfold vsum. revert v. induction u as [|x u IH]; destruct v as [|y v]; cbn; try reflexivity. f_equal. apply IH. Qed.

Lemma mul_mprod n u v : mono n u -> mono n v -> pos u = -1 \/ pos v = -1 -> mul u v = mprod u v.
Proof.
  intros [_ Hu] [_ Hv] H. unfold mul, mprod, mul_pos. rewrite vsum_addv. f_equal.
  destruct (Z.leb_spec 0 (pos v)).
  - destruct H as [->|H]; [reflexivity|lia].
  - reflexivity.
Qed.

Lemma mprod_comm n u v : mono n u -> mono n v -> pos u = -1 \/ pos v = -1 -> mprod u v = mprod v u.
Proof.
  intros Hu Hv H. unfold mprod. rewrite !vsum_addv, addv_comm. f_equal.
  destruct H as [E|E]; rewrite E; cbn [Z.eqb]; [destruct (Z.eqb_spec (pos v) (-1))|destruct (Z.eqb_spec (pos u) (-1))]; cbn; try congruence; reflexivity.
Qed.

Definition mulp (m : monom) (c : Z) (l : list term) : list term := map (fun x => (mul (fst x) m, snd x * c)) l.

(** Every product the operation forms has at most one factor in a module component. *)
Definition compat (m : monom) (l : list term) : Prop := Forall (fun x => pos (fst x) = -1 \/ pos m = -1) l.

Lemma mulmon_ok dbg m c l : (dbg = true -> compat m l) -> mulmon dbg m c l = Ok (mulp m c l).
Proof.
  induction l as [|[u d] l IH]; intro H; [reflexivity|]. cbn [mulmon mulp map fst snd].
  unfold mul_. rewrite IH.
  - destruct dbg.
    + rewrite assert_true; [reflexivity|]. specialize (H eq_refl). apply Forall_inv in H. cbn [fst] in H.
      apply orb_true_iff. rewrite !Z.eqb_eq. exact H.
    + reflexivity.
  - intro D. specialize (H D). inversion H; assumption.
Qed.

Lemma mulp_monos n m c l : mono n m -> monos n l -> monos n (mulp m c l).
Proof.
  intros Hm M. apply Forall_map. eapply Forall_impl; [|exact M]. cbn. intros [u d] Hu. apply mul_mono; assumption.
Qed.
Lemma mulp_nz m c l : c <> 0 -> nz l -> nz (mulp m c l).
Proof. intros C M. apply Forall_map. eapply Forall_impl; [|exact M]. cbn. intros [u d] Hu. cbn in *. lia. Qed.

(** Multiplying by a ring monomial keeps the order; so does multiplying ring terms by any monomial. *)
Lemma cmp1_mul' t o n u v m : mono n u -> mono n v -> mono n m ->
  pos m = -1 \/ (pos u = pos v) -> cmp1 t o (mul u m) (mul v m) = cmp1 t o u v.
Proof.
  intros Hu Hv Hm [E|E].
  - apply cmp1_mul; try (eapply mono_size; eauto); exact E.
  - set (m' := Mon (-1) (vars m)).
    assert (Hm' : mono n m') by (destruct Hm; split; [assumption|cbn; lia]).
    rewrite <- (cmp1_mul t o u v m' (mono_size n _ _ Hu Hv) (mono_size n _ _ Hv Hm') eq_refl).
    unfold cmp1, mul. cbn [pos]. unfold mul_pos at 1 2 3 4 5 6. rewrite E. cbn [pos m' vars].
    rewrite !Z.eqb_refl. unfold bcmp, lex, deglex, alex. cbn [vars].
    assert (X : forall p, poscmp p p = 0) by (intro; unfold poscmp; now rewrite Z.eqb_refl).
    rewrite !X. reflexivity.
Qed.

Definition uniform (m : monom) (l : list term) : Prop :=
  pos m = -1 \/ (exists p, Forall (fun x : term => pos (fst x) = p) l).

Lemma mulp_sorted t o n m c l : mono n m -> monos n l -> uniform m l -> sorted t o l -> sorted t o (mulp m c l).
Proof.
  intros Hm M U S. unfold mulp. revert S. apply map_sorted. intros x y Hx Hy G. unfold gt1 in *. cbn [fst].
  unfold monos in M. rewrite Forall_forall in M.
  rewrite (cmp1_mul' t o n); auto. destruct U as [U|[p U]]; [left; exact U|right].
  rewrite Forall_forall in U. rewrite (U x Hx), (U y Hy). reflexivity.
Qed.

Lemma mulp_below t o n v m c l : mono n v -> mono n m -> monos n l -> uniform m ((v, 1) :: l) ->
  below t o v l -> below t o (mul v m) (mulp m c l).
Proof.
  intros Hv Hm M U B. unfold mulp. apply Forall_map. unfold monos in M. unfold below in B. rewrite Forall_forall in *.
  intros x Hx. cbn [fst]. rewrite (cmp1_mul' t o n); auto. destruct U as [U|[p U]]; [left; exact U|right].
  rewrite Forall_forall in U. rewrite (U x) by (right; exact Hx). rewrite <- (U (v, 1)) by (left; reflexivity). reflexivity.
Qed.

Lemma mulp_canonical t o n m c l : mono n m -> c <> 0 -> uniform m l -> canonical t o n l -> canonical t o n (mulp m c l).
Proof.
  intros Hm C U H. apply canonical_iff in H. destruct H as (S & M & N). apply canonical_iff.
  split; [eapply mulp_sorted; eauto|split; [apply mulp_monos; assumption|apply mulp_nz; assumption]].
Qed.

Lemma sumc_mulp f m c l : sumc f (mulp m c l) = c * sumc (fun u => f (mul u m)) l.
Proof. unfold mulp. induction l as [|[u d] l IH]; cbn [map sumc fst snd]; [lia|]. rewrite IH. lia. Qed.

Lemma fold_map_scale {A} (g : A -> Z) k l :
  fold_right Z.add 0 (map (fun x => k * g x) l) = k * fold_right Z.add 0 (map g l).
Proof. induction l as [|x l IH]; cbn [map fold_right]; [lia|]. rewrite IH. lia. Qed.

Lemma prod_coef_sumc p q m :
  prod_coef p q m = sumc (fun u => sumc (fun v => ind m (mprod u v)) q) p.
Proof.
  unfold prod_coef. induction p as [|[u c] p IH]; [reflexivity|]. cbn [map fold_right sumc fst snd].
  rewrite <- IH. f_equal. clear IH. induction q as [|[v d] q IH]; cbn [map fold_right sumc fst snd]; [lia|].
  rewrite IH. unfold ind at 2. destruct (monom_eq_dec (mprod u v) m); lia.
Qed.

(** Fubini for finite double sums. *)
Lemma sumc_swap (f : monom -> monom -> Z) p q :
  sumc (fun u => sumc (f u) q) p = sumc (fun v => sumc (fun u => f u v) p) q.
Proof.
  induction p as [|[u c] p IH].
  - cbn [sumc]. symmetry. apply sumc_zero.
  - cbn [sumc]. rewrite IH. rewrite <- sumc_mul, <- sumc_add. reflexivity.
Qed.

(** Both factors can be multiplied: all terms of one of them are ring terms. *)
Definition multipliable (p a : list term) : Prop := ring_poly p \/ ring_poly a.

Lemma mult_loop_ok dbg t o n a : canonical t o n a -> forall p sum, canonical t o n p -> multipliable p a ->
  (ring_poly p \/ exists k, in_component k a) -> canonical t o n sum ->
  exists r, mult_loop dbg t o sum p a = Ok r /\ canonical t o n r /\
    forall f, sumc f r = sumc f sum + sumc (fun u => sumc (fun v => f (mul v u)) a) p.
Proof.
  intro Ca. induction p as [|[m c] p IH]; intros sum Cp Mu U Cs; cbn [mult_loop].
  - exists sum. split; [reflexivity|]. split; [exact Cs|]. intro f. cbn [sumc]. lia.
  - apply canonical_iff in Cp as Cp'. destruct Cp' as (S & M & N).
    apply Forall_cons_iff in M as M'. apply Forall_cons_iff in N as N'. apply sorted_below in S as S'.
    destruct M' as [Hm M'], N' as [Hc N'], S' as [B S']. cbn [fst snd] in *.
    assert (K : compat m a).
    { destruct Mu as [R|R].
      - apply Forall_inv in R. cbn [fst] in R. apply Forall_forall. intros; right; exact R.
      - eapply Forall_impl; [|exact R]. cbn. intros; left; assumption. }
    rewrite mulmon_ok by (intros _; exact K). cbn [bind].
    assert (Cq : canonical t o n (mulp m c a)).
    { apply mulp_canonical; try assumption. destruct U as [U|U]; [left; exact (Forall_inv U)|right; exact U]. }
    destruct (IH (merge_terms t o sum (mulp m c a))) as (r & E & Cr & F).
    + apply canonical_iff. auto.
    + destruct Mu as [R|R]; [left; inversion R; assumption|right; exact R].
    + destruct U as [R|R]; [left; inversion R; assumption|right; exact R].
    + apply add_canonical; assumption.
    + exists r. split; [exact E|]. split; [exact Cr|]. intro f. rewrite F.
      apply canonical_iff in Cs, Cq. unfold merge_terms.
      rewrite (add_sumc t o n) by tauto. rewrite sumc_mulp. cbn [sumc]. lia.
Qed.

Lemma multipliable_uniform n t o p a : canonical t o n p -> canonical t o n a -> multipliable p a ->
  ring_poly p \/ exists k, in_component k a.
Proof. intros _ _ [H|H]; [left; exact H|right; exists (-1); exact H]. Qed.

Lemma mult_terms_ok dbg t o n p a : canonical t o n p -> canonical t o n a -> multipliable p a ->
  exists r, mult_terms dbg t o p a = Ok r /\ canonical t o n r /\
    forall f, sumc f r = sumc (fun u => sumc (fun v => f (mprod u v)) a) p.
Proof.
  intros Cp Ca Mu.
  assert (Zr : canonical t o n []) by (split; [constructor|split; constructor]).
  apply canonical_iff in Cp as (Sp & Mp & Np). apply canonical_iff in Ca as (Sa & Ma & Na).
  assert (Cp : canonical t o n p) by (apply canonical_iff; auto).
  assert (Ca : canonical t o n a) by (apply canonical_iff; auto).
  assert (PP : forall f, sumc (fun u => sumc (fun v => f (mul v u)) a) p = sumc (fun u => sumc (fun v => f (mprod u v)) a) p).
  { intro f. apply sumc_ext. intros x Hx. apply sumc_ext. intros y Hy. f_equal.
    unfold monos in Mp, Ma. rewrite Forall_forall in Mp, Ma.
    assert (Q : pos (fst y) = -1 \/ pos (fst x) = -1).
    { destruct Mu as [R|R]; unfold ring_poly in R; rewrite Forall_forall in R; auto. }
    rewrite (mul_mprod n) by auto. apply (mprod_comm n); auto. }
  assert (PQ : forall f, sumc (fun v => sumc (fun u => f (mul u v)) p) a = sumc (fun u => sumc (fun v => f (mprod u v)) a) p).
  { intro f. rewrite <- sumc_swap. apply sumc_ext. intros x Hx. apply sumc_ext. intros y Hy. f_equal.
    unfold monos in Mp, Ma. rewrite Forall_forall in Mp, Ma.
    assert (Q : pos (fst x) = -1 \/ pos (fst y) = -1).
    { destruct Mu as [R|R]; unfold ring_poly in R; rewrite Forall_forall in R; auto. }
    rewrite (mul_mprod n) by auto. reflexivity. }
  assert (K1 : forall m c, p = [(m, c)] -> compat m a).
  { intros m c ->. destruct Mu as [R|R].
    - apply Forall_inv in R. cbn [fst] in R. apply Forall_forall. intros; right; exact R.
    - eapply Forall_impl; [|exact R]. cbn. intros; left; assumption. }
  assert (K2 : forall m c, a = [(m, c)] -> compat m p).
  { intros m c ->. destruct Mu as [R|R].
    - eapply Forall_impl; [|exact R]. cbn. intros; left; assumption.
    - apply Forall_inv in R. cbn [fst] in R. apply Forall_forall. intros; right; exact R. }
  destruct p as [|[m c] p].
  { exists []. split; [reflexivity|]. split; [exact Zr|]. reflexivity. }
  destruct a as [|[u d] a].
  { exists []. cbn [mult_terms]. split; [destruct p; reflexivity|]. split; [exact Zr|].
    intro f. cbn [sumc]. rewrite sumc_zero. lia. }
  destruct p as [|x p].
  { exists (mulp m c ((u, d) :: a)). cbn [mult_terms]. rewrite mulmon_ok by (intros _; eapply K1; reflexivity).
    split; [reflexivity|]. split.
    - apply mulp_canonical; [exact (Forall_inv Mp)|exact (Forall_inv Np)| |exact Ca].
      destruct Mu as [R|R]; [left; exact (Forall_inv R)|right; exists (-1); exact R].
    - intro f. rewrite sumc_mulp, <- PP. cbn [sumc]. lia. }
  destruct a as [|y a].
  { exists (mulp u d ((m, c) :: x :: p)). cbn [mult_terms]. rewrite mulmon_ok by (intros _; eapply K2; reflexivity).
    split; [reflexivity|]. split.
    - apply mulp_canonical; [exact (Forall_inv Ma)|exact (Forall_inv Na)| |exact Cp].
      destruct Mu as [R|R]; [right; exists (-1); exact R|left; exact (Forall_inv R)].
    - intro f. rewrite sumc_mulp, <- PQ. cbn [sumc]. lia. }
  change (mult_terms dbg t o ((m, c) :: x :: p) ((u, d) :: y :: a)) with
    (mult_loop dbg t o [] ((m, c) :: x :: p) ((u, d) :: y :: a)).
  destruct (mult_loop_ok dbg t o n _ Ca _ [] Cp Mu (multipliable_uniform n t o _ _ Cp Ca Mu) Zr) as (r & E & Cr & F).
  exists r. split; [exact E|]. split; [exact Cr|]. intro f. rewrite F, <- PP. cbn [sumc]. lia.
Qed.

Lemma p_mult_ok dbg p a : pvalid p -> pvalid a -> comparable p a = true -> multipliable (terms p) (terms a) ->
  exists r, p_mult dbg p a = Ok r /\ comparable p r = true /\ pvalid r /\
    forall m, coef (terms r) m = prod_coef (terms p) (terms a) m.
Proof.
  intros P A C Mu. assert (C' := C). apply comparable_eq in C'. destruct C' as (E1 & E2 & E3).
  unfold p_mult. rewrite assert_true by exact C.
  unfold pvalid, valid_poly in A. rewrite <- E1, <- E2, <- E3 in A.
  destruct (mult_terms_ok dbg _ _ _ _ _ P A Mu) as (r & E & Cr & F). rewrite E. cbn [bind].
  exists (with_terms p r). split; [apply checked_ok; exact Cr|]. split; [apply comparable_with|]. split; [exact Cr|].
  intro m. cbn [terms with_terms]. rewrite coef_sumc, prod_coef_sumc. apply F.
Qed.
