(** Proofs about PyPolyModel.v: ring operations. *)
From Coq Require Import ZArith List Bool Arith Lia Sorted Znumtheory.
From Verif Require Import Outcome MonomModel MonomSpec MonomProofs PolyModel PolySpec PolyProofs
  PyMonomModel PyMonomSpec PyMonomProofs PyPolyModel PyPolySpec.
Import ListNotations.
Local Open Scope Z_scope.

Section PyPoly.
Variables (o : py_order) (n : nat) (k : Z).

Definition pgt (m u : monom) : Prop := py_cmp o m u = 1.
Definition pmonos (l : ppoly) : Prop := Forall (fun x => pmono n k (fst x)) l.
Definition psorted (l : ppoly) : Prop := StronglySorted (fun x y => pgt (fst x) (fst y)) l.
Definition pbelow (m : monom) (l : ppoly) : Prop := Forall (fun x => pgt m (fst x)) l.

Lemma pcases m u : mono n m -> mono n u ->
  (pgt m u /\ py_cmp o m u = 1) \/ (pgt u m /\ py_cmp o m u = -1) \/ (m = u /\ py_cmp o m u = 0).
Proof.
  intros M U. destruct (py_total o n) as (R & E & A & _).
  destruct (R m u M U) as [H|[H|H]]; [left; auto|right; right|right; left].
  - split; [apply E; assumption|exact H].
  - split; [unfold pgt; rewrite (A m u M U); lia|exact H].
Qed.
Lemma pgt_trans a b c : mono n a -> mono n b -> mono n c -> pgt a b -> pgt b c -> pgt a c.
Proof. destruct (py_total o n) as (_ & _ & _ & T). intros. eapply T; [..|eassumption|eassumption]; assumption. Qed.
Lemma pgt_irrefl a : mono n a -> ~ pgt a a.
Proof. intros A H. destruct (py_total o n) as (_ & E & _ & _). unfold pgt in H. assert (X := proj2 (E a a A A) eq_refl). lia. Qed.

Lemma py_canonical_iff l : py_canonical o n k l <-> psorted l /\ pmonos l /\ nz l.
Proof.
  unfold py_canonical, psorted, pmonos, nz. split; intros (S & M & N); (split; [|split; assumption]).
  - clear N. induction S as [|x l S IH F]; constructor; inversion M as [|? ? Mx Ml]; subst; auto.
    rewrite Forall_forall in *. intros y Y. apply (py_meaning o n); [apply Mx|apply (Ml y Y)|auto].
  - clear N. induction S as [|x l S IH F]; constructor; inversion M as [|? ? Mx Ml]; subst; auto.
    rewrite Forall_forall in *. intros y Y. apply (py_meaning o n); [apply Mx|apply (Ml y Y)|]. apply F, Y.
Qed.

Lemma psorted_cons x l : psorted (x :: l) <-> pbelow (fst x) l /\ psorted l.
Proof. unfold psorted, pbelow. split; [intro H; inversion H; subst; auto|intros [H1 H2]; constructor; assumption]. Qed.

Lemma pbelow_trans m m' l : pgt m m' -> pbelow m' l -> mono n m -> mono n m' -> pmonos l -> pbelow m l.
Proof.
  unfold pbelow, pmonos. rewrite !Forall_forall. intros G B M M' P x X. apply (pgt_trans _ m'); auto. apply (P x X).
Qed.

Lemma py_valid_ok l : psorted l -> nz l -> py_valid o l = true.
Proof.
  induction l as [|[m c] l IH]; intros S N; [reflexivity|]. apply psorted_cons in S as [B S]. inversion N as [|? ? Nc Nl]; subst. cbn [snd fst] in *.
  cbn [py_valid]. destruct l as [|[m' c'] l]; [apply negb_true_iff, Z.eqb_neq; exact Nc|].
  rewrite !andb_true_iff. split; [split|]; [apply negb_true_iff, Z.eqb_neq; exact Nc| |apply IH; assumption].
  inversion B as [|? ? Bm _]; subst. unfold pgt in Bm. cbn [fst] in Bm. rewrite Bm. reflexivity.
Qed.

Lemma py_checked_ok l : py_canonical o n k l -> py_checked o l = Ok l.
Proof. intro C. apply py_canonical_iff in C as (S & M & N). unfold py_checked, assert_. now rewrite py_valid_ok. Qed.

Lemma pcoef_below m l : mono n m -> pmonos l -> pbelow m l -> coef l m = 0.
Proof.
  intros Hm M B. apply coef_notin. intro I. apply in_map_iff in I as (x & <- & X).
  unfold pbelow in B. rewrite Forall_forall in B. apply (pgt_irrefl _ Hm), B, X.
Qed.

Lemma pcoef_in m c l : psorted l -> pmonos l -> In (m, c) l -> coef l m = c.
Proof.
  induction l as [|[u d] l IH]; intros S M H; [destruct H|].
  apply psorted_cons in S as [B S]. inversion M as [|? ? Hu Ml]; subst. cbn [fst coef] in *.
  destruct H as [E|H].
  - inversion E; subst. destruct (monom_eq_dec m m); [|congruence]. rewrite (pcoef_below m l); auto; [lia|apply Hu].
  - destruct (monom_eq_dec u m) as [->|]; [|now rewrite (IH S Ml H)].
    exfalso. unfold pbelow in B. rewrite Forall_forall in B. apply (pgt_irrefl m); [apply Hu|]. apply (B _ H).
Qed.

(** Two canonical lists with the same coefficients are the same list. *)
Lemma py_canonical_unique l : forall r, py_canonical o n k l -> py_canonical o n k r -> (forall m, coef l m = coef r m) -> l = r.
Proof.
  assert (Z : forall u d r, py_canonical o n k ((u, d) :: r) -> coef ((u, d) :: r) u = d /\ d <> 0).
  { intros u d r C. apply py_canonical_iff in C as (S & M & N). split; [apply pcoef_in; auto; now left|]. inversion N; assumption. }
  assert (T : forall x r, py_canonical o n k (x :: r) -> py_canonical o n k r /\ pbelow (fst x) r /\ mono n (fst x)).
  { intros x r C. apply py_canonical_iff in C as (S & M & N). apply psorted_cons in S as [B S].
    inversion M as [|? ? Mx Mr]; inversion N; subst. split; [apply py_canonical_iff; auto|]. split; [exact B|apply Mx]. }
  assert (BZ : forall v x r, py_canonical o n k (x :: r) -> mono n v -> pgt v (fst x) -> coef (x :: r) v = 0).
  { intros v x r C V H. pose proof C as C'. apply py_canonical_iff in C as (S & M & _). destruct (T _ _ C') as (_ & B & X).
    apply pcoef_below; auto. constructor; [exact H|]. eapply pbelow_trans; eauto. inversion M; assumption. }
  induction l as [|[m c] l IH]; intros [|[u d] r] Cl Cr H.
  - reflexivity.
  - exfalso. destruct (Z _ _ _ Cr) as [E N]. rewrite <- H in E. cbn in E. lia.
  - exfalso. destruct (Z _ _ _ Cl) as [E N]. rewrite H in E. cbn in E. lia.
  - destruct (Z _ _ _ Cl) as [Em Nc]. destruct (Z _ _ _ Cr) as [Eu Nd].
    destruct (T _ _ Cl) as (Cl' & B & Mm). destruct (T _ _ Cr) as (Cr' & B' & Mu). cbn [fst] in *.
    assert (m = u).
    { destruct (pcases m u Mm Mu) as [[G _]|[[G _]|[G _]]]; [|..|exact G]; exfalso.
      - rewrite H, (BZ m _ _ Cr Mm G) in Em. lia.
      - rewrite <- H, (BZ u _ _ Cl Mu G) in Eu. lia. }
    subst u. assert (c = d) by (rewrite H in Em; exact (eq_trans (eq_sym Em) Eu)). subst d. f_equal. apply IH; auto.
    intro v. specialize (H v). cbn [coef] in H. lia.
Qed.

(* ---------------------------------------------------------------- add, sub *)

Lemma py_merge_nil_r p : py_merge o p [] = p.
Proof. destruct p as [|[m c] p]; reflexivity. Qed.
Lemma py_merge_cons m c p u d q : py_merge o ((m, c) :: p) ((u, d) :: q) =
  let x := py_cmp o m u in
  if 0 <? x then (m, c) :: py_merge o p ((u, d) :: q)
  else if x <? 0 then (u, d) :: py_merge o ((m, c) :: p) q
  else if c + d =? 0 then py_merge o p q else (m, c + d) :: py_merge o p q.
Proof. reflexivity. Qed.

Lemma py_merge_sub_neg p q : py_merge_sub o p q = py_merge o p (py_neg q).
Proof.
  revert p q. refine (merge_ind _ _ _ _); intros.
  - reflexivity.
  - destruct p as [|[m c] p]; reflexivity.
  - destruct x as [m c], y as [u d].
    change (py_neg ((u, d) :: a)) with ((u, - d) :: py_neg a) in *. rewrite py_merge_cons.
    change (py_merge_sub o ((m, c) :: p) ((u, d) :: a)) with
      (let x := py_cmp o m u in
       if 0 <? x then (m, c) :: py_merge_sub o p ((u, d) :: a)
       else if x <? 0 then (u, - d) :: py_merge_sub o ((m, c) :: p) a
       else if c - d =? 0 then py_merge_sub o p a else (m, c - d) :: py_merge_sub o p a).
    cbv zeta. rewrite H, H0, H1. replace (c - d) with (c + - d) by lia. reflexivity.
Qed.

Lemma merge_sumc f p q : pmonos p -> pmonos q -> sumc f (py_merge o p q) = sumc f p + sumc f q.
Proof.
  revert p q. refine (merge_ind _ _ _ _); intros.
  - reflexivity.
  - rewrite py_merge_nil_r. cbn [sumc]. lia.
  - destruct x as [m c], y as [u d]. rewrite py_merge_cons. cbv zeta.
    inversion H2 as [|? ? Hm M]; inversion H3 as [|? ? Hu A]; subst. cbn [fst] in *.
    destruct (pcases m u (proj1 Hm) (proj1 Hu)) as [[_ E]|[[_ E]|[-> E]]]; rewrite E; cbn [Z.ltb Z.compare].
    + cbn [sumc]. rewrite (H M H3). cbn [sumc]. lia.
    + cbn [sumc]. rewrite (H0 H2 A). cbn [sumc]. lia.
    + destruct (Z.eqb_spec (c + d) 0) as [Z|Z].
      * rewrite (H1 M A). cbn [sumc]. assert (c * f u + d * f u = 0) by (rewrite <- Z.mul_add_distr_r, Z; lia). lia.
      * cbn [sumc]. rewrite (H1 M A). lia.
Qed.

Lemma merge_monos p q : pmonos p -> pmonos q -> pmonos (py_merge o p q).
Proof.
  revert p q. refine (merge_ind _ _ _ _); intros.
  - assumption.
  - rewrite py_merge_nil_r. assumption.
  - destruct x as [m c], y as [u d]. rewrite py_merge_cons. cbv zeta.
    inversion H2 as [|? ? Hm M]; inversion H3 as [|? ? Hu A]; subst. cbn [fst] in *. unfold pmonos in *.
    destruct (0 <? py_cmp o m u); [constructor; auto|]. destruct (py_cmp o m u <? 0); [constructor; auto|].
    destruct (c + d =? 0); [auto|constructor; auto].
Qed.

Lemma merge_below v p q : pbelow v p -> pbelow v q -> pbelow v (py_merge o p q).
Proof.
  revert p q. refine (merge_ind _ _ _ _); intros.
  - assumption.
  - rewrite py_merge_nil_r. assumption.
  - destruct x as [m c], y as [u d]. rewrite py_merge_cons. cbv zeta.
    inversion H2 as [|? ? Hm M]; inversion H3 as [|? ? Hu A]; subst. cbn [fst] in *. unfold pbelow in *.
    destruct (0 <? py_cmp o m u); [constructor; auto|]. destruct (py_cmp o m u <? 0); [constructor; auto|].
    destruct (c + d =? 0); [auto|constructor; auto].
Qed.

Lemma merge_nz p q : nz p -> nz q -> nz (py_merge o p q).
Proof.
  revert p q. refine (merge_ind _ _ _ _); intros.
  - assumption.
  - rewrite py_merge_nil_r. assumption.
  - destruct x as [m c], y as [u d]. rewrite py_merge_cons. cbv zeta.
    inversion H2 as [|? ? Hm M]; inversion H3 as [|? ? Hu A]; subst. cbn [snd] in *. unfold nz in *.
    destruct (0 <? py_cmp o m u); [constructor; auto|]. destruct (py_cmp o m u <? 0); [constructor; auto|].
    destruct (Z.eqb_spec (c + d) 0); [auto|constructor; auto].
Qed.

Lemma merge_sorted p q : pmonos p -> pmonos q -> psorted p -> psorted q -> psorted (py_merge o p q).
Proof.
  revert p q. refine (merge_ind _ _ _ _); intros.
  - assumption.
  - rewrite py_merge_nil_r. assumption.
  - destruct x as [m c], y as [u d]. rewrite py_merge_cons. cbv zeta.
    inversion H2 as [|? ? Hm M]; inversion H3 as [|? ? Hu A]; subst.
    apply psorted_cons in H4 as [B S]. apply psorted_cons in H5 as [B' S']. cbn [fst] in *.
    destruct (pcases m u (proj1 Hm) (proj1 Hu)) as [[G E]|[[G E]|[-> E]]]; rewrite E; cbn [Z.ltb Z.compare].
    + apply psorted_cons. split; [|apply H; auto; apply psorted_cons; auto]. cbn [fst]. apply merge_below; [exact B|].
      constructor; [exact G|]. eapply pbelow_trans; eauto; [apply Hm|apply Hu].
    + apply psorted_cons. split; [|apply H0; auto; apply psorted_cons; auto]. cbn [fst]. apply merge_below; [|exact B'].
      constructor; [exact G|]. eapply pbelow_trans; eauto; [apply Hu|apply Hm].
    + destruct (c + d =? 0); [apply H1; auto|]. apply psorted_cons. split; [|apply H1; auto]. cbn [fst]. apply merge_below; assumption.
Qed.

Lemma merge_canonical p q : py_canonical o n k p -> py_canonical o n k q -> py_canonical o n k (py_merge o p q).
Proof.
  rewrite !py_canonical_iff. intros (S & M & N) (S' & M' & N').
  split; [apply merge_sorted; assumption|]. split; [apply merge_monos; assumption|apply merge_nz; assumption].
Qed.

Lemma py_add_yields p q : py_canonical o n k p -> py_canonical o n k q ->
  py_yields o n k (py_add o p q) (fun m => coef p m + coef q m).
Proof.
  intros P Q. exists (py_merge o p q). pose proof (merge_canonical _ _ P Q) as C.
  split; [apply py_checked_ok; exact C|]. split; [exact C|]. intro m. rewrite !coef_sumc.
  apply py_canonical_iff in P as (_ & P & _). apply py_canonical_iff in Q as (_ & Q & _). apply merge_sumc; assumption.
Qed.

Lemma py_neg_canonical p : py_canonical o n k p -> py_canonical o n k (py_neg p).
Proof.
  rewrite !py_canonical_iff. unfold py_neg. intros (S & M & N). split; [|split].
  - clear N. induction p as [|x p IH]; [exact S|]. apply psorted_cons in S as [B S]. inversion M; subst. cbn [map].
    apply psorted_cons. split; [|auto]. cbn [fst]. unfold pbelow in *. apply Forall_map. exact B.
  - apply Forall_map. exact M.
  - apply Forall_map. unfold nz in N. eapply Forall_impl; [|exact N]. cbn. intros. lia.
Qed.

Lemma py_neg_coef p m : coef (py_neg p) m = - coef p m.
Proof. induction p as [|[u c] p IH]; [reflexivity|].
  change (coef (py_neg ((u, c) :: p)) m) with ((if monom_eq_dec u m then - c else 0) + coef (py_neg p) m).
  rewrite IH. cbn [coef]. destruct (monom_eq_dec u m); lia. Qed.

Lemma py_sub_yields p q : py_canonical o n k p -> py_canonical o n k q ->
  py_yields o n k (py_sub o p q) (fun m => coef p m - coef q m).
Proof.
  intros P Q. unfold py_sub. rewrite py_merge_sub_neg. destruct (py_add_yields p (py_neg q) P (py_neg_canonical q Q)) as (r & E & C & H).
  exists r. split; [exact E|]. split; [exact C|]. intro m. rewrite H, py_neg_coef. lia.
Qed.

Lemma py_unit_pmono : 0 <= k -> pmono n k (py_unit n).
Proof. intro K. split; [split; [apply repeat_length|cbn; lia]|cbn; lia]. Qed.

Lemma py_of_int_canonical c : 0 <= k -> py_canonical o n k (py_of_int n c).
Proof.
  intro K. unfold py_of_int. apply py_canonical_iff. destruct (Z.eqb_spec c 0); [split; [constructor|split; constructor]|].
  split; [repeat constructor|]. split; [constructor; [apply py_unit_pmono, K|constructor]|repeat constructor; assumption].
Qed.
Lemma py_of_int_coef c m : coef (py_of_int n c) m = if monom_eq_dec (py_unit n) m then c else 0.
Proof. unfold py_of_int. destruct (Z.eqb_spec c 0) as [->|]; cbn [coef]; destruct (monom_eq_dec (py_unit n) m); lia. Qed.

Lemma py_add_int_yields p c : 0 <= k -> py_canonical o n k p ->
  py_yields o n k (py_add_int o n p c) (fun m => coef p m + (if monom_eq_dec (py_unit n) m then c else 0)).
Proof.
  intros K P. unfold py_add_int. destruct (Z.eqb_spec c 0) as [->|].
  - exists p. split; [reflexivity|]. split; [exact P|]. intro m. destruct (monom_eq_dec (py_unit n) m); lia.
  - destruct (py_add_yields p (py_of_int n c) P (py_of_int_canonical c K)) as (r & E & C & H).
    exists r. split; [exact E|]. split; [exact C|]. intro m. now rewrite H, py_of_int_coef.
Qed.
Lemma py_sub_int_yields p c : 0 <= k -> py_canonical o n k p ->
  py_yields o n k (py_sub_int o n p c) (fun m => coef p m - (if monom_eq_dec (py_unit n) m then c else 0)).
Proof.
  intros K P. unfold py_sub_int. destruct (Z.eqb_spec c 0) as [->|].
  - exists p. split; [reflexivity|]. split; [exact P|]. intro m. destruct (monom_eq_dec (py_unit n) m); lia.
  - destruct (py_sub_yields p (py_of_int n c) P (py_of_int_canonical c K)) as (r & E & C & H).
    exists r. split; [exact E|]. split; [exact C|]. intro m. now rewrite H, py_of_int_coef.
Qed.

(* ---------------------------------------------------------------- multiplication *)

Definition keys (t : ppoly) : list monom := map fst t.

Lemma py_eq_true a b : mono n a -> mono n b -> (py_eq o a b = true <-> a = b).
Proof. intros A B. unfold py_eq. rewrite Z.eqb_eq. destruct (py_total o n) as (_ & E & _). apply E; assumption. Qed.

Lemma dict_add_ok f m c t : pmono n k m -> pmonos t -> NoDup (keys t) ->
  sumc f (py_dict_add o m c t) = sumc f t + c * f m /\ pmonos (py_dict_add o m c t) /\ NoDup (keys (py_dict_add o m c t)) /\
  (forall x, In x (keys (py_dict_add o m c t)) -> x = m \/ In x (keys t)).
Proof.
  intros M. induction t as [|[u d] t IH]; intros P N.
  - cbn. split; [lia|]. split; [repeat constructor; apply M|]. split; [repeat constructor; intros []|]. intros x [<-|[]]. now left.
  - inversion P as [|? ? Pu Pt]; inversion N as [|? ? Nu Nt]; subst. cbn [fst] in *.
    destruct (IH Pt Nt) as (S & P' & N' & I). cbn [py_dict_add]. destruct (py_eq o u m) eqn:E.
    + apply py_eq_true in E; [|apply Pu|apply M]. subst u. cbn [sumc]. split; [lia|].
      split; [constructor; assumption|]. split; [exact N|]. intros x X. now right.
    + cbn [sumc]. rewrite S. split; [lia|]. split; [constructor; assumption|]. split.
      * cbn [keys map fst]. constructor; [|exact N']. intro X. apply I in X as [->|X]; [|contradiction].
        assert (py_eq o m m = true) by (apply py_eq_true; [apply M|apply M|reflexivity]). congruence.
      * intros x [<-|X]; [right; now left|]. apply I in X as [->|X]; [now left|right; now right].
Qed.

(** All products of terms of p and q exist *)
Definition compatible (p q : ppoly) : Prop := forall x y, In x p -> In y q -> pos (fst x) = -1 \/ pos (fst y) = -1.

Lemma pmono_mul a b : pmono n k a -> pmono n k b -> pos a = -1 \/ pos b = -1 ->
  exists c, py_mul a b = Ok c /\ pmono n k c /\ c = mprod a b.
Proof.
  intros [A Ka] [B Kb] P. rewrite (py_mul_ok a b P). eexists. split; [reflexivity|].
  assert (H : py_mul a b = Ok (Mon (Z.max (pos a) (pos b)) (py_zip Nat.add (vars a) (vars b)))) by (apply py_mul_ok; exact P).
  apply (py_mul_mul n) in H as (C & E & _); [|assumption..]. split; [split; [exact C|cbn; lia]|].
  unfold mprod. rewrite py_zip_add, vsum_addv. f_equal. destruct A as [_ A], B as [_ B]. destruct (Z.eqb_spec (pos a) (-1)); lia.
Qed.

Lemma dict_row_ok f m c q : pmono n k m -> pmonos q -> (forall y, In y q -> pos m = -1 \/ pos (fst y) = -1) ->
  forall t, pmonos t -> NoDup (keys t) -> exists t', py_dict_row o m c q t = Ok t' /\ pmonos t' /\ NoDup (keys t') /\
    sumc f t' = sumc f t + c * sumc (fun u => f (mprod m u)) q.
Proof.
  intro M. induction q as [|[u d] q IH]; intros Q C t P N.
  - exists t. cbn. repeat split; auto. lia.
  - inversion Q as [|? ? Qu Qq]; subst. cbn [fst] in *. cbn [py_dict_row].
    destruct (pmono_mul m u M Qu (C (u, d) (or_introl eq_refl))) as (v & -> & V & Ev). cbn [bind].
    destruct (dict_add_ok f v (c * d) t V P N) as (S & P' & N' & _).
    destruct (IH Qq (fun y Y => C y (or_intror Y)) _ P' N') as (t' & E & P'' & N'' & S').
    exists t'. split; [exact E|]. split; [exact P''|]. split; [exact N''|]. cbn [sumc]. rewrite S', S, Ev. lia.
Qed.

Lemma dict_ok f q : pmonos q -> forall p, pmonos p -> compatible p q ->
  forall t, pmonos t -> NoDup (keys t) -> exists t', py_dict o p q t = Ok t' /\ pmonos t' /\ NoDup (keys t') /\
    sumc f t' = sumc f t + sumc (fun x => sumc (fun u => f (mprod x u)) q) p.
Proof.
  intro Q. induction p as [|[m c] p IH]; intros P C t T N.
  - exists t. cbn. repeat split; auto. lia.
  - inversion P as [|? ? Pm Pp]; subst. cbn [fst] in *. cbn [py_dict].
    destruct (dict_row_ok f m c q Pm Q (fun y Y => C (m, c) y (or_introl eq_refl) Y) t T N) as (t1 & -> & T1 & N1 & S1). cbn [bind].
    destruct (IH Pp (fun x y X Y => C x y (or_intror X) Y) t1 T1 N1) as (t2 & E & T2 & N2 & S2).
    exists t2. split; [exact E|]. split; [exact T2|]. split; [exact N2|]. cbn [sumc]. rewrite S2, S1. lia.
Qed.

Lemma insert_ok f x l : pmono n k (fst x) -> pmonos l -> psorted l -> ~ In (fst x) (keys l) ->
  psorted (py_insert o x l) /\ pmonos (py_insert o x l) /\ sumc f (py_insert o x l) = snd x * f (fst x) + sumc f l /\
  (forall y, In y (keys (py_insert o x l)) <-> y = fst x \/ In y (keys l)) /\
  (forall v, pgt v (fst x) -> pbelow v l -> pbelow v (py_insert o x l)).
Proof.
  intro X. induction l as [|y l IH]; intros M S N.
  - cbn [py_insert]. split; [repeat constructor|]. split; [repeat constructor; apply X|]. split; [destruct x; cbn; lia|].
    split; [intro y; cbn; intuition|]. intros v V _. repeat constructor. exact V.
  - inversion M as [|? ? My Ml]; subst. apply psorted_cons in S as [B S]. cbn [py_insert keys map In] in *.
    destruct (pcases (fst x) (fst y) (proj1 X) (proj1 My)) as [[G E]|[[G E]|[E _]]]; [| |exfalso; apply N; left; congruence].
    + unfold py_lt. rewrite E. cbn [Z.ltb Z.compare]. split.
      { apply psorted_cons. split; [constructor; [exact G|]|apply psorted_cons; auto]. eapply pbelow_trans; eauto; [apply X|apply My]. }
      split; [constructor; assumption|]. split; [destruct x, y; cbn; lia|]. split; [intro z; cbn; intuition|].
      intros v V Bv. constructor; assumption.
    + unfold py_lt. rewrite E. cbn [Z.ltb Z.compare]. destruct (IH Ml S ltac:(tauto)) as (S' & M' & E' & I & W).
      split; [apply psorted_cons; split; [apply W; assumption|exact S']|].
      split; [constructor; assumption|]. split; [destruct y; cbn [sumc]; rewrite E'; lia|].
      split; [intro z; cbn [keys map In]; fold (keys (py_insert o x l)); rewrite I; intuition|].
      intros v V Bv. inversion Bv; subst. constructor; [assumption|]. apply W; assumption.
Qed.

Lemma sorted_ok f t : pmonos t -> NoDup (keys t) ->
  psorted (py_sorted o t) /\ pmonos (py_sorted o t) /\ sumc f (py_sorted o t) = sumc f t /\
  (forall y, In y (keys (py_sorted o t)) <-> In y (keys t)).
Proof.
  unfold py_sorted. induction t as [|x t IH]; intros M N.
  - cbn. repeat split; try constructor; auto.
  - inversion M as [|? ? Mx Mt]; inversion N as [|? ? Nx Nt]; subst. destruct (IH Mt Nt) as (S & P & E & I). cbn [fold_right].
    destruct (insert_ok f x _ Mx P S) as (S' & P' & E' & I' & _); [rewrite I; exact Nx|].
    split; [exact S'|]. split; [exact P'|]. split; [rewrite E', E; destruct x; cbn; lia|].
    intro y. rewrite I', I. cbn. intuition.
Qed.

Lemma filter_ok f l : psorted l -> pmonos l ->
  let r := filter (fun x => negb (snd x =? 0)) l in
  psorted r /\ pmonos r /\ nz r /\ sumc f r = sumc f l.
Proof.
  intros S M. cbv zeta. induction l as [|[m c] l IH]; [cbn; repeat split; constructor|].
  apply psorted_cons in S as [B S]. inversion M as [|? ? Mx Ml]; subst. destruct (IH S Ml) as (S' & M' & N' & E').
  cbn [filter fst snd] in *. destruct (Z.eqb_spec c 0) as [->|]; cbn [negb].
  - repeat split; auto.
  - split; [apply psorted_cons; split; [|exact S']|].
    + cbn [fst]. unfold pbelow in *. rewrite Forall_forall in *. intros x X. apply filter_In in X. apply B. tauto.
    + split; [constructor; assumption|]. split; [constructor; assumption|]. cbn [sumc]. rewrite E'. reflexivity.
Qed.

Lemma py_times_yields p q : py_canonical o n k p -> py_canonical o n k q -> compatible p q ->
  py_yields o n k (py_times o p q) (prod_coef p q).
Proof.
  intros P Q C. apply py_canonical_iff in P as (_ & P & _). apply py_canonical_iff in Q as (_ & Q & _).
  destruct (dict_ok (fun _ => 0) q Q p P C [] (Forall_nil _) (NoDup_nil _)) as (t & E & T & N & _).
  set (r := filter (fun x => negb (snd x =? 0)) (py_sorted o t)).
  destruct (sorted_ok (fun _ => 0) t T N) as (S & M & _ & _).
  destruct (filter_ok (fun _ => 0) _ S M) as (S' & M' & N' & _).
  assert (R : py_canonical o n k r) by (apply py_canonical_iff; auto).
  exists r. unfold py_times. rewrite E. cbn [bind]. split; [apply py_checked_ok; exact R|]. split; [exact R|].
  intro m. rewrite coef_sumc. destruct (filter_ok (ind m) _ S M) as (_ & _ & _ & E1). unfold r. rewrite E1.
  destruct (sorted_ok (ind m) t T N) as (_ & _ & E2 & _). rewrite E2.
  destruct (dict_ok (ind m) q Q p P C [] (Forall_nil _) (NoDup_nil _)) as (t' & E' & _ & _ & E3).
  rewrite E in E'. injection E' as <-. rewrite E3. cbn [sumc]. rewrite prod_coef_sumc. lia.
Qed.

(** A product of two module terms fails the assert in Monom.__mul__. *)
Lemma dict_row_fails m c q : pos m <> -1 -> pmonos q -> (exists y, In y q /\ pos (fst y) <> -1) ->
  forall t, py_dict_row o m c q t = AssertFail.
Proof.
  intros M. induction q as [|[u d] q IH]; intros Q (y & Y & P) t; [destruct Y|]. inversion Q as [|? ? Qu Qq]; subst. cbn [py_dict_row].
  unfold py_mul at 1, assert_. destruct (Z.eqb_spec (pos m) (-1)); [contradiction|]. cbn [orb fst] in *.
  destruct (Z.eqb_spec (pos u) (-1)) as [E|E]; cbn [negb andb bind]; [|reflexivity].
  apply IH; auto. exists y. destruct Y as [<-|Y]; [cbn in P; congruence|auto].
Qed.
End PyPoly.
