(** Proofs for C101: which cells the edits keep. *)
From Coq Require Import ZArith List Bool Arith Lia Sorted.
From Verif Require Import Outcome MonomModel MonomSpec MonomProofs PolyModel PolySpec PolyProofs PolyRedProofs PolyNfProofs CellModel CellPyModel CellSpec.
Import ListNotations.
Local Open Scope Z_scope.

Definition adr (p : list cell) : list addr := map fst p.
Definition mons (p : list cell) : list monom := map (fun x => fst (snd x)) p.
Lemma mons_map p : map fst (map snd p) = mons p.
Proof. apply map_map. Qed.
Lemma in_mons i m c p : In (i, (m, c)) p -> In m (mons p).
Proof. intro H. apply in_map_iff. exists (i, (m, c)). auto. Qed.
Lemma in_adr i x p : In (i, x) p -> In i (adr p).
Proof. intro H. apply in_map_iff. exists (i, x). auto. Qed.

(** [r] is what became of [p]; new cells are in k..k'-1 *)
Record kept (k : addr) (p r : list cell) (k' : addr) : Prop := Kept {
  k_le : (k <= k')%nat;
  k_from : forall i m c, In (i, (m, c)) r -> (exists c', In (i, (m, c')) p) \/ (k <= i < k')%nat;
  k_stay : forall i m c, In (i, (m, c)) p -> In m (mons r) -> exists c', In (i, (m, c')) r;
  k_nodup : NoDup (adr p) -> Forall (fun i => (i < k)%nat) (adr p) -> NoDup (adr r) }.

Lemma kept_adr k p r k' : kept k p r k' -> forall i, In i (adr r) -> In i (adr p) \/ (k <= i < k')%nat.
Proof.
  intros K i H. apply in_map_iff in H as ((j & m & c) & E & H). cbn in E. subst j.
  destruct (k_from _ _ _ _ K _ _ _ H) as [[c' H']|H']; [left; eapply in_adr; eauto|right; exact H'].
Qed.
Lemma kept_below k p r k' : kept k p r k' -> Forall (fun i => (i < k)%nat) (adr p) -> Forall (fun i => (i < k')%nat) (adr r).
Proof.
  intros K F. rewrite Forall_forall in *. intros i H. assert (L := k_le _ _ _ _ K).
  destruct (kept_adr _ _ _ _ K i H) as [X|X]; [specialize (F i X)|]; lia.
Qed.
Lemma kept_same_mons k p r : map (fun x : cell => (fst x, fst (snd x))) r = map (fun x : cell => (fst x, fst (snd x))) p -> kept k p r k.
Proof.
  intro E. constructor.
  - lia.
  - intros i m c H. left. assert (X : In (i, m) (map (fun x : cell => (fst x, fst (snd x))) p)).
    { rewrite <- E. apply in_map_iff. exists (i, (m, c)). auto. }
    apply in_map_iff in X as ((j & u & d) & X & Y). cbn in X. injection X as -> ->. eauto.
  - intros i m c H _. assert (X : In (i, m) (map (fun x : cell => (fst x, fst (snd x))) r)).
    { rewrite E. apply in_map_iff. exists (i, (m, c)). auto. }
    apply in_map_iff in X as ((j & u & d) & X & Y). cbn in X. injection X as -> ->. eauto.
  - intros N _. assert (X : adr r = adr p); [|now rewrite X].
    unfold adr. apply (f_equal (map fst)) in E. rewrite !map_map in E. exact E.
Qed.
Lemma kept_drop k i m c p r k' : kept k p r k' -> ~ In m (mons r) -> kept k ((i, (m, c)) :: p) r k'.
Proof.
  intros K N. constructor.
  - apply (k_le _ _ _ _ K).
  - intros j u d H. destruct (k_from _ _ _ _ K _ _ _ H) as [[c' H']|H']; [left; exists c'; right; exact H'|right; exact H'].
  - intros j u d [H|H] I; [injection H as <- <- <-; contradiction|]. apply (k_stay _ _ _ _ K _ _ _ H I).
  - intros D F. apply (k_nodup _ _ _ _ K); [now inversion D|now inversion F].
Qed.
Lemma kept_keep k i m c c' p r k' : kept k p r k' -> ~ In m (mons p) -> kept k ((i, (m, c)) :: p) ((i, (m, c')) :: r) k'.
Proof.
  intros K N. constructor.
  - apply (k_le _ _ _ _ K).
  - intros j u d [H|H]; [injection H as <- <- <-; left; exists c; left; reflexivity|].
    destruct (k_from _ _ _ _ K _ _ _ H) as [[e H']|H']; [left; exists e; right; exact H'|right; exact H'].
  - intros j u d [H|H] I; [injection H as <- <- <-; exists c'; left; reflexivity|].
    destruct I as [I|I]; [cbn in I; subst u; destruct N; eapply in_mons; eauto|].
    destruct (k_stay _ _ _ _ K _ _ _ H I) as [e He]. exists e. right. exact He.
  - intros D F. cbn in D, F. inversion D; inversion F; subst. cbn. constructor; [|apply (k_nodup _ _ _ _ K); assumption].
    intro I. destruct (kept_adr _ _ _ _ K i I) as [X|X]; [contradiction|lia].
Qed.
Lemma kept_insert k x p r k' : kept (S k) p r k' -> ~ In (fst x) (mons p) -> kept k p ((k, x) :: r) k'.
Proof.
  intros K N. assert (L := k_le _ _ _ _ K). constructor.
  - lia.
  - intros j u d [H|H]; [injection H as <- H; right; lia|].
    destruct (k_from _ _ _ _ K _ _ _ H) as [[e H']|H']; [left; exists e; exact H'|right; lia].
  - intros j u d H I. destruct I as [I|I]; [cbn in I; subst u; destruct N; eapply in_mons; eauto|].
    destruct (k_stay _ _ _ _ K _ _ _ H I) as [e He]. exists e. right. exact He.
  - intros D F. cbn. constructor.
    + intro I. destruct (kept_adr _ _ _ _ K k I) as [X|X]; [|lia]. rewrite Forall_forall in F. specialize (F k X). lia.
    + apply (k_nodup _ _ _ _ K); [exact D|]. eapply Forall_impl; [|exact F]. cbn. lia.
Qed.
Lemma kept_trans k p q k1 r k2 : kept k p q k1 -> kept k1 q r k2 -> 
  forall i m c, In (i, (m, c)) p -> In m (mons q) -> In m (mons r) -> exists c', In (i, (m, c')) r.
Proof. intros K1 K2 i m c H I J. destruct (k_stay _ _ _ _ K1 _ _ _ H I) as [d Hd]. apply (k_stay _ _ _ _ K2 _ _ _ Hd J). Qed.

(* ------------------------------------------------------------------------------------------ *)
(** * The merge *)

Section Merge.
Variables (t : pos_order) (o : base_order) (n : nat).

Lemma cmerge_ind (P : list cell -> list term -> Prop) :
  (forall a, P [] a) -> (forall p, P p []) ->
  (forall x p y a, P p (y :: a) -> P (x :: p) a -> P p a -> P (x :: p) (y :: a)) ->
  forall p a, P p a.
Proof.
  intros H1 H2 H3. induction p as [|x p IHp]; [apply H1|]. induction a as [|y a IHa]; [apply H2|]. apply H3; auto.
Qed.
Lemma c_add_nil_l k a : c_add t o [] k a = (combine (seq k (length a)) a, (k + length a)%nat).
Proof.
  revert k. induction a as [|[u d] a IH]; intro k; [cbn; f_equal; lia|].
  change (c_add t o [] k ((u, d) :: a)) with (let (l, k') := c_add t o [] (S k) a in ((k, (u, d)) :: l, k')).
  rewrite IH. cbn [length seq combine]. f_equal. lia.
Qed.
Lemma c_add_nil_r p k : c_add t o p k [] = (p, k).
Proof. destruct p as [|[i [m c]] p]; reflexivity. Qed.
Lemma c_add_cons i m c p k u d a : c_add t o ((i, (m, c)) :: p) k ((u, d) :: a) =
  if cmp1 t o m u =? 1 then let (l, k') := c_add t o p k ((u, d) :: a) in ((i, (m, c)) :: l, k')
  else if cmp1 t o m u =? -1 then let (l, k') := c_add t o ((i, (m, c)) :: p) (S k) a in ((k, (u, d)) :: l, k')
  else if c + d =? 0 then c_add t o p k a
  else let (l, k') := c_add t o p k a in ((i, (m, c + d)) :: l, k').
Proof. reflexivity. Qed.

Lemma snd_combine k (a : list term) : map snd (combine (seq k (length a)) a) = a.
Proof. revert k. induction a as [|x a IH]; intro k; [reflexivity|]. cbn. now rewrite IH. Qed.
Lemma fst_combine k (a : list term) : map fst (combine (seq k (length a)) a) = seq k (length a).
Proof. revert k. induction a as [|x a IH]; intro k; [reflexivity|]. cbn. now rewrite IH. Qed.

Lemma c_add_terms p a : forall k, map snd (fst (c_add t o p k a)) = add_terms t o (map snd p) a.
Proof.
  revert p a. refine (cmerge_ind _ _ _ _).
  - intros a k. rewrite c_add_nil_l, add_terms_nil_l. cbn [fst]. apply snd_combine.
  - intros p k. rewrite c_add_nil_r. cbn [fst]. now rewrite add_terms_nil_r.
  - intros [i [m c]] p [u d] a H1 H2 H3 k. rewrite c_add_cons. cbn [map snd]. rewrite add_terms_cons.
    destruct (cmp1 t o m u =? 1).
    { specialize (H1 k). destruct (c_add t o p k ((u, d) :: a)). cbn [fst map snd] in *. now rewrite H1. }
    destruct (cmp1 t o m u =? -1).
    { specialize (H2 (S k)). destruct (c_add t o ((i, (m, c)) :: p) (S k) a). cbn [fst map snd] in *. now rewrite H2. }
    specialize (H3 k). destruct (c + d =? 0); [exact H3|]. destruct (c_add t o p k a). cbn [fst map snd] in *. now rewrite H3.
Qed.

Lemma below_notin m l : mono n m -> monos n l -> below t o m l -> ~ In m (map fst l).
Proof.
  intros Hm M B I. apply in_map_iff in I as (x & E & I). rewrite <- E in B. unfold below in B.
  rewrite Forall_forall in B. specialize (B x I). assert (X : cmp1 t o (fst x) (fst x) = 0) by (apply cmp1_eq; reflexivity). lia.
Qed.

Lemma c_add_kept p a : monos n (map snd p) -> monos n a -> sorted t o (map snd p) -> sorted t o a ->
  forall k, kept k p (fst (c_add t o p k a)) (snd (c_add t o p k a)).
Proof.
  revert p a. refine (cmerge_ind _ _ _ _).
  - intros a _ _ _ _ k. rewrite c_add_nil_l. cbn [fst snd]. constructor.
    + lia.
    + intros i m c H. right. apply in_combine_l in H. apply in_seq in H. lia.
    + intros i m c [].
    + intros _ _. unfold adr. rewrite fst_combine. apply seq_NoDup.
  - intros p _ _ _ _ k. rewrite c_add_nil_r. apply kept_same_mons. reflexivity.
  - intros [i [m c]] p [u d] a H1 H2 H3 Mp Ma Sp Sa k. rewrite c_add_cons.
    assert (Mp0 := Mp). assert (Ma0 := Ma). assert (Sp0 := Sp). assert (Sa0 := Sa).
    cbn [map snd] in Mp, Sp. apply Forall_cons_iff in Mp as [Hm Mp]. apply Forall_cons_iff in Ma as [Hu Ma]. cbn [fst] in *.
    apply sorted_below in Sp as [Bp Sp]. apply sorted_below in Sa as [Ba Sa]. cbn [fst] in *.
    assert (Nm : ~ In m (mons p)) by (rewrite <- mons_map; apply below_notin; assumption).
    destruct (cmp_cases t o m u (mono_size n m u Hm Hu)) as [(G & E1)|[(G & G' & E1 & E2)|(G & E1 & E2)]]; rewrite E1, ?E2.
    + specialize (H1 Mp Ma0 Sp Sa0 k). destruct (c_add t o p k ((u, d) :: a)) as [l k']. cbn [fst snd] in *. apply kept_keep; assumption.
    + specialize (H2 Mp0 Ma Sp0 Sa (S k)). destruct (c_add t o ((i, (m, c)) :: p) (S k) a) as [l k']. cbn [fst snd] in *.
      apply kept_insert; [exact H2|]. cbn [fst]. intros [X|X].
      * cbn in X. subst u. assert (Y : cmp1 t o m m = 0) by (apply cmp1_eq; reflexivity). lia.
      * rewrite <- mons_map in X. revert X. apply below_notin; auto. eapply (below_trans t o n); eassumption.
    + subst u. specialize (H3 Mp Ma Sp Sa k). assert (T := c_add_terms p a k). destruct (Z.eqb_spec (c + d) 0).
      * destruct (c_add t o p k a) as [l k'] eqn:E. cbn [fst snd] in *.
        apply kept_drop; [exact H3|]. rewrite <- mons_map, T. apply below_notin; auto; [apply add_monos|apply add_below]; assumption.
      * destruct (c_add t o p k a) as [l k'] eqn:E. cbn [fst snd] in *. apply kept_keep; assumption.
Qed.

Lemma c_sub_neg p a : forall k, c_sub t o p k a = c_add t o p k (neg_terms a).
Proof.
  revert p a. refine (cmerge_ind _ _ _ _).
  - induction a as [|[u d] a IH]; intro k; [reflexivity|].
    change (c_sub t o [] k ((u, d) :: a)) with (let (l, k') := c_sub t o [] (S k) a in ((k, (u, - d)) :: l, k')).
    rewrite IH. reflexivity.
  - intros p k. destruct p as [|[i [m c]] p]; reflexivity.
  - intros [i [m c]] p [u d] a H1 H2 H3 k.
    change (neg_terms ((u, d) :: a)) with ((u, - d) :: neg_terms a) in *. rewrite c_add_cons.
    change (c_sub t o ((i, (m, c)) :: p) k ((u, d) :: a)) with
      (if cmp1 t o m u =? 1 then let (l, k') := c_sub t o p k ((u, d) :: a) in ((i, (m, c)) :: l, k')
       else if cmp1 t o m u =? -1 then let (l, k') := c_sub t o ((i, (m, c)) :: p) (S k) a in ((k, (u, - d)) :: l, k')
       else if c - d =? 0 then c_sub t o p k a
       else let (l, k') := c_sub t o p k a in ((i, (m, c - d)) :: l, k')).
    rewrite H1, H2, H3. replace (c - d) with (c + - d) by lia. reflexivity.
Qed.

(** The merge of a reduction. *)
Lemma c_mulmon_eq dbg m2 k2 : forall a k, (dbg = true -> pos m2 = -1 \/ a = []) ->
  c_mulmon dbg m2 k2 k a = Ok (combine (seq k (length a)) (mulp m2 k2 a), (k + length a)%nat).
Proof.
  induction a as [|[u d] a IH]; intros k D; [cbn; do 2 f_equal; lia|].
  cbn [c_mulmon]. assert (E : mul_ dbg u m2 = Ok (mul u m2)).
  { unfold mul_. destruct dbg; [|reflexivity]. apply assert_true. destruct (D eq_refl) as [X|X]; [rewrite X; apply orb_true_r|discriminate]. }
  rewrite E. cbn [bind]. rewrite IH by (intro X; destruct (D X) as [Y|Y]; [left; exact Y|discriminate]).
  cbn [bind fst snd length seq mulp map combine]. do 2 f_equal. lia.
Qed.
Lemma c_red_eq dbg k1 k2 m2 : mono n m2 -> forall p a, monos n (map snd p) -> monos n a ->
  in_component (pos m2) a -> (dbg = true -> pos m2 = -1 \/ a = []) -> forall k,
  c_red dbg t o k1 k2 m2 p k a = Ok (c_add t o (c_scale k1 p) k (mulp m2 k2 a)).
Proof.
  intro Hw. refine (cmerge_ind _ _ _ _).
  - intros a M A I D k. cbn [c_scale map]. rewrite c_add_nil_l. destruct a as [|y a]; [cbn; do 2 f_equal; lia|].
    change (c_red dbg t o k1 k2 m2 [] k (y :: a)) with (c_mulmon dbg m2 k2 k (y :: a)).
    rewrite c_mulmon_eq by exact D. unfold mulp. now rewrite map_length.
  - intros p M A I D k. cbn [mulp map]. rewrite c_add_nil_r. destruct p as [|[i [m c]] p]; reflexivity.
  - intros [i [m c]] p [v d] a H1 H2 H3 M A I D k.
    assert (M0 := M). assert (A0 := A). assert (I0 := I).
    cbn [map snd] in M. apply Forall_cons_iff in M as [Hm M]. apply Forall_cons_iff in A as [Hv A]. apply Forall_cons_iff in I as [Iv I].
    cbn [fst] in *.
    assert (D' : dbg = true -> pos m2 = -1 \/ a = []) by (intro X; destruct (D X) as [E|E]; [left; exact E|discriminate E]).
    change (c_red dbg t o k1 k2 m2 ((i, (m, c)) :: p) k ((v, d) :: a)) with
      (do r <- cmp2_ dbg t o m v m2;
        if r =? 1 then do l <- c_red dbg t o k1 k2 m2 p k ((v, d) :: a); Ok ((i, (m, c * k1)) :: fst l, snd l)
        else if r =? -1 then do w <- mul_ dbg v m2; do l <- c_red dbg t o k1 k2 m2 ((i, (m, c)) :: p) (S k) a; Ok ((k, (w, d * k2)) :: fst l, snd l)
        else do l <- c_red dbg t o k1 k2 m2 p k a;
             if c * k1 + d * k2 =? 0 then Ok l else Ok ((i, (m, c * k1 + d * k2)) :: fst l, snd l)).
    assert (Pos : dbg = true -> ((pos v =? -1) || (pos m2 =? -1)) = true).
    { intro X. destruct (D X) as [E|E]; [rewrite E; now rewrite orb_true_r|discriminate E]. }
    assert (E1 : cmp2_ dbg t o m v m2 = Ok (cmp1 t o m (mul v m2))).
    { unfold cmp2_. rewrite (cmp2_mul t o n) by assumption. destruct dbg; [|reflexivity].
      rewrite assert_true; [reflexivity|]. rewrite (Pos eq_refl). apply orb_true_r. }
    assert (E2 : mul_ dbg v m2 = Ok (mul v m2)).
    { unfold mul_. destruct dbg; [|reflexivity]. apply assert_true. apply Pos. reflexivity. }
    rewrite E1, E2. cbn [bind]. rewrite (H1 M A0 I0 D), (H2 M0 A I D'), (H3 M A I D'). cbn [bind].
    change (c_scale k1 ((i, (m, c)) :: p)) with ((i, (m, c * k1)) :: c_scale k1 p).
    change (mulp m2 k2 ((v, d) :: a)) with ((mul v m2, d * k2) :: mulp m2 k2 a).
    rewrite c_add_cons.
    destruct (cmp1 t o m (mul v m2) =? 1). { destruct (c_add t o (c_scale k1 p) k ((mul v m2, d * k2) :: mulp m2 k2 a)). reflexivity. }
    destruct (cmp1 t o m (mul v m2) =? -1).
    { change ((i, (m, c * k1)) :: c_scale k1 p) with (c_scale k1 ((i, (m, c)) :: p)). destruct (c_add t o (c_scale k1 ((i, (m, c)) :: p)) (S k) (mulp m2 k2 a)). reflexivity. }
    destruct (c * k1 + d * k2 =? 0); [reflexivity|]. destruct (c_add t o (c_scale k1 p) k (mulp m2 k2 a)). reflexivity.
Qed.
End Merge.

Lemma scale_plain k p : map snd (c_scale k p) = scale k (map snd p).
Proof. unfold c_scale, scale. rewrite !map_map. reflexivity. Qed.
Lemma scale_kept k c p : kept k p (c_scale c p) k.
Proof. apply kept_same_mons. unfold c_scale. rewrite map_map. reflexivity. Qed.
Lemma kept_after_scale k c p r k' : kept k (c_scale c p) r k' -> kept k p r k'.
Proof.
  intro K. assert (E : forall i m, (exists d, In (i, (m, d)) (c_scale c p)) <-> (exists d, In (i, (m, d)) p)).
  { intros i m. split; intros [d H].
    - apply in_map_iff in H as ((j & u & e) & H & I). cbn in H. injection H as <- <- <-. eauto.
    - exists (d * c). apply in_map_iff. exists (i, (m, d)). auto. }
  constructor.
  - apply (k_le _ _ _ _ K).
  - intros i m d H. destruct (k_from _ _ _ _ K _ _ _ H) as [X|X]; [left; apply E; exact X|right; exact X].
  - intros i m d H I. destruct (proj2 (E i m) (ex_intro _ d H)) as [e He]. apply (k_stay _ _ _ _ K _ _ _ He I).
  - assert (X : adr (c_scale c p) = adr p) by (unfold adr, c_scale; rewrite map_map; reflexivity).
    intros N F. apply (k_nodup _ _ _ _ K); rewrite X; assumption.
Qed.
(** Cells before the part that is merged. *)
Lemma kept_app k pre p r k' : kept k p r k' -> (forall m, In m (mons pre) -> ~ In m (mons r)) -> (forall m, In m (mons pre) -> ~ In m (mons p)) ->
  kept k (pre ++ p) (pre ++ r) k'.
Proof.
  intros K N1 N2. constructor.
  - apply (k_le _ _ _ _ K).
  - intros i m c H. apply in_app_or in H as [H|H]; [left; exists c; apply in_or_app; left; exact H|].
    destruct (k_from _ _ _ _ K _ _ _ H) as [[d X]|X]; [left; exists d; apply in_or_app; right; exact X|right; exact X].
  - intros i m c H I. apply in_app_or in H as [H|H]; [exists c; apply in_or_app; left; exact H|].
    unfold mons in I. rewrite map_app in I. apply in_app_or in I as [I|I].
    + exfalso. apply (N2 m I). eapply in_mons; eauto.
    + destruct (k_stay _ _ _ _ K _ _ _ H I) as [d Hd]. exists d. apply in_or_app. right. exact Hd.
  - unfold adr. rewrite !map_app. intros D F. apply Forall_app in F as [F1 F2].
    assert (K' := kept_adr _ _ _ _ K). assert (Kn := k_nodup _ _ _ _ K). clear K N1 N2.
    induction pre as [|x pre IH]; cbn [map app] in *; [apply Kn; assumption|].
    inversion D; subst. apply Forall_cons_iff in F1 as [F0 F1]. constructor; [|apply IH; assumption].
    intro I. apply in_app_or in I as [I|I].
    + apply H1. apply in_or_app. left. exact I.
    + destruct (K' _ I) as [X|X]; [apply H1; apply in_or_app; right; exact X|lia].
Qed.
