(** Proofs about PolyModel, continued: normal forms, primitive parts, failures. *)
From Coq Require Import ZArith List Bool Arith Lia Sorted Znumtheory Wellfounded.
From Verif Require Import Outcome MonomModel MonomSpec MonomProofs PolyModel PolySpec PolyProofs PolyRedProofs.
Import ListNotations.
Local Open Scope Z_scope.

(* ------------------------------------------------------------------------------------------ *)
(** * Combinations *)

Lemma comb_ext n G p q : (forall m, coef p m = coef q m) -> combination n G p -> combination n G q.
Proof.
  intros E H. destruct H as [p H|p r u g c Hr Hg Hu H].
  - apply comb_zero. intro m. rewrite <- E. apply H.
  - eapply comb_add; eauto. intro m. rewrite <- E. apply H.
Qed.

Lemma coef_scale k l m : coef (scale k l) m = k * coef l m.
Proof. rewrite !coef_sumc. apply sumc_scale. Qed.

Lemma comb_scale n G k p : combination n G p -> combination n G (scale k p).
Proof.
  induction 1 as [p H|p r u g c Hr IH Hg Hu H].
  - apply comb_zero. intro m. rewrite coef_scale, H. lia.
  - apply (comb_add n G _ (scale k r) u g (k * c)); auto. intro m. rewrite !coef_scale, H. lia.
Qed.

Lemma comb_app n G p q : combination n G p -> combination n G q -> combination n G (p ++ q).
Proof.
  intros Hp Hq. induction Hp as [p H|p r u g c Hr IH Hg Hu H].
  - apply (comb_ext n G q); [|exact Hq]. intro m. rewrite coef_app, H. lia.
  - apply (comb_add n G _ (r ++ q) u g c); auto. intro m. rewrite !coef_app, H. lia.
Qed.

Lemma comb_shift n (G : list term -> Prop) u g c : G g -> length u = n -> combination n G (scale c (shift u g)).
Proof.
  intros Hg Hu. apply (comb_add n G _ [] u g c); auto; [apply comb_zero; reflexivity|].
  intro m. rewrite coef_scale. cbn [coef]. lia.
Qed.

Lemma congruent_refl n G f : congruent n G f f.
Proof. exists 1, []. split; [lia|]. split; [apply comb_zero; reflexivity|]. intro m. cbn [coef]. lia. Qed.

Lemma congruent_step n (G : list term -> Prop) f r r' a k1 k2 u : congruent n G f r -> G a -> length u = n -> k1 <> 0 ->
  (forall m, coef r' m = k1 * coef r m + k2 * coef (shift u a) m) -> congruent n G f r'.
Proof.
  intros (k & q & K & Q & E) Ga Lu K1 S. exists (k1 * k), (scale k1 q ++ scale k2 (shift u a)).
  split; [nia|]. split; [apply comb_app; [apply comb_scale; exact Q|apply comb_shift; assumption]|].
  intro m. rewrite coef_app, !coef_scale, S, E. ring.
Qed.

Lemma congruent_trans n G f g h : congruent n G f g -> congruent n G g h -> congruent n G f h.
Proof.
  intros (k & q & K & Q & E) (k' & q' & K' & Q' & E'). exists (k' * k), (scale k' q ++ q').
  split; [nia|]. split; [apply comb_app; [apply comb_scale; exact Q|exact Q']|].
  intro m. rewrite coef_app, coef_scale, E', E. ring.
Qed.

(* ------------------------------------------------------------------------------------------ *)
(** * nf *)

Section Nf.
Variables (dbg : bool) (t : pos_order) (o : base_order) (n : nat) (G : list term -> Prop)
  (find : monom -> outcome (option poly)).
Hypothesis find_ok : good_find dbg t o n G find.

Definition inring (p : poly) : Prop := psize p = n /\ pto p = t /\ pbo p = o.

Lemma inring_comparable p a : inring p -> psize a = n -> pto a = t -> pbo a = o -> comparable p a = true.
Proof. intros (? & ? & ?) ? ? ?. apply comparable_eq. split; [|split]; congruence. Qed.
Lemma comparable_inring p r : inring p -> comparable p r = true -> inring r.
Proof. intros (? & ? & ?) C. apply comparable_eq in C. destruct C as (? & ? & ?). split; [|split]; congruence. Qed.

(** One step of nf. *)
Lemma nf_step f m c f' a : pvalid f -> inring f -> terms f = (m, c) :: f' -> find m = Ok (Some a) ->
  exists r, p_reduction dbg f a = Ok r /\ pvalid r /\ inring r /\ below t o m (terms r) /\
    forall f0, congruent n G f0 (terms f) -> congruent n G f0 (terms r).
Proof.
  intros P I E F.
  assert (Hm : mono n m).
  { apply canonical_iff in P as (_ & M & _). rewrite E in M. destruct I as (In & _). rewrite In in M. exact (Forall_inv M). }
  destruct (find_ok m Hm) as (w & Ew & Hw). rewrite F in Ew. injection Ew as <-.
  destruct (Hw a eq_refl) as (Va & A1 & A2 & A3 & Ga & Ra & v & d & a' & Ea & D).
  destruct (p_reduction_ok dbg f a m c f' v d a') as (r & k1 & k2 & u & E1 & C & V & K1 & K2 & Gc & Lu & Hu & S & B); auto.
  { apply inring_comparable; assumption. }
  exists r. split; [exact E1|]. split; [exact V|]. split; [eapply comparable_inring; eauto|].
  destruct I as (I1 & I2 & I3). rewrite I2, I3 in B. split; [exact B|].
  intros f0 H. apply (congruent_step n G f0 (terms f) (terms r) (terms a) k1 k2 u); auto. congruence.
Qed.

(** Whatever the order: if nf ends, its result is as it should be. *)
Lemma nf_partial fuel : forall f r0 r k, pvalid f -> inring f -> nf_loop fuel dbg find r0 f = Ok (r, k) ->
  pvalid r /\ inring r /\ congruent n G (terms f) (terms r) /\
  (terms r = [] \/ exists m c l, terms r = (m, c) :: l /\ find m = Ok None).
Proof.
  induction fuel as [|fuel IH]; intros f r0 r k P I; cbn [nf_loop].
  - destruct (terms f) as [|[m c] l] eqn:E.
    + intro H. injection H as <- <-. split; [exact P|]. split; [exact I|]. split; [rewrite E; apply congruent_refl|left; exact E].
    + destruct (find m) as [[a|]| | | |] eqn:F; cbn [bind]; try discriminate.
      intro H. injection H as <- <-. split; [exact P|]. split; [exact I|].
      split; [rewrite E; apply congruent_refl|]. right. exists m, c, l. auto.
  - destruct (terms f) as [|[m c] l] eqn:E.
    + intro H. injection H as <- <-. split; [exact P|]. split; [exact I|]. split; [rewrite E; apply congruent_refl|left; exact E].
    + destruct (find m) as [[a|]| | | |] eqn:F; cbn [bind]; try discriminate.
      * destruct (nf_step f m c l a P I E F) as (q & E1 & Vq & Iq & B & Cg). rewrite E1. cbn [bind].
        intro H. destruct (IH q (S r0) r k Vq Iq H) as (V & Ir & Cr & D). split; [exact V|]. split; [exact Ir|]. split; [|exact D].
        eapply congruent_trans; [|exact Cr]. rewrite <- E. apply Cg. apply congruent_refl.
      * intro H. injection H as <- <-. split; [exact P|]. split; [exact I|].
        split; [rewrite E; apply congruent_refl|]. right. exists m, c, l. auto.
Qed.

Lemma below_head_mlt m (l : list term) x : mono n m -> monos n (x :: l) -> below t o m (x :: l) -> mlt t o n (fst x) m.
Proof. intros Hm M B. split; [exact (Forall_inv M)|]. split; [exact Hm|]. exact (Forall_inv B). Qed.

(** nf always ends when the order is a well-order, and never fails. *)
Lemma nf_terminates : o <> OAlex -> forall f, pvalid f -> inring f ->
  exists N r k, forall fuel r0, (N <= fuel)%nat -> nf_loop fuel dbg find r0 f = Ok (r, (r0 + k)%nat).
Proof.
  intro O.
  assert (X : forall m f c l, terms f = (m, c) :: l -> pvalid f -> inring f ->
    exists N r k, forall fuel r0, (N <= fuel)%nat -> nf_loop fuel dbg find r0 f = Ok (r, (r0 + k)%nat)).
  { intro m. induction m as [m IH] using (well_founded_induction (mlt_wf t o n O)).
    intros f c l E P I.
    assert (Hm : mono n m).
    { apply canonical_iff in P as (_ & M & _). rewrite E in M. destruct I as (In & _). rewrite In in M. exact (Forall_inv M). }
    destruct (find_ok m Hm) as (w & Fw & Hw). destruct w as [a|].
    - destruct (nf_step f m c l a P I E Fw) as (q & E1 & Vq & Iq & B & Cg).
      assert (Y : exists N r k, forall fuel r0, (N <= fuel)%nat -> nf_loop fuel dbg find r0 q = Ok (r, (r0 + k)%nat)).
      { destruct (terms q) as [|[m' c'] l'] eqn:Eq.
        - exists 0%nat, q, 0%nat. intros fuel r0 _. destruct fuel; cbn [nf_loop]; rewrite Eq, Nat.add_0_r; reflexivity.
        - apply (IH m') with (c := c') (l := l'); auto. apply (below_head_mlt m l' (m', c')); auto.
          apply canonical_iff in Vq as (_ & M & _). destruct Iq as (In & _). rewrite In, Eq in M. exact M. }
      destruct Y as (N & r & k & HN). exists (S N), r, (S k). intros fuel r0 L. destruct fuel as [|fuel]; [lia|].
      cbn [nf_loop]. rewrite E, Fw. cbn [bind]. rewrite E1. cbn [bind]. rewrite (HN fuel (S r0)) by lia. do 2 f_equal. lia.
    - exists 0%nat, f, 0%nat. intros fuel r0 _. destruct fuel; cbn [nf_loop]; rewrite E, Fw, Nat.add_0_r; reflexivity. }
  intros f P I. destruct (terms f) as [|[m c] l] eqn:E.
  - exists 0%nat, f, 0%nat. intros fuel r0 _. destruct fuel; cbn [nf_loop]; rewrite E, Nat.add_0_r; reflexivity.
  - apply (X m f c l E P I).
Qed.

(* ------------------------------------------------------------------------------------------ *)
(** * nfTail *)

Lemma nft_step f pre m c rest a : pvalid (with_terms f (pre ++ (m, c) :: rest)) -> inring f -> find m = Ok (Some a) ->
  exists k1 l, k1 <> 0 /\ red_tail dbg f pre ((m, c) :: rest) a = Ok (scale k1 pre, l) /\
    pvalid (with_terms f (scale k1 pre ++ l)) /\ below t o m l /\
    forall f0, congruent n G f0 (pre ++ (m, c) :: rest) -> congruent n G f0 (scale k1 pre ++ l).
Proof.
  intros P I F. set (f1 := with_terms f (pre ++ (m, c) :: rest)) in *.
  assert (Hm : mono n m).
  { apply canonical_iff in P as (_ & M & _). cbn [terms with_terms f1 psize] in M. destruct I as (In & _). rewrite In in M.
    apply Forall_app in M as [_ M]. exact (Forall_inv M). }
  destruct (find_ok m Hm) as (w & Ew & Hw). rewrite F in Ew. injection Ew as <-.
  destruct (Hw a eq_refl) as (Va & A1 & A2 & A3 & Ga & Ra & v & d & a' & Ea & D).
  destruct (red_tail_ok dbg f1 a pre m c rest v d a') as (k1 & k2 & u & l & E1 & V & K1 & K2 & Gc & Lu & Hu & S & B); auto.
  { apply inring_comparable; assumption. }
  exists k1, l. split; [exact K1|]. split; [exact E1|]. split; [exact V|].
  destruct I as (I1 & I2 & I3). cbn [f1 pto pbo with_terms] in B. rewrite I2, I3 in B. split; [exact B|].
  intros f0 H. apply (congruent_step n G f0 _ _ (terms a) k1 k2 u H); auto. cbn [f1 psize with_terms] in Lu. congruence.
Qed.

(** The terms of the tail already passed are irreducible. *)
Definition passed (pre : list term) : Prop :=
  match pre with [] => True | _ :: l => Forall (fun x => find (fst x) = Ok None) l end.

Lemma passed_scale k pre : passed pre -> passed (scale k pre).
Proof. destruct pre as [|x pre]; [auto|]. cbn [passed scale map]. intro H. apply Forall_map. exact H. Qed.
Lemma passed_snoc pre x : pre <> [] -> passed pre -> find (fst x) = Ok None -> passed (pre ++ [x]).
Proof.
  destruct pre as [|y pre]; [congruence|]. intros _ H F. cbn [passed app] in *. apply Forall_app. split; [exact H|].
  constructor; [exact F|constructor].
Qed.

Definition head_mon (l : list term) : option monom := match l with [] => None | x :: _ => Some (fst x) end.
Lemma head_scale k l : head_mon (scale k l) = head_mon l.
Proof. destruct l; reflexivity. Qed.

Lemma nft_partial fuel : forall f pre rest r0 r k, pre <> [] -> pvalid (with_terms f (pre ++ rest)) -> inring f -> passed pre ->
  nft_loop fuel dbg find r0 f pre rest = Ok (r, k) ->
  pvalid r /\ inring r /\ congruent n G (pre ++ rest) (terms r) /\ passed (terms r) /\ head_mon (terms r) = head_mon pre.
Proof.
  induction fuel as [|fuel IH]; intros f pre rest r0 r k NE P I Pa; cbn [nft_loop].
  - destruct rest as [|[m c] rest]; [|discriminate]. intro H. injection H as <- <-. rewrite app_nil_r in *.
    split; [exact P|]. split; [exact I|]. split; [apply congruent_refl|]. split; [exact Pa|reflexivity].
  - destruct rest as [|[m c] rest].
    { intro H. injection H as <- <-. rewrite app_nil_r in *.
      split; [exact P|]. split; [exact I|]. split; [apply congruent_refl|]. split; [exact Pa|reflexivity]. }
    destruct (find m) as [[a|]| | | |] eqn:F; cbn [bind]; try discriminate.
    + destruct (nft_step f pre m c rest a P I F) as (k1 & l & K1 & E1 & V & B & Cg). rewrite E1. cbn [bind].
      intro H. destruct (IH f (scale k1 pre) l (S r0) r k) as (Vr & Ir & Cr & Pr & Hr); auto.
      * destruct pre; [congruence|discriminate].
      * apply passed_scale; exact Pa.
      * split; [exact Vr|]. split; [exact Ir|]. split; [|split; [exact Pr|rewrite Hr; apply head_scale]].
        eapply congruent_trans; [|exact Cr]. apply Cg. apply congruent_refl.
    + intro H. destruct (IH f (pre ++ [(m, c)]) rest r0 r k) as (Vr & Ir & Cr & Pr & Hr); auto.
      * destruct pre; discriminate.
      * rewrite <- app_assoc. exact P.
      * apply passed_snoc; assumption.
      * rewrite <- app_assoc in Cr. split; [exact Vr|]. split; [exact Ir|]. split; [exact Cr|]. split; [exact Pr|].
        rewrite Hr. destruct pre; [congruence|reflexivity].
Qed.

Lemma nft_terminates : o <> OAlex -> forall f pre rest, pvalid (with_terms f (pre ++ rest)) -> inring f ->
  exists N r k, forall fuel r0, (N <= fuel)%nat -> nft_loop fuel dbg find r0 f pre rest = Ok (r, (r0 + k)%nat).
Proof.
  intro O.
  assert (X : forall m f pre c l, pvalid (with_terms f (pre ++ (m, c) :: l)) -> inring f ->
    exists N r k, forall fuel r0, (N <= fuel)%nat -> nft_loop fuel dbg find r0 f pre ((m, c) :: l) = Ok (r, (r0 + k)%nat)).
  { intro m. induction m as [m IH] using (well_founded_induction (mlt_wf t o n O)).
    intros f pre c l P I.
    assert (Hm : mono n m /\ monos n l).
    { apply canonical_iff in P as (_ & M & _). cbn [terms with_terms psize] in M. destruct I as (In & _). rewrite In in M.
      apply Forall_app in M as [_ M]. apply Forall_cons_iff in M. exact M. }
    destruct Hm as [Hm Ml].
    assert (Y : forall pre' l', pvalid (with_terms f (pre' ++ l')) -> below t o m l' ->
       exists N r k, forall fuel r0, (N <= fuel)%nat -> nft_loop fuel dbg find r0 f pre' l' = Ok (r, (r0 + k)%nat)).
    { intros pre' l' P' B. destruct l' as [|[m' c'] l'].
      - exists 0%nat, (with_terms f pre'), 0%nat. intros fuel r0 _. rewrite Nat.add_0_r. destruct fuel; reflexivity.
      - apply IH; auto. apply (below_head_mlt m l' (m', c')); auto.
        apply canonical_iff in P' as (_ & M & _). cbn [terms with_terms psize] in M. destruct I as (In & _). rewrite In in M.
        apply Forall_app in M as [_ M]. exact M. }
    destruct (find_ok m Hm) as (w & Fw & Hw). destruct w as [a|].
    - destruct (nft_step f pre m c l a P I Fw) as (k1 & l' & K1 & E1 & V & B & Cg).
      destruct (Y (scale k1 pre) l' V B) as (N & r & k & HN). exists (S N), r, (S k). intros fuel r0 L. destruct fuel as [|fuel]; [lia|].
      cbn [nft_loop]. rewrite Fw. cbn [bind]. rewrite E1. cbn [bind]. rewrite (HN fuel (S r0)) by lia. do 2 f_equal. lia.
    - destruct (Y (pre ++ [(m, c)]) l) as (N & r & k & HN).
      + rewrite <- app_assoc. exact P.
      + apply canonical_iff in P as (S & _). cbn [terms with_terms pto pbo] in S. destruct I as (_ & I2 & I3). rewrite I2, I3 in S.
        apply sorted_app in S as (_ & S & _). apply sorted_below in S. tauto.
      + exists (S N), r, k. intros fuel r0 L. destruct fuel as [|fuel]; [lia|].
        cbn [nft_loop]. rewrite Fw. cbn [bind]. apply HN. lia. }
  intros f pre rest P I. destruct rest as [|[m c] l].
  - exists 0%nat, (with_terms f pre), 0%nat. intros fuel r0 _. rewrite Nat.add_0_r. destruct fuel; reflexivity.
  - apply (X m f pre c l P I).
Qed.

Lemma isnf_ok l : monos n l -> exists b, isnf_loop find l = Ok b /\ (b = true <-> Forall (fun x => find (fst x) = Ok None) l).
Proof.
  induction l as [|[m c] l IH]; intro M; cbn [isnf_loop].
  - exists true. split; [reflexivity|]. split; [constructor|reflexivity].
  - apply Forall_cons_iff in M as [Hm M]. destruct (find_ok m Hm) as (w & Fw & _). rewrite Fw. cbn [bind].
    destruct w as [a|].
    + exists false. split; [reflexivity|]. split; [discriminate|]. intro H. apply Forall_inv in H. cbn [fst] in H. congruence.
    + destruct (IH M) as (b & E & H). exists b. split; [exact E|]. rewrite H, Forall_cons_iff. cbn [fst]. tauto.
Qed.
End Nf.

(* ------------------------------------------------------------------------------------------ *)
(** * Primitive part *)

Definition cdivs (d : Z) (l : list term) : Prop := Forall (fun x : term => (d | snd x)) l.

Lemma gcd_loop_ok dbg l : forall g, g <> 0 -> nz l ->
  exists w, gcd_loop dbg g l = Ok w /\
    match w with
    | None => forall d, (d | g) -> cdivs d l -> d = 1 \/ d = -1
    | Some g' => g' <> 0 /\ (Z.abs g <> 1 -> Z.abs g' <> 1) /\ (g' | g) /\ cdivs g' l /\ (forall d, (d | g) -> cdivs d l -> (d | g'))
    end.
Proof.
  induction l as [|[m c] l IH]; intros g Hg N; cbn [gcd_loop].
  - exists (Some g). split; [reflexivity|]. split; [exact Hg|]. split; [auto|]. split; [apply Z.divide_refl|]. split; [constructor|auto].
  - apply Forall_cons_iff in N as [Hc N]. cbn [snd] in Hc.
    unfold int_gcd. rewrite assert_true by (destruct (Z.eqb_spec g 0), (Z.eqb_spec c 0); cbn; congruence). cbn [bind].
    assert (G0 : Z.gcd g c <> 0) by (intro X; apply Z.gcd_eq_0_l in X; congruence).
    destruct (Z.eqb_spec (Z.abs (Z.gcd g c)) 1) as [E|E].
    + exists None. split; [reflexivity|]. intros d D1 D2. apply Forall_inv in D2. cbn [snd] in D2.
      assert (D : (d | Z.gcd g c)) by (apply Z.gcd_greatest; assumption).
      assert (D' : (d | 1)). { rewrite <- E. apply Z.divide_abs_r. exact D. }
      apply Z.divide_1_r in D'. lia.
    + destruct (IH (Z.gcd g c) G0 N) as (w & Ew & H). exists w. split; [exact Ew|]. destruct w as [g'|].
      * destruct H as (H0 & H1 & H2 & H3 & H4). split; [exact H0|]. split; [intros _; apply H1; exact E|].
        split; [eapply Z.divide_trans; [exact H2|apply Z.gcd_divide_l]|].
        split; [constructor; [cbn [snd]; eapply Z.divide_trans; [exact H2|apply Z.gcd_divide_r]|exact H3]|].
        intros d D1 D2. apply Forall_cons_iff in D2 as [D2 D3]. apply H4; [apply Z.gcd_greatest; assumption|exact D3].
      * intros d D1 D2. apply Forall_cons_iff in D2 as [D2 D3]. apply H; [apply Z.gcd_greatest; assumption|exact D3].
Qed.

Lemma div_terms_ok dbg g l : g <> 0 -> cdivs g l -> div_terms dbg g l = Ok (map (fun x => (fst x, snd x / g)) l).
Proof.
  intro Hg. induction l as [|[m c] l IH]; intro D; [reflexivity|]. apply Forall_cons_iff in D as [Dc D]. cbn [snd] in Dc.
  cbn [div_terms map fst snd]. rewrite int_div_exact by assumption. cbn [bind]. rewrite (IH D). reflexivity.
Qed.

Lemma primitive_list t o n l : canonical t o n l ->
  (primitive l <-> forall d, cdivs d l -> d = 1 \/ d = -1).
Proof.
  intro C. apply canonical_iff in C as (S & M & N). unfold primitive. split; intros H d D; apply H.
  - intro m. assert (X : forall l', cdivs d l' -> (d | coef l' m)).
    { clear. induction l' as [|[u c] l' IH]; intro D; [apply Z.divide_0_r|]. apply Forall_cons_iff in D as [Dc D]. cbn [coef].
      apply Z.divide_add_r; [|apply IH; exact D]. destruct (monom_eq_dec u m); [exact Dc|apply Z.divide_0_r]. }
    apply X. exact D.
  - apply Forall_forall. intros [u c] Hx. cbn [snd]. rewrite <- (coef_in t o n u c l S M Hx). apply D.
Qed.

Lemma p_isPp_ok dbg p : pvalid p -> exists b, p_isPp dbg p = Ok b /\ (b = true <-> terms p = [] \/ primitive (terms p)).
Proof.
  intro P. assert (PL := primitive_list _ _ _ _ P).
  enough (X : exists b, p_isPp dbg p = Ok b /\ (b = true <-> terms p = [] \/ forall d, cdivs d (terms p) -> d = 1 \/ d = -1)).
  { destruct X as (b & E & H). exists b. split; [exact E|]. rewrite H, PL. reflexivity. }
  clear PL. apply canonical_iff in P as (S & M & N). unfold p_isPp.
  destruct (terms p) as [|[m c] l].
  { exists true. split; [reflexivity|]. split; [left; reflexivity|reflexivity]. }
  apply Forall_cons_iff in N as [Hc N]. cbn [snd] in Hc.
  destruct (Z.eqb_spec (Z.abs c) 1) as [E|E].
  { exists true. split; [reflexivity|]. split; [|reflexivity]. intros _. right. intros d D. apply Forall_inv in D. cbn [snd] in D.
    assert (D' : (d | 1)) by (rewrite <- E; apply Z.divide_abs_r; exact D). apply Z.divide_1_r in D'. lia. }
  destruct (gcd_loop_ok dbg l c Hc N) as (w & Ew & H). rewrite Ew. cbn [bind]. destruct w as [g|].
  - exists false. split; [reflexivity|]. split; [discriminate|]. intros [X|X]; [discriminate X|].
    destruct H as (H0 & H1 & H2 & H3 & H4). destruct (X g) as [->| ->]; [constructor; assumption| |]; exfalso; apply (H1 E); reflexivity.
  - exists true. split; [reflexivity|]. split; [|reflexivity]. intros _. right. intros d D. apply Forall_cons_iff in D as [D1 D2]. apply H; assumption.
Qed.

Lemma coef_div g l m : g <> 0 -> cdivs g l -> g * coef (map (fun x => (fst x, snd x / g)) l) m = coef l m.
Proof.
  intro Hg. induction l as [|[u c] l IH]; intro D; [cbn; lia|]. apply Forall_cons_iff in D as [Dc D]. cbn [snd] in Dc.
  cbn [map coef fst snd]. rewrite <- (IH D). destruct (monom_eq_dec u m); [|lia].
  destruct Dc as [x ->]. rewrite Z.div_mul by exact Hg. lia.
Qed.

Lemma p_pp_ok dbg p : pvalid p -> exists r g, p_pp dbg p = Ok r /\ comparable p r = true /\ pvalid r /\ g <> 0 /\
  map fst (terms r) = map fst (terms p) /\
  (forall m, coef (terms p) m = g * coef (terms r) m) /\ (terms p = [] \/ primitive (terms r)) /\
  (g < 0 -> length (terms p) = 1%nat).
Proof.
  intro P. assert (Same : (terms p = [] \/ primitive (terms p)) -> exists r g, Ok p = Ok r /\ comparable p r = true /\ pvalid r /\ g <> 0 /\
    map fst (terms r) = map fst (terms p) /\
    (forall m, coef (terms p) m = g * coef (terms r) m) /\ (terms p = [] \/ primitive (terms r)) /\ (g < 0 -> length (terms p) = 1%nat)).
  { intro H. exists p, 1. split; [reflexivity|]. split; [apply comparable_refl|]. split; [exact P|]. split; [lia|]. split; [reflexivity|].
    split; [intro; lia|]. split; [exact H|lia]. }
  unfold p_pp. destruct (terms p) as [|[m c] l] eqn:Et.
  { apply Same. left. reflexivity. }
  assert (P' := P). apply canonical_iff in P' as (S & M & N). rewrite Et in S, M, N.
  assert (N0 := N). apply Forall_cons_iff in N as [Hc N]. cbn [snd] in Hc.
  assert (Cl : canonical (pto p) (pbo p) (psize p) ((m, c) :: l)) by (apply canonical_iff; auto).
  destruct (Z.eqb_spec (Z.abs c) 1) as [E|E].
  { apply Same. right. apply (primitive_list _ _ _ _ Cl). intros d D. apply Forall_inv in D. cbn [snd] in D.
    assert (D' : (d | 1)) by (rewrite <- E; apply Z.divide_abs_r; exact D). apply Z.divide_1_r in D'. lia. }
  destruct (gcd_loop_ok dbg l c Hc N) as (w & Ew & H). rewrite Ew. cbn [bind]. destruct w as [g|].
  2:{ apply Same. right. apply (primitive_list _ _ _ _ Cl). intros d D. apply Forall_cons_iff in D as [D1 D2]. apply H; assumption. }
  destruct H as (H0 & H1 & H2 & H3 & H4).
  assert (Dv : cdivs g ((m, c) :: l)) by (constructor; assumption).
  rewrite div_terms_ok by assumption. cbn [bind].
  set (l' := map (fun x => (fst x, snd x / g)) ((m, c) :: l)).
  assert (V : pvalid (with_terms p l')).
  { unfold pvalid, valid_poly. cbn [pto pbo psize terms with_terms]. apply canonical_iff. split; [|split].
    - unfold l'. apply map_sorted; [|exact S]. intros x y _ _ Hxy. exact Hxy.
    - unfold l'. apply Forall_map. exact M.
    - unfold l'. apply Forall_map. unfold cdivs in Dv. unfold nz in N0. rewrite Forall_forall in *. intros x Hx. cbn [snd].
      destruct (Dv x Hx) as [y Ey]. specialize (N0 x Hx). rewrite Ey, Z.div_mul by exact H0. intro; subst y; lia. }
  assert (Pr : primitive l').
  { apply (primitive_list _ _ _ _ V). intros d D. 
    assert (X : (d * g | g)).
    { apply H4; unfold cdivs, l' in D; cbn [terms with_terms] in D; rewrite Forall_map in D; apply Forall_cons_iff in D as [D1 D2]; cbn [snd] in *.
      - destruct H2 as [y Ey]. rewrite Ey in D1 |- *. rewrite Z.div_mul in D1 by exact H0. now apply Z.mul_divide_mono_r.
      - unfold cdivs in *. rewrite Forall_forall in H3, D2 |- *. intros x Hx. specialize (D2 x Hx). destruct (H3 x Hx) as [y Ey].
        rewrite Ey in D2 |- *. rewrite Z.div_mul in D2 by exact H0. now apply Z.mul_divide_mono_r. }
    destruct X as [y Ey]. assert (g * (y * d - 1) = 0) by lia. assert (y * d = 1) by nia.
    assert (H6 := Z.eq_mul_1 _ _ H5). destruct H6; subst y; lia. }
  destruct (p_isPp_ok dbg _ V) as (b & Eb & Hb). rewrite Eb. cbn [bind].
  assert (b = true) by (apply Hb; right; exact Pr). subst b. rewrite assert_true by reflexivity.
  exists (with_terms p l'), g. split; [reflexivity|]. split; [apply comparable_with|]. split; [exact V|]. split; [exact H0|].
  cbn [terms with_terms]. split; [unfold l'; rewrite map_map; reflexivity|].
  split; [intro u; unfold l'; symmetry; apply coef_div; assumption|]. split; [right; exact Pr|].
  intro Neg. destruct l as [|[u e] l]; [reflexivity|]. exfalso.
  clear - Ew Neg E. cbn [gcd_loop] in Ew. unfold int_gcd in Ew.
  assert (Q : forall l g, 0 <= g -> forall w, gcd_loop dbg g l = Ok (Some w) -> 0 <= w).
  { clear. induction l as [|[u e] l IH]; intros g Hg w; cbn [gcd_loop].
    - intro H. injection H as <-. exact Hg.
    - unfold int_gcd, assert_. destruct (dbg && _); cbn [bind]; [discriminate|]. destruct (_ =? 1); [discriminate|].
      apply IH. apply Z.gcd_nonneg. }
  unfold assert_ in Ew. destruct (dbg && _); cbn [bind] in Ew; [discriminate|]. destruct (_ =? 1); [discriminate|].
  apply Q in Ew; [lia|apply Z.gcd_nonneg].
Qed.
