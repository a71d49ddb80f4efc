(** Closed classes of polynomials: the steps of completion stay in them. *)
From Coq Require Import ZArith List Bool Arith Lia Permutation Sorted.
From Verif Require Import Outcome MonomModel MonomSpec MonomProofs PolyModel PolySpec PolyProofs PolyRedProofs PolyNfProofs
  PolyTopProofs JanetModel JanetSpec JanetProofs JanetFindProofs CompletionProofs JanetPolyModel TQModel JanetPolySpec IdealProofs JanetPolyProofs
  TQProofs GrowthProofs JanetTermSpec JanetTermProofs JanetTermMain ShapeProofs AncProofs ClosedSpec.
Import ListNotations.
Local Open Scope Z_scope.

Section P.
Variables (t : pos_order) (o : base_order) (n : nat).
Hypothesis (Hn : (0 < n)%nat) (Ho : o <> OAlex).
Variable PP : list term -> Prop.
Notation A := (fun _ : list term => True).
Notation good := (good t o n A).
Notation goodz := (goodz t o n A).
Notation okq := (okq t o n A).
Notation okt := (okt t o n A).
Notation okh := (okh t o n A).
Notation tinv := (tinv t o n A).
Notation gw := (gw t o n A).
Notation le := (le t o).
Notation lt := (lt t o).
Notation GT := (GT n A).
Notation find1 J T := (find_poly false (-1) (Some [J]) T).

Definition fw (l : list wpoly) : Prop := Forall (fun u => PP (terms (wpol u))) l.
Definition ft (T : list entry) : Prop := Forall (fun e => PP (terms (snd e))) T.

Lemma fw_perm l l' : Permutation l l' -> fw l -> fw l'.
Proof. apply Permutation_Forall. Qed.
Lemma goodz_rt p : goodz p -> ring_terms t o n (terms p).
Proof. intro G. split; [apply (goodz_canon t o n A); exact G|apply G]. Qed.
Lemma hd_leads p v : goodz p -> hd p v -> leads (terms p) (vars v) /\ v = Mon (-1) (vars v).
Proof.
  intros G H. destruct (hd_mono t o n A p v G H) as [_ Pv]. destruct H as (c & l & E). assert (X : v = Mon (-1) (vars v)) by (rewrite <- Pv; destruct v; reflexivity).
  split; [|exact X]. exists c, l. rewrite <- X. exact E.
Qed.
Lemma mprod_vsum u v : mprod (Mon (-1) u) (Mon (-1) v) = Mon (-1) (vsum u v).
Proof. reflexivity. Qed.

(* ------------------------------------------------------------------------------------------ *)
(** * Reductions *)

Section S.
Variable D : list term -> Prop.
Hypothesis HD : kept_by_elimination t o n PP D.
Hypothesis HF : kept_by_factors t o n D.
Variable SS : list term -> Prop.
Hypothesis HSS : forall g, SS g -> GM n A g /\ PP g.

Lemma elim f a r m v u k1 k2 : goodz f -> good a -> goodz r -> D (terms f) -> PP (terms a) -> hd a v -> length u = n -> mprod (Mon (-1) u) v = m -> In m (map fst (terms f)) ->
  k1 <> 0 -> (forall w, coef (terms r) w = k1 * coef (terms f) w + k2 * coef (shift u (terms a)) w) -> coef (terms r) m = 0 -> D (terms r).
Proof.
  intros Gf Ga Gr Df Pa Hv Lu <- Im K1 S Z. destruct (hd_leads a v (proj1 Ga) Hv) as [Lv Ev].
  assert (N := in_coef t o n A f _ Gf Im). rewrite Ev in N, Z. rewrite mprod_vsum in N, Z.
  apply (HD (terms f) (terms a) (terms r) u (vars v) k1 k2); try assumption; try (apply goodz_rt; assumption || apply Ga).
Qed.

Lemma found find m a : good_find false t o n SS find -> mono n m -> find m = Ok (Some a) ->
  good a /\ PP (terms a) /\ reducer false m (terms a) /\ exists v d a', terms a = (v, d) :: a' /\ mdivides v m.
Proof.
  intros F Mm E. destruct (F m Mm) as (w & Ew & W). rewrite E in Ew. injection Ew as <-.
  destruct (W a eq_refl) as (V & S1 & S2 & S3 & Sa & Re & v & d & a' & Ea & Dv). destruct (HSS _ Sa) as [[R M] Fa].
  split; [split; [|rewrite Ea; discriminate]|]. { split; [exact V|]. split; [split; [exact S1|split; assumption]|]. split; assumption. }
  split; [exact Fa|]. split; [exact Re|]. exists v, d, a'. auto.
Qed.

Lemma nf_in find : good_find false t o n SS find -> forall fuel f r0 r k, goodz f -> D (terms f) -> nf_loop fuel false find r0 f = Ok (r, k) -> D (terms r).
Proof.
  intro F. induction fuel as [|fuel IH]; intros f r0 r k Gf Ff X; cbn [nf_loop] in X; destruct (terms f) as [|[m c] l] eqn:E.
  - injection X as <- <-. rewrite E. exact Ff.
  - destruct (find m) as [[a|]| | | |]; cbn [bind] in X; try discriminate. injection X as <- <-. rewrite E. exact Ff.
  - injection X as <- <-. rewrite E. exact Ff.
  - destruct (find m) as [[a|]| | | |] eqn:Ef; cbn [bind] in X; try discriminate.
    2:{ injection X as <- <-. rewrite E. exact Ff. }
    assert (Hm : hd f m) by (exists c, l; exact E). destruct (hd_mono t o n A f m Gf Hm) as [Mm Pm].
    destruct (found find m a F Mm Ef) as (Ga & Fa & Re & v & d & a' & Ea & Dv).
    destruct (nf_step false t o n SS find F f m c l a) as (q & Eq & Vq & Iq & _ & Cq); [apply Gf|apply Gf|exact E|exact Ef|].
    rewrite Eq in X. cbn [bind] in X.
    assert (Gq : goodz q).
    { apply (congruent_goodz t o n A SS) with (f := f); [intros g Hg; apply (HSS g Hg)|exact Gf|exact Vq|exact Iq|]. apply Cq. apply (congruent_refl n). }
    destruct (c14 false f a m c l v d a') as (q' & k1 & k2 & u & E1 & _ & _ & K1 & _ & Lu & Hu & S & Z & _);
      [apply Gf|apply Ga|apply (goodz_same t o n A); [exact Gf|apply Ga]|exact E|exact Ea|exact Dv|exact Re|].
    rewrite Eq in E1. injection E1 as <-. apply (IH q (Datatypes.S r0) r k Gq); [|exact X].
    assert (Lu' : length u = n) by (rewrite Lu; apply Gf). rewrite <- E in Ff.
    apply (elim f a q m v u k1 (- k2)); [exact Gf|exact Ga|exact Gq|exact Ff|exact Fa|exists d, a'; exact Ea|exact Lu'|exact Hu|rewrite E; left; reflexivity|exact K1|intro w; rewrite S; ring|exact Z].
Qed.
Lemma p_nf_in find fuel p r : good_find false t o n SS find -> goodz p -> D (terms p) -> p_nf fuel false find p = Ok r -> D (terms (fst r)).
Proof. intros F Gp Fp E. unfold p_nf in E. destruct r as [r k]. eapply nf_in; eassumption. Qed.

Lemma nft_in find : good_find false t o n SS find -> forall fuel f pre rest r0 r k, goodz (with_terms f (pre ++ rest)) ->
  D (pre ++ rest) -> nft_loop fuel false find r0 f pre rest = Ok (r, k) -> D (terms r).
Proof.
  intro F. induction fuel as [|fuel IH]; intros f pre rest r0 r k G Ff X; cbn [nft_loop] in X; destruct rest as [|[m c] rest]; try discriminate.
  1,2: injection X as <- <-; cbn [with_terms terms]; rewrite app_nil_r in Ff; exact Ff.
  assert (G' := G). destruct G' as (V & I & R & _). cbn [with_terms terms] in R. change (inring t o n f) in I.
  assert (Hm : mono n m) by (eapply (mono_of_valid t o n); eassumption).
  destruct (find m) as [[a|]| | | |] eqn:Ef; cbn [bind] in X; try discriminate.
  - destruct (found find m a F Hm Ef) as (Ga & Fa & Re & v & d & a' & Ea & Dv).
    destruct (red_tail_ok false (with_terms f (pre ++ (m, c) :: rest)) a pre m c rest v d a') as (k1 & k2 & u & l & E1 & V' & K1 & _ & _ & Lu & Hu & S & Bl);
      [exact V|apply Ga|destruct I as (I1 & I2 & I3), Ga as [(_ & (A1 & A2 & A3) & _) _]; apply comparable_eq; cbn [with_terms psize pto pbo]; repeat split; congruence|reflexivity|exact Ea|exact Dv|exact Re|].
    cbn [with_terms] in E1. rewrite <- (with_same f) in E1 at 1.
    assert (E2 : red_tail false f pre ((m, c) :: rest) a = Ok (scale k1 pre, l)).
    { rewrite <- E1. unfold red_tail. reflexivity. }
    rewrite E2 in X. cbn [bind] in X.
    change (with_terms (with_terms f (pre ++ (m, c) :: rest)) (scale k1 pre ++ l)) with (with_terms f (scale k1 pre ++ l)) in V'.
    cbn [with_terms terms psize] in S, Lu. destruct I as (I1 & I2 & I3). rewrite I1 in Lu.
    assert (Gq : goodz (with_terms f (scale k1 pre ++ l))).
    { split; [exact V'|]. split; [split; [exact I1|split; assumption]|].
      assert (Rr : ring_poly (scale k1 pre ++ l)).
      { assert (Ca : canonical t o n (scale k1 pre ++ l)) by (unfold pvalid, valid_poly in V'; cbn [with_terms pto pbo psize terms] in V'; congruence).
        eapply ring_of_coef; [exact Ca|]. intros x N. rewrite S, (coef_ring _ x R N), (coef_ring (shift u (terms a)) x); [lia| |exact N]. apply ring_shift. apply Ga. }
      split; [exact Rr|]. cbn [with_terms terms]. apply mem_gen; [exact Logic.I|]. unfold pvalid, valid_poly in V'. cbn [with_terms pto pbo psize terms] in V'.
      apply canonical_iff in V' as (_ & M & _). rewrite I1 in M. exact M. }
    apply (IH f (scale k1 pre) l (Datatypes.S r0) r k Gq); [|exact X].
    change (D (terms (with_terms f (scale k1 pre ++ l)))).
    apply (elim (with_terms f (pre ++ (m, c) :: rest)) a _ m v u k1 k2); [exact G|exact Ga|exact Gq|exact Ff|exact Fa|exists d, a'; exact Ea|exact Lu|exact Hu| |exact K1|exact S|].
    + cbn [with_terms terms]. rewrite map_app. apply in_or_app. right. left. reflexivity.
    + cbn [with_terms terms]. destruct (Z.eq_dec (coef (scale k1 pre ++ l) m) 0) as [Z|Z]; [exact Z|exfalso].
      apply coef_nz_in in Z. rewrite map_app in Z. apply in_app_or in Z. unfold pvalid, valid_poly in V. cbn [with_terms pto pbo psize terms] in V. apply canonical_iff in V as (Sv & _).
      apply sorted_app in Sv as (_ & _ & S3). destruct Z as [Z|Z].
      * unfold scale in Z. rewrite map_map in Z. apply in_map_iff in Z as (y & Ey & Iy). cbn [fst] in Ey. rewrite Forall_forall in S3. assert (Y := Forall_inv (S3 y Iy)). cbn [fst] in Y.
        rewrite Ey in Y. cbv beta in Y. unfold gt1 in Y. rewrite cmp1_refl in Y. lia.
      * apply in_map_iff in Z as (y & Ey & Iy). unfold below in Bl. rewrite Forall_forall in Bl. assert (Y := Bl y Iy). cbv beta in Y. rewrite Ey in Y. unfold gt1 in Y. rewrite cmp1_refl in Y. lia.
  - apply IH in X; [exact X|rewrite <- app_assoc; exact G|rewrite <- app_assoc; exact Ff].
Qed.
Lemma p_nfTail_in find find' fuel p lm r : good_find false t o n SS find -> good p -> hd p lm -> D (terms p) ->
  (forall m, mono n m -> cmp1 t o lm m = 1 -> find' m = find m) -> p_nfTail fuel false find' p = Ok r -> D (terms (fst r)).
Proof.
  intros F [Gp Np] (c & l & El) Fp Ex E. unfold p_nfTail in E. rewrite El in E. assert (Gp' := Gp). destruct Gp' as (V & I & R & M).
  assert (V' : pvalid (with_terms p ([(lm, c)] ++ l))) by (cbn [app]; rewrite <- El, (with_same p); exact V).
  rewrite (nft_ext t o n SS find find' lm F Ex fuel p [(lm, c)] l 0%nat V' I eq_refl) in E. destruct r as [r k].
  eapply nft_in; [exact F| | |exact E]; cbn [app]; rewrite <- El; [rewrite (with_same p); exact Gp|exact Fp].
Qed.

Lemma pp_in p r : goodz p -> D (terms p) -> p_pp false p = Ok r -> D (terms r).
Proof.
  intros Gp Fp E. destruct (p_pp_ok false p (proj1 Gp)) as (r' & g & E' & C & V & Hg & Mf & F & _). rewrite E in E'. injection E' as <-.
  apply comparable_same_ring in C. destruct C as (C1 & C2 & C3). assert (Gp' := Gp). destruct Gp' as (Vp & (I1 & I2 & I3) & R & _).
  apply (HF (terms p) (terms r) g 1); [apply goodz_rt; exact Gp| |exact Fp|exact Hg|lia|intro w; rewrite F; ring].
  split.
  - unfold pvalid, valid_poly in V. congruence.
  - unfold ring_poly in *. rewrite Forall_forall in *. intros [u c] Iu.
    assert (I' : In u (map fst (terms p))) by (rewrite <- Mf; apply in_map_iff; exists (u, c); auto).
    apply in_map_iff in I' as ([u' c'] & Eu & I'). cbn [fst] in *. subst u'. exact (R _ I').
Qed.
End S.

Hypothesis HE : kept_by_elimination t o n PP PP.
Hypothesis HF : kept_by_factors t o n PP.

Lemma GT_in T : ft T -> forall g, GT T g -> GM n A g /\ PP g.
Proof. intros F g [M (e & I & <-)]. split; [exact M|]. unfold ft in F. rewrite Forall_forall in F. exact (F e I). Qed.

(** One reduction of f by a with the same or a smaller leading monomial. *)
Lemma reduction_in f a m r : good f -> good a -> hd f m -> hd a m -> PP (terms f) -> PP (terms a) -> p_reduction false f a = Ok r -> PP (terms r).
Proof.
  intros Gf Ga Hf Ha Pf Pa E. destruct (good_reduction t o n A Hn f a m Gf Ga Hf Ha) as (r' & E' & Gr & _). rewrite E in E'. injection E' as <-.
  assert (Hf' := Hf). assert (Ha' := Ha). destruct Hf' as (c & l & Ef), Ha' as (d & a' & Ea). destruct (hd_mono t o n A f m (proj1 Gf) Hf) as [Mm Pm].
  destruct (c14 false f a m c l m d a') as (q & k1 & k2 & u & E1 & _ & _ & K1 & _ & Lu & Hu & S & Z & _);
    [apply Gf|apply Ga|apply (goodz_same t o n A); [apply Gf|apply Ga]|exact Ef|exact Ea| | |].
  - split; [right; reflexivity|]. split; [reflexivity|]. intro; lia.
  - split; [|discriminate]. rewrite Pm. apply Ga.
  - rewrite E in E1. injection E1 as <-. assert (Lu' : length u = n) by (rewrite Lu; apply Gf).
    apply (elim PP HE f a r m m u k1 (- k2)); [apply Gf|exact Ga|exact Gr|exact Pf|exact Pa|exact Ha|exact Lu'|exact Hu|apply hd_in; exact Hf|exact K1|intro w; rewrite S; ring|exact Z].
Qed.
Lemma redMaybe_in f a m v r : good f -> good a -> hd f m -> hd a v -> cmp1 t o m v = 1 -> PP (terms f) -> PP (terms a) -> p_redMaybe false f a = Ok r -> PP (terms r).
Proof.
  intros Gf Ga Hf Ha C Pf Pa E. destruct (good_redMaybe t o n A Hn f a m v Gf Ga Hf Ha C) as (r' & E' & Gr & _). rewrite E in E'. injection E' as <-.
  assert (Ha' := Ha). destruct Ha' as (d & a' & Ea).
  destruct (c16_redMaybe false f a v d a') as (q & k1 & k2 & E1 & _ & _ & K1 & S & Z);
    [apply Gf|apply Ga|apply (goodz_same t o n A); [apply Gf|apply Ga]|apply Gf|exact Ea|apply Gf|apply Ga|].
  rewrite E in E1. injection E1 as <-. destruct (hd_mono t o n A a v (proj1 Ga) Ha) as [Mv Pv].
  assert (Ma : monos n (terms a)) by (assert (Ca := goodz_canon t o n A a (proj1 Ga)); apply canonical_iff in Ca; tauto).
  destruct (in_dec monom_eq_dec v (map fst (terms f))) as [Iv|Nv].
  - apply (elim PP HE f a r v v (repeat 0%nat n) k1 (- k2)); [apply Gf|exact Ga|apply Gr|exact Pf|exact Pa|exact Ha|apply repeat_length| |exact Iv|exact K1| |exact Z].
    + apply (mprod_unit n). exact Mv.
    + intro w. rewrite S, (shift_unit n) by exact Ma. ring.
  - assert (Zf : coef (terms f) v = 0) by (apply coef_notin; exact Nv). assert (Nd := in_coef t o n A a v (proj1 Ga) (hd_in _ _ Ha)).
    assert (K2 : k2 = 0) by (rewrite S, Zf in Z; apply Z.mul_eq_0_l with (m := coef (terms a) v); [lia|exact Nd]).
    apply (HF (terms f) (terms r) 1 k1); [apply goodz_rt, Gf|apply goodz_rt, Gr|exact Pf|lia|exact K1|]. intro w. rewrite S, K2. ring.
Qed.

Lemma tail_pp_in J T fuel p m r : tinv J T -> ft T -> good p -> hd p m -> PP (terms p) -> tail_pp fuel false (find1 J T) p = Ok r -> PP (terms r).
Proof.
  intros H F Gp Hp Fp E. unfold tail_pp in E. assert (GF := good_find_T t o n A Hn J T H).
  assert (N := nft_safe t o n A (GT T) (GT_GM n A T) (find1 J T) (find1 J T) fuel p m GF Gp Hp (fun _ _ _ => eq_refl)).
  destruct (p_nfTail fuel false (find1 J T) p) as [[p2 c]| | | |] eqn:E1; cbn [bind fst snd] in E; try discriminate. cbn [safe fst] in N. destruct N as (G2 & _).
  assert (F2 := p_nfTail_in PP HE (GT T) (GT_in T F) _ _ fuel p m _ GF Gp Hp Fp (fun _ _ _ => eq_refl) E1). cbn [fst] in F2.
  destruct (c =? 0)%nat; [injection E as <-; exact F2|eapply (pp_in PP HF); [|eassumption|eassumption]; first [apply G2|apply Gr'|exact Gr|eassumption]].
Qed.
Lemma tail_reduce_in fuel J T e T0 e' : tinv J T -> Permutation T (e :: T0) -> ft T -> tail_reduce fuel false (-1) [J] T0 e = Ok e' -> ft (e' :: T0).
Proof.
  intros H P F E. unfold tail_reduce in E. apply (Permutation_Forall P) in F as F'. assert (Fe := Forall_inv F'). assert (F0 := Forall_inv_tail F'). cbv beta in Fe.
  assert (Ie : In e T) by (eapply Permutation_in; [apply Permutation_sym; exact P|left; reflexivity]).
  assert (Hg := ti_good _ _ _ _ _ _ H). rewrite Forall_forall in Hg. destruct (Hg _ Ie) as [Ge He].
  set (f := find_poly false (-1) (Some [J]) T0) in *.
  assert (GF : good_find false t o n (GT T0) (below_find t o (fst e) f)) by (eapply (find_other t o n A Hn Ho); eassumption).
  assert (Ex : forall m, mono n m -> cmp1 t o (fst e) m = 1 -> f m = below_find t o (fst e) f m) by (intros m _ C; unfold below_find; rewrite C; reflexivity).
  assert (N := nft_safe t o n A (GT T0) (GT_GM n A T0) _ f fuel (snd e) (fst e) GF Ge He Ex).
  destruct (p_nfTail fuel false f (snd e)) as [[p c]| | | |] eqn:E1; cbn [bind] in E; try discriminate. cbn [safe fst] in N. destruct N as (G2 & _).
  assert (F2 := p_nfTail_in PP HE (GT T0) (GT_in T0 F0) _ _ fuel (snd e) (fst e) _ GF Ge He Fe Ex E1). cbn [fst] in F2.
  destruct (c =? 0)%nat; cbn [bind] in E; [injection E as <-; constructor; [exact F2|exact F0]|].
  destruct (p_pp false p) as [p3| | | |] eqn:Ep; cbn [bind] in E; try discriminate. injection E as <-. constructor; [cbn [snd]; eapply (pp_in PP HF); [|eassumption|eassumption]; first [apply G2|apply Gr'|exact Gr|eassumption]|exact F0].
Qed.

(* ------------------------------------------------------------------------------------------ *)
(** * The lists of a round *)

Lemma take_block_in J T dg fuel : tinv J T -> ft T -> forall q tmp q1 tmp1, Forall okq q -> Forall gw tmp -> fw q -> fw tmp ->
  take_block fuel false (find1 J T) dg q tmp = Ok (Some (q1, tmp1)) -> fw q1 /\ fw tmp1.
Proof.
  intros H F. assert (GF := good_find_T t o n A Hn J T H).
  induction q as [|u q IH]; intros tmp q1 tmp1 Q Tm Fq Ft E; cbn [take_block] in E; [injection E as <- <-; auto|].
  assert (Hu := Forall_inv Q). assert (Q' := Forall_inv_tail Q). assert (Fu := Forall_inv Fq). assert (Fq' := Forall_inv_tail Fq). cbv beta in Fu.
  rewrite (lm_plm t o n A false u (proj1 Hu)) in E. cbn [bind] in E. destruct (deg (plm u) <=? dg)%nat; [|injection E as <- <-; auto].
  assert (N := nf_safe t o n A Hn (GT T) (GT_GM n A T) _ fuel (wpol u) GF (proj1 (proj1 Hu))).
  destruct (p_nf fuel false (find1 J T) (wpol u)) as [r| | | |] eqn:E1; cbn [bind] in E; try discriminate. cbn [safe] in N. destruct N as (Gr & _).
  assert (F1 := p_nf_in PP HE (GT T) (GT_in T F) _ fuel (wpol u) r GF (proj1 (proj1 Hu)) Fu E1).
  destruct (is_zero (fst r)) eqn:Zr; [eapply IH; eassumption|].
  assert (Gr' : good (fst r)) by (split; [exact Gr|intro Z; unfold is_zero in Zr; rewrite Z in Zr; discriminate]).
  destruct (good_hd t o n A _ Gr') as (m & Hm). rewrite (hd_lm false _ m Hm) in E. cbn [bind] in E. destruct (deg m =? 0)%nat; [discriminate|].
  assert (N := nft_safe t o n A (GT T) (GT_GM n A T) (find1 J T) (find1 J T) fuel (fst r) m GF Gr' Hm (fun _ _ _ => eq_refl)).
  destruct (p_nfTail fuel false (find1 J T) (fst r)) as [[p2 c]| | | |] eqn:E2; cbn [bind] in E; try discriminate. cbn [safe fst] in N. destruct N as (G2 & _).
  assert (F2 := p_nfTail_in PP HE (GT T) (GT_in T F) _ _ fuel (fst r) m _ GF Gr' Hm F1 (fun _ _ _ => eq_refl) E2). cbn [fst] in F2.
  destruct (good_hd t o n A _ G2) as (m2 & Hm2).
  destruct (if (c =? 0)%nat then Ok p2 else p_pp false p2) as [p3| | | |] eqn:E3; cbn [bind] in E; try discriminate.
  assert (X3 : good p3 /\ PP (terms p3)).
  { destruct (c =? 0)%nat; [injection E3 as <-; auto|]. split; [|eapply (pp_in PP HF); [|eassumption|eassumption]; first [apply G2|apply Gr'|exact Gr|eassumption]].
    destruct (good_pp t o n A p2 m2 G2 Hm2) as (p' & E' & G' & _). rewrite E3 in E'. injection E' as <-. exact G'. }
  destruct X3 as [G3 F3]. destruct (jp_insert false tmp _) as [tmp'| | | |] eqn:E4; cbn [bind] in E; try discriminate. apply jp_insert_perm in E4.
  apply (IH tmp' q1 tmp1 Q'); [| |exact (fw_perm _ _ (Permutation_sym E4) (Forall_cons (WP (wwrap u) p3) F3 Ft))|exact E].
  - eapply Permutation_Forall; [apply Permutation_sym; exact E4|]. constructor; [exact G3|exact Tm].
  - exact Fq'.
Qed.

Lemma take_tq_in J T dg fuel : tinv J T -> ft T -> forall q tmp q1 tmp1, Forall okq q -> Forall gw tmp -> fw q -> fw tmp ->
  take_tq false fuel false (find1 J T) dg q tmp = Ok (Some (q1, tmp1)) -> fw q1 /\ fw tmp1.
Proof.
  intros H F. assert (GF := good_find_T t o n A Hn J T H).
  induction q as [|u q IH]; intros tmp q1 tmp1 Q Tm Fq Ft E; cbn [take_tq] in E; [injection E as <- <-; auto|].
  assert (Hu := Forall_inv Q). assert (Q' := Forall_inv_tail Q). assert (Fu := Forall_inv Fq). assert (Fq' := Forall_inv_tail Fq). cbv beta in Fu.
  rewrite (lm_plm t o n A false u (proj1 Hu)) in E. cbn [bind] in E. destruct (deg (plm u) <=? dg)%nat; [|injection E as <- <-; auto].
  assert (N := nf_safe t o n A Hn (GT T) (GT_GM n A T) _ fuel (wpol u) GF (proj1 (proj1 Hu))).
  destruct (p_nf fuel false (find1 J T) (wpol u)) as [[p c]| | | |] eqn:E1; cbn [bind] in E; try discriminate. cbn [safe fst] in N. destruct N as (Gr & _).
  assert (F1 := p_nf_in PP HE (GT T) (GT_in T F) _ fuel (wpol u) _ GF (proj1 (proj1 Hu)) Fu E1). cbn [fst] in F1.
  destruct (is_zero p) eqn:Zr; [eapply IH; eassumption|].
  assert (Gr' : good p) by (split; [exact Gr|intro Z; unfold is_zero in Zr; rewrite Z in Zr; discriminate]).
  destruct (good_hd t o n A _ Gr') as (m & Hm). rewrite (hd_lm false _ m Hm) in E. cbn [bind] in E. destruct (deg m =? 0)%nat; [discriminate|].
  cbn [bind fst snd] in E.
  destruct (if (c + 0 =? 0)%nat then Ok p else p_pp false p) as [p3| | | |] eqn:E3; cbn [bind] in E; try discriminate.
  assert (X3 : good p3 /\ PP (terms p3)).
  { destruct (c + 0 =? 0)%nat; [injection E3 as <-; auto|]. split; [|eapply (pp_in PP HF); [|eassumption|eassumption]; first [apply G2|apply Gr'|exact Gr|eassumption]].
    destruct (good_pp t o n A p m Gr' Hm) as (p' & E' & G' & _). rewrite E3 in E'. injection E' as <-. exact G'. }
  destruct X3 as [G3 F3]. destruct (jp_insert false tmp _) as [tmp'| | | |] eqn:E4; cbn [bind] in E; try discriminate. apply jp_insert_perm in E4.
  apply (IH tmp' q1 tmp1 Q'); [| |exact (fw_perm _ _ (Permutation_sym E4) (Forall_cons (WP (wwrap u) p3) F3 Ft))|exact E].
  - eapply Permutation_Forall; [apply Permutation_sym; exact E4|]. constructor; [exact G3|exact Tm].
  - exact Fq'.
Qed.

Lemma red_all_in a : gw a -> PP (terms (wpol a)) -> forall l l', Forall gw l -> Forall (lt a) l -> fw l -> red_all false (wpol a) l = Ok l' -> fw l'.
Proof.
  intros Ha Fa. induction l as [|u l IH]; intros l' Gl L F E; cbn [red_all] in E; [injection E as <-; constructor|].
  assert (Hu := Forall_inv Gl). assert (Lu := Forall_inv L).
  destruct (p_redMaybe false (wpol u) (wpol a)) as [r| | | |] eqn:Er; cbn [bind] in E; try discriminate. unfold assert_ in E. cbn [andb] in E.
  destruct (red_all false (wpol a) l) as [l2| | | |] eqn:El; cbn [bind] in E; try discriminate. injection E as <-.
  constructor; [|apply IH; [exact (Forall_inv_tail Gl)|exact (Forall_inv_tail L)|exact (Forall_inv_tail F)|reflexivity]]. cbn [wpol].
  eapply (redMaybe_in (wpol u) (wpol a) (plm u) (plm a)); [exact Hu|exact Ha|apply (plm_hd t o n A); exact Hu|apply (plm_hd t o n A); exact Ha|exact Lu|exact (Forall_inv F)|exact Fa|exact Er].
Qed.

Lemma scan_in J : forall cnt pre l tmp tmp2, Forall (okt J) (pre ++ l) -> StronglySorted le l -> fw (pre ++ l) ->
  scan cnt false pre l = Ok (tmp, tmp2) -> fw (tmp ++ tmp2).
Proof.
  induction cnt as [|cnt IH]; intros pre l tmp tmp2 O Sl F E.
  { destruct l; [|discriminate]. cbn [scan] in E. injection E as <- <-. exact F. }
  destruct l as [|k l]; cbn [scan] in E; [injection E as <- <-; exact F|].
  assert (O' := O). apply Forall_app in O' as [Op Ol]. assert (Hk := Forall_inv Ol). assert (Ol' := Forall_inv_tail Ol).
  assert (Gl := okt_gw t o n A J _ Ol'). assert (Gk : gw k) by apply Hk. destruct (plm_mono t o n A k Gk) as [Mk Pk].
  rewrite (lm_plm t o n A false k Gk) in E. cbn [bind] in E.
  destruct (same_lm_ok t o n A (plm k) Mk Pk l Gl) as (eqs & rest & Es & El & Ae & Br). rewrite Es in E. cbn [bind] in E.
  apply StronglySorted_inv in Sl as [Sl Fk]. assert (F' := F). apply Forall_app in F' as [Fp Fl]. assert (Fk' := Forall_inv Fl). assert (Fl' := Forall_inv_tail Fl). cbv beta in Fk'.
  destruct eqs as [|e eqs].
  - cbn [app] in El. subst rest.
    assert (Lk : Forall (lt k) l).
    { destruct l as [|v l]; [constructor|]. assert (Hv := Forall_inv Gl).
      assert (L0 : lt k v) by (destruct (le_cases t o n A k v Gk Hv (Forall_inv Fk)) as [L|Eq]; [exact L|congruence]).
      constructor; [exact L0|]. apply StronglySorted_inv in Sl as [_ Fv]. apply Forall_inv_tail in Gl. rewrite Forall_forall in *.
      intros w Iw. eapply (lt_le_trans t o n A); [exact Gk|exact Hv|apply Gl; exact Iw|exact L0|apply Fv; exact Iw]. }
    destruct (red_all_ok t o n A Hn J k Hk l Ol' Lk) as (l' & Er & Ol2 & Pl & _). rewrite Er in E. cbn [bind] in E.
    assert (F2 := red_all_in k Gk Fk' l l' Gl Lk Fl' Er).
    revert E. apply IH; rewrite <- ?app_assoc.
    + apply Forall_app. split; [exact Op|]. constructor; assumption.
    + exact (ss_map l l' (fun a b => cmp1 t o a b <> 1) Pl Sl).
    + apply Forall_app. split; [exact Fp|]. constructor; assumption.
  - injection E as <- <-. rewrite El in F. revert F. apply fw_perm. rewrite <- app_assoc. apply Permutation_app_head.
    symmetry. etransitivity; [apply Permutation_sym, Permutation_middle|]. constructor.
    etransitivity; [apply Permutation_app_comm|]. apply Permutation_app_tail. apply Permutation_sym. apply (Permutation_rev (e :: eqs)).
Qed.

Lemma red_by_in J a : okt J a -> PP (terms (wpol a)) -> forall l tmp tmp', Forall (okt J) l -> Forall (fun u => plm u = plm a) l -> fw l -> fw tmp ->
  red_by false (wpol a) l tmp = Ok tmp' -> fw tmp'.
Proof.
  intros Ha Fa. induction l as [|u l IH]; intros tmp tmp' O L F Ft E; cbn [red_by] in E; [injection E as <-; exact Ft|].
  assert (Hu := Forall_inv O). assert (Fu := Forall_inv F). cbv beta in Fu.
  destruct (good_reduction t o n A Hn (wpol u) (wpol a) (plm a)) as (r & Er & Gr & _ & Inc & _);
    [apply Hu|apply Ha|rewrite <- (Forall_inv L); apply (plm_hd t o n A); apply Hu|apply (plm_hd t o n A); apply Ha|]. rewrite Er in E. cbn [bind] in E.
  assert (Fr : PP (terms r)).
  { eapply (reduction_in (wpol u) (wpol a) (plm a)); [apply Hu|apply Ha|rewrite <- (Forall_inv L); apply (plm_hd t o n A); apply Hu|apply (plm_hd t o n A); apply Ha|exact Fu|exact Fa|exact Er]. }
  destruct (is_zero r); [eapply IH; [exact (Forall_inv_tail O)|exact (Forall_inv_tail L)|exact (Forall_inv_tail F)|exact Ft|exact E]|].
  destruct (jp_insert false tmp _) as [tmp1| | | |] eqn:E1; cbn [bind] in E; try discriminate. apply jp_insert_perm in E1.
  eapply IH; [exact (Forall_inv_tail O)|exact (Forall_inv_tail L)|exact (Forall_inv_tail F)| |exact E].
  exact (fw_perm _ _ (Permutation_sym E1) (Forall_cons (WP (wwrap u) r) Fr Ft)).
Qed.

Lemma block_loop_in J : forall fuel tmp q tmp2 q2 dg, tmp <> [] -> Forall (okt J) tmp -> StronglySorted le tmp -> fw tmp -> fw q ->
  block_loop fuel false tmp q = Ok (tmp2, q2, dg) -> fw tmp2 /\ fw q2.
Proof.
  induction fuel as [|fuel IH]; intros tmp q tmp2 q2 dg Ne O S F Fq E; cbn [block_loop] in E; [discriminate|]. destruct tmp as [|u l]; [congruence|].
  assert (Hu := Forall_inv O). assert (Ol := Forall_inv_tail O). rewrite (lm_plm t o n A false u (proj1 (proj1 Hu))) in E. cbn [bind] in E.
  destruct (same_deg_ok t o n A (deg (plm u)) l (okt_gw t o n A J _ Ol)) as (blk & rest & Es & El). rewrite Es in E. subst l. cbn [bind] in E. unfold assert_ in E. cbn [andb] in E.
  apply Forall_app in Ol as [Ob Or]. change (u :: blk ++ rest) with ((u :: blk) ++ rest) in S, F. apply ss_app in S as (Sb & _ & _). apply Forall_app in F as [Fb Fr].
  assert (Fq' : fw (rest ++ q)) by (apply Forall_app; split; assumption).
  destruct (scan_ok t o n A Hn J (Datatypes.S (length blk)) [] (u :: blk)) as (tmp1 & tmp3 & Ec & O1 & _ & _ & D1);
    [cbn [app]; constructor; assumption|constructor|exact Sb|constructor|cbn [length]; lia|].
  assert (F1 := scan_in J _ [] (u :: blk) tmp1 tmp3 (Forall_cons _ Hu Ob) Sb Fb Ec). rewrite Ec in E. cbn [bind] in E.
  destruct tmp3 as [|w0 tmp3].
  - injection E as <- <- <-. rewrite app_nil_r in F1. auto.
  - destruct D1 as (D1 & D2 & _). apply Forall_app in O1 as [O1 O2]. apply Forall_app in F1 as [F1 F2]. assert (Pm := min_norm_ok tmp3 w0 []). cbv zeta in Pm. cbn [app] in Pm.
    destruct (min_norm w0 [] tmp3) as [w others]. cbn [fst snd] in Pm.
    assert (O3 : Forall (okt J) (w :: others)) by (eapply Permutation_Forall; [exact Pm|exact O2]).
    assert (F3 : fw (w :: others)) by (eapply fw_perm; [exact Pm|exact F2]).
    assert (D3 : Forall (fun v => plm v = plm w) others).
    { assert (D4 : Forall (fun v => plm v = plm w0) (w :: others)) by (eapply Permutation_Forall; [exact Pm|constructor; [reflexivity|exact D2]]).
      rewrite (Forall_inv D4). exact (Forall_inv_tail D4). }
    destruct (insert_w t o n A Hn false tmp1 w) as (t1 & E1 & P1 & S1); [apply (Forall_inv O3)|eapply (okt_gw t o n A); exact O1|]. rewrite E1 in E. cbn [bind] in E.
    assert (Ft1 : fw t1) by (eapply fw_perm; [apply Permutation_sym; exact P1|constructor; [exact (Forall_inv F3)|exact F1]]).
    destruct (red_by_ok t o n A Hn J w (Forall_inv O3) others t1) as (t2 & E2 & O4 & S4 & I4 & _);
      [exact (Forall_inv_tail O3)|exact D3|eapply Permutation_Forall; [apply Permutation_sym; exact P1|constructor; [exact (Forall_inv O3)|exact O1]]|auto|].
    assert (Ft2 := red_by_in J w (Forall_inv O3) (Forall_inv F3) others t1 t2 (Forall_inv_tail O3) D3 (Forall_inv_tail F3) Ft1 E2).
    rewrite E2 in E. cbn [bind] in E. revert E. apply IH; [|exact O4|exact S4|exact Ft2|exact Fq'].
    assert (Iw : In w t2) by (apply I4; eapply Permutation_in; [apply Permutation_sym; exact P1|left; reflexivity]). intros ->. destruct Iw.
Qed.

Lemma enter_in : forall l js js' new, Forall okq l -> fw l -> enter false js l = Ok (js', new) -> ft new.
Proof.
  induction l as [|u l IH]; intros js js' new O F E; cbn [enter] in E; [injection E as <- <-; constructor|].
  assert (Hu := Forall_inv O). assert (Gu := proj1 Hu). rewrite (lm_plm t o n A false u Gu) in E. cbn [bind] in E.
  destruct (p_pp false (wpol u)) as [p| | | |] eqn:Ep; cbn [bind] in E; try discriminate.
  destruct (tree_at false js _) as [J| | | |]; cbn [bind] in E; try discriminate.
  destruct (insert false J _) as [J'| | | |]; cbn [bind] in E; try discriminate.
  destruct (enter false _ l) as [[js2 new2]| | | |] eqn:E2; cbn [bind] in E; try discriminate. injection E as <- <-.
  constructor; [|eapply IH; [exact (Forall_inv_tail O)|exact (Forall_inv_tail F)|exact E2]]. cbn [snd].
  eapply (pp_in PP HF); [apply Gu|exact (Forall_inv F)|exact Ep].
Qed.

Lemma tails_in J T fuel m : tinv J T -> ft T -> forall l l', Forall (okh J) l -> Forall (fun u => plm u = m) l -> fw l -> tails fuel false (find1 J T) l = Ok l' -> fw l'.
Proof.
  intros H FT. induction l as [|u l IH]; intros l' O L F E; cbn [tails] in E; [injection E as <-; constructor|].
  assert (Hu := Forall_inv O). destruct (tail_pp fuel false (find1 J T) (wpol u)) as [p| | | |] eqn:E1; cbn [bind] in E; try discriminate.
  destruct (tails fuel false (find1 J T) l) as [l2| | | |] eqn:E2; cbn [bind] in E; try discriminate. injection E as <-.
  constructor; [|apply IH; [exact (Forall_inv_tail O)|exact (Forall_inv_tail L)|exact (Forall_inv_tail F)|reflexivity]].
  cbn [wpol]. eapply tail_pp_in; [exact H|exact FT|apply Hu|apply (plm_hd t o n A); apply Hu|exact (Forall_inv F)|exact E1].
Qed.

Lemma red_eq_in a : okq a -> PP (terms (wpol a)) -> forall l l', Forall okq l -> Forall (fun u => plm u = plm a) l -> fw l -> red_eq false (wpol a) l = Ok l' -> fw l'.
Proof.
  intros Ha Fa. induction l as [|u l IH]; intros l' O L F E; cbn [red_eq] in E; [injection E as <-; constructor|].
  assert (Hu := Forall_inv O). assert (Fu := Forall_inv F). cbv beta in Fu.
  destruct (good_reduction t o n A Hn (wpol u) (wpol a) (plm a)) as (r & Er & Gr & _ & Inc & _);
    [apply Hu|apply Ha|rewrite <- (Forall_inv L); apply (plm_hd t o n A); apply Hu|apply (plm_hd t o n A); apply Ha|]. rewrite Er in E. cbn [bind] in E.
  assert (Fr : PP (terms r)).
  { eapply (reduction_in (wpol u) (wpol a) (plm a)); [apply Hu|apply Ha|rewrite <- (Forall_inv L); apply (plm_hd t o n A); apply Hu|apply (plm_hd t o n A); apply Ha|exact Fu|exact Fa|exact Er]. }
  destruct (is_zero r) eqn:Zr; [apply IH; [exact (Forall_inv_tail O)|exact (Forall_inv_tail L)|exact (Forall_inv_tail F)|exact E]|].
  assert (Gr' : good r) by (split; [exact Gr|intro Z; unfold is_zero in Zr; rewrite Z in Zr; discriminate]).
  destruct (p_pp false r) as [p| | | |] eqn:Ep; cbn [bind] in E; try discriminate. destruct (red_eq false (wpol a) l) as [l2| | | |] eqn:E2; cbn [bind] in E; try discriminate. injection E as <-.
  constructor; [cbn [wpol]; eapply (pp_in PP HF); [|eassumption|eassumption]; first [apply G2|apply Gr'|exact Gr|eassumption]|]. apply IH; [exact (Forall_inv_tail O)|exact (Forall_inv_tail L)|exact (Forall_inv_tail F)|reflexivity].
Qed.
End P.
