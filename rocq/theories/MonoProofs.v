(** Polynomials with at most one term: the steps of completion stay among them. *)
From Coq Require Import ZArith List Bool Arith Lia Permutation Sorted.
From Verif Require Import Outcome MonomModel MonomSpec MonomProofs PolyModel PolySpec PolyProofs PolyRedProofs PolyNfProofs
  PolyTopProofs JanetModel JanetSpec JanetProofs JanetFindProofs CompletionProofs JanetPolyModel TQModel JanetPolySpec IdealProofs JanetPolyProofs
  TQProofs GrowthProofs JanetTermSpec JanetTermProofs JanetTermMain ShapeProofs AncProofs.
Import ListNotations.
Local Open Scope Z_scope.

Section P.
Variables (t : pos_order) (o : base_order) (n : nat).
Hypothesis (Hn : (0 < n)%nat) (Ho : o <> OAlex).
(** The exponents that may occur. *)
Variable Bx : list nat -> Prop.
Definition flat (l : list term) : Prop := (forall x y, In x (map fst l) -> In y (map fst l) -> x = y) /\ forall x, In x (map fst l) -> Bx (vars x).
Notation A := (fun _ : list term => True).
Notation good := (good t o n A).
Notation goodz := (goodz t o n A).
Notation okq := (okq t o n A).
Notation okt := (okt t o n A).
Notation okh := (okh t o n A).
Notation tinv := (tinv t o n A).
Notation gw := (gw t o n A).
Notation le := (le t o).
Notation lt := (lt t o).
Notation GT := (GT n A).
Notation find1 J T := (find_poly false (-1) (Some [J]) T).

Definition fw (l : list wpoly) : Prop := Forall (fun u => flat (terms (wpol u))) l.
Definition ft (T : list entry) : Prop := Forall (fun e => flat (terms (snd e))) T.

Lemma fw_perm l l' : Permutation l l' -> fw l -> fw l'.
Proof. apply Permutation_Forall. Qed.

(* ------------------------------------------------------------------------------------------ *)
(** * Reductions *)

Lemma flat_one p : good p -> flat (terms p) -> exists m c, terms p = [(m, c)].
Proof.
  intros Gp [F _]. destruct (good_hd t o n A p Gp) as (m & c & l & E). exists m, c. destruct l as [|[x d] l]; [exact E|]. exfalso.
  assert (Hm : hd p m) by (exists c, ((x, d) :: l); exact E). assert (V := proj1 (proj1 Gp)). unfold pvalid, valid_poly in V. rewrite E in V. apply canonical_iff in V as (V & _). unfold sorted in V. apply StronglySorted_inv in V as [_ B].
  assert (X := Forall_inv B). cbn [fst] in X. rewrite E in F. rewrite (F m x) in X by (cbn [map fst]; auto with datatypes). cbv beta in X. unfold gt1 in X. rewrite cmp1_refl in X. lia.
Qed.
Lemma flat_sub a b : (forall x, In x (map fst b) -> In x (map fst a)) -> flat a -> flat b.
Proof. intros I [F1 F2]. split; intros; [apply F1|apply F2]; auto. Qed.
Lemma comb_flat f a r m k1 k2 : goodz r -> flat f -> In m (map fst f) -> (forall x, In x (map fst a) -> x = m) -> (forall w, coef (terms r) w = k1 * coef f w + k2 * coef a w) -> flat (terms r).
Proof.
  intros Gr Ff Im Fa E. apply (flat_sub f); [|exact Ff]. intros x Ix. assert (N := in_coef t o n A r x Gr Ix). rewrite E in N.
  destruct (Z.eq_dec (coef f x) 0) as [Z1|Z1]; [|apply coef_nz_in; exact Z1].
  rewrite (Fa x); [exact Im|]. apply coef_nz_in. intro Z2. rewrite Z1, Z2 in N. lia.
Qed.

Section S.
Variable SS : list term -> Prop.
Hypothesis HSS : forall g, SS g -> GM n A g /\ flat g.

Lemma found find m a : good_find false t o n SS find -> mono n m -> find m = Ok (Some a) ->
  good a /\ flat (terms a) /\ reducer false m (terms a) /\ exists v d a', terms a = (v, d) :: a' /\ mdivides v m.
Proof.
  intros F Mm E. destruct (F m Mm) as (w & Ew & W). rewrite E in Ew. injection Ew as <-.
  destruct (W a eq_refl) as (V & S1 & S2 & S3 & Sa & Re & v & d & a' & Ea & D). destruct (HSS _ Sa) as [[R M] Fa].
  split; [split; [|rewrite Ea; discriminate]|]. { split; [exact V|]. split; [split; [exact S1|split; assumption]|]. split; assumption. }
  split; [exact Fa|]. split; [exact Re|]. exists v, d, a'. auto.
Qed.

Lemma nf_flat find : good_find false t o n SS find -> forall fuel f r0 r k, goodz f -> flat (terms f) -> nf_loop fuel false find r0 f = Ok (r, k) -> flat (terms r).
Proof.
  intro F. induction fuel as [|fuel IH]; intros f r0 r k Gf Ff X; cbn [nf_loop] in X; destruct (terms f) as [|[m c] l] eqn:E.
  - injection X as <- <-. rewrite E. exact Ff.
  - destruct (find m) as [[a|]| | | |]; cbn [bind] in X; try discriminate. injection X as <- <-. rewrite E. exact Ff.
  - injection X as <- <-. rewrite E. exact Ff.
  - destruct (find m) as [[a|]| | | |] eqn:Ef; cbn [bind] in X; try discriminate.
    2:{ injection X as <- <-. rewrite E. exact Ff. }
    assert (Hm : hd f m) by (exists c, l; exact E). destruct (hd_mono t o n A f m Gf Hm) as [Mm Pm].
    destruct (found find m a F Mm Ef) as (Ga & Fa & Re & v & d & a' & Ea & D).
    destruct (nf_step false t o n SS find F f m c l a) as (q & Eq & Vq & Iq & _ & Cq); [apply Gf|apply Gf|exact E|exact Ef|].
    rewrite Eq in X. cbn [bind] in X.
    assert (Gq : goodz q).
    { apply (congruent_goodz t o n A SS) with (f := f); [intros g Hg; apply (HSS g Hg)|exact Gf|exact Vq|exact Iq|]. apply Cq. apply (congruent_refl n). }
    destruct (c14 false f a m c l v d a') as (q' & k1 & k2 & u & E1 & _ & _ & _ & _ & Lu & Hu & S & _);
      [apply Gf|apply Ga|apply (goodz_same t o n A); [exact Gf|apply Ga]|exact E|exact Ea|exact D|exact Re|].
    rewrite Eq in E1. injection E1 as <-. apply (IH q (Datatypes.S r0) r k Gq); [|exact X].
    destruct Gf as (Vf & (Sf & If) & Rf). rewrite Sf in Lu.
    apply (comb_flat (terms f) (shift u (terms a)) q m k1 (- k2) Gq).
    + rewrite E. exact Ff.
    + rewrite E. left. reflexivity.
    + intros x Ix. destruct (flat_one a Ga Fa) as (v2 & d2 & E2). rewrite Ea in E2. injection E2 as <- <- ->. rewrite Ea in Ix. cbn in Ix. destruct Ix as [<-|[]]. exact Hu.
    + intro w. rewrite S. ring.
Qed.
Lemma p_nf_flat find fuel p r : good_find false t o n SS find -> goodz p -> flat (terms p) -> p_nf fuel false find p = Ok r -> flat (terms (fst r)).
Proof. intros F Gp Fp E. unfold p_nf in E. destruct r as [r k]. eapply nf_flat; eassumption. Qed.

Lemma p_nfTail_flat (find' : monom -> outcome (option poly)) fuel p r : good p -> flat (terms p) -> p_nfTail fuel false find' p = Ok r -> flat (terms (fst r)).
Proof.
  intros Gp Fp E. destruct (flat_one p Gp Fp) as (m & c & El). unfold p_nfTail in E. rewrite El in *.
  assert (X : forall r, nft_loop fuel false find' 0 p [(m, c)] [] = Ok r -> terms (fst r) = [(m, c)]) by (intros r0; destruct fuel; cbn [nft_loop]; intro H; injection H as <-; reflexivity).
  rewrite (X _ E). exact Fp.
Qed.
End S.

Lemma pp_flat p r : good p -> flat (terms p) -> p_pp false p = Ok r -> flat (terms r).
Proof.
  intros Gp Fp E. destruct (good_hd t o n A p Gp) as (m & Hm). destruct (good_pp t o n A p m Gp Hm) as (r' & E' & _ & _ & _ & M).
  rewrite E in E'. injection E' as <-. eapply flat_sub; [|exact Fp]. rewrite M. auto.
Qed.

Lemma GT_flat T : ft T -> forall g, GT T g -> GM n A g /\ flat g.
Proof. intros F g [M (e & I & <-)]. split; [exact M|]. unfold ft in F. rewrite Forall_forall in F. exact (F e I). Qed.

Lemma tail_pp_flat J T fuel p m r : tinv J T -> ft T -> good p -> hd p m -> flat (terms p) -> tail_pp fuel false (find1 J T) p = Ok r -> flat (terms r).
Proof.
  intros H F Gp Hp Fp E. unfold tail_pp in E. assert (GF := good_find_T t o n A Hn J T H).
  assert (N := nft_safe t o n A (GT T) (GT_GM n A T) (find1 J T) (find1 J T) fuel p m GF Gp Hp (fun _ _ _ => eq_refl)).
  destruct (p_nfTail fuel false (find1 J T) p) as [[p2 c]| | | |] eqn:E1; cbn [bind fst snd] in E; try discriminate. cbn [safe fst] in N. destruct N as (G2 & _).
  assert (F2 := p_nfTail_flat _ fuel p _ Gp Fp E1). cbn [fst] in F2.
  destruct (c =? 0)%nat; [injection E as <-; exact F2|eapply pp_flat; eassumption].
Qed.
Lemma tail_reduce_flat fuel J T e T0 e' : tinv J T -> Permutation T (e :: T0) -> ft T -> tail_reduce fuel false (-1) [J] T0 e = Ok e' -> ft (e' :: T0).
Proof.
  intros H P F E. unfold tail_reduce in E. apply (Permutation_Forall P) in F as F'. assert (Fe := Forall_inv F'). assert (F0 := Forall_inv_tail F'). cbv beta in Fe.
  assert (Ie : In e T) by (eapply Permutation_in; [apply Permutation_sym; exact P|left; reflexivity]).
  assert (Hg := ti_good _ _ _ _ _ _ H). rewrite Forall_forall in Hg. destruct (Hg _ Ie) as [Ge He].
  set (f := find_poly false (-1) (Some [J]) T0) in *.
  assert (GF : good_find false t o n (GT T0) (below_find t o (fst e) f)) by (eapply (find_other t o n A Hn Ho); eassumption).
  assert (Ex : forall m, mono n m -> cmp1 t o (fst e) m = 1 -> f m = below_find t o (fst e) f m) by (intros m _ C; unfold below_find; rewrite C; reflexivity).
  assert (N := nft_safe t o n A (GT T0) (GT_GM n A T0) _ f fuel (snd e) (fst e) GF Ge He Ex).
  destruct (p_nfTail fuel false f (snd e)) as [[p c]| | | |] eqn:E1; cbn [bind] in E; try discriminate. cbn [safe fst] in N. destruct N as (G2 & _).
  assert (F2 := p_nfTail_flat _ fuel (snd e) _ Ge Fe E1). cbn [fst] in F2.
  destruct (c =? 0)%nat; cbn [bind] in E; [injection E as <-; constructor; [exact F2|exact F0]|].
  destruct (p_pp false p) as [p3| | | |] eqn:Ep; cbn [bind] in E; try discriminate. injection E as <-. constructor; [cbn [snd]; eapply pp_flat; eassumption|exact F0].
Qed.

(* ------------------------------------------------------------------------------------------ *)
(** * The lists of a round *)

Lemma take_block_flat J T dg fuel : tinv J T -> ft T -> forall q tmp q1 tmp1, Forall okq q -> Forall gw tmp -> fw q -> fw tmp ->
  take_block fuel false (find1 J T) dg q tmp = Ok (Some (q1, tmp1)) -> fw q1 /\ fw tmp1.
Proof.
  intros H F. assert (GF := good_find_T t o n A Hn J T H).
  induction q as [|u q IH]; intros tmp q1 tmp1 Q Tm Fq Ft E; cbn [take_block] in E; [injection E as <- <-; auto|].
  assert (Hu := Forall_inv Q). assert (Q' := Forall_inv_tail Q). assert (Fu := Forall_inv Fq). assert (Fq' := Forall_inv_tail Fq). cbv beta in Fu.
  rewrite (lm_plm t o n A false u (proj1 Hu)) in E. cbn [bind] in E. destruct (deg (plm u) <=? dg)%nat; [|injection E as <- <-; auto].
  assert (N := nf_safe t o n A Hn (GT T) (GT_GM n A T) _ fuel (wpol u) GF (proj1 (proj1 Hu))).
  destruct (p_nf fuel false (find1 J T) (wpol u)) as [r| | | |] eqn:E1; cbn [bind] in E; try discriminate. cbn [safe] in N. destruct N as (Gr & _).
  assert (F1 := p_nf_flat (GT T) (GT_flat T F) _ fuel (wpol u) r GF (proj1 (proj1 Hu)) Fu E1).
  destruct (is_zero (fst r)) eqn:Zr; [eapply IH; eassumption|].
  assert (Gr' : good (fst r)) by (split; [exact Gr|intro Z; unfold is_zero in Zr; rewrite Z in Zr; discriminate]).
  destruct (good_hd t o n A _ Gr') as (m & Hm). rewrite (hd_lm false _ m Hm) in E. cbn [bind] in E. destruct (deg m =? 0)%nat; [discriminate|].
  assert (N := nft_safe t o n A (GT T) (GT_GM n A T) (find1 J T) (find1 J T) fuel (fst r) m GF Gr' Hm (fun _ _ _ => eq_refl)).
  destruct (p_nfTail fuel false (find1 J T) (fst r)) as [[p2 c]| | | |] eqn:E2; cbn [bind] in E; try discriminate. cbn [safe fst] in N. destruct N as (G2 & _).
  assert (F2 := p_nfTail_flat _ fuel (fst r) _ Gr' F1 E2). cbn [fst] in F2.
  destruct (good_hd t o n A _ G2) as (m2 & Hm2).
  destruct (if (c =? 0)%nat then Ok p2 else p_pp false p2) as [p3| | | |] eqn:E3; cbn [bind] in E; try discriminate.
  assert (X3 : good p3 /\ flat (terms p3)).
  { destruct (c =? 0)%nat; [injection E3 as <-; auto|]. split; [|eapply pp_flat; eassumption].
    destruct (good_pp t o n A p2 m2 G2 Hm2) as (p' & E' & G' & _). rewrite E3 in E'. injection E' as <-. exact G'. }
  destruct X3 as [G3 F3]. destruct (jp_insert false tmp _) as [tmp'| | | |] eqn:E4; cbn [bind] in E; try discriminate. apply jp_insert_perm in E4.
  apply (IH tmp' q1 tmp1 Q'); [| |exact (fw_perm _ _ (Permutation_sym E4) (Forall_cons (WP (wwrap u) p3) F3 Ft))|exact E].
  - eapply Permutation_Forall; [apply Permutation_sym; exact E4|]. constructor; [exact G3|exact Tm].
  - exact Fq'.
Qed.

Lemma take_tq_flat J T dg fuel : tinv J T -> ft T -> forall q tmp q1 tmp1, Forall okq q -> Forall gw tmp -> fw q -> fw tmp ->
  take_tq false fuel false (find1 J T) dg q tmp = Ok (Some (q1, tmp1)) -> fw q1 /\ fw tmp1.
Proof.
  intros H F. assert (GF := good_find_T t o n A Hn J T H).
  induction q as [|u q IH]; intros tmp q1 tmp1 Q Tm Fq Ft E; cbn [take_tq] in E; [injection E as <- <-; auto|].
  assert (Hu := Forall_inv Q). assert (Q' := Forall_inv_tail Q). assert (Fu := Forall_inv Fq). assert (Fq' := Forall_inv_tail Fq). cbv beta in Fu.
  rewrite (lm_plm t o n A false u (proj1 Hu)) in E. cbn [bind] in E. destruct (deg (plm u) <=? dg)%nat; [|injection E as <- <-; auto].
  assert (N := nf_safe t o n A Hn (GT T) (GT_GM n A T) _ fuel (wpol u) GF (proj1 (proj1 Hu))).
  destruct (p_nf fuel false (find1 J T) (wpol u)) as [[p c]| | | |] eqn:E1; cbn [bind] in E; try discriminate. cbn [safe fst] in N. destruct N as (Gr & _).
  assert (F1 := p_nf_flat (GT T) (GT_flat T F) _ fuel (wpol u) _ GF (proj1 (proj1 Hu)) Fu E1). cbn [fst] in F1.
  destruct (is_zero p) eqn:Zr; [eapply IH; eassumption|].
  assert (Gr' : good p) by (split; [exact Gr|intro Z; unfold is_zero in Zr; rewrite Z in Zr; discriminate]).
  destruct (good_hd t o n A _ Gr') as (m & Hm). rewrite (hd_lm false _ m Hm) in E. cbn [bind] in E. destruct (deg m =? 0)%nat; [discriminate|].
  cbn [bind fst snd] in E.
  destruct (if (c + 0 =? 0)%nat then Ok p else p_pp false p) as [p3| | | |] eqn:E3; cbn [bind] in E; try discriminate.
  assert (X3 : good p3 /\ flat (terms p3)).
  { destruct (c + 0 =? 0)%nat; [injection E3 as <-; auto|]. split; [|eapply pp_flat; eassumption].
    destruct (good_pp t o n A p m Gr' Hm) as (p' & E' & G' & _). rewrite E3 in E'. injection E' as <-. exact G'. }
  destruct X3 as [G3 F3]. destruct (jp_insert false tmp _) as [tmp'| | | |] eqn:E4; cbn [bind] in E; try discriminate. apply jp_insert_perm in E4.
  apply (IH tmp' q1 tmp1 Q'); [| |exact (fw_perm _ _ (Permutation_sym E4) (Forall_cons (WP (wwrap u) p3) F3 Ft))|exact E].
  - eapply Permutation_Forall; [apply Permutation_sym; exact E4|]. constructor; [exact G3|exact Tm].
  - exact Fq'.
Qed.

Lemma red_all_flat a : gw a -> flat (terms (wpol a)) -> forall l l', Forall gw l -> Forall (lt a) l -> fw l -> red_all false (wpol a) l = Ok l' -> fw l'.
Proof.
  intros Ha Fa l l' Gl L F E. assert (Sh := red_all_shape t o n A Hn a Ha l l' Gl L E). unfold fw in *. rewrite Forall_forall in *. intros u' I'.
  destruct (Forall2_in_r _ _ _ _ Sh I') as (u & Iu & _ & Na & Inc). apply (flat_sub (terms (wpol u))); [|exact (F u Iu)]. intros x Ix. destruct (Inc x Ix) as [I|I]; [exact I|].
  exfalso. apply Na. rewrite <- (proj1 Fa x (plm a) I (hd_in _ _ (plm_hd t o n A a Ha))). exact Ix.
Qed.

Lemma scan_flat J : forall cnt pre l tmp tmp2, Forall (okt J) (pre ++ l) -> StronglySorted le l -> fw (pre ++ l) ->
  scan cnt false pre l = Ok (tmp, tmp2) -> fw (tmp ++ tmp2).
Proof.
  induction cnt as [|cnt IH]; intros pre l tmp tmp2 O Sl F E.
  { destruct l; [|discriminate]. cbn [scan] in E. injection E as <- <-. exact F. }
  destruct l as [|k l]; cbn [scan] in E; [injection E as <- <-; exact F|].
  assert (O' := O). apply Forall_app in O' as [Op Ol]. assert (Hk := Forall_inv Ol). assert (Ol' := Forall_inv_tail Ol).
  assert (Gl := okt_gw t o n A J _ Ol'). assert (Gk : gw k) by apply Hk. destruct (plm_mono t o n A k Gk) as [Mk Pk].
  rewrite (lm_plm t o n A false k Gk) in E. cbn [bind] in E.
  destruct (same_lm_ok t o n A (plm k) Mk Pk l Gl) as (eqs & rest & Es & El & Ae & Br). rewrite Es in E. cbn [bind] in E.
  apply StronglySorted_inv in Sl as [Sl Fk]. assert (F' := F). apply Forall_app in F' as [Fp Fl]. assert (Fk' := Forall_inv Fl). assert (Fl' := Forall_inv_tail Fl). cbv beta in Fk'.
  destruct eqs as [|e eqs].
  - cbn [app] in El. subst rest.
    assert (Lk : Forall (lt k) l).
    { destruct l as [|v l]; [constructor|]. assert (Hv := Forall_inv Gl).
      assert (L0 : lt k v) by (destruct (le_cases t o n A k v Gk Hv (Forall_inv Fk)) as [L|Eq]; [exact L|congruence]).
      constructor; [exact L0|]. apply StronglySorted_inv in Sl as [_ Fv]. apply Forall_inv_tail in Gl. rewrite Forall_forall in *.
      intros w Iw. eapply (lt_le_trans t o n A); [exact Gk|exact Hv|apply Gl; exact Iw|exact L0|apply Fv; exact Iw]. }
    destruct (red_all_ok t o n A Hn J k Hk l Ol' Lk) as (l' & Er & Ol2 & Pl & _). rewrite Er in E. cbn [bind] in E.
    assert (F2 := red_all_flat k Gk Fk' l l' Gl Lk Fl' Er).
    revert E. apply IH; rewrite <- ?app_assoc.
    + apply Forall_app. split; [exact Op|]. constructor; assumption.
    + exact (ss_map l l' (fun a b => cmp1 t o a b <> 1) Pl Sl).
    + apply Forall_app. split; [exact Fp|]. constructor; assumption.
  - injection E as <- <-. rewrite El in F. revert F. apply fw_perm. rewrite <- app_assoc. apply Permutation_app_head.
    symmetry. etransitivity; [apply Permutation_sym, Permutation_middle|]. constructor.
    etransitivity; [apply Permutation_app_comm|]. apply Permutation_app_tail. apply Permutation_sym. apply (Permutation_rev (e :: eqs)).
Qed.

Lemma red_by_flat J a : okt J a -> flat (terms (wpol a)) -> forall l tmp tmp', Forall (okt J) l -> Forall (fun u => plm u = plm a) l -> fw l -> fw tmp ->
  red_by false (wpol a) l tmp = Ok tmp' -> fw tmp'.
Proof.
  intros Ha Fa. induction l as [|u l IH]; intros tmp tmp' O L F Ft E; cbn [red_by] in E; [injection E as <-; exact Ft|].
  assert (Hu := Forall_inv O). assert (Fu := Forall_inv F). cbv beta in Fu.
  destruct (good_reduction t o n A Hn (wpol u) (wpol a) (plm a)) as (r & Er & Gr & _ & Inc & _);
    [apply Hu|apply Ha|rewrite <- (Forall_inv L); apply (plm_hd t o n A); apply Hu|apply (plm_hd t o n A); apply Ha|]. rewrite Er in E. cbn [bind] in E.
  assert (Fr : flat (terms r)).
  { apply (flat_sub (terms (wpol u))); [|exact Fu]. intros x Ix. destruct (Inc x Ix) as [I|I]; [exact I|].
    rewrite (proj1 Fa x (plm a) I (hd_in _ _ (plm_hd t o n A a (proj1 (proj1 Ha))))), <- (Forall_inv L). apply hd_in. apply (plm_hd t o n A). apply Hu. }
  destruct (is_zero r); [eapply IH; [exact (Forall_inv_tail O)|exact (Forall_inv_tail L)|exact (Forall_inv_tail F)|exact Ft|exact E]|].
  destruct (jp_insert false tmp _) as [tmp1| | | |] eqn:E1; cbn [bind] in E; try discriminate. apply jp_insert_perm in E1.
  eapply IH; [exact (Forall_inv_tail O)|exact (Forall_inv_tail L)|exact (Forall_inv_tail F)| |exact E].
  exact (fw_perm _ _ (Permutation_sym E1) (Forall_cons (WP (wwrap u) r) Fr Ft)).
Qed.

Lemma block_loop_flat J : forall fuel tmp q tmp2 q2 dg, tmp <> [] -> Forall (okt J) tmp -> StronglySorted le tmp -> fw tmp -> fw q ->
  block_loop fuel false tmp q = Ok (tmp2, q2, dg) -> fw tmp2 /\ fw q2.
Proof.
  induction fuel as [|fuel IH]; intros tmp q tmp2 q2 dg Ne O S F Fq E; cbn [block_loop] in E; [discriminate|]. destruct tmp as [|u l]; [congruence|].
  assert (Hu := Forall_inv O). assert (Ol := Forall_inv_tail O). rewrite (lm_plm t o n A false u (proj1 (proj1 Hu))) in E. cbn [bind] in E.
  destruct (same_deg_ok t o n A (deg (plm u)) l (okt_gw t o n A J _ Ol)) as (blk & rest & Es & El). rewrite Es in E. subst l. cbn [bind] in E. unfold assert_ in E. cbn [andb] in E.
  apply Forall_app in Ol as [Ob Or]. change (u :: blk ++ rest) with ((u :: blk) ++ rest) in S, F. apply ss_app in S as (Sb & _ & _). apply Forall_app in F as [Fb Fr].
  assert (Fq' : fw (rest ++ q)) by (apply Forall_app; split; assumption).
  destruct (scan_ok t o n A Hn J (Datatypes.S (length blk)) [] (u :: blk)) as (tmp1 & tmp3 & Ec & O1 & _ & _ & D1);
    [cbn [app]; constructor; assumption|constructor|exact Sb|constructor|cbn [length]; lia|].
  assert (F1 := scan_flat J _ [] (u :: blk) tmp1 tmp3 (Forall_cons _ Hu Ob) Sb Fb Ec). rewrite Ec in E. cbn [bind] in E.
  destruct tmp3 as [|w0 tmp3].
  - injection E as <- <- <-. rewrite app_nil_r in F1. auto.
  - destruct D1 as (D1 & D2 & _). apply Forall_app in O1 as [O1 O2]. apply Forall_app in F1 as [F1 F2]. assert (Pm := min_norm_ok tmp3 w0 []). cbv zeta in Pm. cbn [app] in Pm.
    destruct (min_norm w0 [] tmp3) as [w others]. cbn [fst snd] in Pm.
    assert (O3 : Forall (okt J) (w :: others)) by (eapply Permutation_Forall; [exact Pm|exact O2]).
    assert (F3 : fw (w :: others)) by (eapply fw_perm; [exact Pm|exact F2]).
    assert (D3 : Forall (fun v => plm v = plm w) others).
    { assert (D4 : Forall (fun v => plm v = plm w0) (w :: others)) by (eapply Permutation_Forall; [exact Pm|constructor; [reflexivity|exact D2]]).
      rewrite (Forall_inv D4). exact (Forall_inv_tail D4). }
    destruct (insert_w t o n A Hn false tmp1 w) as (t1 & E1 & P1 & S1); [apply (Forall_inv O3)|eapply (okt_gw t o n A); exact O1|]. rewrite E1 in E. cbn [bind] in E.
    assert (Ft1 : fw t1) by (eapply fw_perm; [apply Permutation_sym; exact P1|constructor; [exact (Forall_inv F3)|exact F1]]).
    destruct (red_by_ok t o n A Hn J w (Forall_inv O3) others t1) as (t2 & E2 & O4 & S4 & I4 & _);
      [exact (Forall_inv_tail O3)|exact D3|eapply Permutation_Forall; [apply Permutation_sym; exact P1|constructor; [exact (Forall_inv O3)|exact O1]]|auto|].
    assert (Ft2 := red_by_flat J w (Forall_inv O3) (Forall_inv F3) others t1 t2 (Forall_inv_tail O3) D3 (Forall_inv_tail F3) Ft1 E2).
    rewrite E2 in E. cbn [bind] in E. revert E. apply IH; [|exact O4|exact S4|exact Ft2|exact Fq'].
    assert (Iw : In w t2) by (apply I4; eapply Permutation_in; [apply Permutation_sym; exact P1|left; reflexivity]). intros ->. destruct Iw.
Qed.

Lemma enter_flat l js js' new : Forall okq l -> fw l -> enter false js l = Ok (js', new) -> ft new.
Proof.
  intros O F E. assert (Sh := enter_shape t o n A l js js' new O E). unfold ft, fw in *. rewrite Forall_forall in *. intros e Ie.
  destruct (Forall2_in_r _ _ _ _ Sh Ie) as (u & Iu & _ & M & _). apply (flat_sub (terms (wpol u))); [|exact (F u Iu)]. intros x Ix. rewrite M in Ix. exact Ix.
Qed.

Lemma tails_flat J T fuel m : tinv J T -> ft T -> forall l l', Forall (okh J) l -> Forall (fun u => plm u = m) l -> fw l -> tails fuel false (find1 J T) l = Ok l' -> fw l'.
Proof.
  intros H FT. induction l as [|u l IH]; intros l' O L F E; cbn [tails] in E; [injection E as <-; constructor|].
  assert (Hu := Forall_inv O). destruct (tail_pp fuel false (find1 J T) (wpol u)) as [p| | | |] eqn:E1; cbn [bind] in E; try discriminate.
  destruct (tails fuel false (find1 J T) l) as [l2| | | |] eqn:E2; cbn [bind] in E; try discriminate. injection E as <-.
  constructor; [|apply IH; [exact (Forall_inv_tail O)|exact (Forall_inv_tail L)|exact (Forall_inv_tail F)|reflexivity]].
  cbn [wpol]. eapply tail_pp_flat; [exact H|exact FT|apply Hu|apply (plm_hd t o n A); apply Hu|exact (Forall_inv F)|exact E1].
Qed.

Lemma red_eq_flat a : okq a -> flat (terms (wpol a)) -> forall l l', Forall okq l -> Forall (fun u => plm u = plm a) l -> fw l -> red_eq false (wpol a) l = Ok l' -> fw l'.
Proof.
  intros Ha Fa. induction l as [|u l IH]; intros l' O L F E; cbn [red_eq] in E; [injection E as <-; constructor|].
  assert (Hu := Forall_inv O). assert (Fu := Forall_inv F). cbv beta in Fu.
  destruct (good_reduction t o n A Hn (wpol u) (wpol a) (plm a)) as (r & Er & Gr & _ & Inc & _);
    [apply Hu|apply Ha|rewrite <- (Forall_inv L); apply (plm_hd t o n A); apply Hu|apply (plm_hd t o n A); apply Ha|]. rewrite Er in E. cbn [bind] in E.
  assert (Fr : flat (terms r)).
  { apply (flat_sub (terms (wpol u))); [|exact Fu]. intros x Ix. destruct (Inc x Ix) as [I|I]; [exact I|].
    rewrite (proj1 Fa x (plm a) I (hd_in _ _ (plm_hd t o n A a (proj1 Ha)))), <- (Forall_inv L). apply hd_in. apply (plm_hd t o n A). apply Hu. }
  destruct (is_zero r) eqn:Zr; [apply IH; [exact (Forall_inv_tail O)|exact (Forall_inv_tail L)|exact (Forall_inv_tail F)|exact E]|].
  assert (Gr' : good r) by (split; [exact Gr|intro Z; unfold is_zero in Zr; rewrite Z in Zr; discriminate]).
  destruct (p_pp false r) as [p| | | |] eqn:Ep; cbn [bind] in E; try discriminate. destruct (red_eq false (wpol a) l) as [l2| | | |] eqn:E2; cbn [bind] in E; try discriminate. injection E as <-.
  constructor; [cbn [wpol]; eapply pp_flat; eassumption|]. apply IH; [exact (Forall_inv_tail O)|exact (Forall_inv_tail L)|exact (Forall_inv_tail F)|reflexivity].
Qed.
End P.
