(** The loops over lists of polynomials and the filtrations of UnivProofs.v. *)
From Coq Require Import ZArith List Bool Arith Lia Permutation Sorted.
From Verif Require Import Outcome MonomModel MonomSpec MonomProofs PolyModel PolySpec PolyProofs PolyRedProofs PolyNfProofs
  PolyTopProofs JanetModel JanetSpec JanetProofs JanetFindProofs CompletionProofs JanetPolyModel TQModel JanetPolySpec IdealProofs JanetPolyProofs
  TQProofs GrowthProofs JanetTermSpec JanetTermProofs JanetTermMain ShapeProofs UnivProofs.
Import ListNotations.
Local Open Scope Z_scope.

Section P.
Variables (t : pos_order) (o : base_order) (G : list term -> Prop).
Hypothesis Ho : o <> OAlex.
Let Hn : (0 < 1)%nat := Nat.lt_0_1.

Notation good := (good t o 1 G).
Notation goodz := (goodz t o 1 G).
Notation okq := (okq t o 1 G).
Notation okt := (okt t o 1 G).
Notation tinv := (tinv t o 1 G).
Notation gw := (gw t o 1 G).
Notation okh := (okh t o 1 G).
Notation le := (le t o).
Notation lt := (lt t o).
Notation find1 J T := (find_poly false (-1) (Some [J]) T).

(** The wraps of l' are wraps of l. *)
Definition sub (l' l : list wpoly) : Prop := incl (map wwrap l') (map wwrap l).

Lemma tail_back K J T fuel p m r k : tinv J T -> adm K T -> good p -> hd p m -> p_nfTail fuel false (find1 J T) p = Ok (r, k) ->
  K (deg m) (terms r) -> K (deg m) (terms p).
Proof.
  intros H [F Fu FT] Gp Hm E X. destruct (covers_dec T (deg m)) as [C|C]; [|apply Fu; exact C].
  apply (nfTail_K t o G Ho K J T T m fuel p (deg m) r k H (incl_refl T) F C); [intros e Ie _; apply FT; exact Ie|apply Gp|exact Hm|lia|exact E|exact X].
Qed.
Lemma nf_back K J T fuel u r k : tinv J T -> adm K T -> good (wpol u) -> p_nf fuel false (find1 J T) (wpol u) = Ok (r, k) ->
  (forall m, hd r m -> K (deg m) (terms r)) -> K (deg (plm u)) (terms (wpol u)).
Proof.
  intros H A Gu E X. apply (nf_K t o G Ho K J T H A fuel (wpol u) (deg (plm u)) 0%nat r k); auto; [apply Gu|].
  intros m Hm. rewrite (plm_eq u m Hm). lia.
Qed.

Lemma sub_cons u v l' l : wwrap u = wwrap v -> sub l' l -> sub (u :: l') (v :: l).
Proof. intros E S x [X|X]; [left; cbn in *; congruence|right; apply S; exact X]. Qed.
Lemma sub_perm l l' : Permutation l' l -> sub l' l.
Proof. intros P x I. eapply Permutation_in; [apply Permutation_map; exact P|exact I]. Qed.
Lemma sub_incl l l' : incl l' l -> sub l' l.
Proof. intros P. apply incl_map. exact P. Qed.
Lemma sub_trans a b c : sub a b -> sub b c -> sub a c.
Proof. intros A B. eapply incl_tran; eassumption. Qed.
Lemma sub_app a b a' b' : sub a' a -> sub b' b -> sub (a' ++ b') (a ++ b).
Proof. unfold sub. rewrite !map_app. intros A B. apply incl_app; [apply incl_appl|apply incl_appr]; assumption. Qed.
Lemma sub_map l l' : map wwrap l' = map wwrap l -> sub l' l.
Proof. unfold sub. intros ->. apply incl_refl. Qed.

Lemma take_block_K J T dg fuel : tinv J T -> forall q tmp q1 tmp1, Forall okq q -> Forall gw tmp ->
  take_block fuel false (find1 J T) dg q tmp = Ok (Some (q1, tmp1)) ->
  sub (q1 ++ tmp1) (q ++ tmp) /\ forall K, adm K T -> fW K q1 -> fW K tmp1 -> fW K q /\ fW K tmp.
Proof.
  intro H. assert (GF := good_find_T t o 1 G Hn J T H).
  induction q as [|u q IH]; intros tmp q1 tmp1 Q Tm E; cbn [take_block] in E; [injection E as <- <-; split; [apply incl_refl|auto]|].
  assert (Hu := Forall_inv Q). assert (Q' := Forall_inv_tail Q). rewrite (lm_plm t o 1 G false u (proj1 Hu)) in E. cbn [bind] in E.
  destruct (deg (plm u) <=? dg)%nat; [|injection E as <- <-; split; [apply incl_refl|auto]].
  assert (Nf := nf_safe t o 1 G Hn (GT 1 G T) (GT_GM 1 G T) (find1 J T) fuel (wpol u) GF (proj1 (proj1 Hu))).
  destruct (p_nf fuel false (find1 J T) (wpol u)) as [[p c0]| | | |] eqn:Ep; cbn [bind] in E; try discriminate. cbn [safe fst] in Nf, E.
  destruct Nf as (Gp & _ & Dp). destruct (is_zero p) eqn:Zp.
  { apply IH in E as [E1 E2]; [|exact Q'|exact Tm]. split; [eapply incl_tran; [exact E1|]; cbn [app map]; apply incl_tl, incl_refl|].
    intros K A X Y. destruct (E2 K A X Y) as [Z1 Z2]. split; [|exact Z2]. apply fW_cons. split; [|exact Z1].
    apply (nf_back K J T fuel u p c0 H A (proj1 Hu) Ep). intros m Hm. exfalso. unfold is_zero in Zp. destruct Hm as (x & y & Em). rewrite Em in Zp. discriminate. }
  destruct Dp as [Dp|(m & Hm & _)]; [unfold is_zero in Zp; rewrite Dp in Zp; discriminate|].
  assert (Gp' : good p) by (split; [exact Gp|eapply hd_nz; exact Hm]).
  rewrite (hd_lm false p m Hm) in E. cbn [bind] in E. destruct (deg m =? 0)%nat; [discriminate|].
  assert (Nt := nft_safe t o 1 G (GT 1 G T) (GT_GM 1 G T) (find1 J T) (find1 J T) fuel p m GF Gp' Hm (fun _ _ _ => eq_refl)).
  destruct (p_nfTail fuel false (find1 J T) p) as [[p2 c]| | | |] eqn:Et; cbn [bind] in E; try discriminate. cbn [safe fst] in Nt. destruct Nt as (G2 & H2 & _).
  assert (Xp : exists p3, (if (c =? 0)%nat then Ok p2 else p_pp false p2) = Ok p3 /\ good p3 /\ hd p3 m /\ forall K d, filt K -> K d (terms p3) -> K d (terms p2)).
  { destruct (c =? 0)%nat; [eauto 10|]. destruct (good_pp t o 1 G p2 m G2 H2) as (p3 & Ep3 & A & B & _). exists p3. split; [exact Ep3|]. split; [exact A|]. split; [exact B|].
    intros K d F X. apply (pp_f t o G K d p2 p3 F (proj1 G2) Ep3). exact X. }
  destruct Xp as (p3 & Ep3 & G3 & H3 & B3). rewrite Ep3 in E. cbn [bind] in E.
  destruct (insert_w t o 1 G Hn false tmp (WP (wwrap u) p3)) as (tmp2 & Ei & P1 & _); [exact G3|exact Tm|].
  rewrite Ei in E. cbn [bind] in E. apply IH in E as [E1 E2]; [|exact Q'|eapply Permutation_Forall; [apply Permutation_sym; exact P1|constructor; assumption]].
  split.
  - eapply incl_tran; [exact E1|]. unfold sub. eapply incl_tran with (m := map wwrap (WP (wwrap u) p3 :: q ++ tmp)); [|cbn [map wwrap app]; apply incl_refl].
    intros x Ix. eapply Permutation_in; [|exact Ix]. apply Permutation_map. rewrite P1. symmetry. apply Permutation_middle.
  - intros K A X Y. destruct (E2 K A X Y) as [Z1 Z2]. apply (fW_perm K _ _ P1) in Z2. apply fW_cons in Z2 as [Z3 Z2]. split; [|exact Z2].
    apply fW_cons. split; [|exact Z1]. rewrite (plm_eq (WP (wwrap u) p3) m H3) in Z3. cbn [wpol] in Z3.
    apply (nf_back K J T fuel u p c0 H A (proj1 Hu) Ep). intros m' Hm'. assert (m' = m) by (eapply hd_fun; eassumption). subst m'.
    apply (tail_back K J T fuel p m p2 c H A Gp' Hm Et). apply B3; [apply A|exact Z3].
Qed.

Lemma lt_deg u v : good (wpol u) -> good (wpol v) -> lt u v -> (deg (plm u) < deg (plm v))%nat.
Proof.
  intros A B L. destruct (plm_mono t o 1 G u A) as [Mu Pu]. destruct (plm_mono t o 1 G v B) as [Mv Pv]. apply (cmp_one t o (plm v) (plm u) Ho Mv Pv Mu Pu). exact L.
Qed.

Lemma red_all_K J a : okt J a -> forall l l', Forall (okt J) l -> Forall (lt a) l -> red_all false (wpol a) l = Ok l' ->
  map wwrap l' = map wwrap l /\ map plm l' = map plm l /\
  forall K, filt K -> K (deg (plm a)) (terms (wpol a)) -> fW K l' -> fW K l.
Proof.
  intro Ha. induction l as [|u l IH]; intros l' O L E; cbn [red_all] in E; [injection E as <-; auto|].
  assert (Hu := Forall_inv O). assert (Lu := Forall_inv L).
  destruct (good_redMaybe t o 1 G Hn (wpol u) (wpol a) (plm u) (plm a)) as (r & Er & Gr & Hr & Lin & _);
    [apply Hu|apply Ha|apply (plm_hd t o 1 G); apply Hu|apply (plm_hd t o 1 G); apply Ha|exact Lu|]. rewrite Er in E. cbn [bind] in E. unfold assert_ in E. cbn [andb] in E.
  destruct (red_all false (wpol a) l) as [l2| | | |] eqn:E2; cbn [bind] in E; try discriminate. injection E as <-.
  destruct (IH l2 (Forall_inv_tail O) (Forall_inv_tail L) eq_refl) as (A & B & C). cbn [map wwrap]. split; [congruence|].
  assert (Ep := plm_eq (WP (wwrap u) r) (plm u) Hr). split; [congruence|].
  intros K F Ka X. apply fW_cons in X as [X1 X2]. rewrite Ep in X1. apply fW_cons. split; [|apply C; assumption].
  apply (lin_f K _ r (wpol u) (wpol a) F Lin X1). apply (f_mono K F (deg (plm a))); [|exact Ka].
  assert (X := lt_deg a u (proj1 (proj1 Ha)) (proj1 (proj1 Hu)) Lu). lia.
Qed.

Lemma scan_K J : forall cnt pre l tmp tmp2, Forall (okt J) (pre ++ l) -> StronglySorted lt pre -> StronglySorted le l ->
  Forall (fun a => Forall (lt a) l) pre -> scan cnt false pre l = Ok (tmp, tmp2) ->
  sub (tmp ++ tmp2) (pre ++ l) /\ forall K, filt K -> fW K (tmp ++ tmp2) -> fW K (pre ++ l).
Proof.
  induction cnt as [|cnt IH]; intros pre l tmp tmp2 O Sp Sl X E; destruct l as [|k l]; cbn [scan] in E; try discriminate.
  1,2: injection E as <- <-; split; [apply incl_refl|auto].
  assert (O' := O). apply Forall_app in O' as [Op Ol]. assert (Hk := Forall_inv Ol). assert (Ol' := Forall_inv_tail Ol).
  assert (Gl := okt_gw t o 1 G J _ Ol'). destruct (plm_mono t o 1 G k (proj1 (proj1 Hk))) as [Mk Pk].
  rewrite (lm_plm t o 1 G false k (proj1 (proj1 Hk))) in E. cbn [bind] in E.
  destruct (same_lm_ok t o 1 G (plm k) Mk Pk l Gl) as (eqs & rest & Es & El & Ae & Br). rewrite Es in E. cbn [bind] in E.
  apply StronglySorted_inv in Sl as [Sl Fk].
  destruct eqs as [|e eqs].
  - cbn [app] in El. subst rest.
    assert (Lk : Forall (lt k) l).
    { destruct l as [|v l]; [constructor|]. assert (Hv := Forall_inv Gl).
      assert (L0 : lt k v) by (destruct (le_cases t o 1 G k v (proj1 (proj1 Hk)) Hv (Forall_inv Fk)) as [L|E0]; [exact L|congruence]).
      constructor; [exact L0|]. apply StronglySorted_inv in Sl as [_ Fv]. apply Forall_inv_tail in Gl. rewrite Forall_forall in *.
      intros w Iw. eapply (lt_le_trans t o 1 G); [apply Hk|exact Hv|apply Gl; exact Iw|exact L0|apply Fv; exact Iw]. }
    destruct (red_all_ok t o 1 G Hn J k Hk l Ol' Lk) as (l' & Er & Ol2 & Pl & _). rewrite Er in E. cbn [bind] in E.
    destruct (red_all_K J k Hk l l' Ol' Lk Er) as (Wl & _ & Bl).
    assert (Tr : forall a, Forall (lt a) l -> Forall (lt a) l').
    { intros a. unfold lt. clear -Pl. revert l Pl. induction l' as [|v' l' IHl]; intros [|v l] Pl F; try discriminate; [constructor|].
      cbn [map] in Pl. injection Pl as P1 P2. constructor; [unfold JanetPolyProofs.lt; rewrite P1; exact (Forall_inv F)|apply (IHl l P2); exact (Forall_inv_tail F)]. }
    destruct (IH (pre ++ [k]) l' tmp tmp2) as (A1 & A2).
    + rewrite <- app_assoc. apply Forall_app. split; [exact Op|]. constructor; assumption.
    + apply ss_app. split; [exact Sp|]. split; [repeat constructor|]. eapply Forall_impl; [|exact X]. intros a Fa. constructor; [exact (Forall_inv Fa)|constructor].
    + exact (ss_map l l' (fun a b => cmp1 t o a b <> 1) Pl Sl).
    + apply Forall_app. split; [|constructor; [apply Tr; exact Lk|constructor]].
      eapply Forall_impl; [|exact X]. intros a Fa. apply Tr. exact (Forall_inv_tail Fa).
    + exact E.
    + rewrite <- app_assoc in A1, A2. cbn [app] in A1, A2. split.
      * eapply sub_trans; [exact A1|]. apply sub_app; [apply incl_refl|]. apply sub_cons; [reflexivity|apply sub_map; exact Wl].
      * intros K F M. apply (A2 K F) in M. apply fW_app in M as [M1 M2]. apply fW_app. split; [exact M1|]. apply fW_cons in M2 as [M2 M3].
        apply fW_cons. split; [exact M2|]. apply Bl; assumption.
  - injection E as <- <-.
    assert (Pm : Permutation ((pre ++ rest) ++ k :: rev (e :: eqs)) (pre ++ k :: l)).
    { rewrite <- app_assoc. apply Permutation_app_head. rewrite El. etransitivity; [apply Permutation_sym, Permutation_middle|]. constructor.
      etransitivity; [apply Permutation_app_comm|]. apply Permutation_app_tail. apply Permutation_sym, Permutation_rev. }
    split; [apply sub_perm; exact Pm|]. intros K F M. eapply fW_perm; [exact Pm|exact M].
Qed.

Lemma red_by_K J a : okt J a -> forall l tmp tmp', Forall (okt J) l -> Forall (fun u => plm u = plm a) l -> Forall gw tmp ->
  red_by false (wpol a) l tmp = Ok tmp' ->
  sub tmp' (l ++ tmp) /\ incl tmp tmp' /\ forall K, filt K -> K (deg (plm a)) (terms (wpol a)) -> fW K tmp' -> fW K l.
Proof.
  intro Ha. induction l as [|u l IH]; intros tmp tmp' O L Tm E; cbn [red_by] in E.
  - injection E as <-. split; [apply incl_refl|]. split; [apply incl_refl|]. intros K F Ka _ u [].
  - assert (Hu := Forall_inv O). assert (Eu := Forall_inv L). cbv beta in Eu.
    destruct (good_reduction t o 1 G Hn (wpol u) (wpol a) (plm a)) as (r & Er & Gr & Lin & _ & Blw);
      [apply Hu|apply Ha|rewrite <- Eu; apply (plm_hd t o 1 G); apply Hu|apply (plm_hd t o 1 G); apply Ha|]. rewrite Er in E. cbn [bind] in E.
    destruct (is_zero r) eqn:Zr.
    + destruct (IH tmp tmp' (Forall_inv_tail O) (Forall_inv_tail L) Tm E) as (A & B & C).
      split; [eapply incl_tran; [exact A|]; cbn [app map]; apply incl_tl, incl_refl|]. split; [exact B|].
      intros K F Ka M. apply fW_cons. split; [|apply C; assumption]. rewrite Eu. apply (lin_f K _ r (wpol u) (wpol a) F Lin); [|exact Ka].
      apply (f_zero K F). unfold is_zero in Zr. destruct (terms r); [reflexivity|discriminate].
    + assert (Gr' : good r) by (split; [exact Gr|intro E0; unfold is_zero in Zr; rewrite E0 in Zr; discriminate]).
      destruct (insert_w t o 1 G Hn false tmp (WP (wwrap u) r)) as (tmp1 & Ei & P1 & _); [exact Gr'|exact Tm|]. rewrite Ei in E. cbn [bind] in E.
      destruct (IH tmp1 tmp' (Forall_inv_tail O) (Forall_inv_tail L)) as (A & B & C); [eapply Permutation_Forall; [apply Permutation_sym; exact P1|constructor; assumption]|exact E|].
      split; [|split].
      * eapply incl_tran; [exact A|]. cbn [app map]. change (wwrap u :: map wwrap (l ++ tmp)) with (map wwrap (WP (wwrap u) r :: l ++ tmp)).
        apply sub_perm. rewrite P1. symmetry. apply Permutation_middle.
      * intros x Ix. apply B. eapply Permutation_in; [apply Permutation_sym; exact P1|right; exact Ix].
      * intros K F Ka M. apply fW_cons. split; [|apply C; assumption]. rewrite Eu. apply (lin_f K _ r (wpol u) (wpol a) F Lin); [|exact Ka].
        assert (X := M (WP (wwrap u) r)). cbn [wpol] in X. apply (f_mono K F (deg (plm (WP (wwrap u) r)))).
        -- assert (Hr := plm_hd t o 1 G (WP (wwrap u) r) Gr'). assert (B0 := Blw _ (hd_in _ _ Hr)). destruct B0 as (M1 & M2 & M3).
           destruct (plm_mono t o 1 G (WP (wwrap u) r) Gr') as [_ Pr]. destruct (plm_mono t o 1 G a (proj1 (proj1 Ha))) as [_ Pa].
           apply (cmp_one t o _ _ Ho M2 Pa M1 Pr) in M3. lia.
        -- apply X. apply B. eapply Permutation_in; [apply Permutation_sym; exact P1|left; reflexivity].
Qed.

Lemma block_loop_K J : forall fuel tmp q tmp2 q2 dg, Forall (okt J) tmp -> StronglySorted le tmp ->
  block_loop fuel false tmp q = Ok (tmp2, q2, dg) ->
  sub (tmp2 ++ q2) (tmp ++ q) /\ forall K, filt K -> fW K tmp2 -> fW K q2 -> fW K tmp /\ fW K q.
Proof.
  induction fuel as [|fuel IH]; intros tmp q tmp2 q2 dg O S E; cbn [block_loop] in E; [discriminate|]. destruct tmp as [|u l]; [discriminate|].
  assert (Hu := Forall_inv O). assert (Ol := Forall_inv_tail O). rewrite (lm_plm t o 1 G false u (proj1 (proj1 Hu))) in E. cbn [bind] in E.
  destruct (same_deg_ok t o 1 G (deg (plm u)) l (okt_gw t o 1 G J _ Ol)) as (blk & rest & Es & ->). rewrite Es in E. cbn [bind] in E. unfold assert_ in E. cbn [andb] in E.
  apply Forall_app in Ol as [Ob Or]. change (u :: blk ++ rest) with ((u :: blk) ++ rest) in *. apply ss_app in S as (Sb & _ & _).
  assert (Sc : exists a b, scan (Datatypes.S (length blk)) false [] (u :: blk) = Ok (a, b) /\ Forall (okt J) (a ++ b) /\
    match b with [] => True | w :: r => StronglySorted le a /\ Forall (fun u => plm u = plm w) r end).
  { destruct (scan_ok t o 1 G Hn J (Datatypes.S (length blk)) [] (u :: blk)) as (a & b & E1 & O1 & _ & _ & D1);
      [cbn [app]; constructor; assumption|constructor|exact Sb|constructor|cbn [length]; lia|].
    exists a, b. split; [exact E1|]. split; [exact O1|]. destruct b; tauto. }
  destruct Sc as (tm1 & tm2 & E1 & O1 & D1). rewrite E1 in E. cbn [bind] in E.
  destruct (scan_K J _ [] (u :: blk) tm1 tm2 (Forall_cons _ Hu Ob) (SSorted_nil _) Sb (Forall_nil _) E1) as [W1 B1]. cbn [app] in B1, W1.
  assert (Fin : forall K, fW K (u :: blk) -> fW K (rest ++ q) -> fW K ((u :: blk) ++ rest) /\ fW K q).
  { intros K M1 M2. apply fW_app in M2 as [M2 M3]. split; [apply fW_app; split; assumption|exact M3]. }
  assert (Wfin : forall a, sub a (u :: blk) -> sub (a ++ rest ++ q) (((u :: blk) ++ rest) ++ q)).
  { intros a Sa. rewrite <- app_assoc. apply sub_app; [exact Sa|apply incl_refl]. }
  destruct tm2 as [|w0 tm2].
  - injection E as <- <- <-. rewrite app_nil_r in *. split; [apply Wfin; exact W1|].
    intros K F M1 M2. apply Fin; [|exact M2]. apply (B1 K F). exact M1.
  - destruct D1 as (D1 & D2). apply Forall_app in O1 as [O1 O2]. assert (Pm := min_norm_ok tm2 w0 []). cbv zeta in Pm. cbn [app] in Pm.
    destruct (min_norm w0 [] tm2) as [w others]. cbn [fst snd] in Pm.
    assert (O3 : Forall (okt J) (w :: others)) by (eapply Permutation_Forall; [exact Pm|exact O2]).
    assert (D3 : Forall (fun v => plm v = plm w) others).
    { assert (D4 : Forall (fun v => plm v = plm w0) (w :: others)) by (eapply Permutation_Forall; [exact Pm|constructor; [reflexivity|exact D2]]).
      rewrite (Forall_inv D4). exact (Forall_inv_tail D4). }
    destruct (insert_w t o 1 G Hn false tm1 w) as (t1 & Ei & P1 & S1); [apply (Forall_inv O3)|eapply okt_gw; exact O1|]. rewrite Ei in E. cbn [bind] in E.
    assert (O5 : Forall (okt J) t1) by (eapply Permutation_Forall; [apply Permutation_sym; exact P1|constructor; [exact (Forall_inv O3)|exact O1]]).
    destruct (red_by_ok t o 1 G Hn J w (Forall_inv O3) others t1) as (t2 & Er & O4 & S4 & _);
      [exact (Forall_inv_tail O3)|exact D3|exact O5|auto|].
    rewrite Er in E. cbn [bind] in E.
    destruct (red_by_K J w (Forall_inv O3) others t1 t2 (Forall_inv_tail O3) D3 (okt_gw t o 1 G J _ O5) Er) as (W4 & I4 & B4).
    destruct (IH t2 (rest ++ q) tmp2 q2 dg O4 S4 E) as [W5 B5]. split.
    + eapply sub_trans; [exact W5|]. apply Wfin. eapply sub_trans; [exact W4|]. eapply sub_trans; [|exact W1].
      apply sub_perm. rewrite P1, Pm. rewrite Permutation_app_comm. cbn [app]. apply Permutation_middle.
    + intros K F M1 M2. destruct (B5 K F M1 M2) as [X Y]. apply Fin; [|exact Y]. apply (B1 K F).
      assert (Mt1 : fW K t1) by (eapply fW_incl; [exact I4|exact X]). apply (fW_perm K _ _ P1) in Mt1. apply fW_cons in Mt1 as [Mw Mt].
      apply fW_app. split; [exact Mt|]. eapply fW_perm; [apply Permutation_sym; exact Pm|]. apply fW_cons. split; [exact Mw|].
      apply (B4 K F Mw X).
Qed.

(* ------------------------------------------------------------------------------------------ *)
(** * algorithmTQ *)

Lemma mt_mlt a b : Relation_Operators.clos_trans _ (MonomProofs.mlt t o 1) a b -> MonomProofs.mlt t o 1 a b.
Proof.
  induction 1 as [a b X|a b c _ (A1 & A2 & A3) _ (B1 & B2 & B3)]; [exact X|]. split; [exact A1|]. split; [exact B2|].
  eapply cmp1_trans; [| |exact B3|exact A3]; destruct A1, A2, B2; unfold size; congruence.
Qed.

Lemma take_tq_K J T dg fuel : tinv J T -> forall q tmp q1 tmp1, Forall okq q -> Forall gw tmp ->
  take_tq false fuel false (find1 J T) dg q tmp = Ok (Some (q1, tmp1)) ->
  sub (q1 ++ tmp1) (q ++ tmp) /\ (Forall (fun u => (deg (plm u) <= dg)%nat) tmp -> Forall (fun u => (deg (plm u) <= dg)%nat) tmp1) /\
  forall K, adm K T -> fW K q1 -> fW K tmp1 -> fW K q /\ fW K tmp.
Proof.
  intro H. assert (GF := good_find_T t o 1 G Hn J T H).
  induction q as [|u q IH]; intros tmp q1 tmp1 Q Tm E; cbn [take_tq] in E; [injection E as <- <-; split; [apply incl_refl|auto]|].
  assert (Hu := Forall_inv Q). assert (Q' := Forall_inv_tail Q). rewrite (lm_plm t o 1 G false u (proj1 Hu)) in E. cbn [bind] in E.
  destruct (Nat.leb_spec (deg (plm u)) dg) as [Du|Du]; [|injection E as <- <-; split; [apply incl_refl|auto]].
  assert (Nf := nf_safe t o 1 G Hn (GT 1 G T) (GT_GM 1 G T) (find1 J T) fuel (wpol u) GF (proj1 (proj1 Hu))).
  destruct (p_nf fuel false (find1 J T) (wpol u)) as [[p c0]| | | |] eqn:Ep; cbn [bind] in E; try discriminate. cbn [safe fst] in Nf, E.
  destruct Nf as (Gp & _ & Dp). destruct (is_zero p) eqn:Zp.
  { apply IH in E as (E1 & E0 & E2); [|exact Q'|exact Tm]. split; [eapply incl_tran; [exact E1|]; cbn [app map]; apply incl_tl, incl_refl|]. split; [exact E0|].
    intros K A X Y. destruct (E2 K A X Y) as [Z1 Z2]. split; [|exact Z2]. apply fW_cons. split; [|exact Z1].
    apply (nf_back K J T fuel u p c0 H A (proj1 Hu) Ep). intros m Hm. exfalso. unfold is_zero in Zp. destruct Hm as (x & y & Em). rewrite Em in Zp. discriminate. }
  destruct Dp as [Dp|(m & Hm & _)]; [unfold is_zero in Zp; rewrite Dp in Zp; discriminate|].
  assert (Gp' : good p) by (split; [exact Gp|eapply hd_nz; exact Hm]).
  rewrite (hd_lm false p m Hm) in E. cbn [bind] in E. destruct (deg m =? 0)%nat; [discriminate|]. cbn [bind fst snd] in E.
  assert (Xp : exists p3, (if (c0 + 0 =? 0)%nat then Ok p else p_pp false p) = Ok p3 /\ good p3 /\ hd p3 m /\ forall K d, filt K -> K d (terms p3) -> K d (terms p)).
  { destruct (c0 + 0 =? 0)%nat; [eauto 10|]. destruct (good_pp t o 1 G p m Gp' Hm) as (p3 & Ep3 & A & B & _). exists p3. split; [exact Ep3|]. split; [exact A|]. split; [exact B|].
    intros K d F X. apply (pp_f t o G K d p p3 F Gp Ep3). exact X. }
  destruct Xp as (p3 & Ep3 & G3 & H3 & B3). rewrite Ep3 in E. cbn [bind] in E.
  destruct (insert_w t o 1 G Hn false tmp (WP (wwrap u) p3)) as (tmp2 & Ei & P1 & _); [exact G3|exact Tm|].
  rewrite Ei in E. cbn [bind] in E. apply IH in E as (E1 & E0 & E2); [|exact Q'|eapply Permutation_Forall; [apply Permutation_sym; exact P1|constructor; assumption]].
  assert (Epl := plm_eq (WP (wwrap u) p3) m H3).
  assert (Dm : (deg m <= deg (plm u))%nat).
  { destruct (plm_mono t o 1 G u (proj1 Hu)) as [Mu Pu]. destruct (hd_mono t o 1 G p m Gp Hm) as [Mm Pm].
    destruct Hu as [[(V & I & _) _] _]. unfold p_nf in Ep.
    destruct (nf_le t o 1 _ _ GF fuel (wpol u) (plm u) 0%nat p c0 V I (plm_hd t o 1 G u (proj1 (Forall_inv Q))) Ep m Hm) as [X|X]; [rewrite X; lia|].
    apply mt_mlt in X. destruct X as (_ & _ & X). apply (cmp_one t o (plm u) m Ho Mu Pu Mm Pm) in X. lia. }
  split; [|split].
  - eapply incl_tran; [exact E1|]. unfold sub. eapply incl_tran with (m := map wwrap (WP (wwrap u) p3 :: q ++ tmp)); [|cbn [map wwrap app]; apply incl_refl].
    intros x Ix. eapply Permutation_in; [|exact Ix]. apply Permutation_map. rewrite P1. symmetry. apply Permutation_middle.
  - intro D. apply E0. eapply Permutation_Forall; [apply Permutation_sym; exact P1|]. constructor; [rewrite Epl; lia|exact D].
  - intros K A X Y. destruct (E2 K A X Y) as [Z1 Z2]. apply (fW_perm K _ _ P1) in Z2. apply fW_cons in Z2 as [Z3 Z2]. split; [|exact Z2].
    apply fW_cons. split; [|exact Z1]. rewrite Epl in Z3. cbn [wpol] in Z3.
    apply (nf_back K J T fuel u p c0 H A (proj1 Hu) Ep). intros m' Hm'. assert (m' = m) by (eapply hd_fun; eassumption). subst m'.
    apply B3; [apply A|exact Z3].
Qed.

Lemma tail_pp_K J T fuel p m p' K : tinv J T -> good p -> hd p m -> tail_pp fuel false (find1 J T) p = Ok p' -> adm K T -> K (deg m) (terms p') -> K (deg m) (terms p).
Proof.
  intros H Gp Hp E A X. unfold tail_pp in E. destruct (p_nfTail fuel false (find1 J T) p) as [[p2 c]| | | |] eqn:Et; cbn [bind fst snd] in E; try discriminate.
  apply (tail_back K J T fuel p m p2 c H A Gp Hp Et).
  assert (Nt := nft_safe t o 1 G (GT 1 G T) (GT_GM 1 G T) (find1 J T) (find1 J T) fuel p m (good_find_T t o 1 G Hn J T H) Gp Hp (fun _ _ _ => eq_refl)).
  rewrite Et in Nt. cbn [safe fst] in Nt. destruct Nt as (G2 & _). destruct (c =? 0)%nat; [injection E as <-; exact X|].
  apply (pp_f t o G K (deg m) p2 p' (ad_f _ _ A) (proj1 G2) E). exact X.
Qed.

Lemma tails_K J T fuel m : tinv J T -> forall l l', Forall (okh J) l -> Forall (fun u => plm u = m) l -> tails fuel false (find1 J T) l = Ok l' ->
  map wwrap l' = map wwrap l /\ forall K, adm K T -> fW K l' -> fW K l.
Proof.
  intros H. induction l as [|u l IH]; intros l' O L E; cbn [tails] in E; [injection E as <-; auto|].
  assert (Hu := Forall_inv O). assert (Eu := Forall_inv L). cbv beta in Eu.
  assert (Tp := tail_pp_ok t o 1 G Hn J T fuel (wpol u) (plm u) H (proj1 (proj1 Hu)) (plm_hd t o 1 G u (proj1 (proj1 Hu)))).
  destruct (tail_pp fuel false (find1 J T) (wpol u)) as [p| | | |] eqn:Et; cbn [bind] in E; try discriminate. cbn [safe] in Tp. destruct Tp as (Gp & Hp & _).
  destruct (tails fuel false (find1 J T) l) as [r| | | |] eqn:El; cbn [bind] in E; try discriminate. injection E as <-.
  destruct (IH r (Forall_inv_tail O) (Forall_inv_tail L) eq_refl) as [A B]. cbn [map wwrap]. split; [congruence|].
  intros K Ad X. apply fW_cons in X as [X1 X2]. rewrite (plm_eq (WP (wwrap u) p) (plm u) Hp) in X1. apply fW_cons. split; [|apply B; assumption].
  apply (tail_pp_K J T fuel (wpol u) (plm u) p K H (proj1 (proj1 Hu)) (plm_hd t o 1 G u (proj1 (proj1 Hu))) Et Ad X1).
Qed.

Lemma red_eq_K a : okq a -> forall l l', Forall okq l -> Forall (fun u => plm u = plm a) l -> red_eq false (wpol a) l = Ok l' ->
  sub l' l /\ forall K, filt K -> K (deg (plm a)) (terms (wpol a)) -> fW K l' -> fW K l.
Proof.
  intro Ha. induction l as [|u l IH]; intros l' O L E; cbn [red_eq] in E.
  - injection E as <-. split; [apply incl_refl|auto].
  - assert (Hu := Forall_inv O). assert (Eu := Forall_inv L). cbv beta in Eu.
    destruct (good_reduction t o 1 G Hn (wpol u) (wpol a) (plm a)) as (r & Er & Gr & Lin & _ & Blw);
      [apply Hu|apply Ha|rewrite <- Eu; apply (plm_hd t o 1 G); apply Hu|apply (plm_hd t o 1 G); apply Ha|]. rewrite Er in E. cbn [bind] in E.
    destruct (is_zero r) eqn:Zr.
    + destruct (IH l' (Forall_inv_tail O) (Forall_inv_tail L) E) as [A B]. split; [eapply incl_tran; [exact A|]; cbn [map]; apply incl_tl, incl_refl|].
      intros K F Ka M. apply fW_cons. split; [|apply B; assumption]. rewrite Eu. apply (lin_f K _ r (wpol u) (wpol a) F Lin); [|exact Ka].
      apply (f_zero K F). unfold is_zero in Zr. destruct (terms r); [reflexivity|discriminate].
    + assert (Gr' : good r) by (split; [exact Gr|intro E0; unfold is_zero in Zr; rewrite E0 in Zr; discriminate]).
      destruct (good_hd t o 1 G r Gr') as (m & Hm).
      destruct (good_pp t o 1 G r m Gr' Hm) as (p & Ep & Gp & Hp & _). rewrite Ep in E. cbn [bind] in E.
      destruct (red_eq false (wpol a) l) as [l2| | | |] eqn:E2; cbn [bind] in E; try discriminate. injection E as <-.
      destruct (IH l2 (Forall_inv_tail O) (Forall_inv_tail L) eq_refl) as [A B]. split; [apply sub_cons; [reflexivity|exact A]|].
      intros K F Ka M. apply fW_cons in M as [M1 M2]. rewrite (plm_eq (WP (wwrap u) p) m Hp) in M1. cbn [wpol] in M1. apply fW_cons. split; [|apply B; assumption].
      rewrite Eu. apply (lin_f K _ r (wpol u) (wpol a) F Lin); [|exact Ka]. apply (f_mono K F (deg m)).
      * destruct (Blw m (hd_in _ _ Hm)) as (M3 & M4 & M5). destruct (hd_mono t o 1 G r m Gr Hm) as [_ Pm]. destruct (plm_mono t o 1 G a (proj1 Ha)) as [_ Pa].
        apply (cmp_one t o _ _ Ho M4 Pa M3 Pm) in M5. lia.
      * apply (pp_f t o G K (deg m) r p F Gr Ep). exact M1.
Qed.
End P.
