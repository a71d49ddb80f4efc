(** Systems of degree at most 1 and algorithmTQ2: it never starts again, and every round shortens the queue. *)
From Coq Require Import ZArith List Bool Arith Lia Permutation Sorted Relation_Operators.
From Verif Require Import Outcome MonomModel MonomSpec MonomProofs PolyModel PolySpec PolyProofs
  JanetModel JanetSpec JanetProofs JanetFindProofs CompletionProofs JanetPolyModel TQModel JanetPolySpec JanetPolyProofs
  TQProofs JanetTermSpec JanetTermProofs JanetTermMain ShapeProofs InvolutiveProofs AncProofs AncTop LinProofs LinMain InvolutiveTop.
Import ListNotations.
Local Open Scope Z_scope.

(** Without detached elements walk2 is walk. *)
Lemma walk2_att fuel dbg mpos dg : forall cnt js q d w k,
  walk2 cnt fuel dbg mpos dg js q (map Att d) w (map Att k) =
  do r <- walk cnt fuel dbg mpos dg js q d w k; Ok (fst (fst r), snd (fst r), map Att (snd r)).
Proof.
  induction cnt as [|cnt IH]; intros js q d w k; cbn [walk2 walk].
  { destruct w; [reflexivity|]. destruct k; reflexivity. }
  assert (Redu : forall e w' k', (do r <- item_step fuel dbg mpos dg js q (atts (map Att d) ++ match w' with Some x => [x] | None => [] end ++ atts (map Att k')) (Att e);
      let '(js', q', x') := r in walk2 cnt fuel dbg mpos dg js' q' (map Att d ++ [x']) w' (map Att k')) =
    do r <- (do e' <- tail_reduce fuel dbg mpos js (d ++ match w' with Some x => [x] | None => [] end ++ k') e;
        do r <- prolong_if dbg mpos dg js e' q;
        walk cnt fuel dbg mpos dg (fst r) (snd r) (d ++ [e']) w' k'); Ok (fst (fst r), snd (fst r), map Att (snd r))).
  { intros e w' k'. rewrite !atts_map. unfold item_step. destruct (tail_reduce _ _ _ _ _ _) as [e'| | | |]; cbn [bind]; try reflexivity.
    destruct (prolong_if _ _ _ _ _ _) as [[j' q']| | | |]; cbn [bind fst snd]; try reflexivity.
    change [Att e'] with (map Att [e']). rewrite <- map_app. apply IH. }
  destruct w as [e|]; destruct k as [|e' k]; cbn [map].
  - apply (Redu e None []).
  - cbn [item_poly]. destruct (p_cmp dbg (snd e) (snd e')) as [c| | | |]; cbn [bind]; try reflexivity. destruct (c <? 0); [apply (Redu e None (e' :: k))|apply (Redu e' (Some e) k)].
  - reflexivity.
  - apply (Redu e' None k).
Qed.

Lemma take_len tail fuel dbg find dg : forall q tmp q1 tmp1, take_tq tail fuel dbg find dg q tmp = Ok (Some (q1, tmp1)) ->
  (length q1 <= length q /\ length q1 + length tmp1 <= length q + length tmp)%nat.
Proof.
  induction q as [|u q IH]; intros tmp q1 tmp1 E; cbn [take_tq] in E; [injection E as <- <-; cbn; lia|].
  bnd E. destruct (_ <=? dg)%nat; [|injection E as <- <-; lia]. bnd E. destruct v0 as [p c].
  destruct (is_zero p); [apply IH in E; cbn [length]; lia|]. bnd E. destruct (deg v0 =? 0)%nat; [discriminate|]. bnd E. bnd E. bnd E.
  apply jp_insert_perm, Permutation_length in Ev4. apply IH in E. cbn [length] in *. lia.
Qed.
Lemma take_len_head tail fuel dbg find u q q1 tmp1 m : p_lm dbg (wpol u) = Ok m ->
  take_tq tail fuel dbg find (deg m) (u :: q) [] = Ok (Some (q1, tmp1)) -> (length q1 <= length q)%nat.
Proof.
  intros Em E. cbn [take_tq] in E. rewrite Em in E. cbn [bind] in E. rewrite Nat.leb_refl in E. bnd E. destruct v as [p c].
  destruct (is_zero p); [apply take_len in E; lia|]. bnd E. destruct (deg v =? 0)%nat; [discriminate|]. bnd E. bnd E. bnd E.
  apply take_len in E. lia.
Qed.

Section P.
Variables (t : pos_order) (o : base_order) (n : nat).
Hypothesis (Hn : (0 < n)%nat) (Ho : o <> OAlex).
Notation A := (fun _ : list term => True).
Notation good := (good t o n A).
Notation okq := (okq t o n A).
Notation okh := (okh t o n A).
Notation gw := (gw t o n A).
Notation tinv := (tinv t o n A).
Notation find1 J T := (find_poly false (-1) (Some [J]) T).
Notation linv := (linv t o n).

Lemma deg_unit m : mono n m -> pos m = -1 -> deg m = 0%nat -> m = Mon (-1) (repeat 0%nat n).
Proof.
  intros [L _] P D. destruct m as [p v]. cbn [pos vars] in *. subst p. f_equal. unfold deg in D. cbn [vars] in D. rewrite MonomProofs.degv_total in D.
  rewrite (total_zero v D), L. reflexivity.
Qed.

Lemma mt_mlt a b : clos_trans _ (MonomProofs.mlt t o n) a b -> MonomProofs.mlt t o n a b.
Proof.
  intro H. induction H as [a b H|a b c _ (A1 & A2 & A3) _ (B1 & B2 & B3)]; [exact H|]. split; [exact A1|]. split; [exact B2|].
  eapply cmp1_trans; [| |exact B3|exact A3]; destruct A1, A2, B2; unfold size; congruence.
Qed.

(** A constant stays a constant. *)
Lemma take_const J T fuel : tinv J T -> forall q tmp q1 tmp1, Forall okq q ->
  take_tq true fuel false (find1 J T) 0 q tmp = Ok (Some (q1, tmp1)) -> tmp1 = tmp.
Proof.
  intro H. assert (GF := good_find_T t o n A Hn J T H).
  induction q as [|u q IH]; intros tmp q1 tmp1 Q E; cbn [take_tq] in E; [injection E as <- <-; reflexivity|].
  assert (Hu := Forall_inv Q). assert (Q' := Forall_inv_tail Q). rewrite (lm_plm t o n A false u (proj1 Hu)) in E. cbn [bind] in E.
  destruct (deg (plm u) <=? 0)%nat eqn:D; [|injection E as <- <-; reflexivity]. apply Nat.leb_le in D.
  destruct (plm_mono t o n A u (proj1 Hu)) as [Mu Pu]. assert (Eu := deg_unit _ Mu Pu ltac:(lia)).
  assert (Nf := nf_safe t o n A Hn (GT n A T) (GT_GM n A T) (find1 J T) fuel (wpol u) GF (proj1 (proj1 Hu))).
  destruct (p_nf fuel false (find1 J T) (wpol u)) as [[p c0]| | | |] eqn:Ep; cbn [bind] in E; try discriminate. cbn [safe fst] in Nf.
  destruct Nf as (Gp & _ & Dp). destruct (is_zero p) eqn:Zp; [eapply IH; eassumption|exfalso].
  destruct Dp as [Dp|(m & Hm & Fm)]; [unfold is_zero in Zp; rewrite Dp in Zp; discriminate|].
  assert (Gp' : good p) by (split; [exact Gp|eapply hd_nz; exact Hm]).
  rewrite (hd_lm false p m Hm) in E. cbn [bind] in E. destruct (hd_mono t o n A p m Gp Hm) as [Mm Pm].
  destruct Hu as [[(V & I & _) Nz] Ow]. unfold p_nf in Ep.
  destruct (nf_le t o n _ _ GF fuel (wpol u) (plm u) 0%nat p c0 V I (plm_hd t o n A u (proj1 (Forall_inv Q))) Ep m Hm) as [X|X].
  - rewrite X, Eu in E. unfold deg in E. cbn [vars] in E. rewrite MonomProofs.degv_total in E.
    assert (Z : total (repeat 0%nat n) = 0%nat) by (clear; induction n; cbn; lia). rewrite Z in E. discriminate.
  - apply mt_mlt in X as (_ & _ & X). apply cmp1_spec in X; [|apply (msize n); assumption]. rewrite Eu in X. revert X. apply unit_least; assumption.
Qed.

Lemma take_tq2_flat J T dg fuel : tinv J T -> ft T -> forall q tmp q1 tmp1, Forall okq q -> Forall gw tmp -> fw q -> fw tmp ->
  take_tq true fuel false (find1 J T) dg q tmp = Ok (Some (q1, tmp1)) -> fw q1 /\ fw tmp1.
Proof.
  intros H F. assert (GF := good_find_T t o n A Hn J T H).
  induction q as [|u q IH]; intros tmp q1 tmp1 Q Tm Fq Ft E; cbn [take_tq] in E; [injection E as <- <-; auto|].
  assert (Hu := Forall_inv Q). assert (Q' := Forall_inv_tail Q). assert (Fu := Forall_inv Fq). assert (Fq' := Forall_inv_tail Fq). cbv beta in Fu.
  rewrite (lm_plm t o n A false u (proj1 Hu)) in E. cbn [bind] in E. destruct (deg (plm u) <=? dg)%nat; [|injection E as <- <-; auto].
  assert (N := nf_safe t o n A Hn (GT n A T) (GT_GM n A T) _ fuel (wpol u) GF (proj1 (proj1 Hu))).
  destruct (p_nf fuel false (find1 J T) (wpol u)) as [[p c0]| | | |] eqn:E1; cbn [bind] in E; try discriminate. cbn [safe fst] in N. destruct N as (Gr & _).
  assert (F1 := p_nf_flat t o n Hn Ho (GT n A T) (GT_flat n T F) _ fuel (wpol u) _ GF (proj1 (proj1 Hu)) Fu E1). cbn [fst] in F1.
  destruct (is_zero p) eqn:Zr; [eapply IH; eassumption|].
  assert (Gr' : good p) by (split; [exact Gr|intro Z; unfold is_zero in Zr; rewrite Z in Zr; discriminate]).
  destruct (good_hd t o n A _ Gr') as (m & Hm). rewrite (hd_lm false _ m Hm) in E. cbn [bind] in E. destruct (deg m =? 0)%nat; [discriminate|].
  assert (N := nft_safe t o n A (GT n A T) (GT_GM n A T) (find1 J T) (find1 J T) fuel p m GF Gr' Hm (fun _ _ _ => eq_refl)).
  destruct (p_nfTail fuel false (find1 J T) p) as [[p2 c]| | | |] eqn:E2; cbn [bind] in E; try discriminate. cbn [safe fst] in N. destruct N as (G2 & _).
  assert (F2 := p_nfTail_flat t o n Hn Ho (GT n A T) (GT_flat n T F) _ _ fuel p m _ GF Gr' Hm F1 (fun _ _ _ => eq_refl) E2). cbn [fst snd] in F2, E.
  destruct (good_hd t o n A _ G2) as (m2 & Hm2).
  destruct (if (c0 + c =? 0)%nat then Ok p2 else p_pp false p2) as [p3| | | |] eqn:E3; cbn [bind] in E; try discriminate.
  assert (X3 : good p3 /\ flat (terms p3)).
  { destruct (c0 + c =? 0)%nat; [injection E3 as <-; auto|]. split; [|eapply pp_flat; eassumption].
    destruct (good_pp t o n A p2 m2 G2 Hm2) as (p' & E' & G' & _). rewrite E3 in E'. injection E' as <-. exact G'. }
  destruct X3 as [G3 F3]. destruct (jp_insert false tmp _) as [tmp'| | | |] eqn:E4; cbn [bind] in E; try discriminate. apply jp_insert_perm in E4.
  apply (IH tmp' q1 tmp1 Q'); [| |exact (fw_perm _ _ (Permutation_sym E4) (Forall_cons (WP (wwrap u) p3) F3 Ft))|exact E].
  - eapply Permutation_Forall; [apply Permutation_sym; exact E4|]. constructor; [exact G3|exact Tm].
  - exact Fq'.
Qed.

Lemma take_tq2_ends J T dg : tinv J T -> forall q tmp, Forall okq q -> Forall (okh J) tmp ->
  ends (fun k => take_tq true k false (find1 J T) dg q tmp).
Proof.
  intro H. assert (GF := good_find_T t o n A Hn J T H).
  induction q as [|u q IH]; intros tmp Q Tm; cbn [take_tq]; [apply ends_ok|].
  assert (Hu := Forall_inv Q). assert (Q' := Forall_inv_tail Q). rewrite (lm_plm t o n A false u (proj1 Hu)). cbn [bind].
  destruct (deg (plm u) <=? dg)%nat; [|apply ends_ok].
  eapply ends_safe; [eapply (p_nf_ends t o n A Ho); [exact GF|apply Hu]|intro k; apply (nf_safe t o n A Hn (GT n A T) (GT_GM n A T) _ k (wpol u) GF); apply Hu|].
  intros [p c0] (Gp & _ & Dp). cbn [fst] in *. destruct (is_zero p) eqn:Zp; [apply IH; assumption|].
  destruct Dp as [Dp|(m & Hm & Fm)]; [unfold is_zero in Zp; rewrite Dp in Zp; discriminate|].
  assert (Gp' : good p) by (split; [exact Gp|eapply hd_nz; exact Hm]).
  rewrite (hd_lm false p m Hm). cbn [bind]. destruct (deg m =? 0)%nat; [apply ends_ok|].
  eapply ends_safe; [eapply (p_nft_ends t o n A Ho); [exact GF|exact Gp'|exact Hm|auto]|
    intro k; apply (nft_safe t o n A (GT n A T) (GT_GM n A T) (find1 J T) (find1 J T) k p m GF Gp' Hm); auto|].
  intros [p2 c] (G2 & H2 & _). cbn [fst snd] in *.
  eapply ends_safe with (P := fun p3 => good p3 /\ hd p3 m).
  { destruct (c0 + c =? 0)%nat; [apply ends_ok|]. destruct (good_pp t o n A p2 m G2 H2) as (p3 & -> & _). apply ends_ok. }
  { intros _. destruct (c0 + c =? 0)%nat; [cbn [safe]; auto|]. destruct (good_pp t o n A p2 m G2 H2) as (p3 & -> & B & C & _). cbn [safe]. auto. }
  intros p3 (G3 & H3).
  assert (Ot : okh J (WP (wwrap u) p3)).
  { split; [split; [exact G3|]; apply Hu|]. unfold hirr. rewrite (plm_eq (WP (wwrap u) p3) m H3).
    destruct (hd_mono t o n A p3 m (proj1 G3) H3) as [Mm Pm]. exact (find_none_irr t o n A Hn J T m H Mm Pm Fm). }
  destruct (insert_w t o n A Hn false tmp (WP (wwrap u) p3)) as (tmp1 & -> & P1 & _); [exact G3|eapply okh_gw; exact Tm|]. cbn [bind].
  apply IH; [exact Q'|]. eapply Permutation_Forall; [apply Permutation_sym; exact P1|]. constructor; assumption.
Qed.

(* ------------------------------------------------------------------------------------------ *)
(** * Rounds of algorithmTQ2 without a restart *)

Definition round2 (fuel pref : nat) (s : rstate) : outcome ((nat * rstate) + jpoly2) :=
  let '(js, q, T) := s in
  match q with
  | [] => Ok (inr (JP2 None (map Att T) (-1) (Some js)))
  | u :: _ =>
      let find := find_poly false (-1) (Some js) T in
      do m <- p_lm false (wpol u);
      do r <- take_tq true fuel false find (deg m) q [];
      match r with
      | None => do J <- set_one false (pto (wpol u)) (pbo (wpol u)) (psize (wpol u)) (-1); Ok (inr (JP2 (jone J) [] (jpos J) (jtrees J)))
      | Some (q1, []) => Ok (inl ((if (pref =? 0)%nat then deg m else pref), (js, q1, T)))
      | Some (q1, w0 :: tmp0) =>
          do m0 <- p_lm false (wpol w0);
          do s <- same_deg false (deg m0) tmp0;
          let (eqs, rest) := s in
          let (w1, eqs2) := swap_min w0 eqs in
          do p <- tail_pp fuel false find (wpol w1);
          do e <- enter_w false js (WP (wwrap w1) p);
          let (js2, w') := e in
          do x <- (match T with
                   | [] => Ok (js2, (eqs2 ++ rest) ++ q1, [(wlm w', p)])
                   | _ => walk (Datatypes.S (length T)) fuel false (-1) (deg m) js2 ((eqs2 ++ rest) ++ q1) [] (Some (wlm w', p)) T
                   end);
          Ok (inl (deg m, x))
      end
  end.
Definition lout2 (s : rstate) (r : (nat * rstate) + jpoly2) : Prop :=
  match r with
  | inl (pref', s') => linv s' /\ (pref' <= 1)%nat /\ (length (snd (fst s')) < length (snd (fst s)))%nat
  | inr J => exists T, j2t J = map Att T /\ ft T
  end.

Lemma flat_deg u : okq u -> flat (terms (wpol u)) -> (deg (plm u) <= 1)%nat.
Proof.
  intros Hu F. unfold deg. rewrite MonomProofs.degv_total. apply F. apply hd_in. apply (plm_hd t o n A). apply Hu.
Qed.

Lemma round2_flat fuel pref s r : linv s -> (pref <= 1)%nat -> round2 fuel pref s = Ok r -> lout2 s r.
Proof.
  destruct s as [[js q] T]. intros (J & Ej & H & Q & Fq & FT & I) Pr E. cbn [fst snd] in *. subst js. cbn [round2] in E.
  destruct q as [|u q0] eqn:Eq.
  { injection E as <-. cbn [lout2 j2t]. eauto. }
  rewrite <- Eq in *.
  assert (Hu : okq u) by (rewrite Eq in Q; exact (Forall_inv Q)). assert (Elm := lm_plm t o n A false u (proj1 Hu)). rewrite Elm in E. cbn [bind] in E.
  assert (Du : (deg (plm u) <= 1)%nat) by (apply flat_deg; [exact Hu|]; rewrite Eq in Fq; exact (Forall_inv Fq)).
  assert (K1 := take_tq_ok t o n A Hn Ho true J T (deg (plm u)) fuel H q [] Q (Forall_nil _)).
  destruct (take_tq _ _ _ _ _ _ _) as [r1| | | |] eqn:Ek; cbn [bind] in E; try discriminate. cbn [safe] in K1.
  destruct r1 as [[q1 tmp]|].
  2:{ destruct Hu as ([(_ & (A1 & A2 & A3) & _) _] & _). rewrite A1, A2, A3 in E. destruct (set_one false t o n (-1)) as [J'| | | |] eqn:Es; cbn [bind] in E; try discriminate.
      injection E as <-. cbn [lout2 j2t]. exists []. split; [reflexivity|constructor]. }
  destruct K1 as (Q1 & Tm & _).
  destruct (take_tq2_flat J T _ fuel H FT q [] q1 tmp Q (Forall_nil _) Fq (Forall_nil _) Ek) as [Fq1 Ftm].
  assert (Len := take_len _ _ _ _ _ _ _ _ _ Ek). assert (Lhd : (length q1 < length q)%nat).
  { rewrite Eq in *. apply (take_len_head _ _ _ _ u q0 q1 tmp (plm u) Elm) in Ek. cbn [length]. lia. }
  apply take_tq_sub in Ek. rewrite app_nil_r in Ek. assert (I1 := Inv_sub _ _ _ Ek I). clear Ek Eq.
  destruct tmp as [|w0 tmp0].
  { injection E as <-. cbn [lout2 fst snd]. rewrite app_nil_r in I1. split; [|split; [destruct (pref =? 0)%nat; assumption|exact Lhd]]. exists J. auto 10. }
  assert (H0 := Forall_inv Tm). assert (G0 := proj1 (proj1 H0)).
  rewrite (lm_plm t o n A false w0 G0) in E. cbn [bind] in E.
  destruct (same_deg_ok t o n A (deg (plm w0)) tmp0) as (eqs & rest & Es & Et); [eapply okh_gw; exact (Forall_inv_tail Tm)|].
  rewrite Es in E. cbn [bind] in E. subst tmp0. assert (Tm0 := Forall_inv_tail Tm). apply Forall_app in Tm0 as [Tm1 Tm2].
  assert (F0 := Forall_inv Ftm). cbv beta in F0. assert (Ftm0 := Forall_inv_tail Ftm). apply Forall_app in Ftm0 as [Fe Fr].
  assert (Ps := TQProofs.swap_min_perm eqs w0). destruct (swap_min w0 eqs) as [w1 eqs2] eqn:Esw. cbn [fst snd] in Ps.
  assert (Ow : Forall (okh J) (w1 :: eqs2)) by (eapply Permutation_Forall; [exact Ps|constructor; assumption]).
  assert (Fw : fw (w1 :: eqs2)) by (eapply Permutation_Forall; [exact Ps|constructor; assumption]).
  assert (H1 := Forall_inv Ow). assert (G1 := proj1 (proj1 H1)). assert (Hq := okh_okq t o n A _ _ (Forall_inv_tail Ow)). assert (Hr := okh_okq t o n A _ _ Tm2).
  assert (I2 : Inv [J] (w1 :: eqs2 ++ rest ++ q1)).
  { eapply Inv_sub; [|exact I1]. apply wsub_perm. change (w1 :: eqs2 ++ rest ++ q1) with ((w1 :: eqs2) ++ rest ++ q1). rewrite <- Ps.
    change (w0 :: eqs ++ rest) with ((w0 :: eqs) ++ rest). rewrite app_assoc. apply Permutation_app_comm. }
  assert (Q2 : Forall okq ((eqs2 ++ rest) ++ q1)) by (rewrite !Forall_app; auto).
  assert (Fq2 : fw ((eqs2 ++ rest) ++ q1)) by (unfold fw; rewrite !Forall_app; repeat split; [exact (Forall_inv_tail Fw)|exact Fr|exact Fq1]).
  assert (L2 : (length ((eqs2 ++ rest) ++ q1) < length q)%nat).
  { apply Permutation_length in Ps. cbn [length] in Ps, Len. rewrite !app_length in *. cbn [length] in *. lia. }
  assert (Kp := tail_pp_ok t o n A Hn J T fuel (wpol w1) (plm w1) H G1 (plm_hd t o n A w1 G1)).
  destruct (tail_pp _ _ _ _) as [p| | | |] eqn:Etp; cbn [bind] in E; try discriminate. destruct Kp as (Gp & Hp & _).
  assert (Fp : flat (terms p)) by (eapply tail_pp_flat; [exact Hn|exact Ho|exact H|exact FT|exact G1|apply (plm_hd t o n A w1 G1)|exact (Forall_inv Fw)|exact Etp]).
  assert (Ep : plm (WP (wwrap w1) p) = plm w1) by (apply plm_eq; exact Hp).
  assert (Hw : okh J (WP (wwrap w1) p)) by (split; [split; [exact Gp|apply H1]|unfold hirr; rewrite Ep; apply H1]).
  assert (I2' : Inv [J] (WP (wwrap w1) p :: eqs2 ++ rest ++ q1)).
  { eapply Inv_sub; [|exact I2]. change (?a :: ?b) with ([a] ++ b) at 1. change (w1 :: ?b) with ([w1] ++ b). apply wsub_app; [|apply wsub_refl]. apply wsub_map. reflexivity. }
  destruct (enter_w_ok t o n A Hn J T _ H Hw) as (J2 & w' & E4 & Ew' & H2). cbn [wpol] in H2.
  assert (I3 : Inv [J2] ((eqs2 ++ rest) ++ q1)).
  { eapply keeps_Inv; [exact Hn|exact H|exact H2|eapply enter_w_keeps; exact E4|]. rewrite <- app_assoc. exact I2'. }
  rewrite E4 in E. cbn [bind] in E. rewrite Ew' in E.
  assert (Fn : ft ((plm (WP (wwrap w1) p), p) :: T)) by (constructor; [exact Fp|exact FT]).
  destruct T as [|e0 T0].
  - cbn [bind] in E. injection E as <-. cbn [lout2 fst snd]. split; [|split; [exact Du|exact L2]]. exists J2. auto 10.
  - destruct (walk _ _ _ _ _ _ _ _ _ _) as [[[js3 q3] T3]| | | |] eqn:E5; cbn [bind] in E; try discriminate. injection E as <-.
    assert (K := walk_ok t o n A Hn Ho fuel (deg (plm u)) (Datatypes.S (length (e0 :: T0))) J2 _ [] (Some (plm (WP (wwrap w1) p), p)) (e0 :: T0) H2 Q2). rewrite E5 in K. cbn [safe] in K.
    destruct K as (J3 & -> & H3 & Q3 & _). cbn [lout2 fst snd].
    destruct (walk_flat t o n Hn Ho fuel _ _ J2 _ [] (Some (plm (WP (wwrap w1) p), p)) (e0 :: T0) _ _ _ H2 Q2 Fn (Inv_ab _ _ I3) E5) as [F3 Eq3]. subst q3.
    split; [|split; [exact Du|exact L2]]. exists J3. split; [reflexivity|]. split; [exact H3|]. split; [exact Q3|]. split; [exact Fq2|]. split; [exact F3|].
    cbn [fst snd]. eapply keeps_Inv; [exact Hn|exact H2|exact H3|eapply walk_keeps; exact E5|exact I3].
Qed.

Lemma round2_ends pref s : linv s -> ends (fun k => round2 k pref s).
Proof.
  destruct s as [[js q] T]. intros (J & Ej & H & Q & _). cbn [fst snd] in *. subst js. cbn [round2].
  destruct q as [|u q0] eqn:Eq; [apply ends_ok|]. rewrite <- Eq in *.
  assert (Hu : okq u) by (rewrite Eq in Q; exact (Forall_inv Q)). rewrite (lm_plm t o n A false u (proj1 Hu)). cbn [bind].
  eapply ends_safe; [apply (take_tq2_ends J T (deg (plm u)) H q [] Q (Forall_nil _))|intro k; apply (take_tq_ok t o n A Hn Ho true J T (deg (plm u)) k H q [] Q (Forall_nil _))|].
  intros [[q1 tmp]|].
  2:{ intro M. destruct Hu as ([(_ & (A1 & A2 & A3) & _) _] & _). rewrite A1, A2, A3. destruct (set_one_ok t o n A Hn (-1) M) as (J' & -> & _). cbn [bind]. apply ends_ok. }
  intros (Q1 & Tm & _). destruct tmp as [|w0 tmp0]; [apply ends_ok|].
  assert (H0 := Forall_inv Tm). assert (G0 := proj1 (proj1 H0)). rewrite (lm_plm t o n A false w0 G0). cbn [bind].
  destruct (same_deg_ok t o n A (deg (plm w0)) tmp0) as (eqs & rest & -> & Et); [eapply okh_gw; exact (Forall_inv_tail Tm)|]. cbn [bind].
  subst tmp0. assert (Tm0 := Forall_inv_tail Tm). apply Forall_app in Tm0 as [Tm1 Tm2].
  assert (Ps := TQProofs.swap_min_perm eqs w0). destruct (swap_min w0 eqs) as [w1 eqs2] eqn:Esw. cbn [fst snd] in Ps.
  assert (Ow : Forall (okh J) (w1 :: eqs2)) by (eapply Permutation_Forall; [exact Ps|constructor; assumption]).
  assert (H1 := Forall_inv Ow). assert (G1 := proj1 (proj1 H1)). assert (Hq := okh_okq t o n A _ _ (Forall_inv_tail Ow)). assert (Hr := okh_okq t o n A _ _ Tm2).
  assert (Q2 : Forall okq ((eqs2 ++ rest) ++ q1)) by (rewrite !Forall_app; auto).
  eapply ends_safe; [apply (tail_pp_ends t o n A Hn Ho J T (wpol w1) (plm w1) H G1 (plm_hd t o n A w1 G1))|
    intro k; apply (tail_pp_ok t o n A Hn J T k (wpol w1) (plm w1) H G1 (plm_hd t o n A w1 G1))|].
  intros p (Gp & Hp & _). assert (Ep : plm (WP (wwrap w1) p) = plm w1) by (apply plm_eq; exact Hp).
  assert (Hw : okh J (WP (wwrap w1) p)) by (split; [split; [exact Gp|apply H1]|unfold hirr; rewrite Ep; apply H1]).
  destruct (enter_w_ok t o n A Hn J T _ H Hw) as (J2 & w' & -> & Ew' & H2). cbn [wpol] in H2. cbn [bind]. rewrite Ew'.
  apply ends_bind; [|intros; apply ends_ok]. destruct T as [|e0 T0]; [apply ends_ok|].
  apply (walk_ends t o n A Hn Ho (deg (plm u)) (Datatypes.S (length (e0 :: T0))) J2 _ [] (Some (plm (WP (wwrap w1) p), p)) (e0 :: T0) H2 Q2). cbn [opt length]; lia.
Qed.

(** The restart needs a degree below 1 with something left, and constants leave nothing. *)
Lemma loop2_eq fuel pref s : linv s -> (pref <= 1)%nat ->
  tq2_loop (Datatypes.S fuel) false (-1) pref (fst (fst s)) (snd (fst s)) (map Att (snd s)) =
  do r <- round2 (Datatypes.S fuel) pref s;
  match r with
  | inr J => Ok J
  | inl (pref', s') => tq2_loop fuel false (-1) pref' (fst (fst s')) (snd (fst s')) (map Att (snd s'))
  end.
Proof.
  destruct s as [[js q] T]. intros (J & Ej & H & Q & Fq & FT & I) Pr. cbn [fst snd] in *. subst js. cbn [round2 tq2_loop].
  destruct q as [|u q0] eqn:Eq; [reflexivity|]. rewrite <- Eq in *. rewrite atts_map.
  assert (Hu : okq u) by (rewrite Eq in Q; exact (Forall_inv Q)). rewrite (lm_plm t o n A false u (proj1 Hu)). cbn [bind].
  destruct (take_tq _ _ _ _ _ _ _) as [[[q1 tmp]|]| | | |] eqn:Ek; cbn [bind]; try reflexivity.
  unfold assert_. cbn [andb]. destruct tmp as [|w0 tmp0]; [reflexivity|].
  assert (Dm : (deg (plm u) <? (if (pref =? 0)%nat then deg (plm u) else pref))%nat = false).
  { destruct (pref =? 0)%nat; [apply Nat.ltb_irrefl|]. apply Nat.ltb_ge. destruct (deg (plm u)) as [|d] eqn:D; [|lia]. exfalso.
    apply (take_const J T (Datatypes.S fuel) H q [] q1 (w0 :: tmp0) Q) in Ek. discriminate. }
  destruct (p_lm false (wpol w0)) as [m0| | | |]; cbn [bind]; try reflexivity.
  destruct (same_deg _ _ _) as [[eqs rest]| | | |]; cbn [bind]; try reflexivity. destruct (swap_min w0 eqs) as [w1 eqs2].
  destruct (tail_pp _ _ _ _) as [p| | | |]; cbn [bind]; try reflexivity. destruct (enter_w _ _ _) as [[js2 w']| | | |]; cbn [bind]; try reflexivity.
  rewrite Dm. destruct T as [|e0 T0]; [reflexivity|]. cbn [map]. change (Att e0 :: map Att T0) with (map Att (e0 :: T0)). rewrite map_length.
  change (@nil titem) with (map Att []). rewrite walk2_att. destruct (walk _ _ _ _ _ _ _ _ _ _) as [[[js3 q3] T3]| | | |]; reflexivity.
Qed.

Lemma loop2_flat : forall fuel pref s J2, linv s -> (pref <= 1)%nat ->
  tq2_loop fuel false (-1) pref (fst (fst s)) (snd (fst s)) (map Att (snd s)) = Ok J2 -> lout2 s (inr J2).
Proof.
  induction fuel as [|fuel IH]; intros pref s J2 L Pr E.
  - destruct s as [[js [|u q]] T]; cbn [fst snd tq2_loop] in E; [|discriminate]. injection E as <-.
    destruct L as (J & _ & _ & _ & _ & FT & _). cbn [lout2 j2t]. eauto.
  - rewrite (loop2_eq fuel pref s L Pr) in E. destruct (round2 _ _ _) as [r| | | |] eqn:Er; cbn [bind] in E; try discriminate.
    assert (X := round2_flat _ _ _ _ L Pr Er). destruct r as [[pref' s']|J'].
    + destruct X as (L' & P' & _). exact (IH _ _ _ L' P' E).
    + injection E as <-. exact X.
Qed.

Lemma loop2_ends : forall k pref s, (length (snd (fst s)) < k)%nat -> linv s -> (pref <= 1)%nat ->
  ends (fun fuel => tq2_loop fuel false (-1) pref (fst (fst s)) (snd (fst s)) (map Att (snd s))).
Proof.
  induction k as [|k IH]; intros pref s Lk L Pr; [lia|]. apply ends_S. eapply ends_ext; [intro fuel; apply (loop2_eq fuel pref s L Pr)|].
  apply ends_bind; [apply (ends_S' _ (round2_ends pref s L))|]. intros N r E. assert (X := round2_flat _ _ _ _ L Pr (E N (le_n N))).
  destruct r as [[pref' s']|J']; [|apply ends_ok]. destruct X as (L' & P' & Lt). apply IH; [lia|exact L'|exact P'].
Qed.
End P.
