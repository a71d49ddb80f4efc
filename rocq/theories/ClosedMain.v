(** Closed classes of polynomials: every round of completion stays in them. *)
From Coq Require Import ZArith List Bool Arith Lia Permutation Sorted.
From Verif Require Import Outcome MonomModel MonomSpec MonomProofs PolyModel PolySpec PolyProofs
  JanetModel JanetSpec JanetProofs JanetFindProofs CompletionProofs JanetPolyModel TQModel JanetPolySpec IdealProofs JanetPolyProofs PolyTopProofs
  TQProofs JanetTermSpec JanetTermMain ShapeProofs AncProofs InvolutiveProofs LinTop ClosedSpec ClosedProofs.
Import ListNotations.
Local Open Scope Z_scope.

Section P.
Variables (t : pos_order) (o : base_order) (n : nat).
Hypothesis (Hn : (0 < n)%nat) (Ho : o <> OAlex).
Variable PP : list term -> Prop.
Hypothesis HE : kept_by_elimination t o n PP PP.
Hypothesis HF : kept_by_factors t o n PP.
Hypothesis HP : kept_by_prolongation t o n PP.
Notation fw := (ClosedProofs.fw PP).
Notation ft := (ClosedProofs.ft PP).
Notation A := (fun _ : list term => True).
Notation good := (good t o n A).
Notation okq := (okq t o n A).
Notation okh := (okh t o n A).
Notation tinv := (tinv t o n A).

Lemma rt p : good p -> ring_terms t o n (terms p).
Proof. intro G. apply (goodz_rt t o n). apply G. Qed.
Lemma tree_leads J T : tinv J T -> ft T -> forall w, In w (lms (wraps (jroot J))) -> exists h, ring_terms t o n h /\ PP h /\ leads h w.
Proof.
  intros H F w Iw. unfold lms in Iw. apply in_map_iff in Iw as (u & <- & Iu).
  assert (X : In (wlm u) (map fst T)) by (eapply Permutation_in; [apply (ti_perm _ _ _ _ _ _ H)|apply in_map; exact Iu]).
  apply in_map_iff in X as (e & Ee & Ie). unfold lv. rewrite <- Ee.
  assert (Gg := ti_good _ _ _ _ _ _ H). rewrite Forall_forall in Gg. destruct (Gg e Ie) as [Ge Hd]. unfold ClosedProofs.ft in F. rewrite Forall_forall in F.
  exists (terms (snd e)). split; [apply rt; exact Ge|]. split; [exact (F e Ie)|]. apply (hd_leads t o n); [apply Ge|exact Hd].
Qed.
Lemma mul_var_coef k p r : (k < n)%nat -> good p -> p_mul_var false k p = Ok r -> forall m, coef (terms r) m = coef (shift (InvolutiveProofs.e n k) (terms p)) m.
Proof.
  intros K G E m. unfold p_mul_var, checked, assert_ in E. cbn [andb] in E. injection E as <-. cbn [with_terms terms].
  f_equal. unfold shift. apply map_ext_in. intros [x c] I. cbn [fst snd]. f_equal.
  destruct (goodz_mono t o n A p x (proj1 G) (in_map fst _ _ I)) as [[Lx Px] Px']. destruct x as [px vx]. cbn [pos vars] in *. subst px.
  unfold mul_var, mprod. cbn [pos vars]. change (-1 =? -1) with true. cbv iota. f_equal. rewrite vsum_addv. apply expo_ext.
  - rewrite incr_length, addv_length; rewrite e_len; congruence.
  - rewrite incr_length. intros i Hi. rewrite CompletionProofs.incr_expo' by lia. rewrite expo_addv by (rewrite e_len; congruence). rewrite e_expo by exact K.
    rewrite (Nat.eqb_sym i k) || idtac. destruct (Nat.eqb_spec i k); destruct (Nat.eqb_spec k i); try lia; subst; reflexivity.
Qed.

Lemma jp_prolong_in T e : ft T -> forall cnt k J w q js' q', (k + cnt = n)%nat -> tinv J T -> In w (wraps (jroot J)) ->
  good e -> hd e (wlm w) -> PP (terms e) -> fw q -> jp_prolong false (-1) cnt k [J] w e q = Ok (js', q') -> fw q'.
Proof.
  intro F. induction cnt as [|cnt IH]; intros k J w q js' q' K H Iw Ge He Fe Fq E; cbn [jp_prolong] in E; [injection E as <- <-; auto|].
  assert (Ow : okw n w) by (assert (O := ji_ok _ _ (ti_inv _ _ _ _ _ _ H)); rewrite Forall_forall in O; auto).
  destruct Ow as (O1 & O2 & O3 & O4). rewrite !(get_flag_ok n) in E by (assumption || lia). cbn [bind] in E.
  destruct (nth k (wnm w) false) eqn:Nm; cbn [andb] in E.
  2:{ eapply IH; [|exact H|exact Iw|exact Ge|exact He|exact Fe|exact Fq|exact E]. lia. }
  destruct (negb (nth k (wbuild w) false)) eqn:Nb.
  2:{ eapply IH; [|exact H|exact Iw|exact Ge|exact He|exact Fe|exact Fq|exact E]. lia. }
  destruct (JanetPolyProofs.set_build_ok n Hn false w k) as (w' & Ew & Kw); [repeat split; assumption|lia|].
  destruct (store_ok t o n A J T w w' H Iw Kw) as (J1 & E1 & H1 & I1).
  assert (He' : hd e (wlm w')) by (destruct Kw as (-> & _); exact He).
  destruct (hd_mono t o n A e (wlm w) (proj1 Ge) He) as [[Lw Pw] Pw'].
  assert (Mm : mono n (mul_var k (wlm w))) by (split; cbn [mul_var vars pos]; [rewrite incr_length; exact Lw|exact Pw]).
  destruct (find_wrap_ok n Hn J (mul_var k (wlm w)) (ti_inv _ _ _ _ _ _ H) Mm) as (d & Ed & _). rewrite Ed in E. cbn [bind] in E.
  match type of E with context [if ?b then _ else _] => destruct b end.
  - rewrite Ew in E. cbn [bind] in E. rewrite E1 in E. eapply IH; [|exact H1|exact I1|exact Ge|exact He'|exact Fe|exact Fq|exact E]. lia.
  - unfold prolong_wrap in E. rewrite !(get_flag_ok n) in E by (assumption || lia). cbn [bind] in E. unfold assert_ in E. cbn [andb] in E. rewrite Ew in E. cbn [bind] in E.
    destruct (p_mul_var false k e) as [pv| | | |] eqn:Ep; cbn [bind] in E; try discriminate.
    destruct (jp_insert false q _) as [q1| | | |] eqn:Ei; cbn [bind] in E; try discriminate. rewrite E1 in E. apply jp_insert_perm in Ei.
    eapply IH; [|exact H1|exact I1|exact Ge|exact He'|exact Fe| |exact E]; [lia|]. eapply fw_perm; [apply Permutation_sym; exact Ei|]. constructor; [|exact Fq]. cbn [wpol].
    assert (Jn : janet_nm (lms (wraps (jroot J))) (lv w) k).
    { apply (flagsT_flags n 0 (jroot J)); [apply (ti_inv _ _ _ _ _ _ H)|intros; lia|apply (ti_inv _ _ _ _ _ _ H)|exact Iw|lia|lia|exact Nm]. }
    destruct Jn as (v & Iv & _ & Lv). destruct (tree_leads J T H F v Iv) as (h & Rh & Ph & Lh).
    destruct (good_mul_var t o n A Hn k e (wlm w)) as (pv' & Ep' & Gv & _); [lia|exact Ge|exact He|]. rewrite Ep in Ep'. injection Ep' as <-.
    apply (HP (terms e) h (terms pv) (vars (wlm w)) v k (InvolutiveProofs.e n k)); [apply rt; exact Ge|exact Rh|apply rt; exact Gv|exact Fe|exact Ph|apply (hd_leads t o n); [apply Ge|exact He]|exact Lh|lia|exact Lv|apply variable_e; lia|].
    apply mul_var_coef; [lia|exact Ge|exact Ep].
Qed.
Lemma prolong_if_in dg J T e q js' q' : tinv J T -> ft T -> In e T -> fw q -> prolong_if false (-1) dg [J] e q = Ok (js', q') -> fw q'.
Proof.
  intros H F I Fq E. unfold prolong_if in E. destruct (deg (fst e) <=? dg)%nat; [|injection E as <- <-; auto].
  unfold prolong_entry in E. destruct (get_wrap_ok t o n A J T e H I) as (w & Eg & Iw & Ew). rewrite Eg in E.
  assert (Hg := ti_good _ _ _ _ _ _ H). rewrite Forall_forall in Hg. destruct (Hg e I) as [Ge He]. rewrite <- Ew in He.
  assert (F' := F). unfold ClosedProofs.ft in F'. rewrite Forall_forall in F'.
  eapply (jp_prolong_in T (snd e) F); [|exact H|exact Iw|exact Ge|exact He|exact (F' e I)|exact Fq|exact E]. unfold size. rewrite Ew. apply (tinv_len t o n A J T e H I).
Qed.

Lemma ft_perm T T' : Permutation T T' -> ft T -> ft T'.
Proof. apply Permutation_Forall. Qed.

Lemma merge_in fuel dg : forall cnt J q d j k js' q' T', tinv J (d ++ j ++ k) -> Forall okq q -> ft (d ++ j ++ k) -> fw q ->
  merge_loop cnt fuel false (-1) dg [J] q d j k = Ok (js', q', T') -> ft T' /\ fw q'.
Proof.
  induction cnt as [|cnt IH]; intros J q d j k js' q' T' H Q F B E; cbn [merge_loop] in E.
  { destruct j; [destruct k|]; try discriminate. injection E as <- <- <-. cbn [app] in F. rewrite app_nil_r in F. auto. }
  assert (Put : forall e j' k', Permutation (d ++ j ++ k) (d ++ e :: j' ++ k') ->
      (do b <- Ok true; assert_ false b (do r <- prolong_if false (-1) dg [J] e q;
           merge_loop cnt fuel false (-1) dg (fst r) (snd r) (d ++ [e]) j' k')) = Ok (js', q', T') -> ft T' /\ fw q').
  { intros e j' k' P X. cbn [bind] in X. unfold assert_ in X. cbn [andb] in X.
    assert (H' : tinv J (d ++ e :: j' ++ k')) by (eapply tinv_perm; eassumption). assert (F' := ft_perm _ _ P F).
    assert (I : In e (d ++ e :: j' ++ k')) by (apply in_or_app; right; left; reflexivity).
    destruct (prolong_if_ok t o n A Hn dg J _ e q H' I Q) as (J1 & q1 & Ep & H1 & Q1 & _).
    assert (B1 := prolong_if_in dg J _ e q _ _ H' F' I B Ep).
    rewrite Ep in X. cbn [bind fst snd] in X. apply IH in X; [exact X|rewrite <- app_assoc; exact H1|exact Q1|rewrite <- app_assoc; exact F'|exact B1]. }
  assert (Redu : forall e k', Permutation (d ++ j ++ k) (e :: d ++ j ++ k') ->
      (do e' <- tail_reduce fuel false (-1) [J] (d ++ j ++ k') e;
        do r <- prolong_if false (-1) dg [J] e' q;
        merge_loop cnt fuel false (-1) dg (fst r) (snd r) (d ++ [e']) j k') = Ok (js', q', T') -> ft T' /\ fw q').
  { intros e k' P X. destruct (tail_reduce _ _ _ _ _ _) as [e'| | | |] eqn:Et; cbn [bind] in X; try discriminate.
    destruct (tail_reduce_shape t o n A Hn Ho fuel J _ e _ e' H P Et) as (_ & H' & _).
    assert (F' := tail_reduce_in t o n Hn Ho PP HE HF fuel J _ e _ e' H P F Et).
    destruct (prolong_if_ok t o n A Hn dg J _ e' q H' (or_introl eq_refl) Q) as (J1 & q1 & Ep & H1 & Q1 & _).
    assert (B1 := prolong_if_in dg J _ e' q _ _ H' F' (or_introl eq_refl) B Ep).
    rewrite Ep in X. cbn [bind fst snd] in X.
    assert (P' : Permutation (e' :: d ++ j ++ k') ((d ++ [e']) ++ j ++ k')) by (rewrite <- app_assoc; apply Permutation_middle).
    apply IH in X; [exact X|eapply tinv_perm; [exact H1|exact P']|exact Q1|eapply ft_perm; [exact P'|exact F']|exact B1]. }
  destruct j as [|e j]; destruct k as [|e' k].
  - injection E as <- <- <-. cbn [app] in F. rewrite app_nil_r in F. auto.
  - apply Redu in E; [exact E|]. cbn [app]. apply Permutation_sym, Permutation_middle.
  - apply Put in E; [exact E|reflexivity].
  - destruct (p_cmp false (snd e) (snd e')) as [c| | | |]; cbn [bind] in E; try discriminate. destruct (c <? 0).
    + apply Put in E; [exact E|reflexivity].
    + apply Redu in E; [exact E|]. rewrite !app_assoc. apply Permutation_sym, Permutation_middle.
Qed.

Lemma walk_in fuel dg : forall cnt J q d w k js' q' T', tinv J (d ++ opt w ++ k) -> Forall okq q -> ft (d ++ opt w ++ k) -> fw q ->
  walk cnt fuel false (-1) dg [J] q d w k = Ok (js', q', T') -> ft T' /\ fw q'.
Proof.
  induction cnt as [|cnt IH]; intros J q d w k js' q' T' H Q F B E; cbn [walk] in E.
  { destruct w; [discriminate|]. destruct k; [|discriminate]. injection E as <- <- <-. cbn [app opt] in F. rewrite app_nil_r in F. auto. }
  assert (Redu : forall e w' k', Permutation (d ++ opt w ++ k) (e :: d ++ opt w' ++ k') ->
      (do e' <- tail_reduce fuel false (-1) [J] (d ++ opt w' ++ k') e;
        do r <- prolong_if false (-1) dg [J] e' q;
        walk cnt fuel false (-1) dg (fst r) (snd r) (d ++ [e']) w' k') = Ok (js', q', T') -> ft T' /\ fw q').
  { intros e w' k' P X. destruct (tail_reduce _ _ _ _ _ _) as [e'| | | |] eqn:Et; cbn [bind] in X; try discriminate.
    destruct (tail_reduce_shape t o n A Hn Ho fuel J _ e _ e' H P Et) as (_ & H' & _).
    assert (F' := tail_reduce_in t o n Hn Ho PP HE HF fuel J _ e _ e' H P F Et).
    destruct (prolong_if_ok t o n A Hn dg J _ e' q H' (or_introl eq_refl) Q) as (J1 & q1 & Ep & H1 & Q1 & _).
    assert (B1 := prolong_if_in dg J _ e' q _ _ H' F' (or_introl eq_refl) B Ep).
    rewrite Ep in X. cbn [bind fst snd] in X.
    assert (P' : Permutation (e' :: d ++ opt w' ++ k') ((d ++ [e']) ++ opt w' ++ k')) by (rewrite <- app_assoc; apply Permutation_middle).
    apply IH in X; [exact X|eapply tinv_perm; [exact H1|exact P']|exact Q1|eapply ft_perm; [exact P'|exact F']|exact B1]. }
  destruct w as [e|]; destruct k as [|e' k].
  - apply (Redu e None []) in E; [exact E|]. cbn [opt app]. rewrite app_nil_r. apply Permutation_sym, Permutation_cons_append.
  - destruct (p_cmp false (snd e) (snd e')) as [c| | | |]; cbn [bind] in E; try discriminate. destruct (c <? 0).
    + apply (Redu e None (e' :: k)) in E; [exact E|]. cbn [opt app]. apply Permutation_sym, Permutation_middle.
    + apply (Redu e' (Some e) k) in E; [exact E|]. cbn [opt]. rewrite !app_assoc. apply Permutation_sym, Permutation_middle.
  - injection E as <- <- <-. cbn [app opt] in F. rewrite app_nil_r in F. auto.
  - apply (Redu e' None k) in E; [exact E|]. cbn [opt app]. apply Permutation_sym, Permutation_middle.
Qed.

(* ------------------------------------------------------------------------------------------ *)
(** * Rounds *)

Definition linv (s : rstate) : Prop :=
  exists J, fst (fst s) = [J] /\ tinv J (snd s) /\ Forall okq (snd (fst s)) /\ fw (snd (fst s)) /\ ft (snd s).
Definition lout (r : rstate + jpoly) : Prop :=
  match r with inl s => linv s | inr J => jone J <> None \/ ft (jt J) /\ jq J = [] end.

Lemma gwq q : Forall okq q -> Forall (gw t o n A) q.
Proof. apply Forall_impl. intros u Hu. apply Hu. Qed.

Lemma set_one_out b p q : set_one false t o n (-1) = Ok b -> p = @inr rstate jpoly b -> q = p -> lout q.
Proof. intros E -> ->. cbn [lout]. left. unfold set_one in E. bnd E. bnd E. injection E as <-. discriminate. Qed.

Lemma block_round_in fuel s r : linv s -> block_round fuel false (-1) s = Ok r -> lout r.
Proof.
  destruct s as [[js q] T]. intros (J & Ej & H & Q & Fq & FT) E. cbn [fst snd] in *. subst js. cbn [block_round] in E.
  destruct q as [|u q0] eqn:Eq.
  { injection E as <-. cbn [lout jt jq]. auto. }
  rewrite <- Eq in *.
  assert (Hu : okq u) by (rewrite Eq in Q; exact (Forall_inv Q)). rewrite (lm_plm t o n A false u (proj1 Hu)) in E. cbn [bind] in E.
  assert (K1 := take_block_ok t o n A Hn Ho J T (deg (plm u)) fuel H q [] Q (Forall_nil _) (SSorted_nil _)).
  destruct (take_block _ _ _ _ _ _) as [r1| | | |] eqn:E1; cbn [bind] in E; try discriminate. cbn [safe] in K1.
  destruct r1 as [[q1 tmp]|].
  2:{ destruct Hu as ([(_ & (A1 & A2 & A3) & _) _] & _). rewrite A1, A2, A3 in E. destruct (set_one false t o n (-1)) as [J'| | | |] eqn:Es; cbn [bind] in E; try discriminate.
      injection E as <-. eapply set_one_out; [exact Es|reflexivity|reflexivity]. }
  destruct K1 as (Q1 & Tm & S1 & _). unfold assert_ in E. cbn [andb] in E.
  destruct (take_block_in t o n Hn PP HE HF J T _ fuel H FT q [] q1 tmp Q (Forall_nil _) Fq (Forall_nil _) E1) as [Fq1 Ftm].
  destruct tmp as [|x tmp'] eqn:Et.
  { injection E as <-. cbn [lout]. exists J. auto 10. }
  rewrite <- Et in *. assert (Ne : tmp <> []) by congruence.
  destruct (block_loop fuel false tmp q1) as [[[tmp2 q2] dg]| | | |] eqn:E2; cbn [bind] in E; try discriminate.
  assert (K3 := block_loop_ok t o n A Hn J fuel tmp q1 Ne Tm S1 Q1). rewrite E2 in K3. cbn [safe] in K3. destruct K3 as (O2 & S2 & Q2 & _).
  destruct (block_loop_in t o n Hn PP HE HF J fuel tmp q1 tmp2 q2 dg Ne Tm S1 Ftm Fq1 E2) as [Ft2 Fq2].
  assert (Oq : Forall okq tmp2) by (eapply Forall_impl; [|exact O2]; intros v Hv; apply Hv).
  destruct (enter_ok t o n A Hn tmp2 J T H Oq S2) as (J2 & new & E3 & H2 & _).
  { intros v Iv X. rewrite Forall_forall in O2. destruct (O2 v Iv) as [[Gv _] Ir].
    apply (Ir (plm v) (hd_in _ _ (plm_hd t o n A v Gv)) (vars (plm v))). split; [exact X|]. split; [intros i _; lia|intros i _ Y; lia]. }
  assert (Fn := enter_in t o n Hn PP HF tmp2 _ _ _ Oq Ft2 E3). rewrite E3 in E. cbn [bind] in E.
  destruct (merge_loop _ _ _ _ _ _ _ _ _ _) as [[[js3 q3] T3]| | | |] eqn:E4; cbn [bind] in E; try discriminate.
  assert (K4 := merge_loop_ok t o n A Hn Ho fuel dg (length new + length T) J2 q2 [] new T H2 Q2). rewrite E4 in K4. cbn [safe] in K4.
  destruct K4 as (J3 & -> & H3 & Q3 & _). injection E as <-. cbn [lout].
  destruct (merge_in fuel dg _ J2 q2 [] new T _ _ _ H2 Q2 ltac:(cbn [app]; apply Forall_app; split; assumption) Fq2 E4) as [F3 Fq3].
  exists J3. split; [reflexivity|]. split; [exact H3|]. split; [exact Q3|]. split; [exact Fq3|exact F3].
Qed.

Lemma tq_round_in v fuel s r : linv s -> tq_round v fuel false (-1) s = Ok r -> lout r.
Proof.
  destruct s as [[js q] T]. intros (J & Ej & H & Q & Fq & FT) E. cbn [fst snd] in *. subst js. cbn [tq_round] in E.
  destruct q as [|u q0] eqn:Eq.
  { injection E as <-. cbn [lout jt jq]. auto. }
  rewrite <- Eq in *.
  assert (Hu : okq u) by (rewrite Eq in Q; exact (Forall_inv Q)). rewrite (lm_plm t o n A false u (proj1 Hu)) in E. cbn [bind] in E.
  assert (K1 := take_tq_ok t o n A Hn Ho false J T (deg (plm u)) fuel H q [] Q (Forall_nil _)).
  destruct (take_tq _ _ _ _ _ _ _) as [r1| | | |] eqn:Ek; cbn [bind] in E; try discriminate. cbn [safe] in K1.
  destruct r1 as [[q1 tmp]|].
  2:{ destruct Hu as ([(_ & (A1 & A2 & A3) & _) _] & _). rewrite A1, A2, A3 in E. destruct (set_one false t o n (-1)) as [J'| | | |] eqn:Es; cbn [bind] in E; try discriminate.
      injection E as <-. eapply set_one_out; [exact Es|reflexivity|reflexivity]. }
  destruct K1 as (Q1 & Tm & _). unfold assert_ in E. cbn [andb] in E.
  destruct (take_tq_in t o n Hn PP HE HF J T _ fuel H FT q [] q1 tmp Q (Forall_nil _) Fq (Forall_nil _) Ek) as [Fq1 Ftm].
  destruct tmp as [|w0 tmp0].
  { injection E as <-. cbn [lout]. exists J. auto 10. }
  assert (H0 := Forall_inv Tm). assert (G0 := proj1 (proj1 H0)).
  rewrite (lm_plm t o n A false w0 G0) in E. cbn [bind] in E. destruct (plm_mono t o n A w0 G0) as [M0 P0].
  destruct (same_lm_ok t o n A (plm w0) M0 P0 tmp0) as (eqs & rest & Es & Et & El0 & _); [eapply okh_gw; exact (Forall_inv_tail Tm)|].
  rewrite Es in E. cbn [bind] in E. subst tmp0. assert (Tm0 := Forall_inv_tail Tm). apply Forall_app in Tm0 as [Tm1 Tm2].
  assert (F0 := Forall_inv Ftm). cbv beta in F0. assert (Ftm0 := Forall_inv_tail Ftm). apply Forall_app in Ftm0 as [Fe Fr].
  destruct (if v then do p <- _; _ else _) as [w1| | | |] eqn:E1; cbn [bind] in E; try discriminate.
  assert (O1 : okh J w1 /\ plm w1 = plm w0 /\ wwrap w1 = wwrap w0 /\ PP (terms (wpol w1))).
  { destruct v; [|injection E1 as <-; auto].
    assert (Kp := tail_pp_ok t o n A Hn J T fuel (wpol w0) (plm w0) H G0 (plm_hd t o n A w0 G0)).
    destruct (tail_pp _ _ _ _) as [p| | | |] eqn:Etp; cbn [bind] in E1; try discriminate. injection E1 as <-. destruct Kp as (Gp & Hp & _).
    assert (Epl : plm (WP (wwrap w0) p) = plm w0) by (apply plm_eq; exact Hp). split; [|split; [exact Epl|split; [reflexivity|]]].
    - split; [split; [exact Gp|apply H0]|]. unfold hirr. rewrite Epl. apply H0.
    - cbn [wpol]. eapply tail_pp_in; [exact Hn|exact HE|exact HF|exact H|exact FT|exact G0|apply (plm_hd t o n A w0 G0)|exact F0|exact Etp]. }
  destruct O1 as (O1 & Ew1 & Ww1 & F1).
  destruct (if v then tails _ _ _ _ else _) as [eqs1| | | |] eqn:E2; cbn [bind] in E; try discriminate.
  assert (O2 : Forall (okh J) eqs1 /\ Forall (fun u => plm u = plm w0) eqs1 /\ fw eqs1 /\ map wwrap eqs1 = map wwrap eqs).
  { destruct v; [|injection E2 as <-; auto]. assert (Kl := tails_ok t o n A Hn J T fuel (plm w0) H eqs Tm1 El0). rewrite E2 in Kl. destruct Kl as (A1 & B1 & _).
    split; [exact A1|]. split; [exact B1|]. split; [exact (tails_in t o n Hn PP HE HF J T fuel (plm w0) H FT eqs eqs1 Tm1 El0 Fe E2)|eapply tails_wraps; exact E2]. }
  destruct O2 as (O2 & Ee & F2 & W2).
  assert (Ps := TQProofs.swap_min_perm eqs1 w1). destruct (swap_min w1 eqs1) as [w eqs2] eqn:Esw. cbn [fst snd] in Ps.
  assert (Ow : Forall (okh J) (w :: eqs2)) by (eapply Permutation_Forall; [exact Ps|constructor; assumption]).
  assert (Fw : fw (w :: eqs2)) by (eapply Permutation_Forall; [exact Ps|constructor; assumption]).
  assert (El : Forall (fun u => plm u = plm w0) (w :: eqs2)) by (eapply Permutation_Forall; [exact Ps|constructor; assumption]).
  assert (Hw := Forall_inv Ow). assert (Hq := okh_okq t o n A _ _ (Forall_inv_tail Ow)). assert (Hr := okh_okq t o n A _ _ Tm2).
  assert (Ew := Forall_inv El). cbv beta in Ew.
  assert (Ealike : Forall (fun u => plm u = plm w) eqs2).
  { eapply Forall_impl; [|exact (Forall_inv_tail El)]. intros x Ex. cbv beta in *. congruence. }
  destruct (v && negb (length eqs2 =? 0)%nat) eqn:Ev.
  - destruct (red_eq_ok t o n A Hn w (proj1 Hw) eqs2 Hq Ealike) as (eqs3 & E4 & O3 & _).
    assert (F3 := red_eq_in t o n Hn PP HE HF w (proj1 Hw) (Forall_inv Fw) eqs2 eqs3 Hq Ealike (Forall_inv_tail Fw) E4). rewrite E4 in E. cbn [bind] in E.
    assert (Qr : Forall okq (rest ++ q1)) by (apply Forall_app; split; assumption).
    destruct (insert_w t o n A Hn false (rest ++ q1) w) as (q2 & E5 & P2 & _); [apply Hw|apply okq_gw; exact Qr|]. rewrite E5 in E. cbn [bind] in E.
    assert (Q2 : Forall okq q2) by (eapply Permutation_Forall; [apply Permutation_sym; exact P2|constructor; [apply Hw|exact Qr]]).
    destruct (insert_all_ok t o n A Hn eqs3 q2 O3 Q2) as (q3 & E6 & P3). rewrite E6 in E. cbn [bind] in E.
    assert (Q3 : Forall okq q3) by (eapply Permutation_Forall; [apply Permutation_sym; exact P3|apply Forall_app; split; assumption]).
    assert (Fq3 : fw q3).
    { eapply fw_perm; [apply Permutation_sym; exact P3|]. apply Forall_app. split; [exact F3|]. eapply fw_perm; [apply Permutation_sym; exact P2|].
      constructor; [exact (Forall_inv Fw)|]. apply Forall_app. split; assumption. }
    injection E as <-. cbn [lout]. exists J. split; [reflexivity|]. split; [exact H|]. split; [exact Q3|]. split; [exact Fq3|exact FT].
  - assert (Q2 : Forall okq ((eqs2 ++ rest) ++ q1)) by (rewrite !Forall_app; auto).
    assert (Fq2 : fw ((eqs2 ++ rest) ++ q1)) by (unfold fw; rewrite !Forall_app; repeat split; [exact (Forall_inv_tail Fw)|exact Fr|exact Fq1]).
    destruct (enter_w_ok t o n A Hn J T w H Hw) as (J2 & w' & E4 & Ew' & H2).
    rewrite E4 in E. cbn [bind] in E. rewrite Ew' in E.
    assert (Fn : ft ((plm w, wpol w) :: T)) by (constructor; [exact (Forall_inv Fw)|exact FT]).
    destruct T as [|e0 T0].
    + injection E as <-. cbn [lout]. exists J2. auto 10.
    + destruct (walk _ _ _ _ _ _ _ _ _ _) as [[[js3 q3] T3]| | | |] eqn:E5; cbn [bind] in E; try discriminate. injection E as <-.
      assert (K := walk_ok t o n A Hn Ho fuel (deg (plm u)) (Datatypes.S (length (e0 :: T0))) J2 _ [] (Some (plm w, wpol w)) (e0 :: T0) H2 Q2). rewrite E5 in K. cbn [safe] in K.
      destruct K as (J3 & -> & H3 & Q3 & _). cbn [lout].
      destruct (walk_in fuel _ _ J2 _ [] (Some (plm w, wpol w)) (e0 :: T0) _ _ _ H2 Q2 Fn Fq2 E5) as [F3 Fq3].
      exists J3. split; [reflexivity|]. split; [exact H3|]. split; [exact Q3|]. split; [exact Fq3|exact F3].
Qed.

Lemma rounds_in round : (forall fuel s r, linv s -> round fuel s = Ok r -> lout r) -> forall s s', rounds round s s' -> linv s -> linv s'.
Proof. intros R s s' H. induction H as [s|s1 s2 s3 fuel E _ IH]; intro L1; [exact L1|]. apply IH. exact (R _ _ _ L1 E). Qed.
End P.
