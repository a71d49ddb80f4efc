(** Systems of degree at most 1: no prolongation is built, and every round keeps the degree. *)
From Coq Require Import ZArith List Bool Arith Lia Permutation Sorted.
From Verif Require Import Outcome MonomModel MonomSpec MonomProofs PolyModel PolySpec PolyProofs
  JanetModel JanetSpec JanetProofs JanetFindProofs CompletionProofs JanetPolyModel TQModel JanetPolySpec JanetPolyProofs
  TQProofs JanetTermSpec JanetTermMain ShapeProofs AncProofs AncTop LinProofs.
Import ListNotations.
Local Open Scope Z_scope.

Section P.
Variables (t : pos_order) (o : base_order) (n : nat).
Hypothesis (Hn : (0 < n)%nat) (Ho : o <> OAlex).
Notation A := (fun _ : list term => True).
Notation good := (good t o n A).
Notation okq := (okq t o n A).
Notation okh := (okh t o n A).
Notation tinv := (tinv t o n A).

Lemma nm_flat U u k : (forall w, In w U -> length w = n /\ (total w <= 1)%nat) -> In u U -> (k < n)%nat -> janet_nm U u k -> exists w, janet_divides n U w (incr k u).
Proof.
  intros F Iu Hk (w & Iw & E & Gt). destruct (F w Iw) as [Lw Tw]. destruct (F u Iu) as [Lu Tu].
  assert (Wk := expo_total w k). assert (W0 : forall j, j <> k -> expo w j = 0%nat) by (intros j Nj; assert (X := expo_two w j k Nj); lia).
  exists w. split; [exact Iw|]. split.
  - intros i Hi. rewrite CompletionProofs.incr_expo' by lia. destruct (Nat.eqb_spec i k) as [->|Ni]; [|rewrite (W0 i Ni)]; lia.
  - intros i Hi Lt (w2 & I2 & E2 & G2). destruct (F w2 I2) as [L2 T2]. rewrite CompletionProofs.incr_expo' in Lt by lia. destruct (Nat.eqb_spec i k) as [->|Ni]; [lia|].
    destruct (lt_eq_lt_dec i k) as [[X|X]|X]; [|lia|].
    + rewrite <- (E i X), (W0 i Ni) in Lt. lia.
    + assert (X2 := E2 k X). assert (Y := expo_two w2 k i). lia.
Qed.

(** The ancestors divide. *)
Definition ab (js : list janet) : Prop := forall w, In w (L js) -> above w.
Lemma above_deg w : above w -> (deg (wanc w) <= deg (wlm w))%nat.
Proof.
  intros (_ & Le & H). unfold deg. revert Le H. generalize (vars (wanc w)) (vars (wlm w)). unfold expo.
  induction l as [|x l IH]; intros [|y l0] E H; cbn [degv fold_right] in *; try discriminate; [lia|].
  assert (H0 := H 0%nat). cbn in H0. assert (X := IH l0 ltac:(cbn in E; congruence) (fun i => H (Datatypes.S i))). unfold degv in X. lia.
Qed.

Lemma tree_leads J T : tinv J T -> ft T -> forall w, In w (lms (wraps (jroot J))) -> length w = n /\ (total w <= 1)%nat.
Proof.
  intros H F w Iw. unfold lms in Iw. apply in_map_iff in Iw as (u & <- & Iu).
  assert (X : In (wlm u) (map fst T)) by (eapply Permutation_in; [apply (ti_perm _ _ _ _ _ _ H)|apply in_map; exact Iu]).
  apply in_map_iff in X as (e & Ee & Ie). unfold lv. rewrite <- Ee. destruct (tinv_len t o n A J T e H Ie) as [Ln _]. split; [exact Ln|].
  assert (Gg := ti_good _ _ _ _ _ _ H). rewrite Forall_forall in Gg. destruct (Gg e Ie) as [_ Hd]. unfold ft in F. rewrite Forall_forall in F. apply (F e Ie). apply hd_in. exact Hd.
Qed.

Lemma jp_prolong_flat T e : ft T -> forall cnt k J w q js' q', (k + cnt = n)%nat -> tinv J T -> In w (wraps (jroot J)) -> ab [J] ->
  jp_prolong false (-1) cnt k [J] w e q = Ok (js', q') -> ab js' /\ q' = q.
Proof.
  intro F. induction cnt as [|cnt IH]; intros k J w q js' q' K H Iw B E; cbn [jp_prolong] in E; [injection E as <- <-; auto|].
  assert (Ow : okw n w) by (assert (O := ji_ok _ _ (ti_inv _ _ _ _ _ _ H)); rewrite Forall_forall in O; auto).
  destruct Ow as (O1 & O2 & O3 & O4). rewrite !(get_flag_ok n) in E by (assumption || lia). cbn [bind] in E.
  destruct (nth k (wnm w) false) eqn:Nm; cbn [andb] in E.
  2:{ eapply IH; [|exact H|exact Iw|exact B|exact E]. lia. }
  destruct (negb (nth k (wbuild w) false)).
  2:{ eapply IH; [|exact H|exact Iw|exact B|exact E]. lia. }
  destruct (JanetPolyProofs.set_build_ok n Hn false w k) as (w' & Ew & Kw); [repeat split; assumption|lia|].
  destruct (store_ok t o n A J T w w' H Iw Kw) as (J1 & E1 & H1 & I1).
  assert (Tl := tree_leads J T H F). assert (Iu : In (lv w) (lms (wraps (jroot J)))) by (apply in_map; exact Iw).
  assert (Mm : mono n (mul_var k (wlm w))).
  { split; cbn [mul_var vars pos]; [rewrite incr_length; exact O1|]. assert (X : In (wlm w) (map fst T)) by (eapply Permutation_in; [apply (ti_perm _ _ _ _ _ _ H)|apply in_map; exact Iw]).
    apply in_map_iff in X as (e' & <- & Ie). destruct (tinv_len t o n A J T e' H Ie) as [_ P]. rewrite P. lia. }
  assert (Pm : pos (mul_var k (wlm w)) = -1).
  { cbn [mul_var pos]. assert (X : In (wlm w) (map fst T)) by (eapply Permutation_in; [apply (ti_perm _ _ _ _ _ _ H)|apply in_map; exact Iw]).
    apply in_map_iff in X as (e' & <- & Ie). apply (tinv_len t o n A J T e' H Ie). }
  assert (Jn : janet_nm (lms (wraps (jroot J))) (lv w) k).
  { apply (flagsT_flags n 0 (jroot J)); [apply (ti_inv _ _ _ _ _ _ H)|intros; lia|apply (ti_inv _ _ _ _ _ _ H)|exact Iw|lia|lia|exact Nm]. }
  destruct (nm_flat _ _ k Tl Iu ltac:(lia) Jn) as (d0 & D0).
  destruct (find_wrap_ok n Hn J (mul_var k (wlm w)) (ti_inv _ _ _ _ _ _ H) Mm) as (d & Ed & Xd). rewrite Ed in E. cbn [bind] in E.
  destruct d as [d|]; [|destruct (Xd Pm d0); exact D0]. destruct Xd as (_ & Id & _).
  assert (Sk : (deg (wanc w) + deg (wanc d) <=? deg (mul_var k (wlm w)))%nat = true).
  { apply Nat.leb_le. assert (A1 := above_deg w (B w ltac:(unfold L; cbn [map concat]; rewrite app_nil_r; exact Iw))).
    assert (A2 := above_deg d (B d ltac:(unfold L; cbn [map concat]; rewrite app_nil_r; exact Id))).
    destruct (Tl (lv d) (in_map lv _ _ Id)) as [_ Td]. unfold deg in *. cbn [mul_var vars]. unfold lv in O1, Td. assert (Z1 := MonomProofs.degv_total (vars (wlm w))). assert (Z2 := MonomProofs.degv_total (vars (wlm d))). assert (Z3 := MonomProofs.degv_total (incr k (vars (wlm w)))). assert (Z4 := total_incr (vars (wlm w)) k ltac:(lia)). lia. }
  rewrite Sk in E. cbn [orb] in E. rewrite Ew in E. cbn [bind] in E. assert (E1' := E1). rewrite E1 in E.
  eapply IH; [|exact H1|exact I1| |exact E]; [lia|]. rewrite <- E1'. intros x Ix. rewrite L_upd in Ix. apply in_map_iff in Ix as (y & <- & Iy).
  destruct (same_key (wlm y) (wlm w)); [|apply B; exact Iy]. assert (Aw := B w ltac:(unfold L; cbn [map concat]; rewrite app_nil_r; exact Iw)).
  destruct Kw as (K1 & K2 & _). unfold above in *. rewrite K1, K2. exact Aw.
Qed.
Lemma prolong_if_flat dg J T e q js' q' : tinv J T -> ft T -> In e T -> ab [J] -> prolong_if false (-1) dg [J] e q = Ok (js', q') -> ab js' /\ q' = q.
Proof.
  intros H F I B E. unfold prolong_if in E. destruct (deg (fst e) <=? dg)%nat; [|injection E as <- <-; auto].
  unfold prolong_entry in E. destruct (get_wrap_ok t o n A J T e H I) as (w & Eg & Iw & Ew). rewrite Eg in E.
  eapply (jp_prolong_flat T (snd e) F); [|exact H|exact Iw|exact B|exact E]. unfold size. rewrite Ew. apply (tinv_len t o n A J T e H I).
Qed.

Lemma ft_perm T T' : Permutation T T' -> ft T -> ft T'.
Proof. apply Permutation_Forall. Qed.

Lemma merge_flat fuel dg : forall cnt J q d j k js' q' T', tinv J (d ++ j ++ k) -> Forall okq q -> ft (d ++ j ++ k) -> ab [J] ->
  merge_loop cnt fuel false (-1) dg [J] q d j k = Ok (js', q', T') -> ft T' /\ q' = q.
Proof.
  induction cnt as [|cnt IH]; intros J q d j k js' q' T' H Q F B E; cbn [merge_loop] in E.
  { destruct j; [destruct k|]; try discriminate. injection E as <- <- <-. cbn [app] in F. rewrite app_nil_r in F. auto. }
  assert (Put : forall e j' k', Permutation (d ++ j ++ k) (d ++ e :: j' ++ k') ->
      (do b <- Ok true; assert_ false b (do r <- prolong_if false (-1) dg [J] e q;
           merge_loop cnt fuel false (-1) dg (fst r) (snd r) (d ++ [e]) j' k')) = Ok (js', q', T') -> ft T' /\ q' = q).
  { intros e j' k' P X. cbn [bind] in X. unfold assert_ in X. cbn [andb] in X.
    assert (H' : tinv J (d ++ e :: j' ++ k')) by (eapply tinv_perm; eassumption). assert (F' := ft_perm _ _ P F).
    assert (I : In e (d ++ e :: j' ++ k')) by (apply in_or_app; right; left; reflexivity).
    destruct (prolong_if_ok t o n A Hn dg J _ e q H' I Q) as (J1 & q1 & Ep & H1 & Q1 & _).
    destruct (prolong_if_flat dg J _ e q _ _ H' F' I B Ep) as [B1 Eq1]. subst q1.
    rewrite Ep in X. cbn [bind fst snd] in X. apply IH in X; [exact X|rewrite <- app_assoc; exact H1|exact Q1|rewrite <- app_assoc; exact F'|exact B1]. }
  assert (Redu : forall e k', Permutation (d ++ j ++ k) (e :: d ++ j ++ k') ->
      (do e' <- tail_reduce fuel false (-1) [J] (d ++ j ++ k') e;
        do r <- prolong_if false (-1) dg [J] e' q;
        merge_loop cnt fuel false (-1) dg (fst r) (snd r) (d ++ [e']) j k') = Ok (js', q', T') -> ft T' /\ q' = q).
  { intros e k' P X. destruct (tail_reduce _ _ _ _ _ _) as [e'| | | |] eqn:Et; cbn [bind] in X; try discriminate.
    destruct (tail_reduce_shape t o n A Hn Ho fuel J _ e _ e' H P Et) as (_ & H' & _).
    assert (F' := tail_reduce_flat t o n Hn Ho fuel J _ e _ e' H P F Et).
    destruct (prolong_if_ok t o n A Hn dg J _ e' q H' (or_introl eq_refl) Q) as (J1 & q1 & Ep & H1 & Q1 & _).
    destruct (prolong_if_flat dg J _ e' q _ _ H' F' (or_introl eq_refl) B Ep) as [B1 Eq1]. subst q1.
    rewrite Ep in X. cbn [bind fst snd] in X.
    assert (P' : Permutation (e' :: d ++ j ++ k') ((d ++ [e']) ++ j ++ k')) by (rewrite <- app_assoc; apply Permutation_middle).
    apply IH in X; [exact X|eapply tinv_perm; [exact H1|exact P']|exact Q1|eapply ft_perm; [exact P'|exact F']|exact B1]. }
  destruct j as [|e j]; destruct k as [|e' k].
  - injection E as <- <- <-. cbn [app] in F. rewrite app_nil_r in F. auto.
  - apply Redu in E; [exact E|]. cbn [app]. apply Permutation_sym, Permutation_middle.
  - apply Put in E; [exact E|reflexivity].
  - destruct (p_cmp false (snd e) (snd e')) as [c| | | |]; cbn [bind] in E; try discriminate. destruct (c <? 0).
    + apply Put in E; [exact E|reflexivity].
    + apply Redu in E; [exact E|]. rewrite !app_assoc. apply Permutation_sym, Permutation_middle.
Qed.

Lemma walk_flat fuel dg : forall cnt J q d w k js' q' T', tinv J (d ++ opt w ++ k) -> Forall okq q -> ft (d ++ opt w ++ k) -> ab [J] ->
  walk cnt fuel false (-1) dg [J] q d w k = Ok (js', q', T') -> ft T' /\ q' = q.
Proof.
  induction cnt as [|cnt IH]; intros J q d w k js' q' T' H Q F B E; cbn [walk] in E.
  { destruct w; [discriminate|]. destruct k; [|discriminate]. injection E as <- <- <-. cbn [app opt] in F. rewrite app_nil_r in F. auto. }
  assert (Redu : forall e w' k', Permutation (d ++ opt w ++ k) (e :: d ++ opt w' ++ k') ->
      (do e' <- tail_reduce fuel false (-1) [J] (d ++ opt w' ++ k') e;
        do r <- prolong_if false (-1) dg [J] e' q;
        walk cnt fuel false (-1) dg (fst r) (snd r) (d ++ [e']) w' k') = Ok (js', q', T') -> ft T' /\ q' = q).
  { intros e w' k' P X. destruct (tail_reduce _ _ _ _ _ _) as [e'| | | |] eqn:Et; cbn [bind] in X; try discriminate.
    destruct (tail_reduce_shape t o n A Hn Ho fuel J _ e _ e' H P Et) as (_ & H' & _).
    assert (F' := tail_reduce_flat t o n Hn Ho fuel J _ e _ e' H P F Et).
    destruct (prolong_if_ok t o n A Hn dg J _ e' q H' (or_introl eq_refl) Q) as (J1 & q1 & Ep & H1 & Q1 & _).
    destruct (prolong_if_flat dg J _ e' q _ _ H' F' (or_introl eq_refl) B Ep) as [B1 Eq1]. subst q1.
    rewrite Ep in X. cbn [bind fst snd] in X.
    assert (P' : Permutation (e' :: d ++ opt w' ++ k') ((d ++ [e']) ++ opt w' ++ k')) by (rewrite <- app_assoc; apply Permutation_middle).
    apply IH in X; [exact X|eapply tinv_perm; [exact H1|exact P']|exact Q1|eapply ft_perm; [exact P'|exact F']|exact B1]. }
  destruct w as [e|]; destruct k as [|e' k].
  - apply (Redu e None []) in E; [exact E|]. cbn [opt app]. rewrite app_nil_r. apply Permutation_sym, Permutation_cons_append.
  - destruct (p_cmp false (snd e) (snd e')) as [c| | | |]; cbn [bind] in E; try discriminate. destruct (c <? 0).
    + apply (Redu e None (e' :: k)) in E; [exact E|]. cbn [opt app]. apply Permutation_sym, Permutation_middle.
    + apply (Redu e' (Some e) k) in E; [exact E|]. cbn [opt]. rewrite !app_assoc. apply Permutation_sym, Permutation_middle.
  - injection E as <- <- <-. cbn [app opt] in F. rewrite app_nil_r in F. auto.
  - apply (Redu e' None k) in E; [exact E|]. cbn [opt app]. apply Permutation_sym, Permutation_middle.
Qed.

(* ------------------------------------------------------------------------------------------ *)
(** * Rounds *)

Definition linv (s : rstate) : Prop :=
  exists J, fst (fst s) = [J] /\ tinv J (snd s) /\ Forall okq (snd (fst s)) /\ fw (snd (fst s)) /\ ft (snd s) /\ Inv [J] (snd (fst s)).
Definition lout (r : rstate + jpoly) : Prop :=
  match r with inl s => linv s | inr J => jone J <> None \/ ft (jt J) /\ jq J = [] end.

Lemma sound_small js : sound js -> small js.
Proof. intros [E _]. unfold small. lia. Qed.
Lemma keeps_Inv J T q J' T' q' : tinv J T -> tinv J' T' -> keeps [J] q [J'] q' -> Inv [J] q -> Inv [J'] q'.
Proof.
  intros H H' K I. destruct (K (sound_small _ (tinv_sound t o n J T H))) as [_ X]. destruct (X (tinv_sound t o n J' T' H')) as [_ Y]. auto.
Qed.
Lemma Inv_ab js q : Inv js q -> ab js.
Proof. intros [X _] w Iw. apply (X w Iw). Qed.
Lemma gwq q : Forall okq q -> Forall (gw t o n A) q.
Proof. apply Forall_impl. intros u Hu. apply Hu. Qed.

Lemma set_one_out b p q : set_one false t o n (-1) = Ok b -> p = @inr rstate jpoly b -> q = p -> lout q.
Proof. intros E -> ->. cbn [lout]. left. unfold set_one in E. bnd E. bnd E. injection E as <-. discriminate. Qed.

Lemma block_round_flat fuel s r : linv s -> block_round fuel false (-1) s = Ok r -> lout r.
Proof.
  destruct s as [[js q] T]. intros (J & Ej & H & Q & Fq & FT & I) E. cbn [fst snd] in *. subst js. cbn [block_round] in E.
  destruct q as [|u q0] eqn:Eq.
  { injection E as <-. cbn [lout jt jq]. auto. }
  rewrite <- Eq in *.
  assert (Hu : okq u) by (rewrite Eq in Q; exact (Forall_inv Q)). rewrite (lm_plm t o n A false u (proj1 Hu)) in E. cbn [bind] in E.
  assert (K1 := take_block_ok t o n A Hn Ho J T (deg (plm u)) fuel H q [] Q (Forall_nil _) (SSorted_nil _)).
  destruct (take_block _ _ _ _ _ _) as [r1| | | |] eqn:E1; cbn [bind] in E; try discriminate. cbn [safe] in K1.
  destruct r1 as [[q1 tmp]|].
  2:{ destruct Hu as ([(_ & (A1 & A2 & A3) & _) _] & _). rewrite A1, A2, A3 in E. destruct (set_one false t o n (-1)) as [J'| | | |] eqn:Es; cbn [bind] in E; try discriminate.
      injection E as <-. eapply set_one_out; [exact Es|reflexivity|reflexivity]. }
  destruct K1 as (Q1 & Tm & S1 & _). unfold assert_ in E. cbn [andb] in E.
  destruct (take_block_flat t o n Hn Ho J T _ fuel H FT q [] q1 tmp Q (Forall_nil _) Fq (Forall_nil _) E1) as [Fq1 Ftm].
  apply take_block_sub in E1. rewrite app_nil_r in E1. assert (I1 := Inv_sub _ _ _ E1 I).
  destruct tmp as [|x tmp'] eqn:Et.
  { injection E as <-. cbn [lout]. rewrite app_nil_r in I1. exists J. auto 10. }
  rewrite <- Et in *. assert (Ne : tmp <> []) by congruence.
  destruct (block_loop fuel false tmp q1) as [[[tmp2 q2] dg]| | | |] eqn:E2; cbn [bind] in E; try discriminate.
  assert (K3 := block_loop_ok t o n A Hn J fuel tmp q1 Ne Tm S1 Q1). rewrite E2 in K3. cbn [safe] in K3. destruct K3 as (O2 & S2 & Q2 & _).
  destruct (block_loop_flat t o n Hn J fuel tmp q1 tmp2 q2 dg Ne Tm S1 Ftm Fq1 E2) as [Ft2 Fq2].
  assert (Oq : Forall okq tmp2) by (eapply Forall_impl; [|exact O2]; intros v Hv; apply Hv).
  apply block_loop_sub in E2. assert (I2 : Inv [J] (tmp2 ++ q2)) by (eapply Inv_sub; [exact E2|]; eapply Inv_sub; [|exact I1]; apply wsub_perm, Permutation_app_comm).
  destruct (enter_ok t o n A Hn tmp2 J T H Oq S2) as (J2 & new & E3 & H2 & _).
  { intros v Iv X. rewrite Forall_forall in O2. destruct (O2 v Iv) as [[Gv _] Ir].
    apply (Ir (plm v) (hd_in _ _ (plm_hd t o n A v Gv)) (vars (plm v))). split; [exact X|]. split; [intros i _; lia|intros i _ Y; lia]. }
  assert (Fn := enter_flat t o n tmp2 _ _ _ Oq Ft2 E3). rewrite E3 in E. cbn [bind] in E.
  assert (I3 : Inv [J2] q2) by (eapply keeps_Inv; [exact H|exact H2|eapply enter_keeps; exact E3|exact I2]).
  destruct (merge_loop _ _ _ _ _ _ _ _ _ _) as [[[js3 q3] T3]| | | |] eqn:E4; cbn [bind] in E; try discriminate.
  assert (K4 := merge_loop_ok t o n A Hn Ho fuel dg (length new + length T) J2 q2 [] new T H2 Q2). rewrite E4 in K4. cbn [safe] in K4.
  destruct K4 as (J3 & -> & H3 & Q3 & _). injection E as <-. cbn [lout].
  destruct (merge_flat fuel dg _ J2 q2 [] new T _ _ _ H2 Q2 ltac:(cbn [app]; apply Forall_app; split; assumption) (Inv_ab _ _ I3) E4) as [F3 Eq3]. subst q3.
  exists J3. split; [reflexivity|]. split; [exact H3|]. split; [exact Q3|]. split; [exact Fq2|]. split; [exact F3|].
  cbn [fst snd]. eapply keeps_Inv; [exact H2|exact H3|eapply merge_loop_keeps; exact E4|exact I3].
Qed.

Lemma tq_round_flat v fuel s r : linv s -> tq_round v fuel false (-1) s = Ok r -> lout r.
Proof.
  destruct s as [[js q] T]. intros (J & Ej & H & Q & Fq & FT & I) E. cbn [fst snd] in *. subst js. cbn [tq_round] in E.
  destruct q as [|u q0] eqn:Eq.
  { injection E as <-. cbn [lout jt jq]. auto. }
  rewrite <- Eq in *.
  assert (Hu : okq u) by (rewrite Eq in Q; exact (Forall_inv Q)). rewrite (lm_plm t o n A false u (proj1 Hu)) in E. cbn [bind] in E.
  assert (K1 := take_tq_ok t o n A Hn Ho false J T (deg (plm u)) fuel H q [] Q (Forall_nil _)).
  destruct (take_tq _ _ _ _ _ _ _) as [r1| | | |] eqn:Ek; cbn [bind] in E; try discriminate. cbn [safe] in K1.
  destruct r1 as [[q1 tmp]|].
  2:{ destruct Hu as ([(_ & (A1 & A2 & A3) & _) _] & _). rewrite A1, A2, A3 in E. destruct (set_one false t o n (-1)) as [J'| | | |] eqn:Es; cbn [bind] in E; try discriminate.
      injection E as <-. eapply set_one_out; [exact Es|reflexivity|reflexivity]. }
  destruct K1 as (Q1 & Tm & _). unfold assert_ in E. cbn [andb] in E.
  destruct (take_tq_flat t o n Hn Ho J T _ fuel H FT q [] q1 tmp Q (Forall_nil _) Fq (Forall_nil _) Ek) as [Fq1 Ftm].
  apply take_tq_sub in Ek. rewrite app_nil_r in Ek. assert (I1 := Inv_sub _ _ _ Ek I).
  destruct tmp as [|w0 tmp0].
  { injection E as <-. cbn [lout]. rewrite app_nil_r in I1. exists J. auto 10. }
  assert (H0 := Forall_inv Tm). assert (G0 := proj1 (proj1 H0)).
  rewrite (lm_plm t o n A false w0 G0) in E. cbn [bind] in E. destruct (plm_mono t o n A w0 G0) as [M0 P0].
  destruct (same_lm_ok t o n A (plm w0) M0 P0 tmp0) as (eqs & rest & Es & Et & El0 & _); [eapply okh_gw; exact (Forall_inv_tail Tm)|].
  rewrite Es in E. cbn [bind] in E. subst tmp0. assert (Tm0 := Forall_inv_tail Tm). apply Forall_app in Tm0 as [Tm1 Tm2].
  assert (F0 := Forall_inv Ftm). cbv beta in F0. assert (Ftm0 := Forall_inv_tail Ftm). apply Forall_app in Ftm0 as [Fe Fr].
  destruct (if v then do p <- _; _ else _) as [w1| | | |] eqn:E1; cbn [bind] in E; try discriminate.
  assert (O1 : okh J w1 /\ plm w1 = plm w0 /\ wwrap w1 = wwrap w0 /\ flat (terms (wpol w1))).
  { destruct v; [|injection E1 as <-; auto].
    assert (Kp := tail_pp_ok t o n A Hn J T fuel (wpol w0) (plm w0) H G0 (plm_hd t o n A w0 G0)).
    destruct (tail_pp _ _ _ _) as [p| | | |] eqn:Etp; cbn [bind] in E1; try discriminate. injection E1 as <-. destruct Kp as (Gp & Hp & _).
    assert (Epl : plm (WP (wwrap w0) p) = plm w0) by (apply plm_eq; exact Hp). split; [|split; [exact Epl|split; [reflexivity|]]].
    - split; [split; [exact Gp|apply H0]|]. unfold hirr. rewrite Epl. apply H0.
    - cbn [wpol]. eapply tail_pp_flat; [exact Hn|exact Ho|exact H|exact FT|exact G0|apply (plm_hd t o n A w0 G0)|exact F0|exact Etp]. }
  destruct O1 as (O1 & Ew1 & Ww1 & F1).
  destruct (if v then tails _ _ _ _ else _) as [eqs1| | | |] eqn:E2; cbn [bind] in E; try discriminate.
  assert (O2 : Forall (okh J) eqs1 /\ Forall (fun u => plm u = plm w0) eqs1 /\ fw eqs1 /\ map wwrap eqs1 = map wwrap eqs).
  { destruct v; [|injection E2 as <-; auto]. assert (Kl := tails_ok t o n A Hn J T fuel (plm w0) H eqs Tm1 El0). rewrite E2 in Kl. destruct Kl as (A1 & B1 & _).
    split; [exact A1|]. split; [exact B1|]. split; [exact (tails_flat t o n Hn Ho J T fuel (plm w0) H FT eqs eqs1 Tm1 El0 Fe E2)|eapply tails_wraps; exact E2]. }
  destruct O2 as (O2 & Ee & F2 & W2).
  assert (Ps := TQProofs.swap_min_perm eqs1 w1). destruct (swap_min w1 eqs1) as [w eqs2] eqn:Esw. cbn [fst snd] in Ps.
  assert (Ow : Forall (okh J) (w :: eqs2)) by (eapply Permutation_Forall; [exact Ps|constructor; assumption]).
  assert (Fw : fw (w :: eqs2)) by (eapply Permutation_Forall; [exact Ps|constructor; assumption]).
  assert (El : Forall (fun u => plm u = plm w0) (w :: eqs2)) by (eapply Permutation_Forall; [exact Ps|constructor; assumption]).
  assert (Hw := Forall_inv Ow). assert (Hq := okh_okq t o n A _ _ (Forall_inv_tail Ow)). assert (Hr := okh_okq t o n A _ _ Tm2).
  assert (Ew := Forall_inv El). cbv beta in Ew.
  assert (Ealike : Forall (fun u => plm u = plm w) eqs2).
  { eapply Forall_impl; [|exact (Forall_inv_tail El)]. intros x Ex. cbv beta in *. congruence. }
  assert (I2 : Inv [J] (w :: eqs2 ++ rest ++ q1)).
  { eapply Inv_sub; [|exact I1]. eapply wsub_trans with (b := (w1 :: eqs1) ++ rest ++ q1); [apply wsub_perm; change (w :: eqs2 ++ rest ++ q1) with ((w :: eqs2) ++ rest ++ q1); apply Permutation_app_tail; symmetry; exact Ps|].
    eapply wsub_trans with (b := (w0 :: eqs) ++ rest ++ q1); [apply wsub_app; [|apply wsub_refl]; apply wsub_map; cbn [map]; congruence|].
    apply wsub_perm. change (w0 :: eqs ++ rest) with ((w0 :: eqs) ++ rest). rewrite app_assoc. apply Permutation_app_comm. }
  destruct (v && negb (length eqs2 =? 0)%nat) eqn:Ev.
  - destruct (red_eq_ok t o n A Hn w (proj1 Hw) eqs2 Hq Ealike) as (eqs3 & E4 & O3 & _).
    assert (F3 := red_eq_flat t o n Hn w (proj1 Hw) (Forall_inv Fw) eqs2 eqs3 Hq Ealike (Forall_inv_tail Fw) E4). rewrite E4 in E. cbn [bind] in E.
    assert (Qr : Forall okq (rest ++ q1)) by (apply Forall_app; split; assumption).
    destruct (insert_w t o n A Hn false (rest ++ q1) w) as (q2 & E5 & P2 & _); [apply Hw|apply okq_gw; exact Qr|]. rewrite E5 in E. cbn [bind] in E.
    assert (Q2 : Forall okq q2) by (eapply Permutation_Forall; [apply Permutation_sym; exact P2|constructor; [apply Hw|exact Qr]]).
    destruct (insert_all_ok t o n A Hn eqs3 q2 O3 Q2) as (q3 & E6 & P3). rewrite E6 in E. cbn [bind] in E.
    assert (Q3 : Forall okq q3) by (eapply Permutation_Forall; [apply Permutation_sym; exact P3|apply Forall_app; split; assumption]).
    assert (Fq3 : fw q3).
    { eapply fw_perm; [apply Permutation_sym; exact P3|]. apply Forall_app. split; [exact F3|]. eapply fw_perm; [apply Permutation_sym; exact P2|].
      constructor; [exact (Forall_inv Fw)|]. apply Forall_app. split; assumption. }
    injection E as <-. cbn [lout]. exists J. split; [reflexivity|]. split; [exact H|]. split; [exact Q3|]. split; [exact Fq3|]. split; [exact FT|]. cbn [fst snd].
    apply red_eq_sub in E4. apply insert_all_perm in E6. apply jp_insert_perm in E5. eapply Inv_sub; [|exact I2].
    eapply wsub_trans; [apply wsub_perm; exact E6|]. eapply wsub_trans with (b := eqs3 ++ w :: rest ++ q1); [apply wsub_perm; rewrite E5; reflexivity|].
    eapply wsub_trans with (b := eqs2 ++ w :: rest ++ q1); [apply wsub_app; [exact E4|apply wsub_refl]|]. apply wsub_perm. symmetry. apply Permutation_middle.
  - assert (Q2 : Forall okq ((eqs2 ++ rest) ++ q1)) by (rewrite !Forall_app; auto).
    assert (Fq2 : fw ((eqs2 ++ rest) ++ q1)) by (unfold fw; rewrite !Forall_app; repeat split; [exact (Forall_inv_tail Fw)|exact Fr|exact Fq1]).
    destruct (enter_w_ok t o n A Hn J T w H Hw) as (J2 & w' & E4 & Ew' & H2).
    assert (I3 : Inv [J2] ((eqs2 ++ rest) ++ q1)).
    { eapply keeps_Inv; [exact H|exact H2|eapply enter_w_keeps; exact E4|]. rewrite <- app_assoc. exact I2. }
    rewrite E4 in E. cbn [bind] in E. rewrite Ew' in E.
    assert (Fn : ft ((plm w, wpol w) :: T)) by (constructor; [exact (Forall_inv Fw)|exact FT]).
    destruct T as [|e0 T0].
    + injection E as <-. cbn [lout]. exists J2. auto 10.
    + destruct (walk _ _ _ _ _ _ _ _ _ _) as [[[js3 q3] T3]| | | |] eqn:E5; cbn [bind] in E; try discriminate. injection E as <-.
      assert (K := walk_ok t o n A Hn Ho fuel (deg (plm u)) (Datatypes.S (length (e0 :: T0))) J2 _ [] (Some (plm w, wpol w)) (e0 :: T0) H2 Q2). rewrite E5 in K. cbn [safe] in K.
      destruct K as (J3 & -> & H3 & Q3 & _). cbn [lout].
      destruct (walk_flat fuel _ _ J2 _ [] (Some (plm w, wpol w)) (e0 :: T0) _ _ _ H2 Q2 Fn (Inv_ab _ _ I3) E5) as [F3 Eq3]. subst q3.
      exists J3. split; [reflexivity|]. split; [exact H3|]. split; [exact Q3|]. split; [exact Fq2|]. split; [exact F3|].
      cbn [fst snd]. eapply keeps_Inv; [exact H2|exact H3|eapply walk_keeps; exact E5|exact I3].
Qed.

Lemma rounds_flat round : (forall fuel s r, linv s -> round fuel s = Ok r -> lout r) -> forall s s', rounds round s s' -> linv s -> linv s'.
Proof. intros R s s' H. induction H as [s|s1 s2 s3 fuel E _ IH]; intro L1; [exact L1|]. apply IH. exact (R _ _ _ L1 E). Qed.
End P.
