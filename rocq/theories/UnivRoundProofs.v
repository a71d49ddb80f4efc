(** One variable: the rounds of build, algorithmTQ and algorithmTQ1. *)
From Coq Require Import ZArith List Bool Arith Lia Permutation Sorted.
From Verif Require Import Outcome MonomModel MonomSpec MonomProofs PolyModel PolySpec PolyProofs PolyRedProofs PolyNfProofs
  PolyTopProofs JanetModel JanetSpec JanetProofs JanetFindProofs CompletionProofs JanetPolyModel TQModel JanetPolySpec IdealProofs JanetPolyProofs
  TQProofs GrowthProofs JanetTermSpec JanetTermProofs JanetTermMain ShapeProofs UnivProofs UnivLoopProofs UnivStepProofs.
Import ListNotations.
Local Open Scope Z_scope.

Section P.
Variables (t : pos_order) (o : base_order) (G : list term -> Prop).
Hypothesis Ho : o <> OAlex.
Let Hn : (0 < 1)%nat := Nat.lt_0_1.

Notation good := (good t o 1 G).
Notation goodz := (goodz t o 1 G).
Notation okq := (okq t o 1 G).
Notation okt := (okt t o 1 G).
Notation tinv := (tinv t o 1 G).
Notation gw := (gw t o 1 G).
Notation okh := (okh t o 1 G).
Notation le := (le t o).
Notation lt := (lt t o).
Notation incr_T := (incr_T t o).
Notation elt := (elt t o).
Notation before := (before t o).
Notation core := (core t o G).
Notation find1 J T := (find_poly false (-1) (Some [J]) T).

Definition high (dg : nat) (J : janet) (T : list entry) : Prop := forall x, In x T -> (dg < deg (fst x))%nat -> closed J T x.

Lemma elt_deg J T a b : tinv J T -> In a T -> In b T -> elt a b -> (deg (fst a) < deg (fst b))%nat.
Proof.
  intros H Ia Ib L. destruct (key_mono t o G J T a H Ia) as [Ma Pa]. destruct (key_mono t o G J T b H Ib) as [Mb Pb].
  apply (cmp_one t o (fst b) (fst a) Ho Mb Pb Ma Pa). exact L.
Qed.

Lemma step_put dg J q d e R : core J q (d ++ e :: R) -> (forall x, In x d -> closed J (d ++ e :: R) x) -> high dg J (d ++ e :: R) ->
  exists J1 q1, prolong_if false (-1) dg [J] e q = Ok ([J1], q1) /\ core J1 q1 ((d ++ [e]) ++ R) /\
    (forall x, In x (d ++ [e]) -> closed J1 ((d ++ [e]) ++ R) x) /\ high dg J1 ((d ++ [e]) ++ R).
Proof.
  intros Co Cl Hi. destruct (prolong_core t o G Ho dg J q _ e Co) as (J1 & q1 & E & Co1 & Mo & Ce); [apply in_elt|].
  exists J1, q1. rewrite <- app_assoc. cbn [app]. split; [exact E|]. split; [exact Co1|]. split; [|intros x Ix Lx; apply Mo, Hi; assumption].
  intros x Ix. apply in_app_iff in Ix as [Ix|[<-|[]]]; [apply Mo, Cl; exact Ix|].
  destruct (Nat.le_gt_cases (deg (fst e)) dg) as [L|L]; [apply Ce; exact L|]. apply Mo, Hi; [apply in_elt|exact L].
Qed.

Lemma step_redu fuel dg J q T d e R e' : core J q T -> Permutation T (e :: d ++ R) -> (forall x, In x d -> closed J T x) -> before [e] R -> high dg J T ->
  tail_reduce fuel false (-1) [J] (d ++ R) e = Ok e' ->
  fst e' = fst e /\ exists J1 q1, prolong_if false (-1) dg [J] e' q = Ok ([J1], q1) /\ core J1 q1 ((d ++ [e']) ++ R) /\
    (forall x, In x (d ++ [e']) -> closed J1 ((d ++ [e']) ++ R) x) /\ high dg J1 ((d ++ [e']) ++ R).
Proof.
  intros Co P Cl Be Hi E. assert (H := c_ti _ _ _ _ _ _ Co).
  assert (IT : forall x, In x (e :: d ++ R) -> In x T) by (intros x Ix; eapply Permutation_in; [apply Permutation_sym; exact P|exact Ix]).
  destruct (tail_core t o G Ho fuel J q T e (d ++ R) e' Co P E) as [Ef Co1].
  { intros x Ix Lx. apply in_app_iff in Ix as [Ix|Ix]; [apply Cl; exact Ix|]. exfalso.
    assert (L := elt_deg J T e x H (IT e (or_introl eq_refl)) (IT x (or_intror (in_or_app _ _ _ (or_intror Ix)))) (Be e x (or_introl eq_refl) Ix)). lia. }
  split; [exact Ef|].
  assert (Fst : forall y, In y (map fst (e' :: d ++ R)) -> In y (map fst T)).
  { intros y Iy. eapply Permutation_in; [apply Permutation_map, Permutation_sym; exact P|]. cbn [map] in *. rewrite Ef in Iy. exact Iy. }
  assert (P' : Permutation (e' :: d ++ R) (d ++ e' :: R)) by apply Permutation_middle.
  assert (Fst' : forall y, In y (map fst (d ++ e' :: R)) -> In y (map fst T)).
  { intros y Iy. apply Fst. eapply Permutation_in; [apply Permutation_map, Permutation_sym; exact P'|exact Iy]. }
  apply step_put.
  - eapply core_perm; [exact P'|exact Co1].
  - intros x Ix. apply (closed_fst J T (d ++ e' :: R) x x Fst' eq_refl). apply Cl. exact Ix.
  - intros x Ix Lx. assert (Ix' : e' = x \/ In x (d ++ R)) by (rewrite in_app_iff in *; cbn [In] in Ix; tauto).
    destruct Ix' as [<- | Ix']; [apply (closed_fst J T _ e e' Fst' Ef)|apply (closed_fst J T _ x x Fst' eq_refl)]; apply Hi.
    + apply IT. left. reflexivity.
    + rewrite <- Ef. exact Lx.
    + apply IT. right. exact Ix'.
    + exact Lx.
Qed.

Lemma merge_core fuel dg : forall cnt J q d j k js' q' T', core J q (d ++ j ++ k) ->
  incr_T j -> incr_T k -> (forall x, In x d -> closed J (d ++ j ++ k) x) -> high dg J (d ++ j ++ k) ->
  merge_loop cnt fuel false (-1) dg [J] q d j k = Ok (js', q', T') ->
  exists J', js' = [J'] /\ core J' q' T' /\ forall e, In e T' -> closed J' T' e.
Proof.
  induction cnt as [|cnt IH]; intros J q d j k js' q' T' Co Sj Sk Cl Hi E; cbn [merge_loop] in E.
  { destruct j; [destruct k|]; try discriminate. injection E as <- <- <-. cbn [app] in *. rewrite app_nil_r in *. exists J. auto. }
  assert (H := c_ti _ _ _ _ _ _ Co).
  assert (Put : forall e j' k', d ++ j ++ k = d ++ e :: j' ++ k' -> incr_T j' -> incr_T k' ->
      (do b <- Ok true; assert_ false b (do r <- prolong_if false (-1) dg [J] e q;
           merge_loop cnt fuel false (-1) dg (fst r) (snd r) (d ++ [e]) j' k')) = Ok (js', q', T') ->
      exists J', js' = [J'] /\ core J' q' T' /\ forall e, In e T' -> closed J' T' e).
  { intros e j' k' P Sj' Sk' X. cbn [bind] in X. unfold assert_ in X. cbn [andb] in X. rewrite P in *.
    destruct (step_put dg J q d e (j' ++ k') Co Cl Hi) as (J1 & q1 & Ep & Co1 & Cl1 & Hi1). rewrite Ep in X. cbn [bind fst snd] in X.
    apply (IH J1 q1 (d ++ [e]) j' k'); assumption. }
  assert (Redu : forall e k', Permutation (d ++ j ++ k) (e :: d ++ j ++ k') -> before [e] (j ++ k') -> incr_T k' ->
      (do e' <- tail_reduce fuel false (-1) [J] (d ++ j ++ k') e;
        do r <- prolong_if false (-1) dg [J] e' q;
        merge_loop cnt fuel false (-1) dg (fst r) (snd r) (d ++ [e']) j k') = Ok (js', q', T') ->
      exists J', js' = [J'] /\ core J' q' T' /\ forall e, In e T' -> closed J' T' e).
  { intros e k' P Be Sk' X. destruct (tail_reduce _ _ _ _ _ _) as [e'| | | |] eqn:Et; cbn [bind] in X; try discriminate.
    destruct (step_redu fuel dg J q _ d e (j ++ k') e' Co P Cl Be Hi Et) as (_ & J1 & q1 & Ep & Co1 & Cl1 & Hi1). rewrite Ep in X. cbn [bind fst snd] in X.
    apply (IH J1 q1 (d ++ [e']) j k'); assumption. }
  destruct j as [|e j]; destruct k as [|e' k].
  - injection E as <- <- <-. cbn [app] in *. rewrite app_nil_r in *. exists J. auto.
  - apply Redu in E; [exact E|cbn [app]; apply Permutation_sym, Permutation_middle| |].
    + apply StronglySorted_inv in Sk as [Sk Fk]. rewrite Forall_forall in Fk. intros a b [<-|[]] Ib. apply Fk; exact Ib.
    + apply StronglySorted_inv in Sk as [Sk _]. exact Sk.
  - apply Put in E; [exact E|reflexivity| |constructor]. apply StronglySorted_inv in Sj as [Sj _]. exact Sj.
  - assert (Ie : In e (d ++ (e :: j) ++ e' :: k)) by (rewrite !in_app_iff; right; left; left; reflexivity).
    assert (Ie' : In e' (d ++ (e :: j) ++ e' :: k)) by (rewrite !in_app_iff; right; right; left; reflexivity).
    assert (Ne : fst e <> fst e') by (apply (nd_neq (d ++ (e :: j) ++ e' :: k) e e' d j k); [apply (tinv_nd t o 1 G J _ H)|reflexivity]).
    rewrite (ent_cmp t o 1 G J _ e e' H Ie Ie') in E. cbn [bind] in E. destruct (Z.ltb_spec (cmp1 t o (fst e) (fst e')) 0) as [L|L].
    + apply Put in E; [exact E|reflexivity| |exact Sk]. apply StronglySorted_inv in Sj as [Sj _]. exact Sj.
    + apply Redu in E; [exact E|rewrite !app_assoc; apply Permutation_sym, Permutation_middle| |apply StronglySorted_inv in Sk as [Sk _]; exact Sk].
      assert (L' : elt e' e).
      { apply (key_cmp t o 1 G Hn J _ e' e H Ie' Ie); [congruence|]. rewrite cmp1_antisym; [lia|]. unfold size.
        destruct (tinv_len t o 1 G J _ e H Ie), (tinv_len t o 1 G J _ e' H Ie'). congruence. }
      apply StronglySorted_inv in Sk as [Sk Fk]. rewrite Forall_forall in Fk.
      intros a b [<-|[]] Ib. apply in_app_iff in Ib as [Ib|Ib]; [|apply Fk; exact Ib].
      apply (head_below t o 1 G J _ e' e j H Ie'); [|exact Sj|exact L'|left; reflexivity|exact Ib]. intros x Ix. apply in_or_app. right. apply in_or_app. left. exact Ix.
Qed.

Lemma walk_core fuel dg : forall cnt J q d w k js' q' T', core J q (d ++ opt w ++ k) ->
  incr_T k -> (forall x, In x d -> closed J (d ++ opt w ++ k) x) -> high dg J (d ++ opt w ++ k) ->
  walk cnt fuel false (-1) dg [J] q d w k = Ok (js', q', T') ->
  exists J', js' = [J'] /\ core J' q' T' /\ forall e, In e T' -> closed J' T' e.
Proof.
  induction cnt as [|cnt IH]; intros J q d w k js' q' T' Co Sk Cl Hi E; cbn [walk] in E.
  { destruct w; [discriminate|]. destruct k; [|discriminate]. injection E as <- <- <-. cbn [app opt] in *. rewrite app_nil_r in *. exists J. auto. }
  assert (H := c_ti _ _ _ _ _ _ Co).
  assert (Redu : forall e w' k', Permutation (d ++ opt w ++ k) (e :: d ++ opt w' ++ k') -> before [e] (opt w' ++ k') -> incr_T k' ->
      (do e' <- tail_reduce fuel false (-1) [J] (d ++ opt w' ++ k') e;
        do r <- prolong_if false (-1) dg [J] e' q;
        walk cnt fuel false (-1) dg (fst r) (snd r) (d ++ [e']) w' k') = Ok (js', q', T') ->
      exists J', js' = [J'] /\ core J' q' T' /\ forall e, In e T' -> closed J' T' e).
  { intros e w' k' P Be Sk' X. destruct (tail_reduce _ _ _ _ _ _) as [e'| | | |] eqn:Et; cbn [bind] in X; try discriminate.
    destruct (step_redu fuel dg J q _ d e (opt w' ++ k') e' Co P Cl Be Hi Et) as (_ & J1 & q1 & Ep & Co1 & Cl1 & Hi1). rewrite Ep in X. cbn [bind fst snd] in X.
    apply (IH J1 q1 (d ++ [e']) w' k'); assumption. }
  destruct w as [e|]; destruct k as [|e' k].
  - apply (Redu e None []) in E; [exact E|cbn [opt app]; rewrite app_nil_r; apply Permutation_sym, Permutation_cons_append|intros a b _ []|constructor].
  - cbn [opt] in H, Co, Redu. assert (Ie : In e (d ++ [e] ++ e' :: k)) by (rewrite !in_app_iff; right; left; left; reflexivity).
    assert (Ie' : In e' (d ++ [e] ++ e' :: k)) by (rewrite !in_app_iff; right; right; left; reflexivity).
    assert (Ne : fst e <> fst e') by (apply (nd_neq (d ++ [e] ++ e' :: k) e e' d [] k); [apply (tinv_nd t o 1 G J _ H)|reflexivity]).
    rewrite (ent_cmp t o 1 G J _ e e' H Ie Ie') in E. cbn [bind] in E. destruct (Z.ltb_spec (cmp1 t o (fst e) (fst e')) 0) as [L|L].
    + apply (Redu e None (e' :: k)) in E; [exact E|cbn [opt app]; apply Permutation_sym, Permutation_middle| |exact Sk].
      assert (L' : elt e e') by (apply (key_cmp t o 1 G Hn J _ e e' H Ie Ie' Ne); lia).
      cbn [opt app]. apply (head_below t o 1 G J _ e e' k H Ie); [|exact Sk|exact L']. intros x Ix. apply in_or_app. right. right. exact Ix.
    + apply (Redu e' (Some e) k) in E; [exact E|cbn [opt]; rewrite !app_assoc; apply Permutation_sym, Permutation_middle| |apply StronglySorted_inv in Sk as [Sk _]; exact Sk].
      assert (L' : elt e' e).
      { apply (key_cmp t o 1 G Hn J _ e' e H Ie' Ie); [congruence|]. rewrite cmp1_antisym; [lia|]. unfold size.
        destruct (tinv_len t o 1 G J _ e H Ie), (tinv_len t o 1 G J _ e' H Ie'). congruence. }
      apply StronglySorted_inv in Sk as [Sk Fk]. rewrite Forall_forall in Fk.
      intros a b [<-|[]] Ib. cbn [opt app] in Ib. destruct Ib as [<-|Ib]; [exact L'|apply Fk; exact Ib].
  - injection E as <- <- <-. cbn [app opt] in *. rewrite app_nil_r in *. exists J. auto.
  - apply (Redu e' None k) in E; [exact E|cbn [opt app]; apply Permutation_sym, Permutation_middle| |apply StronglySorted_inv in Sk as [Sk _]; exact Sk].
    apply StronglySorted_inv in Sk as [Sk Fk]. rewrite Forall_forall in Fk. intros a b [<-|[]] Ib. cbn [opt app] in Ib. apply Fk; exact Ib.
Qed.

(* ------------------------------------------------------------------------------------------ *)
(** * New elements *)

Lemma not_lm J u : okt J u -> ~ In (vars (plm u)) (lms (tw J)).
Proof.
  intros [[Gv _] Ir] X. apply (Ir (plm u) (hd_in _ _ (plm_hd t o 1 G u Gv)) (vars (plm u))). split; [exact X|]. split; [intros i _; lia|intros i _ Y; lia].
Qed.

Lemma enter_all dg : forall l J q T js' new, core J (l ++ q) T -> StronglySorted lt l -> Forall (fun u => (deg (plm u) <= dg)%nat) l ->
  (forall u, In u l -> ~ In (vars (plm u)) (lms (tw J))) -> high dg J T -> enter false [J] l = Ok (js', new) ->
  exists J', js' = [J'] /\ core J' q (new ++ T) /\ high dg J' (new ++ T).
Proof.
  induction l as [|u l IH]; intros J q T js' new Co S D N Hi E; cbn [enter] in E.
  - injection E as <- <-. exists J. auto.
  - assert (H := c_ti _ _ _ _ _ _ Co). assert (Hu := Forall_inv (c_q _ _ _ _ _ _ Co)). assert (Gu := proj1 Hu). rewrite (lm_plm t o 1 G false u Gu) in E. cbn [bind] in E.
    destruct (plm_mono t o 1 G u Gu) as [Mu Pu]. destruct (update_ok t o 1 G u (plm u) Hu Mu Pu) as (Ew & Ow & Fw). cbv zeta in E.
    assert (One : Forall okq [u]) by (constructor; [exact Hu|constructor]).
    destruct (enter_ok t o 1 G Hn [u] J T H One) as (J1 & new1 & E1 & H1 & _);
      [repeat constructor|intros v [<-|[]]; apply N; left; reflexivity|]. cbn [enter] in E1. rewrite (lm_plm t o 1 G false u Gu) in E1. cbn [bind] in E1. cbv zeta in E1.
    destruct (good_pp t o 1 G (wpol u) (plm u) Gu (plm_hd t o 1 G u Gu)) as (p & Ep & Gp & Hp & _). rewrite Ep in E, E1. cbn [bind] in E, E1.
    rewrite Ew, Pu in E, E1. unfold tree_at in E, E1. change (-1 <? -1) with false in E, E1. cbn [Z.add Z.to_nat Z.pos_sub nth_error bind firstn skipn app] in E, E1.
    destruct (insert false J (update (wwrap u) (plm u))) as [J2| | | |] eqn:Ei; cbn [bind] in E, E1; try discriminate. cbn [fst snd] in E1. injection E1 as <- <-. cbn [app] in H1.
    destruct (enter_core t o G J (l ++ q) T u p J2 Co) as [Co1 Cl1]; [apply N; left; reflexivity|exact Gp|exact Hp| |exact Ei|exact H1|].
    { intros K d F X. apply (pp_f t o G K d (wpol u) p F (proj1 Gu) Ep). exact X. }
    destruct (enter false [J2] l) as [[js2 new2]| | | |] eqn:E2; cbn [bind fst snd] in E; try discriminate. injection E as <- <-.
    apply StronglySorted_inv in S as [S Fu].
    destruct (IH J2 q ((plm u, p) :: T) js2 new2) as (J' & -> & Co' & Hi'); [exact Co1|exact S|exact (Forall_inv_tail D)| | |exact E2|].
    + intros v Iv X.
      assert (Y : In (vars (plm v)) (vars (plm u) :: lms (tw J))).
      { unfold lms in X. apply in_map_iff in X as (x & Ex & Ix). destruct (wrap_mono t o G J2 _ x H1 Ix) as (e & Ie & Ee). unfold lv in Ex. rewrite <- Ex, <- Ee.
        destruct Ie as [<-|Ie]; [left; reflexivity|right]. destruct (entry_wrap t o G J T e H Ie) as (y & Iy & Ey). rewrite <- Ey. apply (in_map lv) in Iy. exact Iy. }
      destruct Y as [Y|Y]; [|apply (N v); [right; exact Iv|exact Y]]. rewrite Forall_forall in Fu. apply (lt_neq t o 1 Hn u v (Fu v Iv)).
      assert (Gv : good (wpol v)).
      { assert (Q := c_q _ _ _ _ _ _ Co1). rewrite Forall_forall in Q. apply (Q v). apply in_or_app. left. exact Iv. }
      destruct (plm_mono t o 1 G v Gv) as [_ Pv]. destruct (plm u), (plm v). cbn in *. congruence.
    + assert (Du := Forall_inv D). cbv beta in Du. intros x [<-|Ix] Lx; [cbn [fst] in Lx; lia|]. apply Cl1; [apply Hi; assumption|lia].
    + exists J'. split; [reflexivity|].
      assert (P : Permutation (new2 ++ (plm u, p) :: T) (((plm u, p) :: new2) ++ T)) by (cbn [app]; apply Permutation_sym, Permutation_middle).
      split; [eapply core_perm; [exact P|exact Co']|]. intros x Ix Lx. eapply closed_perm; [exact P|]. apply Hi'; [|exact Lx]. eapply Permutation_in; [apply Permutation_sym; exact P|exact Ix].
Qed.

(* ------------------------------------------------------------------------------------------ *)
(** * Rounds *)

Definition uinv (s : rstate) : Prop := exists J, fst (fst s) = [J] /\ core J (snd (fst s)) (snd s) /\ incr_T (snd s) /\
  forall e, In e (snd s) -> closed J (snd s) e.
Definition uout (r : rstate + jpoly) : Prop :=
  match r with
  | inl s' => uinv s'
  | inr J => jone J <> None \/ (jone J = None /\ exists Ja, jtrees J = Some [Ja] /\ uinv ([Ja], jq J, jt J))
  end.

Lemma uinv_rinv s : uinv s -> rinv t o 1 G s.
Proof. intros (J & E & Co & _). exists J. split; [exact E|]. split; [apply Co|apply Co]. Qed.

Lemma block_round_U fuel s r : uinv s -> block_round fuel false (-1) s = Ok r -> uout r.
Proof.
  intros U E. assert (Sh := block_round_shape t o 1 G Hn Ho fuel s r (uinv_rinv s U) E). destruct Sh as (_ & Si & _).
  destruct s as [[js q] T]. destruct U as (J & Ej & Co & Inc & Cl). cbn [fst snd] in *. specialize (Si Inc). subst js. cbn [block_round] in E.
  assert (H := c_ti _ _ _ _ _ _ Co). assert (Q := c_q _ _ _ _ _ _ Co).
  destruct q as [|u q0] eqn:Eq.
  { injection E as <-. right. split; [reflexivity|]. exists J. split; [reflexivity|]. exists J. cbn. auto. }
  rewrite <- Eq in *.
  assert (Hu : okq u) by (rewrite Eq in Q; exact (Forall_inv Q)). rewrite (lm_plm t o 1 G false u (proj1 Hu)) in E. cbn [bind] in E.
  assert (K1 := take_block_ok t o 1 G Hn Ho J T (deg (plm u)) fuel H q [] Q (Forall_nil _) (SSorted_nil _)).
  destruct (take_block _ _ _ _ _ _) as [r1| | | |] eqn:E1; cbn [bind] in E; try discriminate. cbn [safe] in K1.
  destruct r1 as [[q1 tmp]|].
  2:{ destruct Hu as ([(_ & (A1 & A2 & A3) & _) _] & _). rewrite A1, A2, A3 in E. destruct (set_one false t o 1 (-1)) as [J'| | | |] eqn:Es; cbn [bind] in E; try discriminate.
      injection E as <-. left. apply unit_prim in Es as (w & -> & _). discriminate. }
  destruct K1 as (Q1 & Tm & S1 & _). unfold assert_ in E. cbn [andb] in E.
  destruct (take_block_K t o G Ho J T (deg (plm u)) fuel H q [] q1 tmp Q (Forall_nil _) E1) as [W1 B1].
  assert (Oq1 : Forall okq tmp) by (eapply Forall_impl; [|exact Tm]; intros v Hv; apply Hv).
  assert (Co1 : core J (q1 ++ tmp) T).
  { apply (core_queue t o G J q (q1 ++ tmp) T Co); [apply Forall_app; split; assumption|eapply sub_trans; [exact W1|rewrite app_nil_r; apply incl_refl]|].
    intros K Ad X. apply fW_app in X as [X Y]. apply (B1 K Ad X Y). }
  destruct tmp as [|x tmp'] eqn:Et.
  { injection E as <-. exists J. cbn [fst snd]. rewrite app_nil_r in Co1. auto. }
  rewrite <- Et in *. assert (Ne : tmp <> []) by congruence.
  destruct (block_loop fuel false tmp q1) as [[[tmp2 q2] dg]| | | |] eqn:E2; cbn [bind] in E; try discriminate.
  destruct (block_loop_ends t o 1 G Hn Ho J tmp q1 Ne Tm S1) as [_ K2]. specialize (K2 fuel). rewrite E2 in K2. cbn [safe] in K2. destruct K2 as [_ Dg].
  assert (K3 := block_loop_ok t o 1 G Hn J fuel tmp q1 Ne Tm S1 Q1). rewrite E2 in K3. cbn [safe] in K3. destruct K3 as (O2 & S2 & Q2 & _).
  destruct (block_loop_K t o G Ho J fuel tmp q1 tmp2 q2 dg Tm S1 E2) as [W2 B2].
  assert (Oq : Forall okq tmp2) by (eapply Forall_impl; [|exact O2]; intros v Hv; apply Hv).
  assert (Co2 : core J (tmp2 ++ q2) T).
  { apply (core_queue t o G J (q1 ++ tmp) (tmp2 ++ q2) T Co1); [apply Forall_app; split; assumption|eapply sub_trans; [exact W2|apply sub_perm, Permutation_app_comm]|].
    intros K Ad X. apply fW_app in X as [X Y]. destruct (B2 K (ad_f _ _ Ad) X Y). apply fW_app. auto. }
  destruct (enter false [J] tmp2) as [[js2 new]| | | |] eqn:E3; cbn [bind] in E; try discriminate.
  assert (Sn := enter_shape t o 1 G tmp2 _ _ _ Oq E3).
  assert (Hi : high dg J T) by (intros y Iy _; apply Cl; exact Iy).
  destruct (enter_all dg tmp2 J q2 T js2 new Co2 S2) as (J2 & -> & Co3 & Hi3); auto.
  { eapply Forall_impl; [|exact Dg]. intros v Ev. cbv beta in *. lia. }
  { intros v Iv. apply not_lm. rewrite Forall_forall in O2. apply O2. exact Iv. }
  destruct (merge_loop _ _ _ _ _ _ _ _ _ _) as [[[js3 q3] T3]| | | |] eqn:E4; cbn [bind] in E; try discriminate.
  destruct (merge_core fuel dg (length new + length T) J2 q2 [] new T js3 q3 T3) as (J3 & -> & Co4 & Cl4); [exact Co3| |exact Inc|intros y []|exact Hi3|exact E4|].
  { clear -S2 Sn. revert new Sn. induction S2 as [|a l S IH F]; intros new Sh; inversion Sh as [|a' e l' new' R Sh']; subst; [constructor|].
    constructor; [apply IH; exact Sh'|]. apply Forall_forall. intros e2 I2. destruct (Forall2_in_r _ _ _ _ Sh' I2) as (b & Ib & Eb & _).
    rewrite Forall_forall in F. unfold ShapeProofs.elt. rewrite Eb, (proj1 R). exact (F b Ib). }
  injection E as <-. exists J3. cbn [fst snd out] in *. auto.
Qed.

Lemma tq_round_U v fuel s r : uinv s -> tq_round v fuel false (-1) s = Ok r -> uout r.
Proof.
  intros U E. assert (Sh := tq_round_shape t o 1 G Hn Ho v fuel s r (uinv_rinv s U) E). destruct Sh as (_ & Si & _).
  destruct s as [[js q] T]. destruct U as (J & Ej & Co & Inc & Cl). cbn [fst snd] in *. specialize (Si Inc). subst js. cbn [tq_round] in E.
  assert (H := c_ti _ _ _ _ _ _ Co). assert (Q := c_q _ _ _ _ _ _ Co).
  destruct q as [|u q0] eqn:Eq.
  { injection E as <-. right. split; [reflexivity|]. exists J. split; [reflexivity|]. exists J. cbn. auto. }
  rewrite <- Eq in *.
  assert (Hu : okq u) by (rewrite Eq in Q; exact (Forall_inv Q)). rewrite (lm_plm t o 1 G false u (proj1 Hu)) in E. cbn [bind] in E.
  assert (K1 := take_tq_ok t o 1 G Hn Ho false J T (deg (plm u)) fuel H q [] Q (Forall_nil _)).
  destruct (take_tq _ _ _ _ _ _ _) as [r1| | | |] eqn:E1; cbn [bind] in E; try discriminate. cbn [safe] in K1.
  destruct r1 as [[q1 tmp]|].
  2:{ destruct Hu as ([(_ & (A1 & A2 & A3) & _) _] & _). rewrite A1, A2, A3 in E. destruct (set_one false t o 1 (-1)) as [J'| | | |] eqn:Es; cbn [bind] in E; try discriminate.
      injection E as <-. left. apply unit_prim in Es as (w & -> & _). discriminate. }
  destruct K1 as (Q1 & Tm & _). unfold assert_ in E. cbn [andb] in E.
  destruct (take_tq_K t o G Ho J T (deg (plm u)) fuel H q [] q1 tmp Q (Forall_nil _) E1) as (W1 & D1 & B1). specialize (D1 (Forall_nil _)).
  assert (Co1 : core J (q1 ++ tmp) T).
  { apply (core_queue t o G J q (q1 ++ tmp) T Co); [apply Forall_app; split; [exact Q1|eapply okh_okq; exact Tm]|eapply sub_trans; [exact W1|rewrite app_nil_r; apply incl_refl]|].
    intros K Ad X. apply fW_app in X as [X Y]. apply (B1 K Ad X Y). }
  destruct tmp as [|w0 tmp0].
  { injection E as <-. exists J. cbn [fst snd]. rewrite app_nil_r in Co1. auto. }
  assert (H0 := Forall_inv Tm). assert (G0 := proj1 (proj1 H0)). assert (Dw := Forall_inv D1). cbv beta in Dw.
  rewrite (lm_plm t o 1 G false w0 G0) in E. cbn [bind] in E. destruct (plm_mono t o 1 G w0 G0) as [M0 P0].
  destruct (same_lm_ok t o 1 G (plm w0) M0 P0 tmp0) as (eqs & rest & Es & Et & El0 & _); [eapply okh_gw; exact (Forall_inv_tail Tm)|].
  rewrite Es in E. cbn [bind] in E. subst tmp0. assert (Tm0 := Forall_inv_tail Tm). apply Forall_app in Tm0 as [Tm1 Tm2].
  destruct (if v then do p <- _; _ else _) as [w1| | | |] eqn:Ew1; cbn [bind] in E; try discriminate.
  assert (O1 : okh J w1 /\ plm w1 = plm w0 /\ wwrap w1 = wwrap w0 /\ forall K, adm K T -> K (deg (plm w0)) (terms (wpol w1)) -> K (deg (plm w0)) (terms (wpol w0))).
  { destruct v; [|injection Ew1 as <-; auto].
    assert (Kp := tail_pp_ok t o 1 G Hn J T fuel (wpol w0) (plm w0) H G0 (plm_hd t o 1 G w0 G0)).
    destruct (tail_pp _ _ _ _) as [p| | | |] eqn:Etp; cbn [bind] in Ew1; try discriminate. injection Ew1 as <-. destruct Kp as (Gp & Hp & _).
    assert (Epl : plm (WP (wwrap w0) p) = plm w0) by (apply plm_eq; exact Hp). split; [|split; [exact Epl|split; [reflexivity|]]].
    - split; [split; [exact Gp|apply H0]|]. unfold hirr. rewrite Epl. apply H0.
    - intros K Ad X. apply (tail_pp_K t o G Ho J T fuel (wpol w0) (plm w0) p K H G0 (plm_hd t o 1 G w0 G0) Etp Ad X). }
  destruct O1 as (O1 & Epl1 & Ewr1 & Bw1).
  destruct (if v then tails _ _ _ _ else _) as [eqs1| | | |] eqn:E2; cbn [bind] in E; try discriminate.
  assert (O2 : Forall (okh J) eqs1 /\ Forall (fun u => plm u = plm w0) eqs1 /\ map wwrap eqs1 = map wwrap eqs /\ forall K, adm K T -> fW K eqs1 -> fW K eqs).
  { destruct v; [|injection E2 as <-; auto]. assert (Kl := tails_ok t o 1 G Hn J T fuel (plm w0) H eqs Tm1 El0). rewrite E2 in Kl. destruct Kl as (A & B & _).
    destruct (tails_K t o G Ho J T fuel (plm w0) H eqs eqs1 Tm1 El0 E2) as [C D]. auto. }
  destruct O2 as (O2 & Ee & Wr2 & B2).
  assert (Ps := swap_min_perm eqs1 w1). destruct (swap_min w1 eqs1) as [w eqs2] eqn:Esw. cbn [fst snd] in Ps.
  assert (Ow : Forall (okh J) (w :: eqs2)) by (eapply Permutation_Forall; [exact Ps|constructor; assumption]).
  assert (El : Forall (fun u => plm u = plm w0) (w :: eqs2)) by (eapply Permutation_Forall; [exact Ps|constructor; assumption]).
  assert (Hw := Forall_inv Ow). assert (Hq := okh_okq t o 1 G _ _ (Forall_inv_tail Ow)). assert (Hr := okh_okq t o 1 G _ _ Tm2).
  assert (Ew := Forall_inv El). cbv beta in Ew.
  assert (Ealike : Forall (fun u => plm u = plm w) eqs2).
  { eapply Forall_impl; [|exact (Forall_inv_tail El)]. intros x Ex. cbv beta in *. congruence. }
  assert (Sub1 : sub (w :: eqs2) (w0 :: eqs)).
  { eapply sub_trans; [apply sub_perm, Permutation_sym; exact Ps|]. apply sub_cons; [exact Ewr1|apply sub_map; exact Wr2]. }
  assert (Back1 : forall K, adm K T -> fW K (w :: eqs2) -> fW K (w0 :: eqs)).
  { intros K Ad X. eapply fW_perm in X; [|apply Permutation_sym; exact Ps]. apply fW_cons in X as [X Y]. apply fW_cons. split; [|apply B2; assumption].
    apply (Bw1 K Ad). rewrite <- Epl1. exact X. }
  destruct (v && negb (length eqs2 =? 0)%nat) eqn:Ev.
  - destruct (red_eq_ok t o 1 G Hn w (proj1 Hw) eqs2 Hq Ealike) as (eqs3 & E4 & O3 & _). rewrite E4 in E. cbn [bind] in E.
    destruct (red_eq_K t o G Ho w (proj1 Hw) eqs2 eqs3 Hq Ealike E4) as [W3 B3].
    assert (Qr : Forall okq (rest ++ q1)) by (apply Forall_app; split; assumption).
    destruct (insert_w t o 1 G Hn false (rest ++ q1) w) as (q2 & E5 & P2 & _); [apply Hw|apply okq_gw; exact Qr|]. rewrite E5 in E. cbn [bind] in E.
    assert (Q2 : Forall okq q2) by (eapply Permutation_Forall; [apply Permutation_sym; exact P2|constructor; [apply Hw|exact Qr]]).
    destruct (insert_all_ok t o 1 G Hn eqs3 q2 O3 Q2) as (q3 & E6 & P3). rewrite E6 in E. cbn [bind] in E.
    assert (Q3 : Forall okq q3) by (eapply Permutation_Forall; [apply Permutation_sym; exact P3|apply Forall_app; split; assumption]).
    injection E as <-. exists J. cbn [fst snd]. split; [reflexivity|]. split; [|auto].
    assert (P4 : Permutation q3 ((w :: eqs3) ++ rest ++ q1)) by (rewrite P3, P2; rewrite Permutation_app_comm; cbn [app]; constructor; apply Permutation_app_comm).
    apply (core_queue t o G J _ q3 T Co1 Q3).
    + eapply sub_trans; [apply sub_perm; exact P4|]. eapply sub_trans; [apply sub_app; [|apply incl_refl]|].
      * eapply sub_trans; [apply sub_cons; [reflexivity|exact W3]|exact Sub1].
      * apply sub_perm. rewrite Permutation_app_comm. rewrite <- app_assoc. rewrite Permutation_app_comm. rewrite <- app_assoc. apply Permutation_app_head.
        cbn [app]. constructor. reflexivity.
    + intros K Ad X. apply (fW_perm K _ _ P4) in X. apply fW_app in X as [X Y]. apply fW_app in Y as [Y Z]. apply fW_cons in X as [X X'].
      apply fW_app. split; [exact Z|]. assert (R : fW K (w0 :: eqs)).
      { apply (Back1 K Ad). apply fW_cons. split; [exact X|]. apply (B3 K (ad_f _ _ Ad)); assumption. }
      apply fW_cons in R as [R R']. apply fW_cons. split; [exact R|]. apply fW_app. split; assumption.
  - assert (Q2 : Forall okq ((eqs2 ++ rest) ++ q1)) by (rewrite !Forall_app; auto).
    assert (Co2 : core J (w :: (eqs2 ++ rest) ++ q1) T).
    { apply (core_queue t o G J _ _ T Co1); [constructor; [apply Hw|exact Q2]| |].
      - change (w :: (eqs2 ++ rest) ++ q1) with (((w :: eqs2) ++ rest) ++ q1). eapply sub_trans; [apply sub_app; [apply sub_app; [exact Sub1|apply incl_refl]|apply incl_refl]|].
        apply sub_perm. rewrite Permutation_app_comm. reflexivity.
      - intros K Ad X. change (w :: (eqs2 ++ rest) ++ q1) with (((w :: eqs2) ++ rest) ++ q1) in X. apply fW_app in X as [X Z]. apply fW_app in X as [X Y].
        apply (Back1 K Ad) in X. apply fW_app. split; [exact Z|]. change (w0 :: eqs ++ rest) with ((w0 :: eqs) ++ rest). apply fW_app. auto. }
    destruct (enter_w_ok t o 1 G Hn J T w H Hw) as (J2 & w' & E4 & Ew' & H2). rewrite E4 in E. cbn [bind] in E. rewrite Ew' in E.
    assert (Ei : insert false J (update (wwrap w) (plm w)) = Ok J2).
    { unfold enter_w in E4. assert (Gw := proj1 (proj1 Hw)). rewrite (lm_plm t o 1 G false w Gw) in E4. cbn [bind] in E4. cbv zeta in E4.
      destruct (plm_mono t o 1 G w Gw) as [Mw Pw]. destruct (update_ok t o 1 G w (plm w) (proj1 Hw) Mw Pw) as (Eu & _). rewrite Eu, Pw in E4.
      unfold tree_at in E4. change (-1 <? -1) with false in E4. cbn [Z.add Z.to_nat Z.pos_sub nth_error bind firstn skipn app] in E4.
      destruct (insert false J _) as [J3| | | |]; cbn [bind] in E4; try discriminate. injection E4 as <- _. reflexivity. }
    destruct (enter_core t o G J _ T w (wpol w) J2 Co2) as [Co3 Cl3]; auto.
    { intro X. destruct Hw as [[Gw _] Ir]. apply (Ir (vars (plm w))). split; [exact X|]. split; [intros i _; lia|intros i _ Y; lia]. }
    { apply Hw. }
    { apply (plm_hd t o 1 G). apply Hw. }
    destruct T as [|e0 T0].
    + injection E as <-. exists J2. cbn [fst snd]. split; [reflexivity|]. split; [exact Co3|]. split; [repeat constructor|].
      intros e [<-|[]] (x & [<-|[]] & L). cbn [fst] in L. lia.
    + destruct (walk _ _ _ _ _ _ _ _ _ _) as [[[js3 q3] T3]| | | |] eqn:E5; cbn [bind] in E; try discriminate. injection E as <-.
      destruct (walk_core fuel (deg (plm u)) (Datatypes.S (length (e0 :: T0))) J2 ((eqs2 ++ rest) ++ q1) [] (Some (plm w, wpol w)) (e0 :: T0) js3 q3 T3) as (J3 & -> & Co4 & Cl4); [exact Co3|exact Inc|intros x []| |exact E5|].
      { cbn [opt app]. intros x [<-|Ix] Lx; [cbn [fst] in Lx; rewrite Ew in Lx; lia|]. apply Cl3; [apply Cl; exact Ix|]. rewrite Ew. lia. }
      exists J3. cbn [fst snd out] in *. auto.
Qed.

Lemma run_U (R : nat -> rstate -> outcome (rstate + jpoly)) (run : nat -> rstate -> outcome jpoly) :
  (forall fuel s, run (Datatypes.S fuel) s = do r <- R (Datatypes.S fuel) s; match r with inl s' => run fuel s' | inr J => Ok J end) ->
  (forall s J, run 0%nat s = Ok J -> R 0%nat s = Ok (inr J)) ->
  (forall fuel s r, uinv s -> R fuel s = Ok r -> uout r) -> forall fuel s J, uinv s -> run fuel s = Ok J -> uout (inr J).
Proof.
  intros Er E0 K. induction fuel as [|fuel IH]; intros s J H E.
  - apply E0 in E. apply (K _ _ _ H E).
  - rewrite Er in E. destruct (R (Datatypes.S fuel) s) as [r| | | |] eqn:Es; cbn [bind] in E; try discriminate.
    assert (X := K _ _ _ H Es). destruct r as [s'|J'].
    + apply (IH s' J X E).
    + injection E as <-. exact X.
Qed.
End P.
