(** One polynomial pushed: the assertions of a debug build hold. *)
From Coq Require Import ZArith List Bool Arith Lia Permutation Sorted.
From Verif Require Import Outcome MonomModel MonomSpec MonomProofs PolyModel PolySpec PolyProofs PolyNfProofs
  JanetModel JanetSpec JanetProofs JanetFindProofs CompletionProofs JanetPolyModel TQModel JanetPolySpec JanetPolyProofs
  TQProofs JanetPolyTop JanetTermSpec JanetTermMain JanetTermTop ShapeProofs InvolutiveProofs InvolutiveTop NormalSpec NormalProofs NormalTop AncProofs AncTop LinProofs LinTop LinSol PrincSpec PrincProofs PrincTop PrincExamples JanetPolyExamples CythonProofs DebugProofs DebugTQ.
Import ListNotations.
Local Open Scope Z_scope.

Section P.
Variables (t : pos_order) (o : base_order) (n : nat).
Hypothesis (Hn : (0 < n)%nat) (Ho : o <> OAlex).
Notation A := (fun _ : list term => True).
Notation good := (good t o n A).
Notation okq := (okq t o n A).
Notation tinv := (tinv t o n A).

Lemma dfind J T m : tinv J T -> mono n m -> pos m = -1 -> find_poly true (-1) (Some [J]) T m = find_poly false (-1) (Some [J]) T m.
Proof.
  intros H [L P] E. assert (X : exists r, find_wrap true (-1) (Some [J]) m = Ok r).
  { unfold find_wrap. rewrite E. change (-1 <? -1) with false. cbn iota. unfold tree_at. cbn [Z.ltb Z.compare Z.add Z.to_nat nth_error bind].
    change (-1 <? -1) with false. cbn iota. cbn [Z.add Z.pos_sub Z.to_nat nth_error bind].
    destruct (find_janet true n (jroot J) m (ti_inv _ _ _ _ _ _ H) Hn L) as (r & -> & _).
    { assert (Y := ti_pos _ _ _ _ _ _ H). rewrite Forall_forall in *. intros u I _. left. exact (Y u I). }
    cbn [bind]. eauto. }
  destruct X as [r X]. unfold find_poly. rewrite X, (d_find_wrap _ _ _ _ X). reflexivity.
Qed.
Lemma dnone J m : tinv J [] -> mono n m -> pos m = -1 -> find_poly true (-1) (Some [J]) [] m = Ok None.
Proof. intros H M P. rewrite (dfind J [] m H M P). apply (no_divisor t o n Hn J m H M). Qed.
Lemma good_ring p : good p -> Forall (fun x => mono n (fst x) /\ pos (fst x) = -1) (terms p).
Proof.
  intros G. assert (M := good_monos t o n p G). destruct G as [(_ & _ & R & _) _]. unfold ring_poly, monos in *. rewrite Forall_forall in *. intros x I. split; [exact (M x I)|exact (R x I)].
Qed.
Lemma dnft J p r : tinv J [] -> forall rest fuel pre, Forall (fun x => mono n (fst x) /\ pos (fst x) = -1) rest -> (length rest <= fuel)%nat ->
  nft_loop fuel true (find_poly true (-1) (Some [J]) []) r p pre rest = Ok (with_terms p (pre ++ rest), r).
Proof.
  intro H. induction rest as [|[m c] rest IH]; intros fuel pre M L.
  - rewrite app_nil_r. destruct fuel; reflexivity.
  - destruct fuel as [|fuel]; [cbn in L; lia|]. cbn [nft_loop]. destruct (Forall_inv M) as [Mm Pm]. cbn [fst] in *. rewrite (dnone J m H Mm Pm). cbn [bind].
    rewrite (IH fuel (pre ++ [(m, c)])) by (exact (Forall_inv_tail M) || (cbn in L; lia)). rewrite <- app_assoc. reflexivity.
Qed.
Lemma dtail J p fuel : tinv J [] -> good p -> (length (terms p) <= fuel)%nat -> p_nfTail fuel true (find_poly true (-1) (Some [J]) []) p = Ok (p, 0%nat).
Proof.
  intros H G L. assert (M := good_ring p G). unfold p_nfTail. destruct G as [_ N]. destruct (terms p) as [|x l] eqn:E; [congruence|].
  rewrite (dnft J p 0 H l fuel [x] (Forall_inv_tail M)) by (cbn in L; lia). change ([x] ++ l) with (x :: l). rewrite <- E, wt_terms. reflexivity.
Qed.
Lemma dhead J p fuel : tinv J [] -> good p -> p_nf fuel true (find_poly true (-1) (Some [J]) []) p = Ok (p, 0%nat).
Proof.
  intros H G. assert (M := good_ring p G). unfold p_nf. destruct G as [_ N]. destruct (terms p) as [|[m c] l] eqn:E; [congruence|].
  destruct (Forall_inv M) as [Mm Pm]. destruct fuel; cbn [nf_loop]; rewrite E, (dnone J m H Mm Pm); reflexivity.
Qed.
(** The only element is no divisor of its tail. *)
Lemma disnf J e : tinv J [e] -> p_isNf (find_poly true (-1) (Some [J]) [e]) (snd e) = Ok true.
Proof.
  intro H. assert (Hg := ti_good _ _ _ _ _ _ H). destruct (Forall_inv Hg) as [G Hd]. assert (M := good_ring _ G). destruct (hd_mono t o n A _ _ (proj1 G) Hd) as [Mk Pk].
  assert (So : forall l c, terms (snd e) = (fst e, c) :: l -> Forall (fun x => cmp1 t o (fst e) (fst x) = 1) l).
  { intros l c El. destruct G as [(V & (E1 & E2 & E3) & _) _]. apply canonical_iff in V as (S & _ & _). rewrite ?E1, ?E2, ?E3, El in S. apply StronglySorted_inv in S as [_ S].
    rewrite Forall_forall in *. intros x I. exact (S x I). }
  destruct Hd as (c & l & El). specialize (So l c El). unfold p_isNf. rewrite El in *. apply Forall_inv_tail in M. clear El. revert M So. induction l as [|[m d] l IH]; intros M So; cbn [isnf_loop]; [reflexivity|].
  destruct (Forall_inv M) as [Mm Pm]. assert (C := Forall_inv So). cbn [fst] in *. rewrite (dfind J [e] m H Mm Pm).
  destruct (find_poly_ok t o n A Hn J [e] m H Mm) as (w & -> & W). cbn [bind]. destruct w as [a|]; [|exact (IH (Forall_inv_tail M) (Forall_inv_tail So))].
  exfalso. destruct W as (k & [I|[]] & _ & _ & _ & D). subst e. cbn [fst] in *.
  apply (divisor_le t o n Hn Ho k m Mk Mm); [|exact Pk|exact Pm|exact C]. eapply janet_div_mdiv; try eassumption; [exact (proj1 Mm)|reflexivity|exact (proj1 Mk)].
Qed.

Lemma dprolong J e p q : tinv J [e] -> forall w, In w (wraps (jroot J)) -> forall cnt k, (k + cnt = n)%nat -> jp_prolong true (-1) cnt k [J] w p q = Ok ([J], q).
Proof.
  intros H w Iw. induction cnt as [|cnt IH]; intros k K; cbn [jp_prolong]; [reflexivity|].
  assert (Ow : okw n w) by (assert (O := ji_ok _ _ (ti_inv _ _ _ _ _ _ H)); rewrite Forall_forall in O; auto).
  destruct Ow as (O1 & O2 & O3 & O4). rewrite !(get_flag_ok n) by (assumption || lia). cbn [bind].
  destruct (nth k (wnm w) false) eqn:Nm; cbn [andb]; [exfalso|apply IH; lia].
  assert (Jn : janet_nm (lms (wraps (jroot J))) (lv w) k).
  { apply (flagsT_flags n 0 (jroot J)); [apply (ti_inv _ _ _ _ _ _ H)|intros; lia|apply (ti_inv _ _ _ _ _ _ H)|exact Iw|lia|lia|exact Nm]. }
  destruct Jn as (v & Iv & _ & Lv). unfold lms in Iv. apply in_map_iff in Iv as (u & <- & Iu).
  assert (P := ti_perm _ _ _ _ _ _ H). cbn [map] in P. apply Permutation_sym, Permutation_length_1_inv in P.
  destruct (wraps (jroot J)) as [|x [|y l]]; try discriminate. destruct Iw as [<-|[]]. destruct Iu as [<-|[]]. lia.
Qed.

Lemma dinsert J u : tinv J [] -> okq u -> (deg (plm u) =? 0)%nat = false -> exists J', insert true J (update (wwrap u) (plm u)) = Ok J'.
Proof.
  intros H Hu Ed. destruct (plm_mono t o n A u (proj1 Hu)) as [Mu Pu]. destruct (update_ok t o n A u (plm u) Hu Mu Pu) as (Ew & Ow & Fw).
  assert (W0 : wraps (jroot J) = []).
  { assert (P := ti_perm _ _ _ _ _ _ H). cbn [map] in P. apply Permutation_sym, Permutation_nil in P. destruct (wraps (jroot J)); [reflexivity|discriminate]. }
  destruct (insert_ok true n J (update (wwrap u) (plm u)) (ti_inv _ _ _ _ _ _ H) (ti_size _ _ _ _ _ _ H) Hn Ow Fw) as (J' & E & _); [| |exists J'; exact E].
  - unfold lv. rewrite Ew. apply (lead_in_J t o n J u H).
  - intros _. rewrite W0. split; [intros v [[] _]|]. split; [intros _; rewrite Ew; apply Nat.eqb_neq in Ed; lia|]. intros v [<-|[]]. left. rewrite Ew. exact Pu.
Qed.
Lemma dins1 u : is_zero (wpol u) = false -> jp_insert true [] u = Ok [u].
Proof. intro Z. unfold jp_insert, assert_. rewrite Z. reflexivity. Qed.

Lemma dblock J u fuel : tinv J [] -> okq u -> (length (terms (wpol u)) < fuel)%nat ->
  exists r, block_round fuel true (-1) ([J], [u], []) = Ok r /\ match r with inl (_, q, _) => q = [] | inr _ => True end.
Proof.
  intros H Hu L. assert (G := proj1 Hu). destruct (plm_mono t o n A u G) as [Mu Pu].
  assert (Nz : is_zero (wpol u) = false) by (unfold is_zero; destruct G as [_ N]; destruct (terms (wpol u)); congruence).
  unfold block_round. rewrite (lm_plm t o n A true u G). cbn [bind].
  cbn [take_block]. rewrite (lm_plm t o n A true u G). cbn [bind]. rewrite Nat.leb_refl, (dhead J _ fuel H G). cbn [bind fst]. rewrite Nz.
  rewrite (lm_plm t o n A true u G). cbn [bind]. destruct (deg (plm u) =? 0)%nat eqn:Ed.
  { cbn [bind]. eexists. split; [reflexivity|exact Logic.I]. }
  destruct (enter_ok t o n A Hn [u] J [] H) as (J2 & new & E & H2 & _).
  { repeat constructor; apply Hu. }
  { repeat constructor. }
  { intros v [<-|[]]. apply (lead_in_J t o n). exact H. }
  assert (Ed2 : enter true [J] [u] = Ok ([J2], new) /\ exists p, new = [(plm u, p)]).
  { destruct (dinsert J u H Hu Ed) as [J' Ei]. destruct (p_pp_ok true (wpol u)) as (p & g & Ep & _); [apply G|].
    destruct (update_ok t o n A u (plm u) Hu Mu Pu) as (Ew & _ & _).
    assert (X : enter true [J] [u] = Ok ([J'], [(plm u, p)])).
    { cbn [enter]. rewrite (lm_plm t o n A true u G). cbn [bind]. rewrite Ep. cbn [bind]. rewrite Ew, Pu. unfold tree_at. change (-1 <? -1) with false.
      cbn [Z.add Z.to_nat Z.pos_sub nth_error bind firstn skipn app]. rewrite Ei. reflexivity. }
    assert (Y := d_enter _ _ _ X). rewrite E in Y. injection Y as -> ->. split; [exact X|eauto]. }
  destruct Ed2 as (Ed2 & p & ->). rewrite app_nil_r in H2.
  rewrite (dtail J _ fuel H G) by lia. cbn [bind].
  rewrite Nat.eqb_refl. cbn [bind]. replace (WP (wwrap u) (wpol u)) with u by (destruct u; reflexivity).
  rewrite dins1 by exact Nz. cbn [bind take_block assertSort]. unfold assert_. cbn [andb negb].
  destruct fuel as [|fuel]; [lia|]. cbn [block_loop]. rewrite (lm_plm t o n A true u G). cbn [bind same_deg].
  cbn [app length scan assertSort]. unfold assert_. rewrite (lm_plm t o n A true u G). cbn [andb negb bind same_lm red_all scan app].
  cbn [sorted_from negb bind].
  rewrite Ed2. cbn [bind].
  cbn [length Nat.add merge_loop bind app]. assert (Nf := disnf J2 (plm u, p) H2). cbn [snd] in *. rewrite Nf. cbn [bind]. unfold assert_. cbn [andb negb].
  unfold prolong_if. cbn [fst]. rewrite Nat.leb_refl. unfold prolong_entry.
  destruct (get_wrap_ok t o n A J2 [(plm u, p)] (plm u, p) H2 (or_introl eq_refl)) as (w & Eg & Iw & Ew). cbn [fst] in Eg. cbn [fst snd]. rewrite Eg.
  assert (Lw : size (wlm w) = n) by (rewrite Ew; cbn [fst]; exact (proj1 Mu)).
  rewrite (dprolong J2 (plm u, p) _ _ H2 w Iw) by (rewrite Lw; lia). cbn. eexists. split; [reflexivity|reflexivity].
Qed.

Lemma dtq one J u fuel : tinv J [] -> okq u -> (length (terms (wpol u)) < fuel)%nat ->
  exists r, tq_round one fuel true (-1) ([J], [u], []) = Ok r /\ match r with inl (_, q, _) => q = [] | inr _ => True end.
Proof.
  intros H Hu L. assert (G := proj1 Hu). destruct (plm_mono t o n A u G) as [Mu Pu].
  assert (Nz : is_zero (wpol u) = false) by (unfold is_zero; destruct G as [_ N]; destruct (terms (wpol u)); congruence).
  unfold tq_round. rewrite (lm_plm t o n A true u G). cbn [bind].
  cbn [take_tq]. rewrite (lm_plm t o n A true u G). cbn [bind]. rewrite Nat.leb_refl, (dhead J _ fuel H G). cbn [bind fst]. rewrite Nz.
  rewrite (lm_plm t o n A true u G). cbn [bind]. destruct (deg (plm u) =? 0)%nat eqn:Ed.
  { cbn [bind]. eexists. split; [reflexivity|exact Logic.I]. }
  assert (En : exists J2, enter_w true [J] u = Ok ([J2], update (wwrap u) (plm u))).
  { destruct (dinsert J u H Hu Ed) as [J' Ei]. destruct (update_ok t o n A u (plm u) Hu Mu Pu) as (Ew & _ & _). exists J'.
    unfold enter_w. rewrite (lm_plm t o n A true u G). cbn [bind]. rewrite Ew, Pu. unfold tree_at. change (-1 <? -1) with false.
    cbn [Z.add Z.to_nat Z.pos_sub nth_error bind firstn skipn app]. rewrite Ei. reflexivity. }
  destruct En as [J2 En].
  cbn [bind fst snd Nat.add]. rewrite Nat.eqb_refl. cbn [bind]. replace (WP (wwrap u) (wpol u)) with u by (destruct u; reflexivity).
  rewrite dins1 by exact Nz. cbn [bind take_tq assertSort]. unfold assert_. cbn [andb negb]. rewrite (lm_plm t o n A true u G). cbn [bind same_lm].
  destruct one; cbn [tails bind].
  - unfold tail_pp. rewrite (dtail J _ fuel H G) by lia. cbn [bind fst snd].
    rewrite Nat.eqb_refl. cbn [bind]. replace (WP (wwrap u) (wpol u)) with u by (destruct u; reflexivity). cbn [swap_min length Nat.eqb negb andb app assertSort sorted_from].
    rewrite En. cbn. eexists. split; reflexivity.
  - cbn [swap_min length Nat.eqb negb andb app assertSort sorted_from]. rewrite En. cbn. eexists. split; reflexivity.
Qed.

Lemma both (f g : nat -> outcome jpoly) : (forall fuel, agree (f fuel) (g fuel)) -> (exists N, forall fuel, (N <= fuel)%nat -> exists J, f fuel = Ok J) ->
  (exists N J, (forall fuel, (N <= fuel)%nat -> g fuel = Ok J) /\ jq J = []) ->
  exists N J, (forall fuel, (N <= fuel)%nat -> f fuel = Ok J /\ g fuel = Ok J) /\ jq J = [].
Proof.
  intros Ag [N1 F] (N2 & J & X & Q). exists (N1 + N2)%nat, J. split; [|exact Q]. intros fuel Lf. assert (Y := X fuel ltac:(lia)). split; [|exact Y].
  destruct (F fuel ltac:(lia)) as [J' E]. assert (Z := Ag fuel _ E). congruence.
Qed.

Lemma debug_one f J : jp_history true t o n [f] J -> terms f <> [] ->
  (exists N J', (forall fuel, (N <= fuel)%nat -> jp_build fuel true J = Ok J' /\ jp_build fuel false J = Ok J') /\ jq J' = []) /\
  forall one, exists N J', (forall fuel, (N <= fuel)%nat -> jp_tq one fuel true J = Ok J' /\ jp_tq one fuel false J = Ok J') /\ jq J' = [].
Proof.
  intros Hd Nz. assert (H := d_history _ _ _ _ _ Hd). destruct (c94_total t o n Hn Ho f J H Nz) as [Rb Rt].
  assert (S := history_one t o n Hn Ho [f] J f H eq_refl Nz).
  assert (K : (exists N, forall fuel, (N <= fuel)%nat -> exists J', jp_build fuel true J = Ok J') /\ forall one, exists N, forall fuel, (N <= fuel)%nat -> exists J', jp_tq one fuel true J = Ok J').
  { assert (St := state_of t o n Hn Ho [f] J H). destruct (jone J) as [w|] eqn:Eo.
    { split; [|intro one]; exists 0%nat; intros fuel _; unfold jp_build, jp_tq; rewrite Eo; eauto. }
    destruct (start_cases t o n A J St) as [(w & C & _)|((Ja & Ej & Hi & Q) & _ & _)]; [congruence|].
    destruct (start_trees t o n Hn Ho [f] J H Eo) as (js & E1 & E2 & _ & _).
    assert (Et : jt (set_pos J) = jt J) by (unfold set_pos; destruct (jpos J <? q_pos (jq J)); reflexivity).
    assert (Ep : jq J <> [] -> jpos (set_pos J) = -1).
    { intros _. unfold jstate in St. rewrite Eo in St. destruct St as [Qr D]. unfold set_pos. rewrite (q_pos_ring t o n A _ Qr).
      destruct D as [(D1 & D2 & D3)|(Jb & D1 & D2 & D3)]; rewrite ?D1, ?D2; cbn; congruence. }
    unfold start in *. cbv zeta in *. rewrite E1, E2, Et in *. cbn [fst snd] in *. subst js.
    destruct S as [(_ & T0 & u & Eq & Eu)|[(_ & Eq & e & T1 & Pe)|((w & C) & _)]]; [| |congruence].
    - rewrite T0, Eq in *. assert (Hu := Forall_inv Q). split; [|intro one]; exists (Datatypes.S (length (terms (wpol u)))); intros fuel L; (destruct fuel as [|fuel]; [lia|]).
      + unfold jp_build. rewrite Eo. cbv zeta. rewrite E1, E2, Et, Ep by discriminate. rewrite block_tq_round.
        destruct (dblock Ja u (Datatypes.S fuel) Hi Hu ltac:(lia)) as ([[[js q] T]|J1] & -> & D); cbn [bind]; [subst q; destruct fuel; cbn [block_tq]; eauto|eauto].
      + unfold jp_tq. rewrite Eo. cbv zeta. rewrite E1, E2, Et, Ep by discriminate. rewrite tq_loop_round.
        destruct (dtq one Ja u (Datatypes.S fuel) Hi Hu ltac:(lia)) as ([[[js q] T]|J1] & -> & D); cbn [bind]; [subst q; destruct fuel; cbn [tq_loop]; eauto|eauto].
    - split; [|intro one]; exists 0%nat; intros fuel _; unfold jp_build, jp_tq; rewrite Eo; cbv zeta; rewrite E1, E2, Eq; destruct fuel; cbn [block_tq tq_loop]; eauto. }
  destruct K as [Kb Kt]. split.
  - exact (both _ _ (fun fuel => d_build fuel J) Kb Rb).
  - intro one. exact (both _ _ (fun fuel => d_tq one fuel J) (Kt one) (Rt one)).
Qed.
(** The first push returns. *)
Lemma debug_push f : ring_input t o n f -> exists J, jp_push true jp_empty f = Ok J /\ jp_history true t o n [f] J.
Proof.
  intro R. assert (X : exists J, jp_push true jp_empty f = Ok J).
  { unfold jp_push, assert_. cbn. destruct (is_zero f) eqn:Z; [eauto|]. unfold is_zero in Z. unfold p_lm. destruct (terms f) as [|[m c] l] eqn:E; [discriminate|]. cbn [bind].
    rewrite (CythonProofs.p_copy_id true f (proj1 R)). cbn [bind]. rewrite dins1; [cbn; eauto|]. cbn [wpol]. unfold is_zero. rewrite E. reflexivity. }
  destruct X as [J X]. exists J. split; [exact X|]. exact (hist_push true t o n [] jp_empty f J (hist_new _ _ _ _) R X).
Qed.
End P.

(** 2 x^2 - 4 y, and the constant 3. *)
Lemma debug_one_case : exists (f g : poly) (J K : jpoly), jp_history true TOP ODegLex 2 [f] J /\ terms f <> [] /\ length (terms f) = 2%nat /\
  jp_history true TOP ODegLex 2 [g] K /\ total (lead g) = 0%nat /\
  (exists J', jp_build 9 true J = Ok J' /\ jp_build 9 false J = Ok J' /\ length (basis J') = 1%nat) /\
  (exists K', jp_build 9 true K = Ok K' /\ map terms (basis K') = [[(Mon (-1) [0; 0]%nat, 1)]]) /\
  forall one, exists J', jp_tq one 9 true J = Ok J' /\ map terms (basis J') = [terms f].
Proof.
  assert (Rf : ring_input TOP ODegLex 2 PrincExamples.pr_f) by exact (Forall_inv PrincExamples.pr_in).
  destruct (debug_push TOP ODegLex 2 _ Rf) as (J & EJ & HJ).
  assert (Rg : ring_input TOP ODegLex 2 (JanetPolyExamples.pol ODegLex 2 [([0; 0]%nat, 3)])).
  { repeat split; cbn; repeat constructor; cbn; try lia; try discriminate. }
  destruct (debug_push TOP ODegLex 2 _ Rg) as (K & EK & HK).
  exists PrincExamples.pr_f, (JanetPolyExamples.pol ODegLex 2 [([0; 0]%nat, 3)]), J, K.
  split; [exact HJ|]. split; [discriminate|]. split; [reflexivity|]. split; [exact HK|]. split; [reflexivity|].
  vm_compute in EJ. injection EJ as <-. vm_compute in EK. injection EK as <-.
  split; [eexists; split; [vm_compute; reflexivity|split; vm_compute; reflexivity]|]. split; [eexists; split; vm_compute; reflexivity|].
  intros []; eexists; split; vm_compute; reflexivity.
Qed.
