(** Where the elements go: every polynomial pushed and every prolongation marked as built is in mT, in mQ, or was
    skipped by a criterion or vanished. *)
From Coq Require Import ZArith List Bool Arith Lia Permutation.
From Verif Require Import Outcome MonomModel MonomSpec JanetModel PolyModel JanetPolyModel TQModel JanetPolySpec JanetPolyProofs AncProofs CntModel CntSpec CntProofs.
Import ListNotations.
Local Open Scope Z_scope.

Definition bc (w : wrap) : nat := count_occ bool_dec (wbuild w) true.
Definition bf (l : list wrap) : nat := fold_right (fun w s => (bc w + s)%nat) 0%nat l.
Lemma bf_app a b : bf (a ++ b) = (bf a + bf b)%nat.
Proof. unfold bf. induction a as [|w a IH]; cbn [app fold_right]; [reflexivity|]. rewrite IH. lia. Qed.
Lemma bf_grows l l' : grows l l' -> bf l' = bf l.
Proof.
  unfold bf. induction 1 as [|u u' l l' (M1 & M2 & M3 & M4) A IH|u v l|l l' l'' A IH A' IH']; cbn [fold_right]; [reflexivity| |lia|congruence]. rewrite IH. unfold bc. rewrite M3. reflexivity.
Qed.
Lemma bc_false w m : wbuild w = repeat false m -> bc w = 0%nat.
Proof. unfold bc. intros ->. induction m as [|m IH]; cbn [repeat count_occ]; [reflexivity|]. destruct (bool_dec false true); [discriminate|exact IH]. Qed.
Lemma bc_update w m : bc w = 0%nat -> bc (update w m) = 0%nat.
Proof. unfold update. destruct (lex (wlm w) m =? 0); [auto|]. intros _. eapply bc_false. reflexivity. Qed.

Definition nob (q : list wpoly) : Prop := forall u, In u q -> bc (wwrap u) = 0%nat.
Lemma nob_sub q q' : wsub q' q -> nob q -> nob q'.
Proof.
  intros S B u Iu. assert (X : In (wwrap u) (map wwrap q)) by (apply S; apply in_map; exact Iu). apply in_map_iff in X as (v & <- & Iv). apply B. exact Iv.
Qed.

Definition crits (c : counts) : nat := (n_critI c + n_critII c)%nat.
Definition gone (c : counts) : nat := (crits c + n_zero c)%nat.
Definition B (js : list janet) : nat := bf (L js).

(** From js, nt elements in mT, q and c to js', nt', q' and c'; nothing is lost if x; there were never more equal elements
    than elements. *)
Definition kk (x : bool) (js : list janet) (nt : nat) (q : list wpoly) (c : counts) (js' : list janet) (nt' : nat) (q' : list wpoly) (c' : counts) : Prop :=
  small js -> small js' /\ (sound js' -> sound js /\ (nob q -> nob q' /\ (B js + crits c' <= B js' + crits c)%nat /\
    (forall K, n_equal c <= K + B js -> nt + length q + gone c <= K + B js -> n_equal c' <= K + B js')%nat /\
    exists lost : nat, (x = true -> lost = 0%nat) /\ (B js' + nt + length q + gone c = B js + nt' + length q' + gone c' + lost)%nat)).

Lemma kk_trans x a na qa ca b nb qb cb d nd qd cd : kk x a na qa ca b nb qb cb -> kk x b nb qb cb d nd qd cd -> kk x a na qa ca d nd qd cd.
Proof.
  intros H1 H2 Sm. destruct (H1 Sm) as [S1 X1]. destruct (H2 S1) as [S2 X2]. split; [exact S2|]. intro So. destruct (X2 So) as [So1 Y2]. destruct (X1 So1) as [So0 Y1]. split; [exact So0|].
  intro N. destruct (Y1 N) as (N1 & C1 & Q1 & l1 & Z1 & E1). destruct (Y2 N1) as (N2 & C2 & Q2 & l2 & Z2 & E2). split; [exact N2|]. split; [lia|].
  split; [intros K Ka Kb; apply Q2; [apply Q1; assumption|lia]|]. exists (l1 + l2)%nat. split; [|lia].
  intro T. rewrite (Z1 T), (Z2 T). reflexivity.
Qed.
(** Only the lists and the counters change. *)
Lemma kk_list x js nt q c q' c' : wsub q' q -> crits c' = crits c -> (n_equal c' <= Nat.max (n_equal c) (length q))%nat ->
  (exists lost : nat, (x = true -> lost = 0%nat) /\ (length q + gone c = length q' + gone c' + lost)%nat) -> kk x js nt q c js nt q' c'.
Proof.
  intros S C Me (lost & Z & E) Sm. split; [exact Sm|]. intro So. split; [exact So|]. intro N. split; [eapply nob_sub; eassumption|]. split; [lia|]. split; [intros K Ka Kb; lia|]. exists lost. split; [exact Z|lia].
Qed.
Lemma kk_refl x js nt q c : kk x js nt q c js nt q c.
Proof. apply kk_list; [apply wsub_refl|reflexivity|lia|]. exists 0%nat. split; [auto|lia]. Qed.
(** The counters change, but not these. *)
Lemma kk_cnt x js nt q c c' : crits c' = crits c -> n_zero c' = n_zero c -> n_equal c' = n_equal c -> kk x js nt q c js nt q c'.
Proof. intros C Z Me. apply kk_list; [apply wsub_refl|exact C|lia|]. exists 0%nat. split; [auto|]. unfold gone. rewrite C, Z. lia. Qed.
Lemma st_gone e c c' : step_of false e false c c' -> crits c' = crits c /\ n_zero c' = n_zero c.
Proof. intros (_ & Z & _ & P). destruct (P eq_refl) as [P1 P2]. split; [unfold crits; rewrite P1, P2; reflexivity|apply Z; reflexivity]. Qed.
Lemma kk_st x js nt q c c' : step_of false false false c c' -> kk x js nt q c js nt q c'.
Proof. intro S. destruct (st_gone _ _ _ S). apply kk_cnt; [assumption..|]. apply S. reflexivity. Qed.

(** A wrap enters a tree. *)
Lemma kk_put x dbg js k J u m J' nt q c : nth_error js k = Some J -> insert dbg J (update (wwrap u) m) = Ok J' -> kk x js nt (u :: q) c (put js k J') (S nt) q c.
Proof.
  intros E1 E2 Sm. destruct (put_step dbg js k J _ J' E1 E2) as [P1 P2]. split; [apply P1; exact Sm|]. intro So. destruct (P2 Sm So) as [P3 P4]. split; [exact P3|]. intro N.
  split; [intros v Iv; apply N; right; exact Iv|]. apply bf_grows in P4. unfold bf in P4. cbn [fold_right] in P4. fold (bf (L js)) in P4. fold (bf (L (put js k J'))) in P4.
  rewrite (bc_update (wwrap u) m) in P4 by (apply N; left; reflexivity). unfold B. split; [lia|]. split; [intros K; lia|]. exists 0%nat. split; [auto|]. cbn [length]. lia.
Qed.
Lemma enter_kk x dbg : forall l q nt js js' new c, enter dbg js l = Ok (js', new) -> kk x js nt (l ++ q) c js' (length new + nt)%nat q c.
Proof.
  induction l as [|u l IH]; intros q nt js js' new c E; cbn [enter] in E; [injection E as <- <-; apply kk_refl|]. bnd E. bnd E. bnd E. bnd E. bnd E. destruct v3 as [js1 e1].
  cbn [fst snd] in E. injection E as <- <-. apply tree_at_nth in Ev1. eapply kk_trans; [eapply kk_put; eassumption|]. cbn [length]. replace (S (length e1) + nt)%nat with (length e1 + S nt)%nat by lia.
  apply IH. exact Ev3.
Qed.
Lemma enter_w_kk x dbg js u js' w q nt c : enter_w dbg js u = Ok (js', w) -> kk x js nt (u :: q) c js' (S nt) q c.
Proof. unfold enter_w. intro E. bnd E. bnd E. bnd E. injection E as <- <-. apply tree_at_nth in Ev0. eapply kk_put; eassumption. Qed.

(** A prolongation is marked as built. *)
Lemma set_at_count : forall l k l', set_at l k = Some l' -> nth_error l k = Some false -> count_occ bool_dec l' true = S (count_occ bool_dec l true).
Proof.
  induction l as [|b l IH]; intros [|k] l' E F; cbn [set_at nth_error] in *; try discriminate.
  - injection E as <-. injection F as ->. reflexivity.
  - destruct (set_at l k) as [r|] eqn:Er; [|discriminate]. injection E as <-. apply IH in Er; [|exact F]. cbn [count_occ]. rewrite Er. destruct (bool_dec b true); reflexivity.
Qed.
Lemma set_build_count dbg w k w' : set_build dbg w k = Ok w' -> get_flag dbg (wbuild w) k = Ok false -> wlm w' = wlm w /\ bc w' = S (bc w).
Proof.
  unfold set_build, get_flag, oob. intros E F. destruct (nth_error (wbuild w) k) as [b|] eqn:En; [|destruct dbg; discriminate]. injection F as ->.
  destruct (set_at (wbuild w) k) as [l|] eqn:El; [|destruct dbg; discriminate]. injection E as <-. split; [reflexivity|]. unfold bc. cbn [wbuild]. eapply set_at_count; eassumption.
Qed.
Lemma kk_mark x js nt q c c' w w' q' : In w (L js) -> wlm w' = wlm w -> bc w' = S (bc w) -> (nob q -> nob q') ->
  n_equal c' = n_equal c -> (crits c' <= S (crits c))%nat -> (S (length q) + gone c = length q' + gone c')%nat ->
  kk x js nt q c (upd_trees (fun _ => w') (wlm w) js) nt q' c'.
Proof.
  intros I Em Eb Nq Me Cc Eq Sm. destruct (store_step js w w' I Em) as (S1 & S2 & S3). cbv zeta in S1, S3. split; [apply S1; exact Sm|]. intro So. destruct (S3 So) as (So' & a & b & E1 & E2).
  split; [exact So'|]. intro N. split; [auto|]. unfold B. rewrite E1, E2, !bf_app. unfold bf. cbn [fold_right]. rewrite Eb. fold (bf b). split; [lia|]. split; [intros K; lia|]. exists 0%nat. split; [auto|lia].
Qed.
Lemma k_prolong_kk x dbg mpos p nt : forall cnt k js w q c js' q' c', In w (L js) -> k_prolong dbg mpos cnt k js w p q c = Ok (js', q', c') -> kk x js nt q c js' nt q' c'.
Proof.
  induction cnt as [|cnt IH]; intros k js w q c js' q' c' Iw E; cbn [k_prolong] in E; [injection E as <- <- <-; apply kk_refl|]. bnd E. bnd E.
  destruct v; [destruct v0|]; cbn [andb negb] in E; [eapply IH; eassumption| |eapply IH; eassumption]. cbv zeta in E. bnd E.
  match type of E with (if ?b then _ else _) = _ => destruct b end.
  - bnd E. destruct (set_build_count dbg w k v0 Ev2 Ev0) as [Em Eb]. assert (I' := proj1 (proj2 (store_step js w v0 Iw Em))).
    eapply kk_trans; [|eapply IH; [exact I'|exact E]]. apply kk_mark; auto; unfold gone, crits; cbn; lia.
  - match type of E with (if ?b then _ else _) = _ => destruct b end.
    + bnd E. destruct (set_build_count dbg w k v0 Ev2 Ev0) as [Em Eb]. assert (I' := proj1 (proj2 (store_step js w v0 Iw Em))).
      eapply kk_trans; [|eapply IH; [exact I'|exact E]]. apply kk_mark; auto; unfold gone, crits; cbn; lia.
    + bnd E. destruct v0 as [nw w']. bnd E. bnd E. assert (Es := prolong_old _ _ _ _ _ Ev2). destruct (set_build_count dbg w k w' Es Ev0) as [Em Eb]. assert (I' := proj1 (proj2 (store_step js w w' Iw Em))).
      apply jp_insert_perm in Ev4.
      assert (Nw : bc nw = 0%nat).
      { unfold prolong_wrap in Ev2. bnd Ev2. bnd Ev2. bnd Ev2. apply assert_inv in Ev2. bnd Ev2. injection Ev2 as <- _. eapply bc_false. reflexivity. }
      eapply kk_trans; [|eapply IH; [exact I'|exact E]]. apply kk_mark; auto.
      * intros N u Iu. eapply Permutation_in in Iu; [|exact Ev4]. destruct Iu as [<-|Iu]; [exact Nw|apply N; exact Iu].
      * rewrite (Permutation_length Ev4). cbn [length]. lia.
Qed.
Lemma k_prolong_if_kk x dbg mpos dg js e q c r nt : k_prolong_if dbg mpos dg js e q c = Ok r -> kk x js nt q c (fst (fst r)) nt (snd (fst r)) (snd r).
Proof.
  unfold k_prolong_if. destruct (deg (fst e) <=? dg)%nat; [|intro E; injection E as <-; apply kk_refl].
  destruct (get_wrap js (fst e)) as [w|] eqn:Ew; [|discriminate]. destruct r as [[js' q'] c']. apply k_prolong_kk. eapply get_wrap_in. exact Ew.
Qed.

(* ------------------------------------------------------------------------------------------ *)
(** * build() *)

Lemma k_take_block_len fuel dbg find dg : forall q tmp c q1 tmp1 c1, k_take_block fuel dbg find dg q tmp c = Ok (Some (q1, tmp1), c1) ->
  (length q1 + length tmp1 <= length q + length tmp)%nat.
Proof.
  induction q as [|u q IH]; intros tmp c q1 tmp1 c1 E; cbn [k_take_block] in E; [injection E as <- <- _; lia|]. bnd E. destruct (deg v <=? dg)%nat; [|injection E as <- <- _; lia].
  bnd E. cbv zeta in E. cbn [length]. destruct (is_zero (fst v0)); [apply IH in E; lia|]. bnd E. destruct (deg v1 =? 0)%nat; [discriminate|]. bnd E. destruct v2 as [p2 k]. bnd E. bnd E.
  apply jp_insert_perm in Ev4. apply Permutation_length in Ev4. apply IH in E. cbn [length] in Ev4. lia.
Qed.
Lemma red_by_len dbg a : forall l tmp tmp', red_by dbg a l tmp = Ok tmp' -> (length tmp' <= length l + length tmp)%nat.
Proof.
  induction l as [|u l IH]; intros tmp tmp' E; cbn [red_by] in E; [injection E as <-; cbn; lia|]. bnd E. cbn [length]. destruct (is_zero v); [apply IH in E; lia|].
  bnd E. apply IH in E. apply jp_insert_perm in Ev0. apply Permutation_length in Ev0. cbn [length] in Ev0. lia.
Qed.
Lemma scan_len dbg : forall cnt pre l a b, scan cnt dbg pre l = Ok (a, b) -> (length a + length b = length pre + length l)%nat.
Proof.
  induction cnt as [|cnt IH]; intros pre [|k l] a b E; cbn [scan] in E; try discriminate.
  1,2: injection E as <- <-; reflexivity.
  bnd E. bnd E. destruct v0 as [[|e eqs] j].
  - bnd E. apply IH in E. apply red_all_wraps in Ev1. apply (f_equal (@length _)) in Ev1. rewrite !map_length in Ev1. rewrite app_length in E. cbn [length] in *. lia.
  - injection E as <- <-. apply same_lm_app in Ev0. rewrite Ev0. cbn [length app]. rewrite !app_length, rev_length. cbn [length]. lia.
Qed.
Lemma block_loop_len dbg : forall fuel tmp q tmp2 q2 dg, block_loop fuel dbg tmp q = Ok (tmp2, q2, dg) -> (length tmp2 + length q2 <= length tmp + length q)%nat.
Proof.
  induction fuel as [|fuel IH]; intros tmp q tmp2 q2 dg E; cbn [block_loop] in E; [discriminate|]. destruct tmp as [|u l]; [unfold null_head in E; destruct dbg; discriminate|].
  bnd E. bnd E. destruct v0 as [blk rest]. apply assert_inv in E. bnd E. apply same_deg_app in Ev0. subst l. destruct v0 as [tmp' [|w0 t2]].
  - injection E as <- <- <-. apply scan_len in Ev1. cbn [length] in *. rewrite !app_length. lia.
  - assert (Pm := min_norm_ok t2 w0 []). cbv zeta in Pm. cbn [app] in Pm. destruct (min_norm w0 [] t2) as [w others]. cbn [fst snd] in Pm. apply Permutation_length in Pm.
    bnd E. bnd E. apply assert_inv in E. apply IH in E. apply red_by_len in Ev2. apply jp_insert_perm, Permutation_length in Ev0. apply scan_len in Ev1. cbn [length] in *. rewrite !app_length in *. lia.
Qed.
Lemma kk_drop js nt q c q' c' : wsub q' q -> (length q' <= length q)%nat -> step_of false false false c c' -> kk false js nt q c js nt q' c'.
Proof.
  intros S Le St. destruct (st_gone _ _ _ St) as [C Z]. apply kk_list; [exact S|exact C|assert (Me : n_equal c' = n_equal c) by (apply St; reflexivity); lia|]. exists (length q - length q')%nat. split; [discriminate|]. unfold gone. rewrite C, Z. lia.
Qed.

Lemma k_merge_loop_kk x dbg fuel mpos dg nt : forall cnt js q d j k c js' q' T' c', k_merge_loop cnt fuel dbg mpos dg js q d j k c = Ok (js', q', T', c') ->
  kk x js nt q c js' nt q' c' /\ length T' = (length d + length j + length k)%nat.
Proof.
  induction cnt as [|cnt IH]; intros js q d j k c js' q' T' c' E; cbn [k_merge_loop] in E.
  { destruct j; [destruct k|]; try discriminate. injection E as <- <- <- <-. split; [apply kk_refl|cbn; lia]. }
  cbv zeta in E.
  destruct j as [|e j], k as [|e' k].
  - injection E as <- <- <- <-. split; [apply kk_refl|cbn; lia].
  - bnd E. bnd E. apply IH in E as [K Le]. rewrite app_length in Le. cbn [length] in *. split; [|lia].
    eapply kk_trans; [eapply kk_st, k_tail_reduce_st; eassumption|]. eapply kk_trans; [eapply k_prolong_if_kk; eassumption|exact K].
  - bnd E. apply assert_inv in E. bnd E. apply IH in E as [K Le]. rewrite app_length in Le. cbn [length] in *. split; [|lia].
    eapply kk_trans; [eapply k_prolong_if_kk; eassumption|exact K].
  - bnd E. destruct (v <? 0).
    + bnd E. apply assert_inv in E. bnd E. apply IH in E as [K Le]. rewrite app_length in Le. cbn [length] in *. split; [|lia].
      eapply kk_trans; [eapply k_prolong_if_kk; eassumption|exact K].
    + bnd E. bnd E. apply IH in E as [K Le]. rewrite app_length in Le. cbn [length] in *. split; [|lia].
      eapply kk_trans; [eapply kk_st, k_tail_reduce_st; eassumption|]. eapply kk_trans; [eapply k_prolong_if_kk; eassumption|exact K].
Qed.

(** What a call gives. *)
Definition kgives (x : bool) (js : list janet) (nt : nat) (q : list wpoly) (c : counts) (s : jpoly * counts) : Prop :=
  jone (fst s) = None -> exists js', jtrees (fst s) = Some js' /\ kk x js nt q c js' (length (jt (fst s))) (jq (fst s)) (snd s).
Lemma kg_kk x a na qa ca b nb qb cb s : kk x a na qa ca b nb qb cb -> kgives x b nb qb cb s -> kgives x a na qa ca s.
Proof. intros K H O. destruct (H O) as (js' & E & X). exists js'. split; [exact E|]. eapply kk_trans; eassumption. Qed.
Lemma kg_one x dbg t o n mpos js nt q c c' s : (do J <- set_one dbg t o n mpos; Ok (J, c')) = Ok s -> kgives x js nt q c s.
Proof. unfold set_one. intro E. bnd E. injection E as <-. bnd Ev. bnd Ev. injection Ev as <-. intro O. discriminate. Qed.
Lemma kg_nil x js T mpos c : kgives x js (length T) [] c (JP None [] T mpos (Some js), c).
Proof. intros _. exists js. split; [reflexivity|apply kk_refl]. Qed.

Lemma k_block_gives dbg mpos : forall fuel js q T c s, k_block fuel dbg mpos js q T c = Ok s -> kgives false js (length T) q c s.
Proof.
  induction fuel as [|fuel IH]; intros js q T c s E; destruct q as [|u q]; cbn [k_block] in E; try discriminate.
  1,2: injection E as <-; apply kg_nil.
  bnd E. bnd E. destruct v0 as [[[q1 tmp]|] c1]; [|eapply kg_one; exact E]. apply assert_inv in E. assert (S0 := k_take_block_st _ _ _ _ _ _ _ _ Ev0). cbn [snd] in S0.
  assert (L0 := k_take_block_len _ _ _ _ _ _ _ _ _ _ Ev0). assert (W0 := k_take_block_same (S fuel) dbg (find_poly dbg mpos (Some js) T) (deg v) (u :: q) [] c).
  rewrite Ev0 in W0. cbn [forget bind fst] in W0. symmetry in W0. apply take_block_sub in W0. rewrite app_nil_r in W0.
  destruct tmp as [|w tmp].
  - rewrite app_nil_r in W0. eapply kg_kk; [eapply kk_drop; [exact W0| |exact S0]; cbn [length] in *; lia|]. eapply IH. exact E.
  - bnd E. destruct v0 as [[tmp2 q2] dg]. bnd E. destruct v0 as [js2 new]. bnd E. destruct v0 as [[[js3 q3] t3] c3]. bnd E. apply assert_inv in E.
    assert (L1 := block_loop_len _ _ _ _ _ _ _ Ev1). apply block_loop_sub in Ev1. apply (enter_kk false dbg tmp2 q2 (length T) js js2 new c1) in Ev2.
    apply (k_merge_loop_kk false _ _ _ _ (length new + length T)%nat) in Ev3 as [K3 L3]. cbn [length] in L3.
    eapply kg_kk; [|eapply IH; exact E]. replace (length t3) with (length new + length T)%nat by lia. eapply kk_trans; [|exact K3]. eapply kk_trans; [|exact Ev2].
    eapply kk_drop; [| |exact S0].
    + eapply wsub_trans; [exact Ev1|]. eapply wsub_trans; [|exact W0]. apply wsub_perm. apply Permutation_app_comm.
    + rewrite app_length. cbn [length] in *. lia.
Qed.

(* ------------------------------------------------------------------------------------------ *)
(** * algorithmTQ and algorithmTQ1 *)

Lemma k_take_len one fuel dbg find dg : forall q tmp c q1 tmp1 c1, k_take one fuel dbg find dg q tmp c = Ok (Some (q1, tmp1), c1) ->
  crits c1 = crits c /\ exists lost : nat, (one = true -> lost = 0%nat) /\ (length q + length tmp + n_zero c = length q1 + length tmp1 + n_zero c1 + lost)%nat.
Proof.
  induction q as [|u q IH]; intros tmp c q1 tmp1 c1 E; cbn [k_take] in E.
  { injection E as <- <- <-. split; [reflexivity|]. exists 0%nat. split; [auto|lia]. }
  bnd E. destruct (deg v <=? dg)%nat.
  2:{ injection E as <- <- <-. split; [reflexivity|]. exists 0%nat. split; [auto|lia]. }
  bnd E. destruct v0 as [p k]. cbn [length]. destruct (is_zero p).
  - apply IH in E as (C & lost & Zl & E). destruct one.
    + split; [rewrite C; reflexivity|]. exists lost. split; [exact Zl|]. cbn [inc_zero n_zero] in E. lia.
    + split; [exact C|]. exists (S lost). split; [discriminate|lia].
  - bnd E. destruct (deg v0 =? 0)%nat; [discriminate|]. bnd E. bnd E. apply jp_insert_perm, Permutation_length in Ev3. cbn [length] in Ev3.
    apply IH in E as (C & lost & Zl & E). assert (X : crits (if (k =? 0)%nat then c else add_red k c) = crits c /\ n_zero (if (k =? 0)%nat then c else add_red k c) = n_zero c) by (destruct (k =? 0)%nat; auto).
    destruct X as [X1 X2]. split; [congruence|]. exists lost. split; [exact Zl|lia].
Qed.
Lemma k_red_eq_len dbg a : forall l c l' c', k_red_eq dbg a l c = Ok (l', c') -> (length l + n_zero c = length l' + n_zero c')%nat.
Proof.
  induction l as [|u l IH]; intros c l' c' E; cbn [k_red_eq] in E; [injection E as <- <-; reflexivity|]. bnd E. cbn [length]. destruct (is_zero v).
  - apply IH in E. cbn [inc_zero n_zero] in E. lia.
  - bnd E. bnd E. injection E as <- <-. destruct v1 as [r c1]. apply IH in Ev1. cbn [fst snd length]. lia.
Qed.
Lemma k_walk_kk x dbg fuel mpos dg nt : forall cnt js q d w k c js' q' T' c', k_walk cnt fuel dbg mpos dg js q d w k c = Ok (js', q', T', c') ->
  kk x js nt q c js' nt q' c' /\ length T' = (length d + match w with Some _ => 1 | None => 0 end + length k)%nat.
Proof.
  induction cnt as [|cnt IH]; intros js q d w k c js' q' T' c' E; cbn [k_walk] in E.
  { destruct w; [discriminate|destruct k; [|discriminate]]. injection E as <- <- <- <-. split; [apply kk_refl|cbn; lia]. }
  cbv zeta in E.
  destruct w as [e|], k as [|e' k].
  - bnd E. bnd E. apply IH in E as [K Le]. rewrite app_length in Le. cbn [length] in *. split; [|lia].
    eapply kk_trans; [eapply kk_st, k_tail_reduce_st; eassumption|]. eapply kk_trans; [eapply k_prolong_if_kk; eassumption|exact K].
  - bnd E. destruct (v <? 0); bnd E; bnd E; apply IH in E as [K Le]; rewrite app_length in Le; cbn [length] in *; (split; [|lia]);
      (eapply kk_trans; [eapply kk_st, k_tail_reduce_st; eassumption|]); (eapply kk_trans; [eapply k_prolong_if_kk; eassumption|exact K]).
  - injection E as <- <- <- <-. split; [apply kk_refl|cbn; lia].
  - bnd E. bnd E. apply IH in E as [K Le]. rewrite app_length in Le. cbn [length] in *. split; [|lia].
    eapply kk_trans; [eapply kk_st, k_tail_reduce_st; eassumption|]. eapply kk_trans; [eapply k_prolong_if_kk; eassumption|exact K].
Qed.
Lemma max_gone k c : crits (max_equal k c) = crits c /\ n_zero (max_equal k c) = n_zero c.
Proof. unfold max_equal. destruct (n_equal c <? k)%nat; auto. Qed.

Lemma k_tq_gives one dbg mpos : forall fuel js q T c s, k_tq_loop one fuel dbg mpos js q T c = Ok s -> kgives one js (length T) q c s.
Proof.
  induction fuel as [|fuel IH]; intros js q T c s E; destruct q as [|u q]; cbn [k_tq_loop] in E; try discriminate.
  1,2: injection E as <-; apply kg_nil.
  cbv zeta in E. bnd E. bnd E. destruct v0 as [[[q1 tmp]|] c1]; [|eapply kg_one; exact E]. apply assert_inv in E.
  assert (W0 := k_take_same one (S fuel) dbg (find_poly dbg mpos (Some js) T) (deg v) (u :: q) [] c). rewrite Ev0 in W0. cbn [forget bind fst] in W0. symmetry in W0. apply take_tq_sub in W0. rewrite app_nil_r in W0.
  destruct (k_take_len _ _ _ _ _ _ _ _ _ _ _ Ev0) as (C1 & lost & Zl & L1). cbn [length] in L1.
  assert (M1 : n_equal c1 = n_equal c) by (apply k_take_st in Ev0; apply Ev0; reflexivity).
  assert (M1z : (n_zero c <= n_zero c1)%nat) by (apply k_take_st in Ev0; apply Ev0).
  destruct tmp as [|w0 tmp].
  - rewrite app_nil_r in W0. cbn [length] in L1. eapply kg_kk; [|eapply IH; exact E]. apply kk_list; [exact W0|exact C1|rewrite M1; lia|]. exists lost. split; [exact Zl|]. unfold gone. rewrite C1. cbn [length]. lia.
  - bnd E. bnd E. destruct v1 as [eqs rest]. apply same_lm_app in Ev2. subst tmp. bnd E. bnd E.
    assert (E1 : wwrap (fst v1) = wwrap w0) by (destruct one; [bnd Ev2; injection Ev2 as <-; reflexivity|injection Ev2 as <-; reflexivity]).
    assert (S1 : step_of false false false c1 (snd v1)) by (destruct one; [bnd Ev2; injection Ev2 as <-; cbn [snd]; eapply k_tail_pp_st; eassumption|injection Ev2 as <-; apply st_refl]).
    assert (E2 : map wwrap (fst v2) = map wwrap eqs).
    { destruct one; [|injection Ev3 as <-; reflexivity]. assert (X := k_tails_same (S fuel) dbg (find_poly dbg mpos (Some js) T) eqs (snd v1)). rewrite Ev3 in X. cbn [forget bind] in X. symmetry in X. eapply tails_wraps. exact X. }
    assert (S2 : step_of false false false (snd v1) (snd v2)) by (destruct one; [eapply k_tails_st; eassumption|injection Ev3 as <-; apply st_refl]).
    assert (S12 := st_trans _ _ _ _ _ _ S1 S2). destruct (st_gone _ _ _ S12) as [C2 Z2]. destruct (max_gone (S (length eqs)) (snd v2)) as [C3 Z3]. set (c3 := max_equal (S (length eqs)) (snd v2)) in *.
    assert (Sm := swap_min_perm (fst v2) (fst v1)). destruct (swap_min (fst v1) (fst v2)) as [w eqs2].
    assert (Ll : length (fst v2) = length eqs) by (apply (f_equal (@length _)) in E2; rewrite !map_length in E2; exact E2).
    assert (Lp := Permutation_length Sm). cbn [length] in Lp, L1. rewrite app_length in L1.
    assert (Sw : wsub (w :: eqs2 ++ rest ++ q1) (u :: q)).
    { eapply wsub_trans; [|exact W0]. eapply wsub_trans with (b := (fst v1 :: fst v2) ++ rest ++ q1); [apply wsub_perm; change (w :: eqs2 ++ rest ++ q1) with ((w :: eqs2) ++ rest ++ q1); rewrite Sm; reflexivity|].
      eapply wsub_trans with (b := (w0 :: eqs) ++ rest ++ q1); [apply wsub_app; [apply wsub_cons; [exact E1|apply wsub_map; exact E2]|apply wsub_refl]|].
      apply wsub_perm. change (w0 :: eqs ++ rest) with ((w0 :: eqs) ++ rest). rewrite app_assoc. apply Permutation_app_comm. }
    assert (K0 : kk one js (length T) (u :: q) c js (length T) (w :: eqs2 ++ rest ++ q1) c3).
    { apply kk_list; [exact Sw|congruence|unfold c3, max_equal; assert (n_equal (snd v2) = n_equal c1) by (apply S12; reflexivity); destruct (n_equal (snd v2) <? S (length eqs))%nat; cbn [n_equal length]; lia|]. exists lost. split; [exact Zl|]. unfold gone. rewrite C3, C2, C1, Z3, Z2. cbn [length]. rewrite !app_length. lia. }
    destruct (one && negb (length eqs2 =? 0)%nat) eqn:Eo.
    + destruct one; [|discriminate]. bnd E. destruct v3 as [eqs3 c4]. cbn [fst snd] in E. bnd E. bnd E. apply assert_inv in E.
      assert (L4 := k_red_eq_len _ _ _ _ _ _ Ev4). assert (S4 := k_red_eq_st _ _ _ _ _ Ev4). cbn [snd] in S4.
      assert (W4 := k_red_eq_same dbg (wpol w) eqs2 c3). rewrite Ev4 in W4. cbn [forget bind fst] in W4. symmetry in W4. apply red_eq_sub in W4.
      apply jp_insert_perm in Ev5. apply insert_all_perm in Ev6.
      eapply kg_kk; [|eapply IH; exact E]. eapply kk_trans; [exact K0|].
      assert (C4 : crits c4 = crits c3) by (destruct S4 as (_ & _ & _ & X); destruct (X eq_refl) as [X1 X2]; unfold crits; congruence).
      apply kk_list; [|exact C4|assert (n_equal c4 = n_equal c3) by (apply S4; reflexivity); lia|].
      * eapply wsub_trans; [apply wsub_perm; exact Ev6|]. eapply wsub_trans with (b := eqs3 ++ w :: rest ++ q1); [apply wsub_perm; rewrite Ev5; reflexivity|].
        eapply wsub_trans with (b := eqs2 ++ w :: rest ++ q1); [apply wsub_app; [exact W4|apply wsub_refl]|]. apply wsub_perm. symmetry. apply Permutation_middle.
      * exists 0%nat. split; [auto|]. apply Permutation_length in Ev5, Ev6. rewrite app_length in Ev6. cbn [length] in Ev5. unfold gone. rewrite C4. cbn [length]. rewrite !app_length in *. lia.
    + apply assert_inv in E. bnd E. destruct v3 as [js2 w']. apply (enter_w_kk one dbg js w js2 w' ((eqs2 ++ rest) ++ q1) (length T) c3) in Ev4.
      bnd E. destruct v3 as [[[js3 q3] t3] c4]. bnd E. apply assert_inv in E. eapply kg_kk; [|eapply IH; exact E].
      eapply kk_trans; [exact K0|]. rewrite app_assoc. eapply kk_trans; [exact Ev4|].
      destruct T as [|e0 T]; [injection Ev5 as <- <- <- <-; apply kk_refl|]. apply (k_walk_kk one _ _ _ _ (S (length (e0 :: T)))) in Ev5 as [K L5]. replace (length t3) with (S (length (e0 :: T))) by (cbn [length] in *; lia). exact K.
Qed.
