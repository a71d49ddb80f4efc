(** Every tree of JanetPolyInt holds wraps of its own position, for polynomials with any positions. *)
From Coq Require Import ZArith List Bool Arith Lia Permutation.
From Verif Require Import Outcome MonomModel MonomSpec PolyModel PolySpec PolyProofs IdealProofs JanetModel JanetPolyModel JanetPolySpec TQModel AncProofs ModSpec ModProofs.
Import ListNotations.
Local Open Scope Z_scope.

(** Leading monomials of l' come from l. *)
Definition from (l l' : list wrap) : Prop := forall x', In x' l' -> exists x, In x l /\ wlm x = wlm x'.
Lemma from_incl l l' : incl l' l -> from l l'.
Proof. intros H x' I. exists x'. auto. Qed.
Lemma from_F2 l l' : Forall2 more l l' -> from l l'.
Proof. induction 1 as [|u u' l l' M _ IH]; intros x' I; [destruct I|]. destruct I as [<- |I]; [exists u; split; [left; reflexivity|]; symmetry; apply M|]. destruct (IH x' I) as (x & Ix & E). exists x. split; [right; exact Ix|exact E]. Qed.
Lemma from_trans a b c : from a b -> from b c -> from a c.
Proof. intros H1 H2 x I. destruct (H2 x I) as (y & Iy & E1). destruct (H1 y Iy) as (z & Iz & E2). exists z. split; [exact Iz|congruence]. Qed.
Lemma from_app l a b : from l a -> from l b -> from l (a ++ b).
Proof. intros H1 H2 x I. apply in_app_or in I as [I|I]; auto. Qed.
Lemma from_more l l0 l' : incl l0 l -> from l0 l' -> from l l'.
Proof. intros H1 H2 x I. destruct (H2 x I) as (y & Iy & E). exists y. auto. Qed.
Lemma from_head w v l l' : wlm v = wlm w -> from (v :: l) l' -> from (w :: l) l'.
Proof. intros E H x I. destruct (H x I) as (y & [<- |Iy] & Ey); [exists w; split; [left; reflexivity|congruence]|exists y; split; [right; exact Iy|exact Ey]]. Qed.

Lemma ins_loop_from dbg : forall j w d var r, ins_loop dbg w d var j = Ok r -> from (w :: wraps j) (wraps r).
Proof.
  induction j as [|dg ow nd IHd nv IHv]; intros w d var r E; cbn [ins_loop] in E.
  { apply build_at_wraps in E. rewrite E. apply from_incl, incl_refl. }
  apply assert_inv in E. bnd E. rewrite wraps_node.
  assert (Io : incl (ol ow) (w :: ol ow ++ wraps nv ++ wraps nd)) by (intros x I; right; apply in_or_app; left; exact I).
  assert (Iv : incl (wraps nv) (w :: ol ow ++ wraps nv ++ wraps nd)) by (intros x I; right; apply in_or_app; right; apply in_or_app; left; exact I).
  assert (Id : incl (wraps nd) (w :: ol ow ++ wraps nv ++ wraps nd)) by (intros x I; right; apply in_or_app; right; apply in_or_app; right; exact I).
  assert (Iw : In w (w :: ol ow ++ wraps nv ++ wraps nd)) by (left; reflexivity).
  destruct (Nat.ltb dg v && negb (is_nil nd)).
  { bnd E. injection E as <-. apply IHd in Ev0. rewrite wraps_node. apply from_app; [apply from_incl; exact Io|]. apply from_app; [apply from_incl; exact Iv|].
    eapply from_more; [|exact Ev0]. apply incl_cons; assumption. }
  destruct (Nat.ltb v dg).
  { bnd E. apply build_at_wraps in E. rewrite E, wraps_node. apply (from_head w v0); [apply (set_nm_more _ _ _ _ Ev0)|]. apply from_incl, incl_refl. }
  destruct (Nat.ltb dg v).
  { bnd E. bnd E. bnd E. injection E as <-. apply build_at_wraps in Ev2. apply set_nm_tree_more in Ev1. apply opt_ol in Ev0. apply from_F2 in Ev0, Ev1.
    rewrite wraps_node, Ev2. apply from_app; [exact (from_more _ _ _ Io Ev0)|]. apply from_app; [exact (from_more _ _ _ Iv Ev1)|]. apply from_incl. cbn [wraps]. apply incl_cons; [exact Iw|intros ? []]. }
  bnd E. assert (M1 : wlm v0 = wlm w) by (destruct (is_nil nd); [injection Ev0 as <-; reflexivity|apply (set_nm_more _ _ _ _ Ev0)]).
  bnd E. assert (M2 : Forall2 more (ol ow) (ol v1)).
  { destruct ow as [u|]; [|injection Ev1 as <-; constructor].
    destruct (first_gt _ _ _); [eapply opt_ol; exact Ev1|injection Ev1 as <-; apply all_more]. }
  destruct (Nat.ltb d v); [discriminate|]. destruct (Nat.eqb (d - v) 0).
  { assert (X : (do w2 <- JanetModel.walk dbg v0 (S var) nv; Ok (Node dg (Some w2) nd nv)) = Ok r).
    { destruct v1; [destruct dbg; [discriminate|exact E]|exact E]. }
    bnd X. injection X as <-. apply walk_more in Ev2. rewrite wraps_node. cbn [ol]. apply from_app; [|apply from_app; apply from_incl; assumption].
    intros x [<- |[]]. exists w. split; [left; reflexivity|]. destruct Ev2 as [X _]. congruence. }
  bnd E. assert (M3 : Forall2 more (ol v1) (ol v2)).
  { destruct (is_nil nv); [|injection Ev2 as <-; apply all_more]. destruct v1 as [u|]; [|destruct dbg; discriminate]. bnd Ev2. eapply opt_ol. exact Ev2. }
  bnd E. injection E as <-. apply IHv in Ev3. rewrite wraps_node. apply from_app; [|apply from_app; [|apply from_incl; exact Id]].
  - apply from_F2 in M2, M3. eapply from_trans; [|exact M3]. exact (from_more _ _ _ Io M2).
  - apply (from_head w v0) in Ev3; [|exact M1]. eapply from_more; [|exact Ev3]. apply incl_cons; assumption.
Qed.
Lemma insert_from dbg J w J' : insert dbg J w = Ok J' -> from (w :: wraps (jroot J)) (wraps (jroot J')).
Proof.
  unfold insert. intro E. bnd E. destruct v; [discriminate|]. bnd E.
  assert (X : J' = JT (S (jsize J)) v).
  { destruct dbg; [|injection E as <-; reflexivity]. bnd E. destruct v0; [|discriminate]. apply assert_inv in E. injection E as <-. reflexivity. }
  subst J'. cbn [jroot]. unfold ins_root in Ev0. destruct (jroot J) as [|dg ow nd nv].
  - apply build_at_wraps in Ev0. rewrite Ev0. apply from_incl, incl_refl.
  - eapply ins_loop_from. exact Ev0.
Qed.

(** The tree with number k is that of position k - 1. *)
Definition tp (js : list janet) : Prop := forall k J u, nth_error js k = Some J -> In u (wraps (jroot J)) -> Z.of_nat k = pos (wlm u) + 1.

Lemma put_nth (js : list janet) k J i : (k < length js)%nat -> nth_error (firstn k js ++ J :: skipn (S k) js) i = if (i =? k)%nat then Some J else nth_error js i.
Proof.
  revert k i. induction js as [|x js IH]; intros k i H; cbn [length] in H; [lia|]. destruct k as [|k]; destruct i as [|i]; cbn [firstn skipn app nth_error Nat.eqb]; try reflexivity. apply IH. lia.
Qed.
Lemma put_tp dbg js w J J' : tp js -> -1 <= pos (wlm w) -> tree_at dbg js (pos (wlm w)) = Ok J -> insert dbg J w = Ok J' ->
  tp (firstn (Z.to_nat (pos (wlm w) + 1)) js ++ J' :: skipn (S (Z.to_nat (pos (wlm w) + 1))) js).
Proof.
  intros T Hp Ha Ei k K u Hk Hu. assert (Len := tree_at_len _ _ _ _ Ha). apply tree_at_nth in Ha. rewrite put_nth in Hk by exact Len. destruct (Nat.eqb_spec k (Z.to_nat (pos (wlm w) + 1))) as [-> |N].
  - injection Hk as <-. destruct (insert_from _ _ _ _ Ei u Hu) as (x & [<- |Ix] & E); rewrite <- E; [lia|]. exact (T _ _ _ Ha Ix).
  - exact (T _ _ _ Hk Hu).
Qed.
Lemma tree_at_low dbg js p J : tree_at dbg js p = Ok J -> -1 <= p.
Proof. unfold tree_at, oob. destruct (Z.ltb_spec p (-1)); [destruct dbg; discriminate|lia]. Qed.
Lemma enter_tp dbg : forall l js js' new, enter dbg js l = Ok (js', new) -> tp js -> tp js'.
Proof.
  induction l as [|u l IH]; intros js js' new E T; cbn [enter] in E; [injection E as <- _; exact T|]. bnd E. bnd E. bnd E. bnd E. bnd E.
  injection E as <- _. destruct v3 as [a b]. cbn [fst]. eapply IH; [exact Ev3|]. eapply put_tp; [exact T|eapply tree_at_low; exact Ev1|exact Ev1|exact Ev2].
Qed.
Lemma enter_w_tp dbg js u js' w : enter_w dbg js u = Ok (js', w) -> tp js -> tp js'.
Proof. unfold enter_w. intros E T. bnd E. bnd E. bnd E. injection E as <- _. eapply put_tp; [exact T|eapply tree_at_low; exact Ev0|exact Ev0|exact Ev1]. Qed.
Lemma upd_tp w' m js : wlm w' = m -> tp js -> tp (upd_trees (fun _ => w') m js).
Proof.
  intros Em T k J u Hk Hu. unfold upd_trees in Hk. rewrite nth_error_map in Hk. destruct (nth_error js k) as [J0|] eqn:E0; [|discriminate]. injection Hk as <-. cbn [jroot] in Hu.
  rewrite wraps_upd in Hu. apply in_map_iff in Hu as (x & E & Ix). assert (X := T _ _ _ E0 Ix). destruct (same_key (wlm x) m) eqn:K; [|rewrite <- E; exact X].
  unfold same_key in K. apply andb_true_iff in K as [K _]. apply Z.eqb_eq in K. rewrite <- E, Em. lia.
Qed.
Lemma prolong_tp dbg mpos : forall cnt k js w p q js' q', jp_prolong dbg mpos cnt k js w p q = Ok (js', q') -> tp js -> tp js'.
Proof.
  induction cnt as [|cnt IH]; intros k js w p q js' q' E T; cbn [jp_prolong] in E; [injection E as <- _; exact T|]. bnd E. bnd E.
  destruct v; [destruct v0|]; cbn [andb negb] in E; [eapply IH; eassumption| |eapply IH; eassumption]. apply get_flag_nth in Ev. bnd E.
  match type of E with (if ?c then _ else _) = _ => destruct c end.
  - bnd E. destruct (set_build_ok dbg w k v0 Ev2 Ev) as (Em & _). eapply IH; [exact E|]. apply upd_tp; assumption.
  - bnd E. destruct v0 as [nw w']. bnd E. bnd E. assert (Eb := prolong_old _ _ _ _ _ Ev2). destruct (set_build_ok dbg w k w' Eb Ev) as (Em & _). eapply IH; [exact E|]. apply upd_tp; assumption.
Qed.
Lemma prolong_if_tp dbg mpos dg js e q r : prolong_if dbg mpos dg js e q = Ok r -> tp js -> tp (fst r).
Proof.
  unfold prolong_if, prolong_entry. destruct (deg (fst e) <=? dg)%nat; [|intro E; injection E as <-; auto].
  destruct (get_wrap js (fst e)); [|discriminate]. destruct r as [a b]. intro E. eapply prolong_tp. exact E.
Qed.
Lemma merge_tp fuel dbg mpos dg : forall cnt js q d j k js' q' t', merge_loop cnt fuel dbg mpos dg js q d j k = Ok (js', q', t') -> tp js -> tp js'.
Proof.
  induction cnt as [|cnt IH]; intros js q d j k js' q' t' E T; cbn [merge_loop] in E; [destruct j, k; try discriminate; injection E as <- _ _; exact T|].
  destruct j as [|e j], k as [|e' k]; [injection E as <- _ _; exact T| | |].
  - bnd E. bnd E. apply prolong_if_tp in Ev0; [|exact T]. eapply IH; eassumption.
  - bnd E. apply assert_inv in E. bnd E. apply prolong_if_tp in Ev0; [|exact T]. eapply IH; eassumption.
  - bnd E. destruct (v <? 0).
    + bnd E. apply assert_inv in E. bnd E. apply prolong_if_tp in Ev1; [|exact T]. eapply IH; eassumption.
    + bnd E. bnd E. apply prolong_if_tp in Ev1; [|exact T]. eapply IH; eassumption.
Qed.
Lemma walk_tp fuel dbg mpos dg : forall cnt js q d w k js' q' t', walk cnt fuel dbg mpos dg js q d w k = Ok (js', q', t') -> tp js -> tp js'.
Proof.
  induction cnt as [|cnt IH]; intros js q d w k js' q' t' E T; cbn [walk] in E; [destruct w, k; try discriminate; injection E as <- _ _; exact T|].
  destruct w as [e|], k as [|e' k]; [| |injection E as <- _ _; exact T|].
  - bnd E. bnd E. apply prolong_if_tp in Ev0; [|exact T]. eapply IH; eassumption.
  - bnd E. destruct (v <? 0); bnd E; bnd E; (apply prolong_if_tp in Ev1; [|exact T]); eapply IH; eassumption.
  - bnd E. bnd E. apply prolong_if_tp in Ev0; [|exact T]. eapply IH; eassumption.
Qed.

Definition tpJ (J : jpoly) : Prop := forall js, jtrees J = Some js -> tp js.
Lemma set_one_tp dbg t o n mpos J : set_one dbg t o n mpos = Ok J -> tpJ J.
Proof. unfold set_one. intro E. bnd E. bnd E. injection E as <-. intros js X. discriminate. Qed.
Lemma block_tp dbg mpos : forall fuel js q t J, tp js -> block_tq fuel dbg mpos js q t = Ok J -> tpJ J.
Proof.
  induction fuel as [|fuel IH]; intros js q t J T E; cbn [block_tq] in E; destruct q as [|u q]; try discriminate.
  1,2: injection E as <-; intros js' X; injection X as <-; exact T.
  bnd E. bnd E. destruct v0 as [[q1 tmp]|]; [|eapply set_one_tp; exact E]. apply assert_inv in E. destruct tmp as [|x tmp]; [eapply IH; eassumption|].
  bnd E. destruct v0 as [[tmp2 q2] dg]. bnd E. destruct v0 as [js2 new]. bnd E. destruct v0 as [[js3 q3] t3]. bnd E. apply assert_inv in E.
  apply enter_tp in Ev2; [|exact T]. apply merge_tp in Ev3; [|exact Ev2]. eapply IH; [exact Ev3|exact E].
Qed.
Lemma tq_tp one dbg mpos : forall fuel js q t J, tp js -> tq_loop one fuel dbg mpos js q t = Ok J -> tpJ J.
Proof.
  induction fuel as [|fuel IH]; intros js q t J T E; cbn [tq_loop] in E; destruct q as [|u q]; try discriminate.
  1,2: injection E as <-; intros js' X; injection X as <-; exact T.
  bnd E. bnd E. destruct v0 as [[q1 tmp]|]; [|eapply set_one_tp; exact E]. apply assert_inv in E. destruct tmp as [|w0 tmp0]; [eapply IH; eassumption|].
  bnd E. bnd E. destruct v1 as [eqs rest]. bnd E. bnd E. destruct (swap_min v1 v2) as [w eqs2]. destruct (one && negb (length eqs2 =? 0)%nat).
  - bnd E. bnd E. bnd E. apply assert_inv in E. eapply IH; eassumption.
  - apply assert_inv in E. bnd E. destruct v3 as [js2 w']. bnd E. destruct v3 as [[js3 q3] t3]. bnd E. apply assert_inv in E. apply enter_w_tp in Ev5; [|exact T].
    eapply IH; [|exact E]. destruct t as [|e t]; [injection Ev6 as <- _ _; exact Ev5|apply walk_tp in Ev6; assumption].
Qed.
Lemma nth_first {A} (l : list A) k i : nth_error (firstn k l) i = if (i <? k)%nat then nth_error l i else None.
Proof. revert k i. induction l as [|x l IH]; intros [|k] [|i]; cbn [firstn nth_error]; try reflexivity; [destruct (_ <? _)%nat; reflexivity|]. rewrite IH. reflexivity. Qed.
Lemma set_pos_tp J : tpJ J -> tpJ (set_pos J).
Proof.
  intros T. unfold set_pos. destruct (jpos J <? q_pos (jq J)); [|exact T]. intros js E. cbn [jtrees] in E. injection E as <-. intros k K u Hk Hu.
  set (old := match jtrees J with Some js => firstn (Z.to_nat (jpos J + 2)) js | None => [] end) in *.
  destruct (Nat.ltb_spec k (length old)) as [Lt|Ge].
  - rewrite nth_error_app1 in Hk by exact Lt. unfold old in Hk. destruct (jtrees J) as [js|] eqn:Et; [|destruct k; discriminate].
    rewrite nth_first in Hk. destruct (_ <? _)%nat; [|discriminate]. exact (T js Et k K u Hk Hu).
  - rewrite nth_error_app2 in Hk by exact Ge. apply nth_error_In, repeat_spec in Hk. subst K. destruct Hu.
Qed.
Lemma history_tp dbg P F J : any_history dbg P F J -> tpJ J.
Proof.
  induction 1 as [|F J a J' H IH Pa E|F J fuel J' H IH E|F J one fuel J' H IH E].
  - intros js X. discriminate.
  - unfold jp_push in E. apply assert_inv in E. destruct (jone J); [injection E as <-; exact IH|]. destruct (is_zero a); [injection E as <-; exact IH|]. bnd E. bnd E. bnd E. injection E as <-. exact IH.
  - unfold jp_build in E. destruct (jone J); [injection E as <-; exact IH|]. assert (T := set_pos_tp J IH). destruct (jtrees (set_pos J)) as [js|] eqn:Et.
    + eapply block_tp; [exact (T js Et)|exact E].
    + destruct (jq (set_pos J)); [injection E as <-; exact T|discriminate].
  - unfold jp_tq in E. destruct (jone J); [injection E as <-; exact IH|]. assert (T := set_pos_tp J IH). destruct (jtrees (set_pos J)) as [js|] eqn:Et.
    + eapply tq_tp; [exact (T js Et)|exact E].
    + destruct (jq (set_pos J)); [injection E as <-; exact T|discriminate].
Qed.
Lemma tree_wraps dbg P F J js m T u : any_history dbg P F J -> jtrees J = Some js -> tree_at dbg js m = Ok T -> In u (wraps (jroot T)) -> pos (wlm u) = m.
Proof.
  intros H Ej Et Iu. assert (L := tree_at_low _ _ _ _ Et). apply tree_at_nth in Et. assert (X := history_tp _ _ _ _ H js Ej _ _ _ Et Iu). lia.
Qed.
