(** The statements about red-black trees. *)
From Coq Require Import ZArith List Bool Arith Lia Permutation.
From Verif Require Import Outcome RandPermModel RBModel RBSpec RBHeapProofs RBFixProofs RBReadProofs RBEditProofs RBProofs.
Import ListNotations.
Local Open Scope nat_scope.

Section RB.
Context {T : Type}.
Variable compare : T -> T -> Z.
Hypothesis Hko : key_order compare.
Notation heap := (heap T).
Notation tr := (@tr T).
Notation sorted := (sorted compare).

Lemma sorted_increasing l : sorted l <-> increasing compare l.
Proof. induction l as [|x l IH]; cbn; [tauto|]. rewrite IH, Forall_forall. tauto. Qed.

Definition live (h : heap) (a : nat) : bool := match nth_error h a with Some (Some _) => true | _ => false end.
Lemma used_live (h : heap) : used h = length (filter (live h) (seq 0 (length h))).
Proof.
  assert (G : forall (h1 h2 : heap), length (filter (live (h1 ++ h2)) (seq (length h1) (length h2))) =
     length (filter (fun x : option (node T) => match x with Some _ => true | None => false end) h2)).
  { intros h1 h2. revert h1. induction h2 as [|x h2 IH]; intro h1; [reflexivity|].
    cbn [length seq filter]. specialize (IH (h1 ++ [x])). rewrite app_length in IH. cbn [length] in IH. rewrite Nat.add_1_r in IH.
    rewrite <- app_assoc in IH. cbn [app] in IH.
    assert (Q : live (h1 ++ x :: h2) (length h1) = match x with Some _ => true | None => false end).
    { unfold live. rewrite nth_error_app2, Nat.sub_diag by lia. reflexivity. }
    rewrite Q. destruct x; cbn [length]; rewrite IH; reflexivity. }
  symmetry. exact (G [] h).
Qed.
Lemma live_get (h : heap) a : live h a = true <-> exists n, get h a = Ok n.
Proof.
  unfold live, get, rd. destruct (nth_error h a) as [[n|]|]; cbn; split; try discriminate; eauto; intros (? & Q); discriminate.
Qed.
Fixpoint all_addrs (us : list tr) : list nat := match us with [] => [] | u :: us' => addrs u ++ all_addrs us' end.
Lemma total_addrs b us : total b us = count_occ Nat.eq_dec (all_addrs us) b.
Proof. induction us as [|u us IH]; [reflexivity|]. cbn [total all_addrs]. rewrite count_occ_app, IH. reflexivity. Qed.
Lemma inv_used s ss us : inv compare s ss us -> used (shp s) = length (concat (sets ss)).
Proof.
  intro I. rewrite used_live.
  assert (P : Permutation (filter (live (shp s)) (seq 0 (length (shp s)))) (all_addrs us)).
  { apply NoDup_Permutation.
    - apply NoDup_filter, seq_NoDup.
    - apply (NoDup_count_occ Nat.eq_dec). intro x. rewrite <- total_addrs. apply (i_dis _ _ _ _ I).
    - intro x. rewrite filter_In, in_seq, live_get. split.
      + intros (_ & n & Hn). apply (count_occ_In Nat.eq_dec). rewrite <- total_addrs. apply (i_leak _ _ _ _ I _ _ Hn).
      + intro Hx. apply (count_occ_In Nat.eq_dec) in Hx. rewrite <- total_addrs in Hx. split; [pose proof (inv_live _ _ _ _ _ I Hx); lia|].
        destruct (total_ex _ _ Hx) as (i & u & Hu & Hc).
        destruct (nth_error (sets ss) i) as [l|] eqn:El; [|apply nth_error_None in El; rewrite (i_sets _ _ _ _ I) in El; assert (i < length us) by (apply nth_error_Some; congruence); lia].
        destruct (inv_get _ _ _ _ _ _ I El) as (t & u' & _ & _ & Hu' & O). rewrite Hu in Hu'. injection Hu' as <-.
        exact (repT_live _ _ _ _ (proj1 (o_rep _ _ _ _ _ O)) Hc). }
  rewrite (Permutation_length P). clear P.
  assert (G : forall (us : list tr) (ls : list (list T)), length ls = length us -> (forall i u l, nth_error us i = Some u -> nth_error ls i = Some l -> size u = length l) ->
     length (all_addrs us) = length (concat ls)).
  { clear. intro us. induction us as [|u us IH]; intros [|l ls] Hl H; cbn in Hl; try discriminate; [reflexivity|].
    cbn [all_addrs concat]. rewrite !app_length, (IH ls); [|lia|intros i v m; exact (H (S i) v m)].
    f_equal. rewrite addrs_ents, map_length, <- size_ents. exact (H 0 u l eq_refl eq_refl). }
  apply G; [apply (i_sets _ _ _ _ I)|]. intros i u l Hu Hl. destruct (inv_get _ _ _ _ _ _ I Hl) as (t & u' & _ & _ & Hu' & O).
  rewrite Hu in Hu'. injection Hu' as <-. rewrite size_ents, <- (o_keys _ _ _ _ _ O). unfold keys. rewrite map_length. reflexivity.
Qed.

Lemma c31_run dbg os ss xs : sp_run compare sp_start os = Some (ss, xs) ->
  exists s, run compare dbg start os = Ok (s, xs) /\ used (shp s) = length (concat (sets ss)).
Proof.
  intro H. destruct (run_ok compare Hko dbg os _ _ _ _ _ (inv_start compare) H) as (s & us & E1 & I).
  exists s. split; [exact E1|exact (inv_used _ _ _ I)].
Qed.

Lemma sp_run_app os1 : forall os2 s s1 xs1 s2 xs2, sp_run compare s os1 = Some (s1, xs1) -> sp_run compare s1 os2 = Some (s2, xs2) ->
  sp_run compare s (os1 ++ os2) = Some (s2, xs1 ++ xs2).
Proof.
  induction os1 as [|o os1 IH]; intros os2 s s1 xs1 s2 xs2 H1 H2; cbn [sp_run app] in *.
  - injection H1 as <- <-. exact H2.
  - destruct (sp_step compare s o) as [[s3 x]|]; [|discriminate]. destruct (sp_run compare s3 os1) as [[s4 ys]|] eqn:E1; [|discriminate].
    injection H1 as <- <-. rewrite (IH _ _ _ _ _ _ E1 H2). reflexivity.
Qed.
Lemma sp_sorted os ss xs t l : sp_run compare sp_start os = Some (ss, xs) -> nth_error (sets ss) t = Some l -> sorted l.
Proof.
  intros H Hl. destruct (run_ok compare Hko true os _ _ _ _ _ (inv_start compare) H) as (s & us & _ & I).
  destruct (inv_get _ _ _ _ _ _ I Hl) as (tt & u & _ & _ & _ & O). exact (o_sorted _ _ _ _ _ O).
Qed.
Lemma sp_read t : forall l2 l1 ls, nth_error ls t = Some (l1 ++ l2) -> sorted (l1 ++ l2) ->
  sp_run compare (SState ls (at_opt t (hd_error l2))) (flat_map (fun _ => [Good; Key; Incr]) l2 ++ [Good]) =
  Some (SState ls End, flat_map (fun k => [OBool true; OKey k; ONone]) l2 ++ [OBool false]).
Proof.
  induction l2 as [|k l2 IH]; intros l1 ls Hl Hs.
  - reflexivity.
  - cbn [flat_map app hd_error at_opt sp_run sp_step itr]. cbn [sets]. rewrite Hl.
    rewrite (above_mid compare Hko _ _ _ Hs). 
    rewrite (IH (l1 ++ [k]) ls) by (rewrite <- app_assoc; assumption). reflexivity.
Qed.
Lemma c31_iterate dbg os ss xs t l : sp_run compare sp_start os = Some (ss, xs) -> nth_error (sets ss) t = Some l ->
  increasing compare l /\ exists s, run compare dbg start (os ++ read_all t l) = Ok (s, xs ++ all_read l).
Proof.
  intros H Hl. pose proof (sp_sorted _ _ _ _ _ H Hl) as Hs. split; [apply sorted_increasing, Hs|].
  assert (R : sp_run compare ss (read_all t l) = Some (SState (sets ss) End, all_read l)).
  { unfold read_all, all_read. cbn [sp_run sp_step]. rewrite Hl, (sp_read t l [] (sets ss) Hl Hs). reflexivity. }
  destruct (c31_run dbg _ _ _ (sp_run_app _ _ _ _ _ _ _ H R)) as (s & E1 & _). eauto.
Qed.

Lemma above_spec k l : sorted l -> match above compare k l with
  | Some m => In m l /\ (compare k m < 0)%Z /\ forall x, In x l -> (compare k x < 0)%Z -> m = x \/ (compare m x < 0)%Z
  | None => forall x, In x l -> ~ (compare k x < 0)%Z end.
Proof.
  unfold above. induction l as [|x l IH]; cbn [filter]; intro Hs; [intros ? []|].
  destruct Hs as (H1 & H2). specialize (IH H2). rewrite Forall_forall in H1. unfold below at 1.
  destruct (compare k x <? 0)%Z eqn:C; cbn [hd_error].
  - apply Z.ltb_lt in C. split; [left; reflexivity|]. split; [exact C|]. intros y [->|Hy] _; auto.
  - apply Z.ltb_ge in C. destruct (hd_error _) as [m|].
    + destruct IH as (I1 & I2 & I3). split; [right; exact I1|]. split; [exact I2|]. intros y [->|Hy] Hk; [lia|auto].
    + intros y [->|Hy]; [lia|auto].
Qed.
Lemma beneath_spec k l : sorted l -> match beneath compare k l with
  | Some m => In m l /\ (compare m k < 0)%Z /\ forall x, In x l -> (compare x k < 0)%Z -> m = x \/ (compare x m < 0)%Z
  | None => forall x, In x l -> ~ (compare x k < 0)%Z end.
Proof.
  unfold beneath. induction l as [|x l IH] using rev_ind; intro Hs; [intros ? []|].
  apply sorted_app in Hs. destruct Hs as (H1 & _ & H2). specialize (IH H1). rewrite filter_app, rev_app_distr. cbn [filter]. unfold below at 1.
  destruct (compare x k <? 0)%Z eqn:C; cbn [rev app hd_error].
  - apply Z.ltb_lt in C. split; [apply in_or_app; right; left; reflexivity|]. split; [exact C|].
    intros y Hy _. apply in_app_or in Hy. destruct Hy as [Hy|[->|[]]]; [right; apply H2; [exact Hy|left; reflexivity]|left; reflexivity].
  - apply Z.ltb_ge in C. destruct (hd_error _) as [m|].
    + destruct IH as (I1 & I2 & I3). split; [apply in_or_app; left; exact I1|]. split; [exact I2|].
      intros y Hy Hk. apply in_app_or in Hy. destruct Hy as [Hy|[->|[]]]; [auto|lia].
    + intros y Hy. apply in_app_or in Hy. destruct Hy as [Hy|[->|[]]]; [auto|lia].
Qed.
Lemma add_in k x l : In x (add compare k l) <-> x = k \/ In x l.
Proof.
  induction l as [|y l IH]; cbn [add]; [cbn; intuition congruence|]. destruct (below compare k y); cbn [In]; rewrite ?IH; intuition congruence.
Qed.
Lemma del_in k x l : In x (del compare k l) <-> x <> k /\ In x l.
Proof.
  unfold del. rewrite filter_In, negb_true_iff, Z.eqb_neq. rewrite (ko_eq _ Hko). intuition congruence.
Qed.
Lemma c31_spec k l : increasing compare l ->
  (mem compare k l = true <-> In k l) /\
  (forall x, In x (add compare k l) <-> x = k \/ In x l) /\ (forall x, In x (del compare k l) <-> x <> k /\ In x l) /\
  match above compare k l with
  | Some m => In m l /\ (compare k m < 0)%Z /\ forall x, In x l -> (compare k x < 0)%Z -> m = x \/ (compare m x < 0)%Z
  | None => forall x, In x l -> ~ (compare k x < 0)%Z end /\
  match beneath compare k l with
  | Some m => In m l /\ (compare m k < 0)%Z /\ forall x, In x l -> (compare x k < 0)%Z -> m = x \/ (compare x m < 0)%Z
  | None => forall x, In x l -> ~ (compare x k < 0)%Z end.
Proof.
  intro H. apply sorted_increasing in H. split; [apply (mem_in _ Hko)|]. split; [intro; apply add_in|]. split; [intro; apply del_in|].
  split; [apply above_spec, H|apply beneath_spec, H].
Qed.

Lemma c32 dbg os ss xs s ys : sp_run compare sp_start os = Some (ss, xs) -> run compare dbg start os = Ok (s, ys) ->
  forall t, In t (strees s) -> balanced (shp s) (mRoot t) /\
    forall cs, walk (shp s) (mRoot t) cs -> length cs <= 2 * Nat.log2 (mCount t + 1).
Proof.
  intros H R t Ht. destruct (run_ok compare Hko dbg os _ _ _ _ _ (inv_start compare) H) as (s' & us & E1 & I).
  rewrite R in E1. injection E1 as <- <-. apply In_nth_error in Ht. destruct Ht as (i & Ht).
  assert (Li : i < length us) by (rewrite <- (i_trees _ _ _ _ I); apply nth_error_Some; congruence).
  destruct (nth_error us i) as [u|] eqn:Eu; [|apply nth_error_None in Eu; lia].
  destruct (nth_error (sets ss) i) as [l|] eqn:El; [|apply nth_error_None in El; rewrite (i_sets _ _ _ _ I) in El; lia].
  pose proof (i_ok _ _ _ _ I _ _ _ _ Ht Eu El) as O. rewrite (o_count _ _ _ _ _ O), Nat.add_1_r. exact (okt_balanced compare _ _ _ _ O).
Qed.

Lemma alike_shape (h h' : heap) : forall u v p q, alike u v -> repT h p u -> repT h' q v -> same_shape h h' (ad u) (ad v).
Proof.
  induction u as [|a c l IHl k r IHr]; intros [|a' c' l' k' r'] p q; cbn [alike repT ad]; try tauto; [constructor|].
  intros (-> & -> & Al & Ar) (G & Hl & Hr) (G' & Hl' & Hr'). eapply ss_node; [exact G|exact G'|reflexivity|reflexivity| |]; cbn [mLeft mRight]; eauto.
Qed.
Lemma alike_refl (u : tr) : alike u u.
Proof. induction u; cbn; auto. Qed.
Lemma copy_shape h (t : tree) (u : tr) x : rep (St h (mRoot t)) u -> mRoot t = Some x -> forall h' i, copy h x = Ok (h', i) ->
  same_shape h h' (Some x) (Some i) /\ same_shape h h' (Some x) (Some x).
Proof.
  intros R Hx h' i Hc. pose proof R as (Rt & Hr & _). cbn [rt hp] in *. rewrite Hx in Hr.
  destruct (copy_ok _ u x R (eq_sym Hr)) as (h1 & i1 & v & E1 & E2 & E3 & E4 & _). cbn [hp] in *. rewrite Hc in E1. injection E1 as <- <-.
  destruct E2 as (Rv & Hv & _). cbn [rt hp] in *. split.
  - rewrite Hr, Hv. exact (alike_shape h h' u v _ _ E3 Rt Rv).
  - rewrite Hr. apply (alike_shape h h' u u None None (alike_refl u) Rt). apply (repT_frame h); [|exact Rt].
    intros e He. apply E4. destruct (repT_live _ _ _ _ Rt He) as (n & Hn). exact (get_lt _ _ _ Hn).
Qed.
Lemma c33_copy dbg os ss xs a l : sp_run compare sp_start os = Some (ss, xs) -> nth_error (sets ss) a = Some l ->
  exists s s' src new, run compare dbg start os = Ok (s, xs) /\ step compare dbg s (Copy a) = Ok (s', ONone) /\
    nth_error (strees s) a = Some src /\ strees s' = strees s ++ [new] /\ mCount new = length l /\
    same_shape (shp s) (shp s') (mRoot src) (mRoot new) /\ same_shape (shp s) (shp s') (mRoot src) (mRoot src).
Proof.
  intros H Hl. destruct (run_ok compare Hko dbg os _ _ _ _ _ (inv_start compare) H) as (s & us & E1 & I).
  destruct (inv_get _ _ _ _ _ _ I Hl) as (t & u & Rt & Ht & Hu & O).
  destruct (copy_tree_ok compare Hko dbg _ _ _ _ O) as (h' & t' & v & E2 & O' & F).
  exists s, (State h' (strees s ++ [t']) (sit s)), t, t'. split; [exact E1|]. cbn [step]. rewrite Rt. cbn [bind]. rewrite E2. cbn [bind].
  split; [reflexivity|]. split; [exact Ht|]. split; [reflexivity|]. split; [exact (o_count _ _ _ _ _ O')|]. cbn [shp].
  unfold copy_tree in E2. destruct (mRoot t) as [x|] eqn:Hx.
  - destruct (copy_cells compare _ _ _ _ _ O Hx) as (h1 & i & v1 & X1 & X2 & _). rewrite X1 in E2. cbn [bind] in E2.
    rewrite (okt_valid compare Hko _ _ _ _ _ _ X2) in E2. injection E2 as <- <-. cbn [mRoot].
    exact (copy_shape _ _ _ _ (o_rep _ _ _ _ _ O) Hx _ _ X1).
  - cbn [bind] in E2. assert (Q : mRoot t' = None).
    { unfold check_valid in E2. destruct dbg; [destruct (assertValid _ _ _) as [[]| | | |]; cbn in E2; try discriminate|]; injection E2 as <- <-; reflexivity. }
    rewrite Q. split; constructor.
Qed.
Lemma c33_assign dbg os ss xs i a l m : sp_run compare sp_start os = Some (ss, xs) -> nth_error (sets ss) i = Some m -> nth_error (sets ss) a = Some l -> i <> a -> l <> [] ->
  exists s s' src new, run compare dbg start os = Ok (s, xs) /\ step compare dbg s (Assign i a) = Ok (s', ONone) /\
    nth_error (strees s) a = Some src /\ nth_error (strees s') i = Some new /\ mCount new = length l /\
    same_shape (shp s) (shp s') (mRoot src) (mRoot new) /\ same_shape (shp s) (shp s') (mRoot src) (mRoot src).
Proof.
  intros H Hm Hl Hia Hne. destruct (run_ok compare Hko dbg os _ _ _ _ _ (inv_start compare) H) as (s & us & E1 & I).
  destruct (inv_get _ _ _ _ _ _ I Hl) as (ta & ua & Rta & Hta & Hua & Oa). destruct (inv_get _ _ _ _ _ _ I Hm) as (t & u & Rt & Ht & Hu & O).
  assert (Hd : forall e, cnt e u + cnt e ua <= 1).
  { intro e. pose proof (total_two e us u ua i a Hu Hua Hia). pose proof (i_dis _ _ _ _ I e). lia. }
  destruct (assign_ok compare Hko dbg _ _ _ _ _ _ _ O Oa Hne Hd) as (h' & t' & u' & E2 & O' & F).
  exists s, (State h' (upd (strees s) i t') (sit s)), ta, t'. split; [exact E1|]. cbn [step].
  rewrite (proj2 (Nat.eqb_neq i a) Hia). cbn [negb]. rewrite assert_true, Rta. cbn [bind]. unfold mutate. rewrite Rt. cbn [bind]. rewrite E2. cbn [bind].
  split; [reflexivity|]. split; [exact Hta|]. split; [apply nth_upd_eq; apply nth_error_Some; congruence|]. split; [exact (o_count _ _ _ _ _ O')|]. cbn [shp].
  unfold assign in E2. destruct (clear_cells compare _ _ _ _ O) as (h1 & X1 & L1 & F1 & D1). rewrite X1 in E2. cbn [bind] in E2.
  destruct (mRoot ta) as [x|] eqn:Hx.
  2:{ exfalso. apply Hne. destruct Oa as [(_ & Hr & _) _ _ H4 H5]. cbn [rt] in Hr. rewrite Hx in Hr. destruct ua; [|discriminate]. auto. }
  cbn [is_null negb deref bind] in E2. rewrite assert_true in E2.
  assert (Oa1 : okt compare h1 ta ua l).
  { destruct Oa as [H1 H2 H3 H4 H5]. split; auto. apply (rep_frame (St (shp s) (mRoot ta))); [|reflexivity|exact H1].
    intros e He. cbn [hp]. apply F1. specialize (Hd e). lia. }
  destruct (copy_cells compare _ _ _ _ _ Oa1 Hx) as (h2 & j & v1 & Y1 & Y2 & Y3 & _). rewrite Y1 in E2. cbn [bind] in E2.
  rewrite (okt_valid compare Hko _ _ _ _ _ _ Y2) in E2. injection E2 as <- <-. cbn [mRoot].
  pose proof (o_rep _ _ _ _ _ Oa1) as R1. pose proof R1 as (Rt1 & Hr1 & _). cbn [rt hp] in *. rewrite Hx in Hr1.
  pose proof (o_rep _ _ _ _ _ Oa) as (Rt0 & _). cbn [hp] in Rt0.
  destruct (copy_ok _ ua x R1 (eq_sym Hr1)) as (h3 & j3 & v & Z1 & Z2 & Z3 & Z4 & _). cbn [hp] in *. rewrite Y1 in Z1. injection Z1 as <- <-.
  destruct Z2 as (Rv & Hv & _). cbn [rt hp] in *. split.
  - rewrite Hr1, Hv. exact (alike_shape _ _ ua v _ _ Z3 Rt0 Rv).
  - rewrite Hr1. apply (alike_shape _ _ ua ua None None (alike_refl ua) Rt0). apply (repT_frame h1); [|exact Rt1].
    intros e He. apply Z4. destruct (repT_live _ _ _ _ Rt1 He) as (n & Hn). exact (get_lt _ _ _ Hn).
Qed.
(** assignment of an empty tree never succeeds *)
Lemma c33_assign_empty dbg (s : state T) i a t src : i <> a -> nth_error (strees s) i = Some t -> nth_error (strees s) a = Some src ->
  mRoot src = None -> forall r, step compare dbg s (Assign i a) <> Ok r.
Proof.
  intros Hia Ht Hs Hr r. cbn [step]. rewrite (proj2 (Nat.eqb_neq i a) Hia). cbn [negb]. rewrite assert_true. unfold rd at 1. rewrite Hs. cbn [bind].
  unfold mutate, rd. rewrite Ht. cbn [bind]. unfold assign. rewrite Hr.
  destruct (match mRoot t with Some r0 => clear_node (shp s) r0 | None => Ok (shp s) end); cbn [bind]; try discriminate.
  destruct dbg; discriminate.
Qed.
End RB.
