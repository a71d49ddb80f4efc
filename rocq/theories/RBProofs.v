(** Programs over red-black trees behave like programs over sets. *)
From Coq Require Import ZArith List Bool Arith Lia Permutation.
From Verif Require Import Outcome RandPermModel RBModel RBSpec RBHeapProofs RBFixProofs RBReadProofs RBEditProofs.
Import ListNotations.
Local Open Scope nat_scope.

Section RB.
Context {T : Type}.
Variable compare : T -> T -> Z.
Hypothesis Hko : key_order compare.
Notation heap := (heap T).
Notation st := (st T).
Notation tr := (@tr T).
Notation "a << b" := (compare a b < 0)%Z (at level 70).
Notation sorted := (sorted compare).
Notation mem := (mem compare).
Notation add := (add compare).
Notation del := (del compare).
Notation above := (above compare).
Notation beneath := (beneath compare).

(** set operations on sorted lists *)
Lemma cmp_refl k : compare k k = 0%Z.
Proof. apply (ko_eq _ Hko). reflexivity. Qed.
Lemma mem_in k l : mem k l = true <-> In k l.
Proof.
  unfold RBSpec.mem. rewrite existsb_exists. split.
  - intros (x & Hx & Q). apply Z.eqb_eq in Q. apply (ko_eq _ Hko) in Q. subst. exact Hx.
  - intro H. exists k. split; [exact H|]. rewrite cmp_refl. reflexivity.
Qed.
Lemma mem_notin k l : mem k l = false <-> ~ In k l.
Proof. rewrite <- mem_in. destruct (mem k l); split; congruence. Qed.
Lemma add_app k l1 l2 : Forall (fun y => y << k) l1 -> Forall (fun y => k << y) l2 -> add k (l1 ++ l2) = l1 ++ k :: l2.
Proof.
  intros H1 H2. induction H1 as [|x l1 Hx H1 IH]; cbn [app].
  - destruct H2 as [|y l2 Hy H2]; cbn [RBSpec.add]; [reflexivity|]. unfold below. rewrite (proj2 (Z.ltb_lt _ _) Hy). reflexivity.
  - cbn [RBSpec.add]. unfold below. assert (Q : (compare k x <? 0)%Z = false) by (apply Z.ltb_ge; apply (lt_gt _ Hko) in Hx; lia).
    rewrite Q, IH. reflexivity.
Qed.
Lemma sorted_mid l1 k l2 : sorted (l1 ++ k :: l2) -> Forall (fun y => y << k) l1 /\ Forall (fun y => k << y) l2.
Proof.
  intro H. apply sorted_app in H. destruct H as (_ & (H2 & _) & H1). split; [|exact H2].
  apply Forall_forall. intros x Hx. apply H1; [exact Hx|left; reflexivity].
Qed.
Lemma sorted_join l1 k l2 : sorted (l1 ++ l2) -> Forall (fun y => y << k) l1 -> Forall (fun y => k << y) l2 -> sorted (l1 ++ k :: l2).
Proof.
  intros H H1 H2. apply sorted_app in H. destruct H as (S1 & S2 & S12). apply sorted_app. split; [exact S1|]. split; [split; assumption|].
  intros x y Hx [<-|Hy]; [rewrite Forall_forall in H1; apply H1, Hx|apply S12; assumption].
Qed.
Lemma sorted_drop l1 k l2 : sorted (l1 ++ k :: l2) -> sorted (l1 ++ l2).
Proof.
  intro H. apply sorted_app in H. destruct H as (S1 & (_ & S2) & S12). apply sorted_app. split; [exact S1|]. split; [exact S2|].
  intros x y Hx Hy. apply S12; [exact Hx|right; exact Hy].
Qed.
Lemma filter_all {A} (f : A -> bool) l : Forall (fun x => f x = true) l -> filter f l = l.
Proof. induction 1 as [|x l Hx _ IH]; cbn; [reflexivity|]. rewrite Hx, IH. reflexivity. Qed.
Lemma filter_none {A} (f : A -> bool) l : Forall (fun x => f x = false) l -> filter f l = [].
Proof. induction 1 as [|x l Hx _ IH]; cbn; [reflexivity|]. rewrite Hx. exact IH. Qed.
Lemma del_mid l1 k l2 : sorted (l1 ++ k :: l2) -> del k (l1 ++ k :: l2) = l1 ++ l2.
Proof.
  intro H. apply sorted_mid in H. destruct H as (H1 & H2). unfold RBSpec.del. rewrite filter_app. cbn [filter]. rewrite cmp_refl.
  cbn [Z.eqb negb]. rewrite !filter_all; [reflexivity| |].
  - eapply Forall_impl; [|exact H2]. intros x Hx. cbv beta in Hx. apply negb_true_iff, Z.eqb_neq. lia.
  - eapply Forall_impl; [|exact H1]. intros x Hx. apply (lt_gt _ Hko) in Hx. apply negb_true_iff, Z.eqb_neq. lia.
Qed.
Lemma above_app k l1 l2 : Forall (fun x => ~ k << x) l1 -> Forall (fun x => k << x) l2 -> above k (l1 ++ l2) = hd_error l2.
Proof.
  intros H1 H2. unfold RBSpec.above. rewrite filter_app, filter_none, filter_all; [reflexivity| |].
  - eapply Forall_impl; [|exact H2]. intros x Hx. apply Z.ltb_lt, Hx.
  - eapply Forall_impl; [|exact H1]. intros x Hx. cbv beta in Hx. apply Z.ltb_ge. lia.
Qed.
Lemma beneath_app k l1 l2 : Forall (fun x => x << k) l1 -> Forall (fun x => ~ x << k) l2 -> beneath k (l1 ++ l2) = hd_error (rev l1).
Proof.
  intros H1 H2. unfold RBSpec.beneath. rewrite filter_app, filter_all, filter_none, app_nil_r; [reflexivity| |].
  - eapply Forall_impl; [|exact H2]. intros x Hx. cbv beta in Hx. apply Z.ltb_ge. lia.
  - eapply Forall_impl; [|exact H1]. intros x Hx. apply Z.ltb_lt, Hx.
Qed.
Lemma above_mid l1 k l2 : sorted (l1 ++ k :: l2) -> above k (l1 ++ k :: l2) = hd_error l2.
Proof.
  intro H. apply sorted_mid in H. destruct H as (H1 & H2).
  replace (l1 ++ k :: l2) with ((l1 ++ [k]) ++ l2) by (rewrite <- app_assoc; reflexivity). apply above_app; [|exact H2].
  apply Forall_app. split; [|constructor; [apply (lt_irrefl _ Hko)|constructor]].
  eapply Forall_impl; [|exact H1]. intros x Hx Q. exact (lt_irrefl _ Hko _ (ko_trans _ Hko _ _ _ Hx Q)).
Qed.
Lemma beneath_mid l1 k l2 : sorted (l1 ++ k :: l2) -> beneath k (l1 ++ k :: l2) = hd_error (rev l1).
Proof.
  intro H. apply sorted_mid in H. destruct H as (H1 & H2). apply beneath_app; [exact H1|].
  constructor; [apply (lt_irrefl _ Hko)|]. eapply Forall_impl; [|exact H2]. intros x Hx Q. exact (lt_irrefl _ Hko _ (ko_trans _ Hko _ _ _ Hx Q)).
Qed.

(** one tree object *)
Record okt (h : heap) (t : tree) (u : tr) (l : list T) : Prop := {
  o_rep : rep (St h (mRoot t)) u; o_rb : exists m, rb u false m; o_sorted : sorted l;
  o_keys : keys (ents u) = l; o_count : mCount t = length l }.
Lemma okt_valid {A} dbg h t u l (k : outcome A) : okt h t u l -> check_valid compare dbg h t k = k.
Proof.
  intros [H1 H2 H3 H4 H5]. unfold check_valid. destruct dbg; [|reflexivity].
  rewrite (assertValid_ok compare Hko h t u H1 H2); [reflexivity|rewrite H4; exact H3|]. rewrite H5, size_ents, <- H4. unfold keys. rewrite map_length. reflexivity.
Qed.
Lemma rep_nodup (s : st) u b : rep s u -> cnt b u <= 1.
Proof. intros (_ & _ & H). apply H. Qed.
Lemma rep_live (s : st) u b : rep s u -> 1 <= cnt b u -> b < length (hp s).
Proof. intros (H & _) Hb. destruct (repT_live _ _ _ _ H Hb) as (n & Hn). exact (get_lt _ _ _ Hn). Qed.
Lemma cnt_perm (u v : tr) l1 l2 x e : ents u = l1 ++ l2 -> ents v = l1 ++ x :: l2 -> cnt e v = cnt e u + one (fst x) e.
Proof.
  intros H1 H2. unfold cnt. rewrite !addrs_ents, H1, H2, !map_app, !count_occ_app. cbn [map count_occ]. unfold one.
  destruct (Nat.eq_dec (fst x) e); lia.
Qed.
Lemma in_keys (a : nat) (k : T) l : In (a, k) l -> In k (keys l).
Proof. intro H. apply in_map_iff. exists (a, k). auto. Qed.

(** the effect of an operation on one tree *)
Definition effect (h h' : heap) (u u' : tr) : Prop :=
  (forall e, cnt e u = 0 -> e < length h -> get h' e = get h e) /\
  (forall e, 1 <= cnt e u' -> 1 <= cnt e u \/ length h <= e) /\
  (forall e n, get h' e = Ok n -> 1 <= cnt e u' \/ (cnt e u = 0 /\ e < length h)).

Lemma insert_ok dbg h t u l k : okt h t u l -> ~ In k l ->
  exists h' t' u', insert compare dbg h t k = Ok (h', t') /\ okt h' t' u' (add k l) /\ effect h h' u u' /\
    forall x, In x (ents u) -> In x (ents u').
Proof.
  intros O Hk. pose proof O as [H1 (m & H2) H3 H4 H5]. unfold insert.
  assert (G : (if dbg then findNode compare (St h (mRoot t)) k else Ok None) = Ok None).
  { destruct dbg; [|reflexivity]. destruct (findNode_ok compare Hko _ k u H1) as (o & E1 & E2); [rewrite H4; exact H3|].
    rewrite E1. destruct o; [|reflexivity]. apply in_keys in E2. rewrite H4 in E2. contradiction. }
  rewrite G. cbn [bind is_null]. rewrite assert_true. unfold new_node.
  set (h1 := h ++ [Some (Node k true None None None)]).
  assert (L1 : length h1 = S (length h)) by (unfold h1; rewrite app_length; cbn; lia).
  destruct (insertNode_ok compare Hko dbg (St h1 (mRoot t)) (length h) k None u m) as (s' & u' & l1 & l2 & E1 & E2 & E3 & E4 & E5 & E6 & E7 & E8 & E9).
  - exact (rep_app _ [Some (Node k true None None None)] _ H1).
  - rewrite H4. exact H3.
  - rewrite H4. exact Hk.
  - exact H2.
  - apply get_new.
  - destruct (le_lt_dec 1 (cnt (length h) u)) as [Q|Q]; [|lia]. apply (rep_live _ _ _ H1) in Q. cbn [hp] in Q. lia.
  - rewrite E1. cbn [bind hp] in *.
    assert (Ll : l = keys l1 ++ keys l2) by (rewrite <- H4, E4, keys_app; reflexivity).
    assert (Lk : keys (ents u') = add k l). { rewrite E5, Ll, (add_app k _ _ E6 E7), keys_app. reflexivity. }
    assert (So : sorted (add k l)). { rewrite Ll, (add_app k _ _ E6 E7). apply sorted_join; [rewrite <- Ll; exact H3|exact E6|exact E7]. }
    assert (Oo : okt (hp s') (Tree (rt s') (S (mCount t))) u' (add k l)).
    { split; [destruct s'; exact E2|exact E3|exact So|exact Lk|]. cbn [mCount]. rewrite H5, Ll, (add_app k _ _ E6 E7), !app_length. cbn [length]. lia. }
    assert (G' : exists r, (if dbg then findNode compare s' k else Ok None) = Ok r /\ (dbg = true -> is_null r = false)).
    { destruct dbg; [|exists None; split; [reflexivity|discriminate]].
      destruct (findNode_ok compare Hko _ k u' E2) as (o & X1 & X2); [rewrite Lk; exact So|]. rewrite X1. exists o. split; [reflexivity|].
      intros _. destruct o; [reflexivity|]. exfalso. apply X2. rewrite E5, keys_app. apply in_or_app. right. left. reflexivity. }
    destruct G' as (r & Gr & Hr). rewrite Gr. cbn [bind].
    assert (Ha : assert_ dbg (negb (is_null r)) (check_valid compare dbg (hp s') (Tree (rt s') (S (mCount t))) (Ok (hp s', Tree (rt s') (S (mCount t))))) = Ok (hp s', Tree (rt s') (S (mCount t)))).
    { rewrite (okt_valid _ _ _ _ _ _ Oo). destruct dbg; [rewrite Hr by reflexivity|]; reflexivity. }
    rewrite Ha. eexists _, _, u'. split; [reflexivity|]. split; [exact Oo|].
    assert (Hc : forall e, cnt e u' = cnt e u + one (length h) e) by (intro e; exact (cnt_perm _ _ _ _ _ e E4 E5)).
    split; [split; [|split]|].
    + intros e He Hl. rewrite E9 by lia. unfold h1, get, rd. rewrite nth_error_app1 by lia. reflexivity.
    + intros e He. rewrite Hc in He. unfold one in He. destruct (Nat.eq_dec (length h) e); [right; lia|left; lia].
    + intros e n Hn. apply get_lt in Hn. rewrite Hc. unfold one. destruct (Nat.eq_dec (length h) e); [left; lia|].
      destruct (le_lt_dec 1 (cnt e u)); [left; lia|right; lia].
    + intros x Hx. rewrite E4 in Hx. rewrite E5. apply in_app_or in Hx. apply in_or_app. cbn. tauto.
Qed.

Lemma rep_entry (s : st) u a k : rep s u -> In (a, k) (ents u) -> exists z c l r, u = plug z (N a c l k r).
Proof. intros _ H. apply focus, H. Qed.

Lemma delete_ok dbg h t u l a k : okt h t u l -> In (a, k) (ents u) ->
  exists s y h' u', deleteNode dbg (St h (mRoot t)) a = Ok (s, y) /\ free (hp s) y = Ok h' /\
    okt h' (Tree (rt s) (pred (mCount t))) u' (del k l) /\ effect h h' u u' /\
    forall b k', In (b, k') (ents u) -> k' <> k -> above k l <> Some k' -> In (b, k') (ents u').
Proof.
  intros [H1 (m & H2) H3 H4 H5] Hin. destruct (focus _ _ _ Hin) as (z & c & tl & tr_ & ->).
  destruct (deleteNode_ok dbg _ z a c tl k tr_ m H1 H2) as (s & u' & y & n & E1 & E2 & E3 & (L4 & F4) & E5 & E6).
  cbn [hp] in *. exists s, y. unfold free. rewrite E5. cbn [bind]. exists (upd (hp s) y None), u'.
  split; [exact E1|]. split; [reflexivity|].
  set (u := plug z (N a c tl k tr_)) in *.
  assert (Eu : ents u = (el z ++ ents tl) ++ (a, k) :: (ents tr_ ++ er z)) by (unfold u; rewrite ents_plug; cbn [ents]; rewrite <- !app_assoc; reflexivity).
  assert (El : l = keys (el z ++ ents tl) ++ k :: keys (ents tr_ ++ er z)) by (rewrite <- H4, Eu, keys_app; reflexivity).
  assert (Ed : del k l = keys (el z ++ ents tl) ++ keys (ents tr_ ++ er z)) by (rewrite El; apply del_mid; rewrite <- El; exact H3).
  assert (Ek : keys (ents u') = del k l).
  { rewrite Ed. destruct E6 as [(_ & E6)|(k' & rest & E6 & E7)].
    - rewrite E6, <- keys_app, <- !app_assoc. reflexivity.
    - rewrite E7, E6, app_assoc, keys_app. reflexivity. }
  assert (Ec : forall e, cnt e u = cnt e u' + one y e).
  { intro e. destruct E6 as [(-> & E6)|(k' & rest & E6 & E7)].
    - apply (cnt_perm u' u (el z ++ ents tl) (ents tr_ ++ er z) (a, k)); [rewrite E6, <- !app_assoc; reflexivity|exact Eu].
    - unfold cnt. rewrite !addrs_ents, Eu, E6, E7, app_assoc, !map_app, !count_occ_app. cbn [map fst count_occ]. unfold one.
      destruct (Nat.eq_dec a e), (Nat.eq_dec y e); lia. }
  assert (Hyu : cnt y u' = 0). { pose proof (Ec y) as Q. rewrite one_eq in Q. pose proof (rep_nodup _ _ y H1). lia. }
  split; [|split].
  - split.
    + apply (rep_frame s); [|reflexivity|exact E2]. intros e He. cbn [hp]. apply get_free_ne. intros <-. lia.
    + exact E3.
    + rewrite Ed. rewrite El in H3. exact (sorted_drop _ _ _ H3).
    + exact Ek.
    + cbn [mCount]. rewrite H5, Ed, El, !app_length. cbn [length]. lia.
  - split; [|split].
    + intros e He Hl. rewrite get_free_ne; [apply F4, He|]. intros <-. rewrite Ec, one_eq in He. lia.
    + intros e He. left. rewrite Ec. lia.
    + intros e x Hx. apply get_free_bad in Hx. destruct Hx as (Hne & Hx). apply get_lt in Hx.
      destruct (le_lt_dec 1 (cnt e u')); [left; assumption|right]. rewrite Ec. unfold one. destruct (Nat.eq_dec y e); [congruence|]. lia.
  - intros b k' Hb Hk' Hab. rewrite Eu in Hb. apply in_app_or in Hb. cbn in Hb.
    assert (Eab : above k l = hd_error (keys (ents tr_ ++ er z))) by (rewrite El; apply above_mid; rewrite <- El; exact H3).
    destruct E6 as [(_ & E6)|(k2 & rest & E6 & E7)].
    + rewrite E6, app_assoc. apply in_or_app. destruct Hb as [Hb|[Hb|Hb]]; [left; exact Hb|congruence|right; exact Hb].
    + rewrite E7, app_assoc. apply in_or_app. rewrite E6 in Hb, Eab. destruct Hb as [Hb|[Hb|[Hb|Hb]]]; [left; exact Hb|congruence| |right; right; exact Hb].
      exfalso. apply Hab. rewrite Eab. injection Hb as _ ->. reflexivity.
Qed.

Lemma remove_ok dbg h t u l k : okt h t u l -> In k l ->
  exists h' t' u', remove compare dbg h t k = Ok (h', t') /\ okt h' t' u' (del k l) /\ effect h h' u u' /\
    forall b k', In (b, k') (ents u) -> k' <> k -> above k l <> Some k' -> In (b, k') (ents u').
Proof.
  intros O Hk. pose proof O as [H1 H2 H3 H4 H5]. unfold remove.
  destruct (findNode_ok compare Hko _ k u H1) as (o & E1 & E2); [rewrite H4; exact H3|]. rewrite E1. cbn [bind].
  destruct o as [a|]; [|rewrite H4 in E2; contradiction]. cbn [is_null negb deref bind]. rewrite assert_true.
  destruct (delete_ok dbg h t u l a k O E2) as (s & y & h' & u' & X1 & X2 & X3 & X4 & X5). rewrite X1. cbn [bind]. rewrite X2. cbn [bind].
  assert (G : (if dbg then findNode compare (St h' (rt s)) k else Ok None) = Ok None).
  { destruct dbg; [|reflexivity]. destruct X3 as [Y1 Y2 Y3 Y4 Y5]. destruct (findNode_ok compare Hko _ k u' Y1) as (o & Z1 & Z2); [rewrite Y4; exact Y3|].
    cbn [mRoot] in Z1. rewrite Z1. destruct o; [|reflexivity]. apply in_keys in Z2. rewrite Y4 in Z2. unfold RBSpec.del in Z2. apply filter_In in Z2.
    rewrite cmp_refl in Z2. destruct Z2; discriminate. }
  rewrite G. cbn [bind is_null]. rewrite assert_true, (okt_valid _ _ _ _ _ _ X3).
  eexists _, _, u'. split; [reflexivity|]. auto.
Qed.
Lemma remove_it_ok dbg h t u l a k : okt h t u l -> In (a, k) (ents u) ->
  exists h' t' u', remove_it compare dbg h t (Some a) = Ok (h', t') /\ okt h' t' u' (del k l) /\ effect h h' u u' /\
    forall b k', In (b, k') (ents u) -> k' <> k -> above k l <> Some k' -> In (b, k') (ents u').
Proof.
  intros O Hk. unfold remove_it. cbn [is_null negb deref bind]. rewrite assert_true.
  destruct (delete_ok dbg h t u l a k O Hk) as (s & y & h' & u' & X1 & X2 & X3 & X4 & X5). rewrite X1. cbn [bind]. rewrite X2. cbn [bind].
  rewrite (okt_valid _ _ _ _ _ _ X3). eexists _, _, u'. split; [reflexivity|]. auto.
Qed.

Lemma okt_empty h : okt h (Tree None 0) E [].
Proof.
  split; [split; [exact I|split; [reflexivity|intro; cbn; lia]]|exists 0; constructor|exact I|reflexivity|reflexivity].
Qed.
Lemma clear_cells h t u l : okt h t u l ->
  exists h', match mRoot t with Some r => clear_node h r | None => Ok h end = Ok h' /\ length h' = length h /\
    (forall e, cnt e u = 0 -> get h' e = get h e) /\ forall e n, get h' e = Ok n -> cnt e u = 0.
Proof.
  intros [(H1 & Hr & Hnd) _ _ _ _]. cbn [rt hp] in *. rewrite Hr. destruct u as [|a c ul k ur]; cbn [ad].
  - exists h. repeat split; auto.
  - apply (clear_loop_ok (enough h) (N a c ul k ur) h None a); [|exact H1|exact Hnd|reflexivity].
    assert (R : rep (St h (Some a)) (N a c ul k ur)) by (split; auto). pose proof (rep_size _ _ R). unfold enough. cbn [hp] in *. lia.
Qed.
Lemma clear_ok dbg h t u l : okt h t u l ->
  exists h', clear compare dbg h t = Ok (h', Tree None 0) /\ okt h' (Tree None 0) E [] /\ effect h h' u E.
Proof.
  intro O. destruct (clear_cells _ _ _ _ O) as (h' & E1 & L1 & F1 & D1). unfold clear. rewrite E1. cbn [bind].
  rewrite (okt_valid _ _ _ _ _ _ (okt_empty h')). exists h'. split; [reflexivity|]. split; [apply okt_empty|].
  split; [|split].
  - intros e He _. apply F1, He.
  - intros e He. cbn in He. lia.
  - intros e n Hn. right. split; [exact (D1 _ _ Hn)|]. apply get_lt in Hn. lia.
Qed.
Lemma copy_cells h t u l x : okt h t u l -> mRoot t = Some x ->
  exists h' i v, copy h x = Ok (h', i) /\ okt h' (Tree (Some i) (mCount t)) v l /\
    (forall e, e < length h -> get h' e = get h e) /\ length h <= length h' /\ (forall e, 1 <= cnt e v -> length h <= e) /\
    (forall e n, length h <= e -> get h' e = Ok n -> 1 <= cnt e v).
Proof.
  intros [H1 (m & H2) H3 H4 H5] Hx. pose proof H1 as (_ & Hr & _). cbn [rt] in Hr. rewrite Hx in Hr.
  destruct (copy_ok _ u x H1 (eq_sym Hr)) as (h' & i & v & E1 & E2 & E3 & E4 & E5 & E6 & E7). cbn [hp] in *.
  exists h', i, v. split; [exact E1|]. destruct (alike_keys _ _ E3) as (K & _).
  split; [|auto]. split; [exact E2|exists m; exact (alike_rb _ _ _ H2 _ E3)|exact H3|rewrite K; exact H4|exact H5].
Qed.
Lemma copy_tree_ok dbg h t u l : okt h t u l ->
  exists h' t' v, copy_tree compare dbg h t = Ok (h', t') /\ okt h' t' v l /\ effect h h' E v.
Proof.
  intro O. unfold copy_tree. destruct (mRoot t) as [x|] eqn:Hx.
  - destruct (copy_cells _ _ _ _ _ O Hx) as (h' & i & v & E1 & E2 & E3 & E4 & E5 & E6). rewrite E1. cbn [bind].
    rewrite (okt_valid _ _ _ _ _ _ E2). exists h', (Tree (Some i) (mCount t)), v. split; [reflexivity|]. split; [exact E2|].
    split; [intros e _; apply E3|]. split; [intros e He; right; apply E5, He|].
    intros e n Hn. destruct (le_lt_dec (length h) e) as [Q|Q]; [left; exact (E6 _ _ Q Hn)|right; auto].
  - cbn [bind]. assert (l = [] /\ mCount t = 0) as (-> & Hc).
    { destruct O as [(_ & Hr & _) _ _ H4 H5]. cbn [rt] in Hr. rewrite Hx in Hr. destruct u; [|discriminate]. rewrite H5, <- H4. auto. }
    rewrite Hc, (okt_valid _ _ _ _ _ _ (okt_empty h)). exists h, (Tree None 0), E. split; [reflexivity|]. split; [apply okt_empty|].
    split; [auto|]. split; [intros e He; cbn in He; lia|]. intros e n Hn. right. split; [reflexivity|exact (get_lt _ _ _ Hn)].
Qed.
Lemma assign_ok dbg h t u l ta ua la : okt h t u l -> okt h ta ua la -> la <> [] -> (forall e, cnt e u + cnt e ua <= 1) ->
  exists h' t' u', assign compare dbg h t ta = Ok (h', t') /\ okt h' t' u' la /\ effect h h' u u'.
Proof.
  intros O Oa Hla Hd. destruct (clear_cells _ _ _ _ O) as (h1 & E1 & L1 & F1 & D1). unfold assign. rewrite E1. cbn [bind].
  assert (Oa1 : okt h1 ta ua la).
  { destruct Oa as [H1 H2 H3 H4 H5]. split; auto. apply (rep_frame (St h (mRoot ta))); [|reflexivity|exact H1].
    intros e He. cbn [hp]. apply F1. specialize (Hd e). lia. }
  destruct (mRoot ta) as [x|] eqn:Hx.
  2:{ exfalso. apply Hla. destruct Oa as [(_ & Hr & _) _ _ H4 H5]. cbn [rt] in Hr. rewrite Hx in Hr. destruct ua; [|discriminate]. auto. }
  cbn [is_null negb deref bind]. rewrite assert_true.
  destruct (copy_cells _ _ _ _ _ Oa1 Hx) as (h' & i & v & X1 & X2 & X3 & X4 & X5 & X6). rewrite X1. cbn [bind].
  rewrite (okt_valid _ _ _ _ _ _ X2). exists h', (Tree (Some i) (mCount ta)), v. split; [reflexivity|]. split; [exact X2|].
  split; [|split].
  - intros e He Hl. rewrite X3 by lia. apply F1, He.
  - intros e He. right. rewrite <- L1. apply X5, He.
  - intros e n Hn. destruct (le_lt_dec (length h1) e) as [Q|Q]; [left; exact (X6 _ _ Q Hn)|right].
    rewrite X3 in Hn by exact Q. split; [exact (D1 _ _ Hn)|lia].
Qed.

(** reading one tree *)
Lemma seek_min h t u l : okt h t u l ->
  exists o, it_minimum h t = Ok o /\ match o, hd_error l with Some a, Some k => In (a, k) (ents u) | None, None => True | _, _ => False end.
Proof.
  intros [H1 _ _ H4 _]. pose proof H1 as (_ & Hr & _). cbn [rt] in Hr. unfold it_minimum. rewrite Hr. destruct u as [|a c ul k ur]; cbn [ad].
  - exists None. split; [reflexivity|]. subst l. exact I.
  - destruct (minimum_hd (St h (mRoot t)) a c ul k ur [] H1) as (y & ky & rest & E1 & E2). cbn [hp] in E1. rewrite E1. cbn [bind].
    exists (Some y). split; [reflexivity|]. rewrite <- H4, E2. left. reflexivity.
Qed.
Lemma seek_max h t u l : okt h t u l ->
  exists o, it_maximum h t = Ok o /\ match o, hd_error (rev l) with Some a, Some k => In (a, k) (ents u) | None, None => True | _, _ => False end.
Proof.
  intros [H1 _ _ H4 _]. pose proof H1 as (_ & Hr & _). cbn [rt] in Hr. unfold it_maximum. rewrite Hr. destruct u as [|a c ul k ur]; cbn [ad].
  - exists None. split; [reflexivity|]. subst l. exact I.
  - destruct (maximum_last (St h (mRoot t)) a c ul k ur [] H1) as (y & ky & rest & E1 & E2). cbn [hp] in E1. rewrite E1. cbn [bind].
    exists (Some y). split; [reflexivity|]. rewrite <- H4, E2, keys_app, rev_app_distr. cbn. apply in_or_app. right. left. reflexivity.
Qed.
Definition points (u : tr) (o : option nat) (k : option T) : Prop :=
  match o, k with Some a, Some k => In (a, k) (ents u) | None, None => True | _, _ => False end.
Lemma points_first (u : tr) p l2 q : ents u = p ++ l2 ++ q -> points u (first l2) (hd_error (keys l2)).
Proof.
  intro H. destruct l2 as [|[a k] l2]; cbn; [exact I|]. rewrite H. apply in_or_app. right. left. reflexivity.
Qed.
Lemma points_last (u : tr) p l2 q : ents u = p ++ l2 ++ q -> points u (last_ l2) (hd_error (rev (keys l2))).
Proof.
  intro H. destruct (rev l2) as [|[a k] l3] eqn:Q; unfold last_, keys; rewrite <- map_rev, Q; cbn; [exact I|].
  rewrite H. apply in_or_app. right. apply in_or_app. left. apply in_rev. rewrite Q. left. reflexivity.
Qed.
Lemma seek_prev h t u l k : okt h t u l -> exists o, findPrev compare h t k = Ok o /\ points u o (beneath k l).
Proof.
  intros [H1 _ H3 H4 _]. pose proof H1 as (_ & Hr & _). cbn [rt] in Hr. unfold findPrev. rewrite Hr. destruct u as [|a c ul ka ur]; cbn [ad].
  - exists None. split; [reflexivity|]. subst l. exact I.
  - destruct (findPrev_loop_ok compare Hko (St h (mRoot t)) k (enough h) [] (N a c ul ka ur) a) as (l1 & l2 & E1 & E2 & E3 & E4).
    + pose proof (rep_size _ _ H1). unfold enough. cbn [hp] in *. lia.
    + exact H1.
    + reflexivity.
    + cbn [plug]. rewrite H4. exact H3.
    + constructor.
    + constructor.
    + cbn [hp plug] in *. rewrite E4. exists (last_ l1). split; [reflexivity|].
      rewrite <- H4, E1, keys_app, (beneath_app k _ _ E2 E3). apply (points_last _ [] l1 l2). exact E1.
Qed.
Lemma seek_next h t u l k : okt h t u l -> exists o, findNext compare h t k = Ok o /\ points u o (above k l).
Proof.
  intros [H1 _ H3 H4 _]. pose proof H1 as (_ & Hr & _). cbn [rt] in Hr. unfold findNext. rewrite Hr. destruct u as [|a c ul ka ur]; cbn [ad].
  - exists None. split; [reflexivity|]. subst l. exact I.
  - destruct (findNext_loop_ok compare Hko (St h (mRoot t)) k (enough h) [] (N a c ul ka ur) a) as (l1 & l2 & E1 & E2 & E3 & E4).
    + pose proof (rep_size _ _ H1). unfold enough. cbn [hp] in *. lia.
    + exact H1.
    + reflexivity.
    + cbn [plug]. rewrite H4. exact H3.
    + constructor.
    + constructor.
    + cbn [hp plug] in *. rewrite E4. exists (first l2). split; [reflexivity|].
      rewrite <- H4, E1, keys_app, (above_app k _ _ E2 E3). apply (points_first _ l1 l2 []). rewrite app_nil_r. exact E1.
Qed.
Lemma walk_next h t u l a k : okt h t u l -> In (a, k) (ents u) -> exists o, next h a = Ok o /\ points u o (above k l).
Proof.
  intros [H1 _ H3 H4 _] Hin. destruct (focus _ _ _ Hin) as (z & c & ul & ur & ->).
  rewrite (next_ok (St h (mRoot t)) z a c ul k ur H1 : next h a = _). eexists. split; [reflexivity|].
  assert (Eu : ents (plug z (N a c ul k ur)) = (el z ++ ents ul) ++ (a, k) :: (ents ur ++ er z)) by (rewrite ents_plug; cbn [ents]; rewrite <- !app_assoc; reflexivity).
  assert (El : l = keys (el z ++ ents ul) ++ k :: keys (ents ur ++ er z)) by (rewrite <- H4, Eu, keys_app; reflexivity).
  rewrite El, above_mid by (rewrite <- El; exact H3). apply (points_first _ ((el z ++ ents ul) ++ [(a, k)]) _ []).
  rewrite Eu, app_nil_r, <- !app_assoc. reflexivity.
Qed.
Lemma walk_prev h t u l a k : okt h t u l -> In (a, k) (ents u) -> exists o, prev h a = Ok o /\ points u o (beneath k l).
Proof.
  intros [H1 _ H3 H4 _] Hin. destruct (focus _ _ _ Hin) as (z & c & ul & ur & ->).
  rewrite (prev_ok (St h (mRoot t)) z a c ul k ur H1 : prev h a = _). eexists. split; [reflexivity|].
  assert (Eu : ents (plug z (N a c ul k ur)) = (el z ++ ents ul) ++ (a, k) :: (ents ur ++ er z)) by (rewrite ents_plug; cbn [ents]; rewrite <- !app_assoc; reflexivity).
  assert (El : l = keys (el z ++ ents ul) ++ k :: keys (ents ur ++ er z)) by (rewrite <- H4, Eu, keys_app; reflexivity).
  rewrite El, beneath_mid by (rewrite <- El; exact H3). apply (points_last _ [] _ ((a, k) :: ents ur ++ er z)). rewrite Eu. reflexivity.
Qed.
Lemma entry_key h t u l a k : okt h t u l -> In (a, k) (ents u) -> key h a = Ok k.
Proof.
  intros [H1 _ _ _ _] Hin. destruct (focus _ _ _ Hin) as (z & c & ul & ur & ->). unfold key.
  rewrite (rep_get (St h (mRoot t)) z a c ul k ur H1 : get h a = _). reflexivity.
Qed.

(** all trees *)
Fixpoint total (b : nat) (us : list tr) : nat := match us with [] => 0 | u :: us' => cnt b u + total b us' end.
Lemma total_upd b us i u u' : nth_error us i = Some u -> total b (upd us i u') + cnt b u = total b us + cnt b u'.
Proof.
  revert i. induction us as [|v us IH]; intros [|i] H; cbn in H; try discriminate.
  - injection H as ->. cbn [upd total] in *. lia.
  - specialize (IH _ H). cbn [upd total] in *. lia.
Qed.
Lemma total_app b us vs : total b (us ++ vs) = total b us + total b vs.
Proof. induction us as [|u us IH]; cbn [app total]; [reflexivity|]. rewrite IH. lia. Qed.
Lemma total_in b us u i : nth_error us i = Some u -> cnt b u <= total b us.
Proof.
  revert i. induction us as [|v us IH]; intros [|i] H; cbn in H; try discriminate.
  - injection H as ->. cbn [upd total] in *. lia.
  - specialize (IH _ H). cbn [upd total] in *. lia.
Qed.
Lemma total_two b us u v i j : nth_error us i = Some u -> nth_error us j = Some v -> i <> j -> cnt b u + cnt b v <= total b us.
Proof.
  revert i j. induction us as [|w us IH]; intros [|i] [|j] Hi Hj Hn; cbn in Hi, Hj; try discriminate; try congruence.
  - injection Hi as ->. pose proof (total_in b us v j Hj) as Q. cbn [upd total] in *. lia.
  - injection Hj as ->. pose proof (total_in b us u i Hi) as Q. cbn [upd total] in *. lia.
  - specialize (IH _ _ Hi Hj ltac:(congruence)). cbn [upd total] in *. lia.
Qed.
Lemma total_ex b us : 1 <= total b us -> exists i u, nth_error us i = Some u /\ 1 <= cnt b u.
Proof.
  induction us as [|v us IH]; cbn [total]; intro H; [lia|]. destruct (le_lt_dec 1 (cnt b v)) as [Q|Q].
  - exists 0, v. auto.
  - destruct IH as (i & u & H1 & H2); [lia|]. exists (S i), u. auto.
Qed.

Definition it_ok (i : iterator) (p : option nat) (us : list tr) : Prop :=
  match i with
  | Invalid => True
  | End => p = None
  | At j k => exists u a, nth_error us j = Some u /\ In (a, k) (ents u) /\ p = Some a
  end.
Record inv (s : state T) (ss : sstate) (us : list tr) : Prop := {
  i_trees : length (strees s) = length us; i_sets : length (sets ss) = length us;
  i_ok : forall i t u l, nth_error (strees s) i = Some t -> nth_error us i = Some u -> nth_error (sets ss) i = Some l -> okt (shp s) t u l;
  i_dis : forall b, total b us <= 1;
  i_leak : forall e n, get (shp s) e = Ok n -> 1 <= total e us;
  i_it : it_ok (itr ss) (sit s) us }.

Lemma inv_start : inv start sp_start [].
Proof.
  split; cbn; auto.
  - intros [|i]; discriminate.
  - intros e n H. apply get_lt in H. cbn in H. lia.
Qed.
Lemma inv_get s ss us i l : inv s ss us -> nth_error (sets ss) i = Some l ->
  exists t u, rd (strees s) i = Ok t /\ nth_error (strees s) i = Some t /\ nth_error us i = Some u /\ okt (shp s) t u l.
Proof.
  intros I H. assert (L : i < length (sets ss)) by (apply nth_error_Some; congruence).
  destruct (nth_error (strees s) i) as [t|] eqn:Et; [|apply nth_error_None in Et; rewrite (i_trees _ _ _ I), <- (i_sets _ _ _ I) in Et; lia].
  destruct (nth_error us i) as [u|] eqn:Eu; [|apply nth_error_None in Eu; rewrite <- (i_sets _ _ _ I) in Eu; lia].
  exists t, u. unfold rd. rewrite Et. repeat split; auto; eapply (i_ok _ _ _ I); eauto.
Qed.
Lemma set_nth_upd (l : list (list T)) i x : i < length l -> set_nth l i x = upd l i x.
Proof.
  unfold set_nth. revert i. induction l as [|y l IH]; intros [|i] H; cbn in *; try lia; [reflexivity|].
  rewrite <- IH by lia. reflexivity.
Qed.
Lemma nth_upd {A} (l : list A) i j x y : nth_error (upd l i x) j = Some y -> (i = j /\ y = x) \/ (i <> j /\ nth_error l j = Some y).
Proof.
  intro H. destruct (Nat.eq_dec i j) as [->|Hn].
  - left. split; [reflexivity|]. assert (L : j < length (upd l j x)) by (apply nth_error_Some; congruence). rewrite length_upd_ in L.
    rewrite nth_upd_eq in H by exact L. congruence.
  - right. rewrite nth_upd_ne in H by exact Hn. auto.
Qed.
Lemma inv_live s ss us b : inv s ss us -> 1 <= total b us -> b < length (shp s).
Proof.
  intros I H. destruct (total_ex _ _ H) as (i & u & Hu & Hb).
  destruct (nth_error (sets ss) i) as [l|] eqn:El; [|apply nth_error_None in El; rewrite (i_sets _ _ _ I) in El; assert (i < length us) by (apply nth_error_Some; congruence); lia].
  destruct (inv_get _ _ _ _ _ I El) as (t & u' & _ & _ & Hu' & O). rewrite Hu in Hu'. injection Hu' as <-.
  exact (rep_live _ _ _ (o_rep _ _ _ _ O) Hb).
Qed.
Lemma inv_upd s ss us i t u l h' t' u' l' p' i' :
  inv s ss us -> nth_error (strees s) i = Some t -> nth_error us i = Some u -> nth_error (sets ss) i = Some l ->
  okt h' t' u' l' -> effect (shp s) h' u u' -> it_ok i' p' (upd us i u') ->
  inv (State h' (upd (strees s) i t') p') (SState (set_nth (sets ss) i l') i') (upd us i u').
Proof.
  intros I Ht Hu Hl O (F1 & F2 & F3) Hit.
  assert (Ll : i < length (sets ss)) by (apply nth_error_Some; congruence).
  split; cbn [shp strees sit sets itr].
  - rewrite !length_upd_. apply (i_trees _ _ _ I).
  - rewrite set_nth_upd, !length_upd_ by exact Ll. apply (i_sets _ _ _ I).
  - intros j tj uj lj Hj1 Hj2 Hj3. rewrite set_nth_upd in Hj3 by exact Ll.
    apply nth_upd in Hj1, Hj2, Hj3.
    destruct Hj1 as [(<- & ->)|(Hn & Hj1)].
    + destruct Hj2 as [(_ & ->)|(X & _)]; [|congruence]. destruct Hj3 as [(_ & ->)|(X & _)]; [|congruence]. exact O.
    + destruct Hj2 as [(X & _)|(_ & Hj2)]; [congruence|]. destruct Hj3 as [(X & _)|(_ & Hj3)]; [congruence|].
      destruct (i_ok _ _ _ I _ _ _ _ Hj1 Hj2 Hj3) as [H1 H2 H3 H4 H5]. split; auto.
      apply (rep_frame (St (shp s) (mRoot tj))); [|reflexivity|exact H1]. intros e He. cbn [hp]. apply F1.
      * pose proof (total_two e us u uj i j Hu Hj2 Hn). pose proof (i_dis _ _ _ I e). lia.
      * exact (rep_live _ _ _ H1 He).
  - intro b. pose proof (total_upd b us i u u' Hu) as Q. pose proof (i_dis _ _ _ I b) as D. pose proof (total_in b us u i Hu) as D'.
    destruct (le_lt_dec 1 (cnt b u')) as [Q'|Q']; [|lia]. pose proof (rep_nodup _ _ b (o_rep _ _ _ _ O)) as N1.
    destruct (F2 b Q') as [X|X]; [lia|]. destruct (le_lt_dec 1 (total b us)) as [Y|Y]; [|lia].
    pose proof (inv_live _ _ _ _ I Y). lia.
  - intros e n Hn. pose proof (total_upd e us i u u' Hu) as Q. destruct (F3 _ _ Hn) as [X|(X & Y)].
    + pose proof (total_in e us u i Hu). lia.
    + rewrite F1 in Hn by assumption. pose proof (i_leak _ _ _ I _ _ Hn). lia.
  - exact Hit.
Qed.
Lemma inv_app s ss us h' t' u' l' : inv s ss us -> okt h' t' u' l' -> effect (shp s) h' E u' ->
  inv (State h' (strees s ++ [t']) (sit s)) (SState (sets ss ++ [l']) (itr ss)) (us ++ [u']).
Proof.
  intros I O (F1 & F2 & F3). split; cbn [shp strees sit sets itr].
  - rewrite !app_length, (i_trees _ _ _ I). reflexivity.
  - rewrite !app_length, (i_sets _ _ _ I). reflexivity.
  - intros j tj uj lj Hj1 Hj2 Hj3. destruct (lt_dec j (length us)) as [L|L].
    + rewrite nth_error_app1 in Hj1 by (rewrite (i_trees _ _ _ I); exact L). rewrite nth_error_app1 in Hj2 by exact L.
      rewrite nth_error_app1 in Hj3 by (rewrite (i_sets _ _ _ I); exact L).
      destruct (i_ok _ _ _ I _ _ _ _ Hj1 Hj2 Hj3) as [H1 H2 H3 H4 H5]. split; auto.
      apply (rep_frame (St (shp s) (mRoot tj))); [|reflexivity|exact H1]. intros e He. cbn [hp]. apply F1; [reflexivity|exact (rep_live _ _ _ H1 He)].
    + rewrite nth_error_app2 in Hj1 by (rewrite (i_trees _ _ _ I); lia). rewrite nth_error_app2 in Hj2 by lia.
      rewrite nth_error_app2 in Hj3 by (rewrite (i_sets _ _ _ I); lia). rewrite (i_trees _ _ _ I) in Hj1. rewrite (i_sets _ _ _ I) in Hj3.
      destruct (j - length us) as [|[|]]; cbn in Hj1, Hj2, Hj3; try discriminate. injection Hj1 as <-. injection Hj2 as <-. injection Hj3 as <-. exact O.
  - intro b. rewrite total_app. cbn [total]. pose proof (i_dis _ _ _ I b) as D. pose proof (rep_nodup _ _ b (o_rep _ _ _ _ O)) as N1.
    destruct (le_lt_dec 1 (cnt b u')) as [Q'|Q']; [|lia]. destruct (F2 b Q') as [X|X]; [cbn in X; lia|].
    destruct (le_lt_dec 1 (total b us)) as [Y|Y]; [|lia]. pose proof (inv_live _ _ _ _ I Y). lia.
  - intros e n Hn. rewrite total_app. cbn [total]. destruct (F3 _ _ Hn) as [X|(X & Y)]; [lia|].
    rewrite F1 in Hn by assumption. pose proof (i_leak _ _ _ I _ _ Hn). lia.
  - pose proof (i_it _ _ _ I) as Hit. destruct (itr ss) as [| |j k]; cbn [it_ok] in *; auto.
    destruct Hit as (u & a & H1 & H2 & H3). exists u, a. split; [|auto]. rewrite nth_error_app1; [exact H1|]. apply nth_error_Some. congruence.
Qed.
Lemma inv_seek s ss us p' i' : inv s ss us -> it_ok i' p' us -> inv (State (shp s) (strees s) p') (SState (sets ss) i') us.
Proof. intros [] H. split; cbn; auto. Qed.
Lemma it_points us j u o k : nth_error us j = Some u -> points u o k -> it_ok (at_opt j k) o us.
Proof.
  intros Hu Hp. destruct o as [a|], k as [k|]; cbn [points] in Hp; try contradiction; cbn [at_opt it_ok]; [|reflexivity].
  exists u, a. auto.
Qed.
(** the iterator when tree i goes from u to u' *)
Lemma it_spoil bad us i u u' j p : nth_error us i = Some u -> it_ok j p us ->
  (forall a k, In (a, k) (ents u) -> bad k = false -> In (a, k) (ents u')) -> it_ok (spoil i bad j) p (upd us i u').
Proof.
  intros Hu Hit Hb. destruct j as [| |j k]; cbn [spoil it_ok] in *; auto.
  destruct Hit as (v & a & H1 & H2 & H3). destruct (j =? i)%nat eqn:Q.
  - apply Nat.eqb_eq in Q. subst j. rewrite Hu in H1. injection H1 as <-. destruct (bad k) eqn:B; cbn [andb it_ok]; [exact I|].
    exists u', a. split; [apply nth_upd_eq; apply nth_error_Some; congruence|]. split; [apply Hb; assumption|exact H3].
  - cbn [andb it_ok]. exists v, a. split; [|auto]. rewrite nth_upd_ne; [exact H1|]. apply Nat.eqb_neq in Q. congruence.
Qed.
Lemma it_keep us i u u' j p : nth_error us i = Some u -> it_ok j p us ->
  (forall x, In x (ents u) -> In x (ents u')) -> it_ok j p (upd us i u').
Proof.
  intros Hu Hit Hb. pose proof (it_spoil (fun _ => false) us i u u' j p Hu Hit (fun a k H _ => Hb _ H)) as Q.
  destruct j; cbn [spoil] in Q; auto. rewrite andb_false_r in Q. exact Q.
Qed.

Lemma sp_remove_ok s ss us i k t u l ss' h' t' u' p :
  inv s ss us -> nth_error (strees s) i = Some t -> nth_error us i = Some u -> nth_error (sets ss) i = Some l ->
  sp_remove compare ss i k = Some ss' ->
  okt h' t' u' (del k l) -> effect (shp s) h' u u' ->
  (forall b k', In (b, k') (ents u) -> k' <> k -> above k l <> Some k' -> In (b, k') (ents u')) -> p = sit s ->
  inv (State h' (upd (strees s) i t') p) ss' (upd us i u').
Proof.
  intros I Ht Hu Hl Hs O F Hb ->. unfold sp_remove in Hs. rewrite Hl in Hs. destruct (mem k l); [|discriminate]. injection Hs as <-.
  refine (inv_upd _ _ _ _ _ _ _ _ _ _ _ _ _ I Ht Hu Hl O F _). apply (it_spoil _ _ _ u); [exact Hu|apply (i_it _ _ _ I)|].
  intros a k' Hin Q. apply orb_false_iff in Q. destruct Q as (Q1 & Q2). apply Hb; [exact Hin| |].
  - intros ->. rewrite cmp_refl in Q1. discriminate.
  - intro X. rewrite X in Q2. cbn in Q2. rewrite cmp_refl in Q2. discriminate.
Qed.

Lemma step_ok dbg s ss us o ss' x : inv s ss us -> sp_step compare ss o = Some (ss', x) ->
  exists s' us', step compare dbg s o = Ok (s', x) /\ inv s' ss' us'.
Proof.
  intros I H. destruct o as [|i k|i k|i|i|i|i|i|a|i a|i a|i|i|i|i k|i k|i k| | | |]; cbn [sp_step step] in *.
  - (* New *) injection H as <- <-. exists (State (shp s) (strees s ++ [Tree None 0]) (sit s)), (us ++ [E]). split; [reflexivity|].
    apply inv_app; [exact I|apply okt_empty|]. split; [auto|]. split; [intros e He; cbn in He; lia|].
    intros e n Hn. right. split; [reflexivity|exact (get_lt _ _ _ Hn)].
  - (* Insert *) destruct (nth_error (sets ss) i) as [l|] eqn:El; [|discriminate]. destruct (mem k l) eqn:M; [discriminate|]. injection H as <- <-.
    apply mem_notin in M. destruct (inv_get _ _ _ _ _ I El) as (t & u & Rt & Ht & Hu & O).
    destruct (insert_ok dbg _ _ _ _ _ O M) as (h' & t' & u' & E1 & O' & F & K). unfold mutate. rewrite Rt. cbn [bind]. rewrite E1. cbn [bind].
    eexists _, (upd us i u'). split; [reflexivity|]. refine (inv_upd _ _ _ _ _ _ _ _ _ _ _ _ _ I Ht Hu El O' F _).
    apply (it_keep _ _ u); [exact Hu|apply (i_it _ _ _ I)|exact K].
  - (* Remove *) destruct (sp_remove compare ss i k) as [ss1|] eqn:Es; [|discriminate]. injection H as <- <-.
    destruct (nth_error (sets ss) i) as [l|] eqn:El; [|unfold sp_remove in Es; rewrite El in Es; discriminate].
    assert (M : In k l). { unfold sp_remove in Es. rewrite El in Es. destruct (mem k l) eqn:M; [apply mem_in, M|discriminate]. }
    destruct (inv_get _ _ _ _ _ I El) as (t & u & Rt & Ht & Hu & O).
    destruct (remove_ok dbg _ _ _ _ _ O M) as (h' & t' & u' & E1 & O' & F & K). unfold mutate. rewrite Rt. cbn [bind]. rewrite E1. cbn [bind].
    eexists _, (upd us i u'). split; [reflexivity|]. exact (sp_remove_ok _ _ _ _ _ _ _ _ _ _ _ _ _ I Ht Hu El Es O' F K eq_refl).
  - (* RemoveIt *) destruct (itr ss) as [| |j k] eqn:Ei; try discriminate. destruct (j =? i)%nat eqn:Ej; [|discriminate]. apply Nat.eqb_eq in Ej. subst j.
    destruct (sp_remove compare ss i k) as [ss1|] eqn:Es; [|discriminate]. injection H as <- <-.
    destruct (nth_error (sets ss) i) as [l|] eqn:El; [|unfold sp_remove in Es; rewrite El in Es; discriminate].
    destruct (inv_get _ _ _ _ _ I El) as (t & u & Rt & Ht & Hu & O).
    pose proof (i_it _ _ _ I) as Hit. rewrite Ei in Hit. destruct Hit as (u0 & a & X1 & X2 & X3). rewrite Hu in X1. injection X1 as <-.
    destruct (remove_it_ok dbg _ _ _ _ _ _ O X2) as (h' & t' & u' & E1 & O' & F & K). unfold mutate. rewrite Rt. cbn [bind]. rewrite X3, E1. cbn [bind].
    eexists _, (upd us i u'). split; [reflexivity|]. exact (sp_remove_ok _ _ _ _ _ _ _ _ _ _ _ _ _ I Ht Hu El Es O' F K (eq_sym X3)).
  - (* Length *) destruct (nth_error (sets ss) i) as [l|] eqn:El; [|discriminate]. injection H as <- <-.
    destruct (inv_get _ _ _ _ _ I El) as (t & u & Rt & Ht & Hu & O). unfold look. rewrite Rt. cbn [bind]. rewrite (o_count _ _ _ _ O). eauto.
  - (* NonEmpty *) destruct (nth_error (sets ss) i) as [l|] eqn:El; [|discriminate]. injection H as <- <-.
    destruct (inv_get _ _ _ _ _ I El) as (t & u & Rt & Ht & Hu & O). unfold look. rewrite Rt. cbn [bind].
    assert (Q : is_null (mRoot t) = (length l =? 0)).
    { destruct O as [(_ & Hr & _) _ _ H4 _]. cbn [rt] in Hr. rewrite Hr, <- H4. unfold keys. rewrite map_length, <- size_ents. destruct u; reflexivity. }
    rewrite Q. eauto.
  - (* MinKey *) destruct (nth_error (sets ss) i) as [[|k l]|] eqn:El; try discriminate. injection H as <- <-.
    destruct (inv_get _ _ _ _ _ I El) as (t & u & Rt & Ht & Hu & O). unfold look. rewrite Rt. cbn [bind]. unfold minimumKey.
    destruct (seek_min _ _ _ _ O) as (o & E1 & E2). unfold it_minimum in E1. destruct (mRoot t) as [r|] eqn:Er.
    + cbn [is_null negb deref bind]. rewrite assert_true. destruct (minimum (shp s) r) as [m| | | |]; try discriminate. cbn [bind] in *. injection E1 as <-.
      cbn [hd_error] in E2. rewrite (entry_key _ _ _ _ _ _ O E2). cbn [bind]. eauto.
    + injection E1 as <-. cbn in E2. contradiction.
  - (* MaxKey *) destruct (nth_error (sets ss) i) as [l|] eqn:El; try discriminate. destruct (rev l) as [|k l'] eqn:Q; [discriminate|]. injection H as <- <-.
    destruct (inv_get _ _ _ _ _ I El) as (t & u & Rt & Ht & Hu & O). unfold look. rewrite Rt. cbn [bind]. unfold maximumKey.
    destruct (seek_max _ _ _ _ O) as (o & E1 & E2). rewrite Q in E2. unfold it_maximum in E1. destruct (mRoot t) as [r|] eqn:Er.
    + cbn [is_null negb deref bind]. rewrite assert_true. destruct (maximum (shp s) r) as [m| | | |]; try discriminate. cbn [bind] in *. injection E1 as <-.
      cbn [hd_error] in E2. rewrite (entry_key _ _ _ _ _ _ O E2). cbn [bind]. eauto.
    + injection E1 as <-. cbn in E2. contradiction.
  - (* Copy *) destruct (nth_error (sets ss) a) as [l|] eqn:El; [|discriminate]. injection H as <- <-.
    destruct (inv_get _ _ _ _ _ I El) as (t & u & Rt & Ht & Hu & O). rewrite Rt. cbn [bind].
    destruct (copy_tree_ok dbg _ _ _ _ O) as (h' & t' & v & E1 & O' & F). rewrite E1. cbn [bind].
    eexists _, (us ++ [v]). split; [reflexivity|]. exact (inv_app _ _ _ _ _ _ _ I O' F).
  - (* Assign *) destruct (nth_error (sets ss) i) as [l|] eqn:El; [|discriminate]. destruct (nth_error (sets ss) a) as [la|] eqn:Ea; [|discriminate].
    destruct ((i =? a) || (length la =? 0)) eqn:Q; [discriminate|]. apply orb_false_iff in Q. destruct Q as (Q1 & Q2). injection H as <- <-.
    destruct (inv_get _ _ _ _ _ I El) as (t & u & Rt & Ht & Hu & O). destruct (inv_get _ _ _ _ _ I Ea) as (ta & ua & Rta & Hta & Hua & Oa).
    rewrite Q1. cbn [negb]. rewrite assert_true, Rta. cbn [bind]. unfold mutate. rewrite Rt. cbn [bind].
    apply Nat.eqb_neq in Q1. destruct (assign_ok dbg _ _ _ _ _ _ _ O Oa) as (h' & t' & u' & E1 & O' & F).
    { intros ->. discriminate. }
    { intro e. pose proof (total_two e us u ua i a Hu Hua Q1). pose proof (i_dis _ _ _ I e). lia. }
    rewrite E1. cbn [bind]. eexists _, (upd us i u'). split; [reflexivity|].
    refine (inv_upd _ _ _ _ _ _ _ _ _ _ _ _ _ I Ht Hu El O' F _). apply (it_spoil _ _ _ u); [exact Hu|apply (i_it _ _ _ I)|discriminate].
  - (* Swap *) destruct (nth_error (sets ss) i) as [l|] eqn:El; [|discriminate]. destruct (nth_error (sets ss) a) as [la|] eqn:Ea; [|discriminate].
    injection H as <- <-.
    destruct (inv_get _ _ _ _ _ I El) as (t & u & Rt & Ht & Hu & O). destruct (inv_get _ _ _ _ _ I Ea) as (ta & ua & Rta & Hta & Hua & Oa).
    rewrite Rt, Rta. cbn [bind]. eexists _, (upd (upd us i ua) a u). split; [reflexivity|].
    assert (Li : i < length us) by (apply nth_error_Some; congruence). assert (La : a < length us) by (apply nth_error_Some; congruence).
    assert (Lsi : i < length (sets ss)) by (rewrite (i_sets _ _ _ I); exact Li).
    assert (Lsa : a < length (sets ss)) by (rewrite (i_sets _ _ _ I); exact La).
    rewrite (set_nth_upd _ i) by exact Lsi. rewrite set_nth_upd by (rewrite length_upd_; exact Lsa).
    assert (Ht2 : forall b, total b (upd (upd us i ua) a u) = total b us).
    { intro b. destruct (Nat.eq_dec i a) as [<-|Hn].
      - pose proof (total_upd b us i u ua Hu) as X1. pose proof (total_upd b (upd us i ua) i ua u (nth_upd_eq us i ua Li)) as X2. lia.
      - pose proof (total_upd b us i u ua Hu) as X1.
        pose proof (total_upd b (upd us i ua) a ua u) as X2. rewrite nth_upd_ne in X2 by exact Hn. specialize (X2 Hua). lia. }
    split; cbn [shp strees sit sets itr].
    + rewrite !length_upd_. apply (i_trees _ _ _ I).
    + rewrite !length_upd_. apply (i_sets _ _ _ I).
    + intros j tj uj lj Hj1 Hj2 Hj3. apply nth_upd in Hj1, Hj2, Hj3.
      destruct Hj1 as [(<- & ->)|(Hn & Hj1)].
      * destruct Hj2 as [(_ & ->)|(X & _)]; [|congruence]. destruct Hj3 as [(_ & ->)|(X & _)]; [|congruence]. exact O.
      * destruct Hj2 as [(X & _)|(_ & Hj2)]; [congruence|]. destruct Hj3 as [(X & _)|(_ & Hj3)]; [congruence|].
        apply nth_upd in Hj1, Hj2, Hj3. destruct Hj1 as [(<- & ->)|(Hn' & Hj1)].
        -- destruct Hj2 as [(_ & ->)|(X & _)]; [|congruence]. destruct Hj3 as [(_ & ->)|(X & _)]; [|congruence]. exact Oa.
        -- destruct Hj2 as [(X & _)|(_ & Hj2)]; [congruence|]. destruct Hj3 as [(X & _)|(_ & Hj3)]; [congruence|]. exact (i_ok _ _ _ I _ _ _ _ Hj1 Hj2 Hj3).
    + intro b. rewrite Ht2. apply (i_dis _ _ _ I).
    + intros e n Hn. rewrite Ht2. exact (i_leak _ _ _ I _ _ Hn).
    + pose proof (i_it _ _ _ I) as Hit. destruct (itr ss) as [| |j k]; cbn [it_ok] in *; auto.
      destruct Hit as (w & b & X1 & X2 & X3). exists w, b. split; [|auto].
      destruct (j =? i) eqn:Q1; [apply Nat.eqb_eq in Q1; subst j|apply Nat.eqb_neq in Q1; destruct (j =? a) eqn:Q2; [apply Nat.eqb_eq in Q2; subst j|apply Nat.eqb_neq in Q2]].
      * rewrite Hu in X1. injection X1 as <-. apply nth_upd_eq. rewrite length_upd_. exact La.
      * rewrite nth_upd_ne by exact Q1. rewrite nth_upd_eq by exact Li. congruence.
      * rewrite !nth_upd_ne by congruence. exact X1.
  - (* Clear *) destruct (nth_error (sets ss) i) as [l|] eqn:El; [|discriminate]. injection H as <- <-.
    destruct (inv_get _ _ _ _ _ I El) as (t & u & Rt & Ht & Hu & O).
    destruct (clear_ok dbg _ _ _ _ O) as (h' & E1 & O' & F). unfold mutate. rewrite Rt. cbn [bind]. rewrite E1. cbn [bind].
    eexists _, (upd us i E). split; [reflexivity|]. refine (inv_upd _ _ _ _ _ _ _ _ _ _ _ _ _ I Ht Hu El O' F _).
    apply (it_spoil _ _ _ u); [exact Hu|apply (i_it _ _ _ I)|discriminate].
  - (* Min *) destruct (nth_error (sets ss) i) as [l|] eqn:El; [|discriminate]. injection H as <- <-.
    destruct (inv_get _ _ _ _ _ I El) as (t & u & Rt & Ht & Hu & O). destruct (seek_min _ _ _ _ O) as (o & E1 & E2).
    unfold seek. rewrite Rt. cbn [bind]. rewrite E1. cbn [bind]. eexists _, us. split; [reflexivity|]. apply inv_seek; [exact I|]. exact (it_points _ _ _ _ _ Hu E2).
  - (* Max *) destruct (nth_error (sets ss) i) as [l|] eqn:El; [|discriminate]. injection H as <- <-.
    destruct (inv_get _ _ _ _ _ I El) as (t & u & Rt & Ht & Hu & O). destruct (seek_max _ _ _ _ O) as (o & E1 & E2).
    unfold seek. rewrite Rt. cbn [bind]. rewrite E1. cbn [bind]. eexists _, us. split; [reflexivity|]. apply inv_seek; [exact I|]. exact (it_points _ _ _ _ _ Hu E2).
  - (* Find *) destruct (nth_error (sets ss) i) as [l|] eqn:El; [|discriminate]. injection H as <- <-.
    destruct (inv_get _ _ _ _ _ I El) as (t & u & Rt & Ht & Hu & O).
    destruct (findNode_ok compare Hko _ k u (o_rep _ _ _ _ O)) as (o & E1 & E2); [rewrite (o_keys _ _ _ _ O); exact (o_sorted _ _ _ _ O)|].
    unfold seek. rewrite Rt. cbn [bind]. rewrite E1. cbn [bind]. eexists _, us. split; [reflexivity|]. apply inv_seek; [exact I|].
    rewrite (o_keys _ _ _ _ O) in E2. destruct o as [b|].
    + assert (M : mem k l = true). { apply mem_in. rewrite <- (o_keys _ _ _ _ O). exact (in_keys _ _ _ E2). } rewrite M. exists u, b. auto.
    + apply mem_notin in E2. rewrite E2. reflexivity.
  - (* FindPrev *) destruct (nth_error (sets ss) i) as [l|] eqn:El; [|discriminate]. injection H as <- <-.
    destruct (inv_get _ _ _ _ _ I El) as (t & u & Rt & Ht & Hu & O). destruct (seek_prev _ _ _ _ k O) as (o & E1 & E2).
    unfold seek. rewrite Rt. cbn [bind]. rewrite E1. cbn [bind]. eexists _, us. split; [reflexivity|]. apply inv_seek; [exact I|]. exact (it_points _ _ _ _ _ Hu E2).
  - (* FindNext *) destruct (nth_error (sets ss) i) as [l|] eqn:El; [|discriminate]. injection H as <- <-.
    destruct (inv_get _ _ _ _ _ I El) as (t & u & Rt & Ht & Hu & O). destruct (seek_next _ _ _ _ k O) as (o & E1 & E2).
    unfold seek. rewrite Rt. cbn [bind]. rewrite E1. cbn [bind]. eexists _, us. split; [reflexivity|]. apply inv_seek; [exact I|]. exact (it_points _ _ _ _ _ Hu E2).
  - (* Incr *) pose proof (i_it _ _ _ I) as Hit. destruct (itr ss) as [| |j k] eqn:Ei; try discriminate.
    destruct (nth_error (sets ss) j) as [l|] eqn:El; [|discriminate]. injection H as <- <-.
    destruct (inv_get _ _ _ _ _ I El) as (t & u & Rt & Ht & Hu & O). destruct Hit as (u0 & a & X1 & X2 & X3). rewrite Hu in X1. injection X1 as <-.
    destruct (walk_next _ _ _ _ _ _ O X2) as (o & E1 & E2). unfold it_next. rewrite X3. cbn [is_null negb deref bind]. rewrite assert_true, E1. cbn [bind].
    eexists _, us. split; [reflexivity|]. apply inv_seek; [exact I|]. exact (it_points _ _ _ _ _ Hu E2).
  - (* Decr *) pose proof (i_it _ _ _ I) as Hit. destruct (itr ss) as [| |j k] eqn:Ei; try discriminate.
    destruct (nth_error (sets ss) j) as [l|] eqn:El; [|discriminate]. injection H as <- <-.
    destruct (inv_get _ _ _ _ _ I El) as (t & u & Rt & Ht & Hu & O). destruct Hit as (u0 & a & X1 & X2 & X3). rewrite Hu in X1. injection X1 as <-.
    destruct (walk_prev _ _ _ _ _ _ O X2) as (o & E1 & E2). unfold it_prev. rewrite X3. cbn [is_null negb deref bind]. rewrite assert_true, E1. cbn [bind].
    eexists _, us. split; [reflexivity|]. apply inv_seek; [exact I|]. exact (it_points _ _ _ _ _ Hu E2).
  - (* Key *) pose proof (i_it _ _ _ I) as Hit. destruct (itr ss) as [| |j k] eqn:Ei; try discriminate. injection H as <- <-.
    destruct Hit as (u & a & X1 & X2 & X3).
    destruct (nth_error (sets ss) j) as [l|] eqn:El; [|apply nth_error_None in El; rewrite (i_sets _ _ _ I) in El; assert (j < length us) by (apply nth_error_Some; congruence); lia].
    destruct (inv_get _ _ _ _ _ I El) as (t & u' & Rt & Ht & Hu & O). rewrite Hu in X1. injection X1 as ->.
    unfold it_key. rewrite X3. cbn [is_null negb deref bind]. rewrite assert_true, (entry_key _ _ _ _ _ _ O X2). cbn [bind]. eauto.
  - (* Good *) pose proof (i_it _ _ _ I) as Hit. destruct (itr ss) as [| |j k] eqn:Ei; try discriminate; injection H as <- <-.
    + cbn [it_ok] in Hit. rewrite Hit. cbn. exists s, us. split; [reflexivity|exact I].
    + destruct Hit as (u & a & X1 & X2 & X3). rewrite X3. cbn. exists s, us. split; [reflexivity|exact I].
Qed.

Lemma run_ok dbg : forall os s ss us ss' xs, inv s ss us -> sp_run compare ss os = Some (ss', xs) ->
  exists s' us', run compare dbg s os = Ok (s', xs) /\ inv s' ss' us'.
Proof.
  induction os as [|o os IH]; intros s ss us ss' xs I H; cbn [sp_run run] in *.
  - injection H as <- <-. eauto.
  - destruct (sp_step compare ss o) as [[s1 x]|] eqn:E1; [|discriminate].
    destruct (sp_run compare s1 os) as [[s2 xs']|] eqn:E2; [|discriminate]. injection H as <- <-.
    destruct (step_ok dbg _ _ _ _ _ _ I E1) as (s' & us' & X1 & I'). rewrite X1. cbn [bind].
    destruct (IH _ _ _ _ _ I' E2) as (s'' & us'' & X2 & I''). rewrite X2. cbn [bind]. eauto.
Qed.

(** balance *)
Lemma walk_path (h : heap) : forall (u : tr) p cs, repT h p u -> walk h (ad u) cs ->
  forall c n, rb u c n -> no_two_reds cs /\ blacks cs = n /\ hd false cs = c /\ length cs <= 2 * n + (if c then 1 else 0).
Proof.
  induction u as [|a cu l IHl k r IHr]; intros p cs Hu Hw c n Hb.
  - cbn [ad] in Hw. inversion Hw; subst. inversion Hb; subst. cbn. repeat split; auto.
  - cbn [repT] in Hu. destruct Hu as (Hg & Hl & Hr). cbn [ad] in Hw.
    assert (exists cs', cs = cu :: cs' /\ (walk h (ad l) cs' \/ walk h (ad r) cs')) as (cs' & -> & Hw').
    { inversion Hw as [|? n0 cs0 G0 W0|? n0 cs0 G0 W0]; subst; rewrite Hg in G0; injection G0 as <-; cbn [mRed mLeft mRight] in *; eauto. }
    clear Hw.
    inversion Hb as [|? ? ? ? ? B1 B2|? ? ? ? m cl cr B1 B2]; subst.
    + assert (D : no_two_reds cs' /\ blacks cs' = n /\ hd false cs' = false /\ length cs' <= 2 * n + 0).
      { destruct Hw' as [W|W]; [exact (IHl _ _ Hl W _ _ B1)|exact (IHr _ _ Hr W _ _ B2)]. }
      destruct D as (D1 & D2 & D3 & D4). split; [destruct cs' as [|[]]; cbn in *; congruence || auto|].
      split; [exact D2|]. split; [reflexivity|]. cbn [length]. lia.
    + assert (D : exists cc, no_two_reds cs' /\ blacks cs' = m /\ hd false cs' = cc /\ length cs' <= 2 * m + (if cc then 1 else 0)).
      { destruct Hw' as [W|W]; eexists; [exact (IHl _ _ Hl W _ _ B1)|exact (IHr _ _ Hr W _ _ B2)]. }
      destruct D as (cc & D1 & D2 & D3 & D4). split; [exact D1|]. split; [unfold blacks in *; cbn [count_occ]; destruct (Bool.bool_dec false false); congruence|].
      split; [reflexivity|]. cbn [length]. destruct cc; lia.
Qed.
Lemma rb_size (u : tr) c n : rb u c n -> 2 ^ n <= S (size u).
Proof. induction 1; cbn [size Nat.pow]; lia. Qed.
Lemma okt_balanced h t u l : okt h t u l -> balanced h (mRoot t) /\ forall cs, walk h (mRoot t) cs -> length cs <= 2 * Nat.log2 (S (length l)).
Proof.
  intros [(H1 & Hr & _) (m & H2) H3 H4 H5]. cbn [rt hp] in *. rewrite Hr.
  assert (W : forall cs, walk h (ad u) cs -> no_two_reds cs /\ blacks cs = m /\ hd false cs = false /\ length cs <= 2 * m + 0).
  { intros cs Hc. exact (walk_path h u None cs H1 Hc false m H2). }
  split.
  - split; intros; [apply W; assumption|apply W; assumption|]. destruct (W _ H) as (_ & -> & _), (W _ H0) as (_ & -> & _). reflexivity.
  - intros cs Hc. destruct (W _ Hc) as (_ & _ & _ & L). pose proof (rb_size _ _ _ H2) as S1.
    replace (length l) with (size u) by (rewrite size_ents, <- H4; unfold keys; rewrite map_length; reflexivity).
    assert (m <= Nat.log2 (S (size u))); [|lia]. rewrite <- (Nat.log2_pow2 m) by lia. apply Nat.log2_le_mono. exact S1.
Qed.
End RB.
