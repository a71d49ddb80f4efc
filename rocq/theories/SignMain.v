From Coq Require Import ZArith List Bool Arith Lia.
From Verif Require Import Outcome MonomModel MonomSpec MonomProofs PolyModel PolySpec JanetModel JanetPolyModel TQModel JanetPolySpec SignSpec SignProofs.
Import ListNotations.
Local Open Scope Z_scope.

Lemma f2_len {A B} (R : A -> B -> Prop) l l' : Forall2 R l l' -> length l = length l'.
Proof. induction 1; cbn; congruence. Qed.

Section Loops.
Variable (s : nat -> bool) (n : nat) (dbg : bool).
Notation prel := (SignProofs.prel s n).
Notation fndrel := (SignProofs.fndrel s n).
Definition wrel (u v : wpoly) : Prop := wwrap v = wwrap u /\ prel (wpol u) (wpol v).
Definition erel (u v : entry) : Prop := fst v = fst u /\ prel (snd u) (snd v).
Notation L := (Forall2 wrel).
Notation T := (Forall2 erel).
Definition pairrel {A B} (R : A -> A -> Prop) (S : B -> B -> Prop) (x y : A * B) : Prop := R (fst x) (fst y) /\ S (snd x) (snd y).
Definition optrel {A} (R : A -> A -> Prop) (x y : option A) : Prop :=
  match x, y with Some a, Some b => R a b | None, None => True | _, _ => False end.
Definition eqr {A} (a b : A) : Prop := b = a.
(** equal results, whatever they are *)
Ltac same H := rewrite H; eapply al_bind; [apply (al_refl eqr); reflexivity|]; intros ? ? ->.

Lemma place_al l l' u v : L l l' -> wrel u v -> alike L (place dbg l u) (place dbg l' v).
Proof.
  intros H Hu. induction H as [|a b l l' Hab H IH]; cbn [place]; [constructor; [exact Hu|constructor]|].
  same (prel_cmp s n dbg (wpol u) (wpol v) (wpol a) (wpol b) (proj2 Hu) (proj2 Hab)).
  destruct (0 <? a0); [|constructor; [exact Hu|constructor; assumption]].
  ab x y Hx; [exact IH|]. constructor; assumption.
Qed.
Lemma insert_al l l' u v : L l l' -> wrel u v -> alike L (jp_insert dbg l u) (jp_insert dbg l' v).
Proof. intros H Hu. unfold jp_insert. apply al_assert; [rewrite (prel_zero s n _ _ (proj2 Hu)); reflexivity|apply place_al; assumption]. Qed.
Lemma sort_eq l l' : L l l' -> assertSort l' = assertSort l.
Proof.
  intro H. destruct H as [|a b l l' Hab H]; [reflexivity|]. cbn [assertSort]. revert a b Hab.
  induction H as [|u v l l' Huv H IH]; intros a b Hab; cbn [sorted_from]; [reflexivity|].
  rewrite (prel_cmp s n false (wpol a) (wpol b) (wpol u) (wpol v) (proj2 Hab) (proj2 Huv)).
  destruct (p_cmp false (wpol a) (wpol u)); try reflexivity. rewrite (IH u v Huv). reflexivity.
Qed.

Lemma lookup_al l l' m : T l l' -> optrel prel (lookup l m) (lookup l' m).
Proof.
  intro H. induction H as [|[k p] [k' p'] l l' [E P] H IH]; cbn [lookup]; [exact Logic.I|]. cbn in E. subst k'.
  destruct (same_key k m); [exact P|exact IH].
Qed.
Lemma find_poly_al mpos js l l' : T l l' -> fndrel (find_poly dbg mpos js l) (find_poly dbg mpos js l').
Proof.
  intros H m. unfold find_poly. eapply al_bind; [apply (al_refl eqr); reflexivity|]. intros r ? ->.
  destruct r as [u|]; [|exact Logic.I]. pose proof (lookup_al l l' (wlm u) H) as K.
  destruct (lookup l (wlm u)), (lookup l' (wlm u)); cbn in *; auto.
Qed.

Lemma q_pos_eq q q' : L q q' -> q_pos q' = q_pos q.
Proof.
  intro H. unfold q_pos. generalize (-1). induction H as [|a b q q' Hab H IH]; intro z; [reflexivity|].
  cbn [fold_left]. rewrite (prel_maxPos s n _ _ (proj2 Hab)). apply IH.
Qed.

Definition jrel (J K : jpoly) : Prop :=
  optrel wrel (jone J) (jone K) /\ L (jq J) (jq K) /\ T (jt J) (jt K) /\ jpos K = jpos J /\ jtrees K = jtrees J.

Lemma comparable_eq J K a b : jrel J K -> prel a b -> jp_comparable K b = jp_comparable J a.
Proof.
  intros (Ho & Hq & Ht & _) Hab. unfold jp_comparable. f_equal; [f_equal; [f_equal|]|].
  - destruct Hq, Ht; reflexivity.
  - destruct Hq as [|u v]; [reflexivity|]. apply (prel_comparable s n); [apply H|exact Hab].
  - destruct Ht as [|u v]; [reflexivity|]. apply (prel_comparable s n); [apply H|exact Hab].
  - destruct (jone J), (jone K); try contradiction; [|reflexivity]. apply (prel_comparable s n); [apply Ho|exact Hab].
Qed.

Lemma push_al J K a b : jrel J K -> prel a b -> alike jrel (jp_push dbg J a) (jp_push dbg K b).
Proof.
  intros H Hab. unfold jp_push. apply al_assert; [apply comparable_eq; assumption|].
  pose proof H as (Ho & Hq & Ht & Hp & Hj). destruct (jone J) as [w|], (jone K) as [w'|]; try contradiction; [exact H|].
  rewrite (prel_zero s n _ _ Hab). destruct (is_zero a); [exact H|].
  same (prel_lm s n dbg _ _ Hab). ab c d Hc; [apply copy_al, Hab|]. ab q q' Hqq; [apply insert_al; [exact Hq|split; [reflexivity|exact Hc]]|].
  split; [exact Logic.I|]. cbn. auto.
Qed.
Lemma set_pos_al J K : jrel J K -> jrel (set_pos J) (set_pos K).
Proof.
  intro H. pose proof H as (Ho & Hq & Ht & Hp & Hj). unfold set_pos. rewrite (q_pos_eq _ _ Hq), Hp, Hj.
  destruct (jpos J <? q_pos (jq J)); [|exact H]. split; [exact Ho|]. cbn. auto.
Qed.
Lemma set_one_al t o mpos : alike jrel (set_one dbg t o n mpos) (set_one dbg t o n mpos).
Proof.
  unfold set_one. ab p q Hp; [apply const_al|]. same (prel_lm s n dbg _ _ Hp). split; [split; [reflexivity|exact Hp]|]. cbn. auto.
Qed.

Lemma prolong_al mpos cnt : forall k js w p p' q q', prel p p' -> L q q' ->
  alike (pairrel eqr L) (jp_prolong dbg mpos cnt k js w p q) (jp_prolong dbg mpos cnt k js w p' q').
Proof.
  induction cnt as [|cnt IH]; intros k js w p p' q q' Hp Hq; cbn [jp_prolong]; [split; [reflexivity|exact Hq]|].
  eapply al_bind; [apply (al_refl eqr); reflexivity|]. intros nm ? ->.
  eapply al_bind; [apply (al_refl eqr); reflexivity|]. intros bl ? ->.
  destruct (nm && negb bl); [|apply IH; assumption].
  eapply al_bind; [apply (al_refl eqr); reflexivity|]. intros d ? ->.
  destruct (match d with Some _ => _ | None => _ end).
  - eapply al_bind; [apply (al_refl eqr); reflexivity|]. intros w' ? ->. apply IH; assumption.
  - eapply al_bind; [apply (al_refl eqr); reflexivity|]. intros [v w'] ? ->.
    ab pv pv' Hpv; [apply mul_var_al, Hp|]. ab r r' Hr; [apply insert_al; [exact Hq|split; [reflexivity|exact Hpv]]|].
    apply IH; assumption.
Qed.
Lemma prolong_entry_al mpos js e e' q q' : erel e e' -> L q q' ->
  alike (pairrel eqr L) (prolong_entry dbg mpos js e q) (prolong_entry dbg mpos js e' q').
Proof.
  intros [E Hp] Hq. unfold prolong_entry. rewrite E. destruct (get_wrap js (fst e)); [|exact Logic.I]. apply prolong_al; assumption.
Qed.

Lemma take_block_al fuel f g dg : fndrel f g -> forall q q' tmp tmp', L q q' -> L tmp tmp' ->
  alike (optrel (pairrel L L)) (take_block fuel dbg f dg q tmp) (take_block fuel dbg g dg q' tmp').
Proof.
  intro Hf. induction q as [|u q IH]; intros q' tmp tmp' Hq Ht; destruct q' as [|v q']; inversion Hq as [|? ? ? ? Huv Hqq]; subst; cbn [take_block].
  - split; [constructor|exact Ht].
  - same (prel_lm s n dbg _ _ (proj2 Huv)). destruct (deg a <=? dg)%nat; [|split; assumption].
    ab r r' Hr; [apply p_nf_al; [exact Hf|apply Huv]|]. destruct Hr as [Hr _].
    rewrite (prel_zero s n _ _ Hr). destruct (is_zero (fst r)); [apply IH; assumption|].
    same (prel_lm s n dbg _ _ Hr). destruct (deg a0 =? 0)%nat; [exact Logic.I|].
    ab r2 r2' H2; [apply p_nfTail_al; [exact Hf|exact Hr]|]. destruct r2 as [p2 c2], r2' as [p2' c2']. destruct H2 as [H2 E2]. cbn in H2, E2. subst c2'.
    ab p3 p3' H3; [destruct (c2 =? 0)%nat; [exact H2|apply pp_al, H2]|].
    ab t1 t1' H1; [apply insert_al; [exact Ht|split; [apply Huv|exact H3]]|]. apply IH; assumption.
Qed.
Lemma same_deg_al d l : forall l', L l l' -> alike (pairrel L L) (same_deg dbg d l) (same_deg dbg d l').
Proof.
  induction l as [|u l IH]; intros l' H; destruct l' as [|v l']; inversion H as [|? ? ? ? Huv Hl]; subst; cbn [same_deg]; [split; constructor|].
  same (prel_lm s n dbg _ _ (proj2 Huv)). destruct (deg a =? d)%nat; [|split; [constructor|exact H]].
  ab r r' Hr; [apply IH, Hl|]. destruct Hr as [H1 H2]. split; [constructor; assumption|exact H2].
Qed.
Lemma same_lm_al m l : forall l', L l l' -> alike (pairrel L L) (same_lm dbg m l) (same_lm dbg m l').
Proof.
  induction l as [|u l IH]; intros l' H; destruct l' as [|v l']; inversion H as [|? ? ? ? Huv Hl]; subst; cbn [same_lm]; [split; constructor|].
  same (prel_lm s n dbg _ _ (proj2 Huv)). destruct (eqm a m); [|split; [constructor|exact H]].
  ab r r' Hr; [apply IH, Hl|]. destruct Hr as [H1 H2]. split; [constructor; assumption|exact H2].
Qed.
Lemma red_all_al a b l : prel a b -> forall l', L l l' -> alike L (red_all dbg a l) (red_all dbg b l').
Proof.
  intro Hab. induction l as [|u l IH]; intros l' H; destruct l' as [|v l']; inversion H as [|? ? ? ? Huv Hl]; subst; cbn [red_all]; [constructor|].
  ab p p' Hp; [apply redMaybe_al; [apply Huv|exact Hab]|]. apply al_assert; [rewrite (prel_zero s n _ _ Hp); reflexivity|].
  ab r r' Hr; [apply IH, Hl|]. constructor; [split; [apply Huv|exact Hp]|exact Hr].
Qed.
Lemma len_eq l l' : L l l' -> length l' = length l.
Proof. intro H. symmetry. eapply f2_len, H. Qed.
Lemma rev_al l l' : L l l' -> L (rev l) (rev l').
Proof. intro H. induction H as [|a b l l' Hab H IH]; [constructor|]. cbn. apply Forall2_app; [exact IH|constructor; [exact Hab|constructor]]. Qed.
Lemma scan_al cnt : forall pre pre' l l', L pre pre' -> L l l' -> alike (pairrel L L) (scan cnt dbg pre l) (scan cnt dbg pre' l').
Proof.
  induction cnt as [|cnt IH]; intros pre pre' l l' Hpre H; destruct H as [|u v l l' Huv Hl]; cbn [scan];
    try (split; [exact Hpre|constructor]); try exact Logic.I.
  same (prel_lm s n dbg _ _ (proj2 Huv)). ab r r' Hr; [apply same_lm_al, Hl|]. destruct r as [eqs j], r' as [eqs' j']. destruct Hr as [He Hj]. cbn in He, Hj.
  destruct He as [|x y eqs eqs' Hxy He].
  - ab l2 l2' H2; [apply red_all_al; [apply Huv|exact Hl]|]. apply IH; [|exact H2]. apply Forall2_app; [exact Hpre|constructor; [exact Huv|constructor]].
  - split; cbn; [apply Forall2_app; assumption|]. constructor; [exact Huv|]. apply (rev_al (x :: eqs) (y :: eqs')). constructor; assumption.
Qed.
Lemma min_norm_al l : forall w w' sk sk' l', wrel w w' -> L sk sk' -> L l l' -> pairrel wrel L (min_norm w sk l) (min_norm w' sk' l').
Proof.
  induction l as [|u l IH]; intros w w' sk sk' l' Hw Hsk H; destruct l' as [|v l']; inversion H as [|? ? ? ? Huv Hl]; subst; cbn [min_norm]; [split; assumption|].
  rewrite (prel_norm s n _ _ (proj2 Huv)), (prel_norm s n _ _ (proj2 Hw)). destruct (p_norm (wpol u) <? p_norm (wpol w)).
  - pose proof (IH u v [] [] l' Huv (Forall2_nil _) Hl) as K. destruct (min_norm u [] l) as [x r], (min_norm v [] l') as [y r'].
    destruct K as [K1 K2]. split; [exact K1|]. cbn [fst snd] in *. apply Forall2_app; [constructor; assumption|exact K2].
  - apply IH; [exact Hw| |exact Hl]. apply Forall2_app; [exact Hsk|constructor; [exact Huv|constructor]].
Qed.
Lemma red_by_al a b l : prel a b -> forall l' tmp tmp', L l l' -> L tmp tmp' -> alike L (red_by dbg a l tmp) (red_by dbg b l' tmp').
Proof.
  intro Hab. induction l as [|u l IH]; intros l' tmp tmp' H Ht; destruct l' as [|v l']; inversion H as [|? ? ? ? Huv Hl]; subst; cbn [red_by]; [exact Ht|].
  ab p p' Hp; [apply reduction_al; [apply Huv|exact Hab]|]. rewrite (prel_zero s n _ _ Hp). destruct (is_zero p); [apply IH; assumption|].
  ab r r' Hr; [apply insert_al; [exact Ht|split; [apply Huv|exact Hp]]|]. apply IH; assumption.
Qed.
Lemma block_loop_al fuel : forall tmp tmp' q q', L tmp tmp' -> L q q' ->
  alike (pairrel (pairrel L L) eqr) (block_loop fuel dbg tmp q) (block_loop fuel dbg tmp' q').
Proof.
  induction fuel as [|fuel IH]; intros tmp tmp' q q' Ht Hq; [exact Logic.I|]. destruct Ht as [|u v l l' Huv Hl]; cbn [block_loop]; [apply al_nh|].
  same (prel_lm s n dbg _ _ (proj2 Huv)). ab r r' Hr; [apply same_deg_al, Hl|].
  destruct r as [blk rest], r' as [blk' rest']. destruct Hr as [Hb Hr]. cbn in Hb, Hr.
  assert (Hrq : L (rest ++ q) (rest' ++ q')) by (apply Forall2_app; assumption).
  assert (Hub : L (u :: blk) (v :: blk')) by (constructor; assumption).
  apply al_assert; [rewrite (sort_eq _ _ Hrq), (sort_eq _ _ Hub); reflexivity|].
  rewrite (len_eq _ _ Hb). ab x y Hx; [apply scan_al; [constructor|exact Hub]|]. destruct x as [t1 t2], y as [t1' t2']. destruct Hx as [H1 H2]. cbn in H1, H2.
  destruct H2 as [|w0 w0' t2 t2' Hw0 H2]; [split; [split; assumption|reflexivity]|].
  pose proof (min_norm_al t2 w0 w0' [] [] t2' Hw0 (Forall2_nil _) H2) as K. destruct (min_norm w0 [] t2) as [w others], (min_norm w0' [] t2') as [w' others'].
  destruct K as [K1 K2]. cbn in K1, K2. ab a1 a1' Ha1; [apply insert_al; assumption|]. ab a2 a2' Ha2; [apply red_by_al; [apply K1|exact K2|exact Ha1]|].
  apply al_assert; [rewrite (sort_eq _ _ Ha2); reflexivity|]. apply IH; assumption.
Qed.
Lemma enter_al l : forall l' js, L l l' -> alike (pairrel eqr T) (enter dbg js l) (enter dbg js l').
Proof.
  induction l as [|u l IH]; intros l' js H; destruct l' as [|v l']; inversion H as [|? ? ? ? Huv Hl]; subst; cbn [enter]; [split; [reflexivity|constructor]|].
  same (prel_lm s n dbg _ _ (proj2 Huv)). destruct Huv as [-> Hp]. ab p p' Hpp; [apply pp_al, Hp|].
  eapply al_bind; [apply (al_refl eqr); reflexivity|]. intros J0 ? ->. eapply al_bind; [apply (al_refl eqr); reflexivity|]. intros J1 ? ->.
  ab r r' Hr; [apply IH, Hl|]. destruct Hr as [H1 H2]. split; [exact H1|]. constructor; [split; [reflexivity|exact Hpp]|exact H2].
Qed.
Lemma tail_reduce_al fuel mpos js l l' e e' : T l l' -> erel e e' ->
  alike erel (tail_reduce fuel dbg mpos js l e) (tail_reduce fuel dbg mpos js l' e').
Proof.
  intros Hl [E Hp]. unfold tail_reduce. ab r r' Hr; [apply p_nfTail_al; [apply find_poly_al, Hl|exact Hp]|].
  destruct r as [p c], r' as [p' c']. destruct Hr as [Hr Ec]. cbn in Hr, Ec. subst c'.
  ab x y Hx; [destruct (c =? 0)%nat; [exact Hr|apply pp_al, Hr]|]. split; assumption.
Qed.
Lemma prolong_if_al mpos dg js e e' q q' : erel e e' -> L q q' -> alike (pairrel eqr L) (prolong_if dbg mpos dg js e q) (prolong_if dbg mpos dg js e' q').
Proof.
  intros He Hq. unfold prolong_if. rewrite (proj1 He). destruct (deg (fst e) <=? dg)%nat; [apply prolong_entry_al; assumption|].
  split; [reflexivity|exact Hq].
Qed.
Definition mrel (x y : list janet * list wpoly * list entry) : Prop := pairrel (pairrel eqr L) T x y.
Lemma merge_al cnt fuel mpos dg : forall js q q' d d' j j' k k', L q q' -> T d d' -> T j j' -> T k k' ->
  alike mrel (merge_loop cnt fuel dbg mpos dg js q d j k) (merge_loop cnt fuel dbg mpos dg js q' d' j' k').
Proof.
  induction cnt as [|cnt IH]; intros js q q' d d' j j' k k' Hq Hd Hj Hk; cbn [merge_loop].
  - destruct Hj, Hk; try exact Logic.I. split; [split; [reflexivity|exact Hq]|exact Hd].
  - assert (Put : forall e e' j1 j1' k1 k1', erel e e' -> T j1 j1' -> T k1 k1' ->
      alike mrel
        (do b <- (if dbg then p_isNf (find_poly dbg mpos (Some js) (d ++ j ++ k)) (snd e) else Ok true);
         assert_ dbg b (do r <- prolong_if dbg mpos dg js e q; merge_loop cnt fuel dbg mpos dg (fst r) (snd r) (d ++ [e]) j1 k1))
        (do b <- (if dbg then p_isNf (find_poly dbg mpos (Some js) (d' ++ j' ++ k')) (snd e') else Ok true);
         assert_ dbg b (do r <- prolong_if dbg mpos dg js e' q'; merge_loop cnt fuel dbg mpos dg (fst r) (snd r) (d' ++ [e']) j1' k1'))).
    { intros e e' j1 j1' k1 k1' He H1 H2. ab b b' Hb.
      { destruct dbg eqn:Ed; [|apply al_eq; reflexivity]. eapply isnf_al; [rewrite <- Ed; apply find_poly_al; repeat apply Forall2_app; assumption|apply He]. }
      apply al_assert; [auto|]. ab r r' Hr; [apply prolong_if_al; assumption|]. destruct Hr as [-> Hr].
      apply IH; try assumption. apply Forall2_app; [exact Hd|constructor; [exact He|constructor]]. }
    assert (Redu : forall e e' k1 k1', erel e e' -> T k1 k1' ->
      alike mrel
        (do x <- tail_reduce fuel dbg mpos js (d ++ j ++ k1) e;
         do r <- prolong_if dbg mpos dg js x q; merge_loop cnt fuel dbg mpos dg (fst r) (snd r) (d ++ [x]) j k1)
        (do x <- tail_reduce fuel dbg mpos js (d' ++ j' ++ k1') e';
         do r <- prolong_if dbg mpos dg js x q'; merge_loop cnt fuel dbg mpos dg (fst r) (snd r) (d' ++ [x]) j' k1')).
    { intros e e' k1 k1' He H2. ab x x' Hx; [apply tail_reduce_al; [repeat apply Forall2_app; assumption|exact He]|].
      ab r r' Hr; [apply prolong_if_al; assumption|]. destruct Hr as [-> Hr].
      apply IH; try assumption. apply Forall2_app; [exact Hd|constructor; [exact Hx|constructor]]. }
    destruct Hj as [|e e' j j' He Hj]; destruct Hk as [|f f' k k' Hf Hk].
    + split; [split; [reflexivity|exact Hq]|exact Hd].
    + apply Redu; assumption.
    + apply Put; [assumption|assumption|constructor].
    + same (prel_cmp s n dbg (snd e) (snd e') (snd f) (snd f') (proj2 He) (proj2 Hf)). destruct (a <? 0).
      * apply Put; [assumption|assumption|constructor; assumption].
      * apply Redu; assumption.
Qed.
Lemma assert_t_al f g l : fndrel f g -> forall l' p p', prel p p' -> T l l' -> alike eqr (assert_t dbg f p l) (assert_t dbg g p' l').
Proof.
  intro Hf. induction l as [|[k u] l IH]; intros l' p p' Hp H; destruct l' as [|[k' v] l']; inversion H as [|? ? ? ? Huv Hl]; subst; cbn [assert_t]; [reflexivity|].
  destruct Huv as [_ Huv]. cbn in Huv. same (prel_cmp s n dbg _ _ _ _ Hp Huv). destruct (0 <=? a); [reflexivity|].
  ab b b' Hb; [apply (isnf_al s n); [exact Hf|exact Huv]|]. subst b'. destruct (negb b); [reflexivity|].
  ab c c' Hc; [apply (isPp_tw s n), Huv|]. subst c'. destruct (negb c); [reflexivity|]. apply IH; assumption.
Qed.
Lemma assertT_al mpos js t t' : T t t' -> alike eqr (assertT dbg mpos js t) (assertT dbg mpos js t').
Proof.
  intro H. unfold assertT. destruct H as [|[k u] [k' v] t t' Huv H]; [reflexivity|].
  apply assert_t_al; [apply find_poly_al; constructor; assumption|apply Huv|exact H].
Qed.

Lemma block_tq_al fuel mpos : forall js q q' t t', L q q' -> T t t' ->
  alike jrel (block_tq fuel dbg mpos js q t) (block_tq fuel dbg mpos js q' t').
Proof.
  induction fuel as [|fuel IH]; intros js q q' t t' Hq Ht.
  - destruct Hq; cbn; [|exact Logic.I]. split; [exact Logic.I|]. cbn. repeat split; try constructor; assumption.
  - remember (Datatypes.S fuel) as fu eqn:Efu. destruct fu; [discriminate|]. injection Efu as Efu.
    cbn [block_tq]. remember (Datatypes.S fu) as fu1. pose proof Hq as Hq0. destruct Hq as [|u v q q' Huv Hq].
    { split; [exact Logic.I|]. cbn. repeat split; try constructor; assumption. }
    same (prel_lm s n dbg _ _ (proj2 Huv)).
    ab r r' Hr; [apply take_block_al; [apply find_poly_al, Ht|exact Hq0|constructor]|].
    destruct r as [[q1 tmp]|], r' as [[q1' tmp']|]; try contradiction.
    + destruct Hr as [H1 H2]. cbn in H1, H2. apply al_assert; [rewrite (sort_eq _ _ H1), (sort_eq _ _ H2); reflexivity|].
      pose proof H2 as H20. destruct H2 as [|w w' tmp tmp' Hw H2]; [subst fu; apply IH; assumption|].
      ab x y Hx; [apply block_loop_al; [exact H20|exact H1]|]. destruct x as [[t2 q2] dg], y as [[t2' q2'] dg']. destruct Hx as [[X1 X2] X3]. cbn in X1, X2, X3.
      unfold eqr in X3. subst dg'. ab e e' He; [apply enter_al, X1|]. destruct e as [js2 new], e' as [js2' new']. destruct He as [E1 E2]. cbn in E1, E2. unfold eqr in E1. subst js2'.
      rewrite <- (f2_len _ _ _ Ht), <- (f2_len _ _ _ E2).
      ab z z' Hz; [apply merge_al; [exact X2|constructor|exact E2|exact Ht]|]. destruct z as [[js3 q3] t3], z' as [[js3' q3'] t3']. destruct Hz as [[Z1 Z2] Z3]. cbn in Z1, Z2, Z3.
      unfold eqr in Z1. subst js3'. ab b b' Hb; [destruct dbg eqn:Ed; [rewrite <- Ed; apply assertT_al, Z3|reflexivity]|].
      unfold eqr in Hb. subst b'. apply al_assert; [reflexivity|]. subst fu. apply IH; assumption.
    + pose proof (proj2 Huv) as (-> & -> & E3 & E4 & _). rewrite E3, E4. apply set_one_al.
Qed.
Lemma build_al fuel J K : jrel J K -> alike jrel (jp_build fuel dbg J) (jp_build fuel dbg K).
Proof.
  intro H. unfold jp_build. pose proof H as (Ho & _). destruct (jone J), (jone K); try contradiction; [exact H|].
  pose proof (set_pos_al J K H) as (P1 & P2 & P3 & P4 & P5). rewrite P4, P5. destruct (jtrees (set_pos J)) eqn:E; [apply block_tq_al; assumption|].
  pose proof P2 as P2'. inversion P2; [|exact Logic.I]. split; [exact P1|]. split; [exact P2'|]. split; [exact P3|]. split; [exact P4|congruence].
Qed.

(** * algorithmTQ and algorithmTQ1 *)
Lemma tail_pp_al fuel f g p q : fndrel f g -> prel p q -> alike prel (tail_pp fuel dbg f p) (tail_pp fuel dbg g q).
Proof.
  intros Hf H. unfold tail_pp. ab r r' Hr; [apply p_nfTail_al; [exact Hf|exact H]|]. destruct Hr as [Hr ->].
  destruct (snd r =? 0)%nat; [exact Hr|apply pp_al, Hr].
Qed.
Lemma take_tq_al tail fuel f g dg : fndrel f g -> forall q q' tmp tmp', L q q' -> L tmp tmp' ->
  alike (optrel (pairrel L L)) (take_tq tail fuel dbg f dg q tmp) (take_tq tail fuel dbg g dg q' tmp').
Proof.
  intro Hf. induction q as [|u q IH]; intros q' tmp tmp' Hq Ht; destruct q' as [|v q']; inversion Hq as [|? ? ? ? Huv Hqq]; subst; cbn [take_tq].
  - split; [constructor|exact Ht].
  - same (prel_lm s n dbg _ _ (proj2 Huv)). destruct (deg a <=? dg)%nat; [|split; assumption].
    ab r r' Hr; [apply p_nf_al; [exact Hf|apply Huv]|]. destruct r as [p c], r' as [p' c']. destruct Hr as [Hr Ec]. cbn in Hr, Ec. subst c'.
    rewrite (prel_zero s n _ _ Hr). destruct (is_zero p); [apply IH; assumption|].
    same (prel_lm s n dbg _ _ Hr). destruct (deg a0 =? 0)%nat; [exact Logic.I|].
    ab r2 r2' H2; [destruct tail; [apply p_nfTail_al; [exact Hf|exact Hr]|split; [exact Hr|reflexivity]]|]. destruct H2 as [H2 E2]. rewrite E2.
    ab p3 p3' H3; [destruct (c + snd r2 =? 0)%nat; [exact H2|apply pp_al, H2]|].
    ab t1 t1' H1; [apply insert_al; [exact Ht|split; [apply Huv|exact H3]]|]. apply IH; assumption.
Qed.
Lemma swap_min_al l : forall w w' l', wrel w w' -> L l l' -> pairrel wrel L (swap_min w l) (swap_min w' l').
Proof.
  induction l as [|u l IH]; intros w w' l' Hw H; destruct l' as [|v l']; inversion H as [|? ? ? ? Huv Hl]; subst; cbn [swap_min]; [split; [exact Hw|constructor]|].
  rewrite (prel_norm s n _ _ (proj2 Huv)), (prel_norm s n _ _ (proj2 Hw)). destruct (p_norm (wpol u) <? p_norm (wpol w)).
  - pose proof (IH u v l' Huv Hl) as K. destruct (swap_min u l) as [x r], (swap_min v l') as [y r'].
    destruct K as [K1 K2]. split; [exact K1|]. constructor; assumption.
  - pose proof (IH w w' l' Hw Hl) as K. destruct (swap_min w l) as [x r], (swap_min w' l') as [y r'].
    destruct K as [K1 K2]. split; [exact K1|]. constructor; assumption.
Qed.
Lemma tails_al fuel f g l : fndrel f g -> forall l', L l l' -> alike L (tails fuel dbg f l) (tails fuel dbg g l').
Proof.
  intro Hf. induction l as [|u l IH]; intros l' H; destruct l' as [|v l']; inversion H as [|? ? ? ? Huv Hl]; subst; cbn [tails]; [constructor|].
  ab p p' Hp; [apply tail_pp_al; [exact Hf|apply Huv]|]. ab r r' Hr; [apply IH, Hl|]. constructor; [split; [apply Huv|exact Hp]|exact Hr].
Qed.
Lemma red_eq_al a b l : prel a b -> forall l', L l l' -> alike L (red_eq dbg a l) (red_eq dbg b l').
Proof.
  intro Hab. induction l as [|u l IH]; intros l' H; destruct l' as [|v l']; inversion H as [|? ? ? ? Huv Hl]; subst; cbn [red_eq]; [constructor|].
  ab p p' Hp; [apply reduction_al; [apply Huv|exact Hab]|]. rewrite (prel_zero s n _ _ Hp). destruct (is_zero p); [apply IH; assumption|].
  ab p2 p2' Hp2; [apply pp_al, Hp|]. ab r r' Hr; [apply IH, Hl|]. constructor; [split; [apply Huv|exact Hp2]|exact Hr].
Qed.
Lemma insert_all_al l : forall l' q q', L q q' -> L l l' -> alike L (insert_all dbg q l) (insert_all dbg q' l').
Proof.
  induction l as [|u l IH]; intros l' q q' Hq H; destruct l' as [|v l']; inversion H as [|? ? ? ? Huv Hl]; subst; cbn [insert_all]; [exact Hq|].
  ab r r' Hr; [apply insert_al; assumption|]. apply IH; assumption.
Qed.
Lemma enter_w_al js u v : wrel u v -> alike eqr (enter_w dbg js u) (enter_w dbg js v).
Proof. intros [E Hp]. unfold enter_w. rewrite (prel_lm s n dbg _ _ Hp), E. apply al_refl. reflexivity. Qed.
Lemma walk_al cnt fuel mpos dg : forall js q q' d d' w w' k k', L q q' -> T d d' -> optrel erel w w' -> T k k' ->
  alike mrel (walk cnt fuel dbg mpos dg js q d w k) (walk cnt fuel dbg mpos dg js q' d' w' k').
Proof.
  induction cnt as [|cnt IH]; intros js q q' d d' w w' k k' Hq Hd Hw Hk; cbn [walk].
  - destruct w, w'; try contradiction; destruct Hk; try exact Logic.I. split; [split; [reflexivity|exact Hq]|exact Hd].
  - assert (Redu : forall e e' w1 w1' k1 k1', erel e e' -> optrel erel w1 w1' -> T k1 k1' ->
      alike mrel
        (do x <- tail_reduce fuel dbg mpos js (d ++ match w1 with Some x => [x] | None => [] end ++ k1) e;
         do r <- prolong_if dbg mpos dg js x q; walk cnt fuel dbg mpos dg (fst r) (snd r) (d ++ [x]) w1 k1)
        (do x <- tail_reduce fuel dbg mpos js (d' ++ match w1' with Some x => [x] | None => [] end ++ k1') e';
         do r <- prolong_if dbg mpos dg js x q'; walk cnt fuel dbg mpos dg (fst r) (snd r) (d' ++ [x]) w1' k1')).
    { intros e e' w1 w1' k1 k1' He H1 H2.
      ab x x' Hx; [apply tail_reduce_al; [apply Forall2_app; [exact Hd|]; apply Forall2_app; [|exact H2]|exact He]|].
      { destruct w1, w1'; try contradiction; [constructor; [exact H1|constructor]|constructor]. }
      ab r r' Hr; [apply prolong_if_al; assumption|]. destruct Hr as [-> Hr].
      apply IH; try assumption. apply Forall2_app; [exact Hd|constructor; [exact Hx|constructor]]. }
    destruct w as [e|], w' as [e'|]; try contradiction; destruct Hk as [|f f' k k' Hf Hk].
    + apply (Redu e e' None None [] []); [exact Hw|exact Logic.I|constructor].
    + cbn in Hw. same (prel_cmp s n dbg (snd e) (snd e') (snd f) (snd f') (proj2 Hw) (proj2 Hf)). destruct (a <? 0).
      * apply (Redu e e' None None (f :: k) (f' :: k')); [assumption|exact Logic.I|constructor; assumption].
      * apply (Redu f f' (Some e) (Some e') k k'); assumption.
    + split; [split; [reflexivity|exact Hq]|exact Hd].
    + apply (Redu f f' None None k k'); [exact Hf|exact Logic.I|exact Hk].
Qed.
Lemma tq_loop_al one fuel mpos : forall js q q' t t', L q q' -> T t t' ->
  alike jrel (tq_loop one fuel dbg mpos js q t) (tq_loop one fuel dbg mpos js q' t').
Proof.
  induction fuel as [|fuel IH]; intros js q q' t t' Hq Ht.
  - destruct Hq; cbn; [|exact Logic.I]. split; [exact Logic.I|]. cbn. repeat split; try constructor; assumption.
  - remember (Datatypes.S fuel) as fu eqn:Efu. destruct fu; [discriminate|]. injection Efu as Efu.
    cbn [tq_loop]. remember (Datatypes.S fu) as fu1. pose proof Hq as Hq0. destruct Hq as [|u v q q' Huv Hq].
    { split; [exact Logic.I|]. cbn. repeat split; try constructor; assumption. }
    pose proof (find_poly_al mpos (Some js) t t' Ht) as Hf.
    same (prel_lm s n dbg _ _ (proj2 Huv)).
    ab r r' Hr; [apply take_tq_al; [exact Hf|exact Hq0|constructor]|].
    destruct r as [[q1 tmp]|], r' as [[q1' tmp']|]; try contradiction.
    + destruct Hr as [H1 H2]. cbn in H1, H2. apply al_assert; [rewrite (sort_eq _ _ H1), (sort_eq _ _ H2); reflexivity|].
      destruct H2 as [|w0 w0' tmp tmp' Hw0 H2]; [subst fu; apply IH; assumption|].
      same (prel_lm s n dbg _ _ (proj2 Hw0)). ab x y Hx; [apply same_lm_al, H2|]. destruct x as [eqs rest], y as [eqs' rest']. destruct Hx as [X1 X2]. cbn in X1, X2.
      ab w1 w1' Hw1; [instantiate (1 := wrel); destruct one; [ab p p' Hp; [apply tail_pp_al; [exact Hf|apply Hw0]|]; split; [apply Hw0|exact Hp]|exact Hw0]|].
      ab e1 e1' He1; [instantiate (1 := L); destruct one; [apply tails_al; [exact Hf|exact X1]|exact X1]|].
      pose proof (swap_min_al e1 w1 w1' e1' Hw1 He1) as K. destruct (swap_min w1 e1) as [w e2], (swap_min w1' e1') as [w' e2']. destruct K as [K1 K2]. cbn in K1, K2.
      rewrite (len_eq _ _ K2). destruct (one && negb (length e2 =? 0)%nat).
      * ab e3 e3' He3; [apply red_eq_al; [apply K1|exact K2]|]. ab q2 q2' Hq2; [apply insert_al; [apply Forall2_app; assumption|exact K1]|].
        ab q3 q3' Hq3; [apply insert_all_al; assumption|]. apply al_assert; [rewrite (sort_eq _ _ Hq3); reflexivity|]. subst fu. apply IH; assumption.
      * assert (Q1 : L (e2 ++ rest) (e2' ++ rest')) by (apply Forall2_app; assumption).
        assert (Q2 : L ((e2 ++ rest) ++ q1) ((e2' ++ rest') ++ q1')) by (apply Forall2_app; assumption).
        apply al_assert; [rewrite (sort_eq _ _ Q1), (sort_eq _ _ Q2); reflexivity|].
        ab z z' Hz; [apply enter_w_al, K1|]. unfold eqr in Hz. subst z'. destruct z as [js2 w2].
        assert (He : erel (wlm w2, wpol w) (wlm w2, wpol w')) by (split; [reflexivity|apply K1]).
        ab x y Hx.
        { instantiate (1 := mrel). pose proof Ht as Ht0. destruct Ht as [|f f' t t' Hff Ht].
          - split; [split; [reflexivity|exact Q2]|]. constructor; [exact He|constructor].
          - rewrite (f2_len _ _ _ Ht0). apply walk_al; [exact Q2|constructor|exact He|exact Ht0]. }
        destruct x as [[js3 q3] t3], y as [[js3' q3'] t3']. destruct Hx as [[Z1 Z2] Z3]. cbn in Z1, Z2, Z3.
        unfold eqr in Z1. subst js3'. ab b b' Hb; [destruct dbg eqn:Ed; [rewrite <- Ed; apply assertT_al, Z3|reflexivity]|].
        unfold eqr in Hb. subst b'. apply al_assert; [reflexivity|]. subst fu. apply IH; assumption.
    + pose proof (proj2 Huv) as (-> & -> & E3 & E4 & _). rewrite E3, E4. apply set_one_al.
Qed.
Lemma tq_al one fuel J K : jrel J K -> alike jrel (jp_tq one fuel dbg J) (jp_tq one fuel dbg K).
Proof.
  intro H. unfold jp_tq. pose proof H as (Ho & _). destruct (jone J), (jone K); try contradiction; [exact H|].
  pose proof (set_pos_al J K H) as (P1 & P2 & P3 & P4 & P5). rewrite P4, P5. destruct (jtrees (set_pos J)) eqn:E; [apply tq_loop_al; assumption|].
  pose proof P2 as P2'. inversion P2; [|exact Logic.I]. split; [exact P1|]. split; [exact P2'|]. split; [exact P3|]. split; [exact P4|congruence].
Qed.

(** * Programs *)
Lemma find_al J K : jrel J K -> fndrel (jp_find dbg J) (jp_find dbg K).
Proof.
  intros (Ho & Hq & Ht & Hp & Hj) m. unfold jp_find. destruct (jone J), (jone K); try contradiction; [apply Ho|].
  rewrite Hp, Hj. apply find_poly_al, Ht.
Qed.
Lemma jp_nf_al fuel J K a b : jrel J K -> prel a b -> alike prel (jp_nf fuel dbg J a) (jp_nf fuel dbg K b).
Proof.
  intros H Hab. unfold jp_nf. apply al_assert; [apply comparable_eq; assumption|].
  ab r r' Hr; [apply p_nf_al; [apply find_al, H|exact Hab]|]. ab x y Hx; [apply p_nfTail_al; [apply find_al, H|apply Hr]|].
  apply pp_al, Hx.
Qed.
Lemma sized_prel a b : sized n a -> flips s a b -> prel a b.
Proof. intros [S1 S2] (A & B & C & e & He & E). repeat (split; [assumption|]). exists e. split; [exact He|exact E]. Qed.
Lemma prel_flips a b : prel a b -> flips s a b.
Proof. intros (A & B & C & _ & _ & e & He & E). repeat (split; [assumption|]). exists e. split; [exact He|exact E]. Qed.
Lemma step_al c d J K : cmd_flips n s c d -> jrel J K -> alike jrel (jstep dbg J c) (jstep dbg K d).
Proof.
  destruct c as [a|f|one f], d as [b|g|one' g]; cbn; try contradiction.
  - intros [S F] H. apply push_al; [exact H|apply sized_prel; assumption].
  - intros <- H. apply build_al, H.
  - intros [<- <-] H. apply tq_al, H.
Qed.
Lemma run_al cs : forall ds J K, Forall2 (cmd_flips n s) cs ds -> jrel J K -> alike jrel (jrun dbg J cs) (jrun dbg K ds).
Proof.
  induction cs as [|c cs IH]; intros ds J K H HJ; destruct ds as [|d ds]; inversion H as [|? ? ? ? Hcd Hl]; subst; cbn [jrun]; [exact HJ|].
  ab x y Hx; [apply step_al; eassumption|]. apply IH; assumption.
Qed.
Lemma empty_rel : jrel jp_empty jp_empty.
Proof. split; [exact Logic.I|]. cbn. repeat split; constructor. Qed.
Lemma basis_al J K : jrel J K -> Forall2 (flips s) (basis J) (basis K).
Proof.
  intros (Ho & Hq & Ht & _). unfold basis. destruct (jone J) as [w|], (jone K) as [w'|]; try contradiction.
  - constructor; [apply prel_flips, Ho|constructor].
  - induction Ht as [|u v t t' Huv Ht IH]; [constructor|]. constructor; [apply prel_flips, Huv|exact IH].
Qed.
Theorem c97_signs cs ds : Forall2 (cmd_flips n s) cs ds ->
  alike (fun J K => Forall2 (flips s) (basis J) (basis K) /\ is_one K = is_one J /\
           (forall m, alike (fun w v => match w, v with Some p, Some q => flips s p q | None, None => True | _, _ => False end) (jp_find dbg J m) (jp_find dbg K m)) /\
           (forall fuel a b, sized n a -> flips s a b -> alike (flips s) (jp_nf fuel dbg J a) (jp_nf fuel dbg K b)))
    (jrun dbg jp_empty cs) (jrun dbg jp_empty ds).
Proof.
  intro H. eapply al_weaken; [apply run_al; [exact H|apply empty_rel]|]. intros J K HJ. split; [apply basis_al, HJ|].
  split; [destruct HJ as (Ho & _); unfold is_one; destruct (jone J), (jone K); try contradiction; reflexivity|]. split.
  - intro m. eapply al_weaken; [apply find_al, HJ|]. intros [p|] [q|]; cbn; auto. apply prel_flips.
  - intros fuel a b Sa F. eapply al_weaken; [apply jp_nf_al; [exact HJ|apply sized_prel; assumption]|]. apply prel_flips.
Qed.
End Loops.
