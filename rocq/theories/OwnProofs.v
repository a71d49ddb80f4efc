(** Proofs about the ownership of WrapPolyInt objects (OwnModel.v). *)
From Coq Require Import ZArith List Bool Arith Lia Permutation.
From Verif Require Import Outcome MonomModel JanetModel PolyModel JanetPolyModel TQModel OwnModel OwnSpec.
Import ListNotations.
Local Open Scope Z_scope.

(* ------------------------------------------------------------------------------------------ *)
(** * Both programs do the same *)
Definition sim {A B} (P : A -> B -> Prop) (x : outcome A) (y : outcome B) : Prop :=
  match x, y with
  | Ok a, Ok b => P a b
  | AssertFail, AssertFail | Undef, Undef | Exit, Exit | OutOfFuel, OutOfFuel => True
  | _, _ => False
  end.
Lemma sim_bind A B A' B' (P : A -> B -> Prop) (Q : A' -> B' -> Prop) x y f g : sim P x y ->
  (forall a b, P a b -> sim Q (f a) (g b)) -> sim Q (bind x f) (bind y g).
Proof. destruct x, y; cbn; intros H K; auto; contradiction. Qed.
Lemma sim_same A A' B' (Q : A' -> B' -> Prop) (x : outcome A) f g : (forall a, x = Ok a -> sim Q (f a) (g a)) -> sim Q (bind x f) (bind x g).
Proof. destruct x; cbn; intros H; auto. Qed.
Lemma sim_assert A B (Q : A -> B -> Prop) dbg c x y : sim Q x y -> sim Q (assert_ dbg c x) (assert_ dbg c y).
Proof. unfold assert_. destruct (dbg && negb c); cbn; auto. Qed.
Lemma sim_weak A B (P Q : A -> B -> Prop) x y : sim P x y -> (forall a b, P a b -> Q a b) -> sim Q x y.
Proof. destruct x, y; cbn; auto. Qed.
Lemma sim_if A B (Q : A -> B -> Prop) (c : bool) x x' y y' : sim Q x y -> sim Q x' y' -> sim Q (if c then x else x') (if c then y else y').
Proof. destruct c; auto. Qed.

(* ------------------------------------------------------------------------------------------ *)
(** * Addresses are counted *)
Notation cnt x l := (count_occ Nat.eq_dec l x).
Definition one_if (a x : nat) : nat := if Nat.eq_dec a x then 1%nat else 0%nat.
Lemma cnt_cons a l x : cnt x (a :: l) = (one_if a x + cnt x l)%nat.
Proof. unfold one_if. cbn. destruct (Nat.eq_dec a x); reflexivity. Qed.
Lemma cnt_nil x : cnt x [] = 0%nat. Proof. reflexivity. Qed.
Lemma one_if_same a : one_if a a = 1%nat. Proof. unfold one_if. destruct (Nat.eq_dec a a); congruence. Qed.
Lemma ids_app A (l l' : list (nat * A)) : ids (l ++ l') = ids l ++ ids l'. Proof. apply map_app. Qed.
Lemma vals_app A (l l' : list (nat * A)) : vals (l ++ l') = vals l ++ vals l'. Proof. apply map_app. Qed.
Lemma cnt_rev l x : cnt x (rev l) = cnt x l.
Proof. symmetry. apply (Permutation_count_occ Nat.eq_dec), Permutation_rev. Qed.

(** The heap holds the objects L and nothing else. *)
Definition has (s : heap) (L : list nat) : Prop :=
  forall x, cnt x (live s) = cnt x L /\ (cnt x L <= 1)%nat /\ (cnt x L = 0 \/ x < next s)%nat.
Definition same (L L' : list nat) : Prop := forall x, cnt x L = cnt x L'.

Ltac cn := unfold same in *; let x := fresh "x" in intro x;
  repeat match goal with H : forall y : nat, count_occ _ _ y = _ |- _ => specialize (H x) end;
  unfold ids in *; cbn [map fst app] in *; rewrite ?map_app, ?map_rev, ?count_occ_app, ?cnt_cons, ?cnt_nil, ?cnt_rev in *;
  cbn [map fst app] in *; rewrite ?count_occ_app, ?cnt_cons, ?cnt_nil, ?cnt_rev in *; lia.

Lemma has_same s L L' : has s L -> same L L' -> has s L'.
Proof. intros H E x. rewrite <- (E x). apply H. Qed.
Lemma has_live s L i : has s L -> In i L -> is_live s i = true.
Proof.
  intros H K. unfold is_live. apply existsb_exists. exists i. split; [|apply Nat.eqb_refl].
  apply (count_occ_In Nat.eq_dec). rewrite (proj1 (H i)). now apply (count_occ_In Nat.eq_dec).
Qed.
Lemma deref_ok A s L l (k : outcome A) : has s L -> incl l L -> deref s l k = k.
Proof.
  intros H K. unfold deref. replace (forallb (is_live s) l) with true; [reflexivity|].
  symmetry. apply forallb_forall. intros i Hi. now apply (has_live s L); [|apply K].
Qed.
Lemma has_new s L : has s L -> has (snd (h_new s)) (fst (h_new s) :: L).
Proof.
  intros H x. cbn [h_new fst snd live next]. rewrite !cnt_cons. destruct (H x) as (H1 & H2 & H3). rewrite H1.
  unfold one_if. destruct (Nat.eq_dec (next s) x) as [<-|N]; lia.
Qed.
Lemma cnt_remove i l x : cnt x (remove Nat.eq_dec i l) = if Nat.eq_dec i x then 0%nat else cnt x l.
Proof.
  induction l as [|a l IH]; [now destruct (Nat.eq_dec i x)|]. cbn [remove].
  destruct (Nat.eq_dec i a) as [<-|N]; [|rewrite !cnt_cons, IH]; [rewrite IH, cnt_cons|];
    unfold one_if; destruct (Nat.eq_dec i x); try lia; destruct (Nat.eq_dec a x); lia.
Qed.
Lemma has_del s L i : has s (i :: L) -> exists s', h_del i s = Ok s' /\ has s' L.
Proof.
  intros H. unfold h_del. rewrite (has_live s _ i H (in_eq _ _)). eexists. split; [reflexivity|].
  intro x. cbn [live next]. rewrite cnt_remove. destruct (H x) as (H1 & H2 & H3). rewrite cnt_cons in *. unfold one_if in *.
  destruct (Nat.eq_dec i x); lia.
Qed.
Lemma has_del_all l : forall s L, has s (l ++ L) -> exists s', h_del_all l s = Ok s' /\ has s' L.
Proof.
  induction l as [|i l IH]; intros s L H; [now exists s|]. cbn [h_del_all].
  destruct (has_del s (l ++ L) i H) as (s1 & -> & H1). cbn [bind]. now apply IH.
Qed.

Lemma same_incl L L' : same L L' -> incl L L'.
Proof. intros E x H. apply (count_occ_In Nat.eq_dec). rewrite <- (E x). now apply (count_occ_In Nat.eq_dec). Qed.
(** Inclusion of lists of addresses. *)
Ltac inn := unfold ids; rewrite ?map_app, ?in_app_iff; cbn [map fst In]; tauto.
Ltac inc := let i := fresh "i" in let Hi := fresh "Hi" in
  intros i Hi; repeat match goal with H : incl _ _ |- _ => specialize (H i) end;
  unfold ids in *; cbn [map fst app In] in *; rewrite ?map_app, ?in_app_iff in *; cbn [map fst app In] in *;
  rewrite ?in_app_iff in *; cbn [In] in *; tauto.

(* ------------------------------------------------------------------------------------------ *)
(** * Lists *)
Lemma place_sim dbg s w l : forall L, has s L -> incl (fst w :: ids l) L ->
  sim (fun r r' => r' = vals r /\ same (ids r) (ids (w :: l))) (o_place dbg s l w) (place dbg (vals l) (snd w)).
Proof.
  induction l as [|u l IH]; intros L H K; [cbn; split; [reflexivity|cn]|]. cbn [o_place place vals map].
  rewrite (deref_ok _ s L) by (assumption || inc). apply sim_same. intros c _.
  destruct (0 <? c); [|cbn; split; [reflexivity|cn]].
  eapply sim_bind; [apply (IH L H); inc|]. intros r r' (-> & E). cbn. split; [reflexivity|cn].
Qed.
Lemma insert_sim dbg s w l L : has s L -> incl (fst w :: ids l) L ->
  sim (fun r r' => r' = vals r /\ same (ids r) (ids (w :: l))) (o_insert dbg s l w) (jp_insert dbg (vals l) (snd w)).
Proof.
  intros H K. unfold o_insert, jp_insert. rewrite (deref_ok _ s L) by (assumption || inc).
  apply sim_assert. now apply (place_sim dbg s w l L).
Qed.
Lemma sort_sim A B (Q : A -> B -> Prop) dbg s L l x y : has s L -> incl (ids l) L ->
  sim Q x y -> sim Q (o_assert_sort dbg s l x) (assert_ dbg (assertSort (vals l)) y).
Proof.
  intros H K E. unfold o_assert_sort. destruct dbg; [|exact E]. rewrite (deref_ok _ s L) by assumption. now apply sim_assert.
Qed.
Lemma assert_and A dbg a b (x : outcome A) : assert_ dbg (a && b) x = assert_ dbg a (assert_ dbg b x).
Proof. unfold assert_. destruct dbg, a, b; reflexivity. Qed.

Lemma same_deg_sim dbg s d L : has s L -> forall l, incl (ids l) L ->
  sim (fun r r' => r' = (vals (fst r), vals (snd r)) /\ same (ids (fst r) ++ ids (snd r)) (ids l)) (o_same_deg dbg s d l) (same_deg dbg d (vals l)).
Proof.
  intros H. induction l as [|u l IH]; intros K; [cbn; split; [reflexivity|cn]|]. cbn [o_same_deg same_deg vals map].
  rewrite (deref_ok _ s L) by (assumption || inc). apply sim_same. intros m _.
  destruct (deg m =? d)%nat; [|cbn; split; [reflexivity|cn]].
  eapply sim_bind; [apply IH; inc|]. intros [a b] r' (-> & E). cbn [fst snd] in *. cbn. split; [reflexivity|cn].
Qed.
Lemma same_lm_sim dbg s m L : has s L -> forall l, incl (ids l) L ->
  sim (fun r r' => r' = (vals (fst r), vals (snd r)) /\ same (ids (fst r) ++ ids (snd r)) (ids l)) (o_same_lm dbg s m l) (same_lm dbg m (vals l)).
Proof.
  intros H. induction l as [|u l IH]; intros K; [cbn; split; [reflexivity|cn]|]. cbn [o_same_lm same_lm vals map].
  rewrite (deref_ok _ s L) by (assumption || inc). apply sim_same. intros n _.
  destruct (eqm n m); [|cbn; split; [reflexivity|cn]].
  eapply sim_bind; [apply IH; inc|]. intros [a b] r' (-> & E). cbn [fst snd] in *. cbn. split; [reflexivity|cn].
Qed.
Lemma red_all_sim dbg s a L : has s L -> In (fst a) L -> forall l, incl (ids l) L ->
  sim (fun r r' => r' = vals r /\ ids r = ids l) (o_red_all dbg s a l) (red_all dbg (wpol (snd a)) (vals l)).
Proof.
  intros H Ha. induction l as [|u l IH]; intros K; [cbn; split; reflexivity|]. cbn [o_red_all red_all vals map].
  rewrite (deref_ok _ s L); [|assumption|intros i [<-|[<-|[]]]; [exact Ha|apply K; left; reflexivity]].
  apply sim_same. intros p _. apply sim_assert.
  eapply sim_bind; [apply IH; inc|]. intros r r' (-> & E). cbn. split; [reflexivity|]. unfold ids in *. cbn [map fst]. congruence.
Qed.
Lemma scan_sim dbg s L : has s L -> forall c pre l, incl (ids pre) L -> incl (ids l) L ->
  sim (fun r r' => r' = (vals (fst r), vals (snd r)) /\ same (ids (fst r) ++ ids (snd r)) (ids pre ++ ids l))
    (o_scan c dbg s pre l) (scan c dbg (vals pre) (vals l)).
Proof.
  intros H. induction c as [|c IH]; intros pre [|k l] Kp K;
    [cbn; split; [reflexivity|cn]|exact Logic.I|cbn; split; [reflexivity|cn]|].
  cbn [o_scan scan vals map]. rewrite (deref_ok _ s L) by (assumption || inc). apply sim_same. intros m _.
  eapply sim_bind; [apply (same_lm_sim dbg s m L H l); inc|]. intros [eqs j] r' (-> & E). cbn [fst snd] in *.
  destruct eqs as [|e eqs].
  - cbn [vals map].
    eapply sim_bind; [apply (red_all_sim dbg s k L H); [apply K; left; reflexivity|inc]|]. intros l2 r' (-> & E2).
    match goal with |- context [scan c dbg ?X _] => replace X with (vals (pre ++ [k])) by apply vals_app end.
    eapply sim_weak; [apply (IH (pre ++ [k]) l2); [inc|rewrite E2; inc]|].
    intros r r' (Y1 & Y2). split; [exact Y1|]. rewrite E2 in Y2. cn.
  - cbn [sim vals map fst snd]. split; [unfold vals; cbn [map rev]; rewrite !map_app, !map_rev; reflexivity|].
    cn.
Qed.

Lemma min_norm_sim l : forall w sk, min_norm (snd w) (vals sk) (vals l) = (snd (fst (o_min_norm w sk l)), vals (snd (o_min_norm w sk l))) /\
  same (fst (fst (o_min_norm w sk l)) :: ids (snd (o_min_norm w sk l))) (fst w :: ids sk ++ ids l).
Proof.
  unfold vals. induction l as [|u l IH]; intros w sk; [cbn; split; [reflexivity|cn]|]. cbn [o_min_norm min_norm map].
  destruct (p_norm (wpol (snd u)) <? p_norm (wpol (snd w))).
  - destruct (IH u []) as (E1 & E2). cbn [map] in E1. rewrite E1. destruct (o_min_norm u [] l) as [v r]. cbn [fst snd] in *.
    split; [cbn [map app]; now rewrite map_app|]. cn.
  - destruct (IH w (sk ++ [u])) as (E1 & E2). rewrite map_app in E1. cbn [map] in E1. rewrite E1.
    split; [reflexivity|]. cn.
Qed.

(** The lists r own what the lists before owned, but for what was deleted. *)
Lemma red_by_sim dbg a R l : forall tmp s, has s (ids l ++ ids tmp ++ R) -> In (fst a) (ids tmp) ->
  sim (fun r r' => r' = vals (fst r) /\ has (snd r) (ids (fst r) ++ R))
    (o_red_by dbg a l tmp s) (red_by dbg (wpol (snd a)) (vals l) (vals tmp)).
Proof.
  induction l as [|u l IH]; intros tmp s H Ha; [cbn; split; [reflexivity|exact H]|]. cbn [o_red_by red_by vals map].
  rewrite (deref_ok _ s _ _ _ H); [|intros i [<-|[<-|[]]]; [apply in_app_iff; right; apply in_app_iff; left; exact Ha|left; reflexivity]].
  apply sim_same. intros p _. destruct (is_zero p).
  - destruct (has_del s (ids l ++ ids tmp ++ R) (fst u) H) as (s1 & -> & H1). cbn [bind]. now apply IH.
  - eapply sim_bind; [apply (insert_sim dbg s (fst u, WP (wwrap (snd u)) p) tmp _ H); inc|].
    intros t t' (-> & E). apply IH; [eapply has_same; [exact H|cn]|].
    apply (count_occ_In Nat.eq_dec). rewrite (E (fst a)). apply (count_occ_In Nat.eq_dec). right. exact Ha.
Qed.

Lemma take_block_sim fuel dbg find tid dg R q : incl tid R -> forall tmp s, has s (ids q ++ ids tmp ++ R) ->
  sim (fun (r : bool * list own * list own * heap) r' => let '(b, q1, t1, s1) := r in has s1 (ids q1 ++ ids t1 ++ R) /\
         r' = if b then None else Some (vals q1, vals t1))
    (o_take_block fuel dbg find tid dg q tmp s) (take_block fuel dbg find dg (vals q) (vals tmp)).
Proof.
  intros HT. induction q as [|u q IH]; intros tmp s H; [cbn; split; [exact H|reflexivity]|]. cbn [o_take_block take_block vals map].
  rewrite (deref_ok _ s _ _ _ H) by inc. apply sim_same. intros m _.
  destruct (deg m <=? dg)%nat; [|cbn; split; [exact H|reflexivity]].
  rewrite (deref_ok _ s _ _ _ H) by inc. apply sim_same. intros [p c0] _. cbn [fst]. destruct (is_zero p).
  - destruct (has_del s (ids q ++ ids tmp ++ R) (fst u) H) as (s1 & -> & H1). cbn [bind]. now apply IH.
  - apply sim_same. intros m' _. destruct (deg m' =? 0)%nat; [cbn; split; [exact H|reflexivity]|].
    apply sim_same. intros [p2 c] _. apply sim_same. intros p3 _.
    eapply sim_bind; [apply (insert_sim dbg s (fst u, WP (wwrap (snd u)) p3) tmp _ H); inc|].
    intros t t' (-> & E). apply IH. eapply has_same; [exact H|cn].
Qed.

Lemma take_tq_sim tail fuel dbg find tid dg R q : incl tid R -> forall tmp s, has s (ids q ++ ids tmp ++ R) ->
  sim (fun (r : bool * list own * list own * heap) r' => let '(b, q1, t1, s1) := r in has s1 (ids q1 ++ ids t1 ++ R) /\
         r' = if b then None else Some (vals q1, vals t1))
    (o_take_tq tail fuel dbg find tid dg q tmp s) (take_tq tail fuel dbg find dg (vals q) (vals tmp)).
Proof.
  intros HT. induction q as [|u q IH]; intros tmp s H; [cbn; split; [exact H|reflexivity]|]. cbn [o_take_tq take_tq vals map].
  rewrite (deref_ok _ s _ _ _ H) by inc. apply sim_same. intros m _.
  destruct (deg m <=? dg)%nat; [|cbn; split; [exact H|reflexivity]].
  rewrite (deref_ok _ s _ _ _ H) by inc. apply sim_same. intros [p c0] _. destruct (is_zero p).
  - destruct (has_del s (ids q ++ ids tmp ++ R) (fst u) H) as (s1 & -> & H1). cbn [bind]. now apply IH.
  - apply sim_same. intros m' _. destruct (deg m' =? 0)%nat; [cbn; split; [exact H|reflexivity]|].
    apply sim_same. intros r2 _. apply sim_same. intros p3 _.
    eapply sim_bind; [apply (insert_sim dbg s (fst u, WP (wwrap (snd u)) p3) tmp _ H); inc|].
    intros t t' (-> & E). apply IH. eapply has_same; [exact H|cn].
Qed.

Lemma block_loop_sim dbg R : forall fuel tmp q s, has s (ids tmp ++ ids q ++ R) ->
  sim (fun (r : list own * list own * nat * heap) r' => let '(t1, q1, dg, s1) := r in has s1 (ids t1 ++ ids q1 ++ R) /\ r' = (vals t1, vals q1, dg))
    (o_block_loop fuel dbg tmp q s) (block_loop fuel dbg (vals tmp) (vals q)).
Proof.
  induction fuel as [|fuel IH]; intros [|u l] q s H; try exact Logic.I; [unfold o_block_loop, block_loop, null_head; cbn; now destruct dbg|].
  cbn [o_block_loop block_loop vals map].
  rewrite (deref_ok _ s _ _ _ H) by inc. apply sim_same. intros m _.
  eapply sim_bind; [apply (same_deg_sim dbg s (deg m) _ H); inc|]. intros [blk rest] r' (-> & E1). cbn [fst snd] in *.
  assert (H1 : has s (ids (u :: blk) ++ ids (rest ++ q) ++ R)) by (eapply has_same; [exact H|cn]).
  match goal with |- context [vals rest ++ ?X] => replace (vals rest ++ X) with (vals (rest ++ q)) by apply vals_app end.
  rewrite assert_and. eapply sort_sim; [exact H1|inc|].
  change (snd u :: vals blk) with (vals (u :: blk)).
  eapply sort_sim; [exact H1|inc|].
  replace (length (vals blk)) with (length blk) by (symmetry; apply map_length).
  eapply sim_bind; [apply (scan_sim dbg s _ H1 (S (length blk)) [] (u :: blk)); inc|].
  intros [t1 t2] r' (-> & E2). cbn [fst snd] in *.
  assert (H2 : has s (ids t1 ++ ids t2 ++ ids (rest ++ q) ++ R)) by (eapply has_same; [exact H1|cn]).
  destruct t2 as [|w0 t2].
  - cbn [vals map]. split; [eapply has_same; [exact H2|cn]|]. reflexivity.
  - rewrite (deref_ok _ s _ _ _ H2) by inc. cbn [vals map].
    destruct (min_norm_sim t2 w0 []) as (E3 & E4). cbn [vals map] in E3. unfold vals in E3. rewrite E3.
    destruct (o_min_norm w0 [] t2) as [w others]. cbn [fst snd] in *.
    assert (H3 : has s (ids (w :: others) ++ ids t1 ++ ids (rest ++ q) ++ R)) by (eapply has_same; [exact H2|cn]).
    eapply sim_bind; [apply (insert_sim dbg s w t1 _ H3); inc|]. intros t3 r' (-> & E5).
    eapply sim_bind.
    { apply (red_by_sim dbg w (ids (rest ++ q) ++ R) others t3 s); [eapply has_same; [exact H3|cn]|].
      apply (count_occ_In Nat.eq_dec). rewrite (E5 (fst w)). apply (count_occ_In Nat.eq_dec). left. reflexivity. }
    intros [t4 s4] r' (-> & H4). cbn [fst snd] in *. eapply sort_sim; [exact H4|inc|]. now apply IH.
Qed.

Lemma prolong_sim dbg mpos tid i p R : incl tid R -> In i R -> forall c k js w q s, has s (ids q ++ R) ->
  sim (fun (r : list janet * list own * heap) r' => let '(js1, q1, s1) := r in has s1 (ids q1 ++ R) /\ r' = (js1, vals q1))
    (o_prolong dbg mpos c k js tid i w p q s) (jp_prolong dbg mpos c k js w p (vals q)).
Proof.
  intros HT Hi. induction c as [|c IH]; intros k js w q s H; [cbn; split; [exact H|reflexivity]|]. cbn [o_prolong jp_prolong].
  rewrite (deref_ok _ s _ _ _ H); [|intros x [<-|[]]; apply in_app_iff; right; exact Hi].
  apply sim_same. intros nm _. apply sim_same. intros b _. destruct (nm && negb b); [|now apply IH].
  cbv zeta. rewrite (deref_ok _ s _ _ _ H) by inc. apply sim_same. intros d _.
  destruct (match d with Some d0 => _ | None => false end).
  - apply sim_same. intros w' _. now apply IH.
  - apply sim_same. intros [v w'] _. apply sim_same. intros pv _.
    assert (H1 := has_new s _ H). destruct (h_new s) as [i' s']. cbn [fst snd] in H1.
    eapply sim_bind; [apply (insert_sim dbg s' (i', WP v pv) q _ H1); inc|].
    intros t t' (-> & E). apply IH. eapply has_same; [exact H1|cn].
Qed.
Lemma prolong_if_sim dbg mpos dg js tid e q s R : incl tid R -> In (fst e) R -> has s (ids q ++ R) ->
  sim (fun (r : list janet * list own * heap) r' => let '(js1, q1, s1) := r in has s1 (ids q1 ++ R) /\ r' = (js1, vals q1))
    (o_prolong_if dbg mpos dg js tid e q s) (prolong_if dbg mpos dg js (snd e) (vals q)).
Proof.
  intros HT Hi H. unfold o_prolong_if, prolong_if, prolong_entry.
  rewrite (deref_ok _ s _ _ _ H); [|intros x [<-|[]]; apply in_app_iff; right; exact Hi].
  destruct (deg (fst (snd e)) <=? dg)%nat; [|cbn; split; [exact H|reflexivity]].
  destruct (get_wrap js (fst (snd e))) as [w|]; [|exact Logic.I]. now apply prolong_sim.
Qed.

Lemma enter_sim dbg s L : has s L -> forall l js tid, incl (ids l) L -> incl tid L ->
  sim (fun (r : list janet * list nat * list owe) r' => let '(js1, tid1, new) := r in
         r' = (js1, vals new) /\ ids new = ids l /\ same tid1 (ids l ++ tid))
    (o_enter dbg s js tid l) (enter dbg js (vals l)).
Proof.
  intros H. induction l as [|u l IH]; intros js tid K HT; [cbn; repeat split|]. cbn [o_enter enter vals map].
  rewrite (deref_ok _ s _ _ _ H) by inc. apply sim_same. intros m _. cbv zeta.
  apply sim_same. intros p _. apply sim_same. intros J _. apply sim_same. intros J' _.
  eapply sim_bind; [apply IH; inc|]. intros [[js2 tid2] new] r' (-> & E & I2). cbn [fst snd] in *.
  cbn. split; [reflexivity|]. split; [unfold ids in *; cbn [map fst]; congruence|]. cn.
Qed.
Lemma tail_reduce_sim fuel dbg s mpos js tid others e L : has s L -> incl tid L -> In (fst e) L ->
  sim (fun r r' => r' = snd r /\ fst r = fst e) (o_tail_reduce fuel dbg s mpos js tid others e) (tail_reduce fuel dbg mpos js others (snd e)).
Proof.
  intros H HT Hi. unfold o_tail_reduce. rewrite (deref_ok _ s _ _ _ H); [|intros x [<-|K]; [exact Hi|now apply HT]].
  destruct (tail_reduce fuel dbg mpos js others (snd e)); cbn; auto.
Qed.

Lemma merge_loop_sim fuel dbg mpos dg tid R : forall c js q s d j k, same tid (ids d ++ ids j ++ ids k) -> has s (ids q ++ (ids d ++ ids j ++ ids k) ++ R) ->
  sim (fun (r : list janet * list own * heap * list owe) r' => let '(js1, q1, s1, T1) := r in
         has s1 (ids q1 ++ ids T1 ++ R) /\ r' = (js1, vals q1, vals T1) /\ same tid (ids T1))
    (o_merge_loop c fuel dbg mpos dg js tid q s d j k) (merge_loop c fuel dbg mpos dg js (vals q) (vals d) (vals j) (vals k)).
Proof.
  induction c as [|c IH]; intros js q s d j k HS H; assert (HT := same_incl _ _ HS).
  { cbn. destruct j as [|x j], k as [|y k]; cbn; try exact Logic.I. split; [eapply has_same; [exact H|cn]|]. split; [reflexivity|cn]. }
  assert (P : forall e j' k', same (fst e :: ids j' ++ ids k') (ids j ++ ids k) ->
    sim (fun (r : list janet * list own * heap * list owe) r' => let '(js1, q1, s1, T1) := r in
         has s1 (ids q1 ++ ids T1 ++ R) /\ r' = (js1, vals q1, vals T1) /\ same tid (ids T1))
     (do b <- (if dbg then deref s (fst e :: tid) (p_isNf (find_poly dbg mpos (Some js) (vals (d ++ j ++ k))) (snd (snd e))) else Ok true);
      assert_ dbg b
          (do r <- o_prolong_if dbg mpos dg js tid e q s;
           let '(js', q', s') := r in
           o_merge_loop c fuel dbg mpos dg js' tid q' s' (d ++ [e]) j' k'))
     (do b <- (if dbg then p_isNf (find_poly dbg mpos (Some js) (vals d ++ vals j ++ vals k)) (snd (snd e)) else Ok true);
        assert_ dbg b
          (do r <- prolong_if dbg mpos dg js (snd e) (vals q);
           merge_loop c fuel dbg mpos dg (fst r) (snd r) (vals d ++ [snd e]) (vals j') (vals k')))).
  { intros e j' k' E.
    assert (H1 : has s (ids q ++ (ids (d ++ [e]) ++ ids j' ++ ids k') ++ R)) by (eapply has_same; [exact H|cn]).
    assert (HS1 : same tid (ids (d ++ [e]) ++ ids j' ++ ids k')) by cn.
    assert (HT1 := same_incl _ _ HS1).
    rewrite !vals_app. rewrite (deref_ok _ s _ _ _ H1) by inc.
    apply sim_same. intros b _. apply sim_assert.
    eapply sim_bind; [apply (prolong_if_sim dbg mpos dg js tid e q s ((ids (d ++ [e]) ++ ids j' ++ ids k') ++ R)); [inc|inn|exact H1]|].
    intros [[js1 q1] s1] r' (H2 & ->). cbn [fst snd].
    replace (vals d ++ [snd e]) with (vals (d ++ [e])) by apply vals_app. now apply IH. }
  assert (P2 : forall e k', same (fst e :: ids k') (ids k) ->
    sim (fun (r : list janet * list own * heap * list owe) r' => let '(js1, q1, s1, T1) := r in
         has s1 (ids q1 ++ ids T1 ++ R) /\ r' = (js1, vals q1, vals T1) /\ same tid (ids T1))
     (do e' <- o_tail_reduce fuel dbg s mpos js tid (vals (d ++ j ++ k')) e;
        do r <- o_prolong_if dbg mpos dg js tid e' q s;
        let '(js', q', s') := r in
        o_merge_loop c fuel dbg mpos dg js' tid q' s' (d ++ [e']) j k')
     (do e' <- tail_reduce fuel dbg mpos js (vals d ++ vals j ++ vals k') (snd e);
        do r <- prolong_if dbg mpos dg js e' (vals q);
        merge_loop c fuel dbg mpos dg (fst r) (snd r) (vals d ++ [e']) (vals j) (vals k'))).
  { intros e k' E.
    assert (He : In (fst e) (ids q ++ (ids d ++ ids j ++ ids k) ++ R)).
    { rewrite !in_app_iff. right. left. right. right. apply (count_occ_In Nat.eq_dec). rewrite <- (E (fst e)). apply (count_occ_In Nat.eq_dec). left. reflexivity. }
    rewrite !vals_app.
    eapply sim_bind; [apply (tail_reduce_sim fuel dbg s mpos js tid _ e _ H); [inc|exact He]|].
    intros e' r' (-> & Ee).
    assert (H1 : has s (ids q ++ (ids (d ++ [e']) ++ ids j ++ ids k') ++ R)) by (rewrite <- Ee in E; eapply has_same; [exact H|cn]).
    assert (HS1 : same tid (ids (d ++ [e']) ++ ids j ++ ids k')) by (rewrite <- Ee in E; cn).
    assert (HT1 := same_incl _ _ HS1).
    eapply sim_bind; [apply (prolong_if_sim dbg mpos dg js tid e' q s ((ids (d ++ [e']) ++ ids j ++ ids k') ++ R)); [inc|inn|exact H1]|].
    intros [[js1 q1] s1] r' (H2 & ->). cbn [fst snd].
    replace (vals d ++ [snd e']) with (vals (d ++ [e'])) by apply vals_app. now apply IH. }
  cbn [o_merge_loop merge_loop]. cbv zeta.
  destruct j as [|e j], k as [|e' k]; cbn [vals map].
  - cbn. split; [eapply has_same; [exact H|cn]|]. split; [reflexivity|cn].
  - apply P2. cn.
  - apply (P e j []). cn.
  - rewrite (deref_ok _ s _ _ _ H) by inc. apply sim_same. intros z _. destruct (z <? 0).
    + apply (P e j (e' :: k)). cn.
    + apply P2. cn.
Qed.

(* ------------------------------------------------------------------------------------------ *)
(** * The algorithms *)
Definition oinv (R : list nat) (K : ojp) : Prop := has (oheap K) (owned K ++ R) /\ same (otid K) (ids (ot K)) /\ (oone K = None \/ oq K = [] /\ ot K = []).

Lemma set_one_sim dbg t o n mpos tmp q T s R : has s (ids q ++ ids tmp ++ ids T ++ R) ->
  sim (fun K J => J = forget K /\ oinv R K /\ oone K <> None) (o_set_one dbg t o n mpos tmp q T s) (set_one dbg t o n mpos).
Proof.
  intros H. unfold o_set_one, set_one.
  destruct (has_del_all (ids tmp) s (ids q ++ ids T ++ R)) as (s1 & -> & H1); [eapply has_same; [exact H|cn]|]. cbn [bind].
  destruct (has_del_all (ids q) s1 (ids T ++ R) H1) as (s2 & -> & H2). cbn [bind].
  destruct (has_del_all (ids T) s2 R H2) as (s3 & -> & H3). cbn [bind].
  apply sim_same. intros p _. apply sim_same. intros m _.
  assert (H4 := has_new s3 _ H3). destruct (h_new s3) as [i s4]. cbn [fst snd] in H4.
  cbn. split; [reflexivity|]. split; [|discriminate]. split; [exact H4|]. split; [cn|right; auto].
Qed.
Lemma assertT_sim A B (Q : A -> B -> Prop) dbg s mpos js tid T L x y : has s L -> incl (ids T ++ tid) L -> sim Q x y ->
  sim Q (do b <- o_assertT dbg s mpos js tid T; assert_ dbg b x)
        (do b <- (if dbg then assertT dbg mpos js (vals T) else Ok true); assert_ dbg b y).
Proof.
  intros H K E. unfold o_assertT. destruct dbg; [rewrite (deref_ok _ s _ _ _ H K)|]; apply sim_same; intros b _; now apply sim_assert.
Qed.

Lemma block_tq_sim dbg mpos R : forall fuel js tid q T s, same tid (ids T) -> has s (ids q ++ ids T ++ R) ->
  sim (fun K J => J = forget K /\ oinv R K) (o_block_tq fuel dbg mpos js tid q T s) (block_tq fuel dbg mpos js (vals q) (vals T)).
Proof.
  induction fuel as [|fuel IH]; intros js tid [|u q] T s HS H; assert (HT := same_incl _ _ HS); cbn [o_block_tq block_tq vals map];
    [cbn; split; [reflexivity|split; [exact H|split; [exact HS|left; reflexivity]]]|exact Logic.I|cbn; split; [reflexivity|split; [exact H|split; [exact HS|left; reflexivity]]]|].
  rewrite (deref_ok _ s _ _ _ H) by inc. apply sim_same. intros m _.
  eapply sim_bind.
  { apply (take_block_sim (S fuel) dbg (find_poly dbg mpos (Some js) (vals T)) tid (deg m) (ids T ++ R) (u :: q)); [inc|].
    eapply has_same; [exact H|cn]. }
  intros [[[b q1] tmp] s1] r' (H1 & ->). destruct b; [eapply sim_weak; [apply set_one_sim; exact H1|intros ? ? (Y1 & Y2 & _); split; assumption]|].
  rewrite assert_and. eapply sort_sim; [exact H1|inc|]. eapply sort_sim; [exact H1|inc|].
  destruct tmp as [|w0 tmp]; [apply IH; [exact HS|exact H1]|].
  remember (w0 :: tmp) as tm eqn:Etm. replace (vals tm) with (vals (w0 :: tmp)) by (now subst tm). cbn [vals map].
  replace (snd w0 :: map snd tmp) with (vals tm) by (now subst tm).
  eapply sim_bind; [apply (block_loop_sim dbg (ids T ++ R) (S fuel) tm q1 s1); eapply has_same; [exact H1|cn]|].
  intros [[[tmp2 q2] dg] s2] r' (H2 & ->).
  eapply sim_bind; [apply (enter_sim dbg s2 _ H2 tmp2 js tid); inc|]. intros [[js2 tid2] new] r' (-> & En & I2).
  assert (I2' := same_incl _ _ I2).
  assert (H3 : has s2 (ids q2 ++ (ids (@nil owe) ++ ids new ++ ids T) ++ R)) by (rewrite En; eapply has_same; [exact H2|cn]).
  replace (length (vals new) + length (vals T))%nat with (length new + length T)%nat by (unfold vals; now rewrite !map_length).
  eapply sim_bind; [apply (merge_loop_sim (S fuel) dbg mpos dg tid2 R _ js2 q2 s2 [] new T); [rewrite En; cn|exact H3]|].
  intros [[[js3 q3] s3] T3] r' (H4 & -> & I3). assert (I3' := same_incl _ _ I3).
  eapply assertT_sim; [exact H4|inc|]. apply IH; [exact I3|exact H4].
Qed.

Lemma set_pos_sim K R : oinv R K -> exists K', o_set_pos K = Ok K' /\ forget K' = set_pos (forget K) /\ oinv R K' /\
  oone K' = oone K /\ oq K' = oq K /\ ot K' = ot K.
Proof.
  intros (H & I1 & I2). unfold o_set_pos. rewrite (deref_ok _ _ _ _ _ H) by (unfold owned; inc).
  unfold set_pos. cbn [jpos forget jq jtrees jone jt].
  destruct (opos K <? q_pos (vals (oq K))); eexists; (split; [reflexivity|]); (split; [reflexivity|]);
    (split; [split; [exact H|split; [exact I1|exact I2]]|auto]).
Qed.

Lemma build_sim fuel dbg R K : oinv R K -> sim (fun K J => J = forget K /\ oinv R K) (o_build fuel dbg K) (jp_build fuel dbg (forget K)).
Proof.
  intros H. unfold o_build, jp_build. destruct (oone K) as [w|] eqn:E1.
  { replace (jone (forget K)) with (Some (snd w)) by (unfold forget; cbn; now rewrite E1). split; [reflexivity|exact H]. }
  replace (jone (forget K)) with (@None wpoly) by (unfold forget; cbn; now rewrite E1).
  destruct (set_pos_sim K R H) as (K' & E2 & E3 & (H4 & H5 & H6) & E5 & E6 & E7). rewrite E2. cbn [bind]. cbv zeta. rewrite <- E3.
  unfold owned in H4. rewrite E5, E1 in H4. cbn [app] in H4. rewrite <- app_assoc in H4.
  cbn [forget jtrees jpos jq jt]. destruct (otrees K') as [js|] eqn:E8; [now apply block_tq_sim|].
  destruct (oq K') as [|u q] eqn:E9; [|exact Logic.I]. cbn [vals map]. split; [now rewrite E3|].
  split; [|split; [exact H5|left; congruence]]. unfold owned. rewrite E5, E1, E9. exact H4.
Qed.

(* ------------------------------------------------------------------------------------------ *)
(** * algorithmTQ and algorithmTQ1 *)
Lemma swap_min_sim l : forall w, swap_min (snd w) (vals l) = (snd (fst (o_swap_min w l)), vals (snd (o_swap_min w l))) /\
  same (fst (fst (o_swap_min w l)) :: ids (snd (o_swap_min w l))) (fst w :: ids l).
Proof.
  unfold vals. induction l as [|u l IH]; intros w; [cbn; split; [reflexivity|cn]|]. cbn [o_swap_min swap_min map].
  destruct (p_norm (wpol (snd u)) <? p_norm (wpol (snd w))).
  - destruct (IH u) as (E1 & E2). rewrite E1. destruct (o_swap_min u l) as [v r]. cbn [fst snd] in *. split; [reflexivity|cn].
  - destruct (IH w) as (E1 & E2). rewrite E1. destruct (o_swap_min w l) as [v r]. cbn [fst snd] in *. split; [reflexivity|cn].
Qed.
Lemma tails_sim fuel dbg s find tid L : has s L -> incl tid L -> forall l, incl (ids l) L ->
  sim (fun r r' => r' = vals r /\ ids r = ids l) (o_tails fuel dbg s find tid l) (tails fuel dbg find (vals l)).
Proof.
  intros H HT. induction l as [|u l IH]; intros K; [cbn; split; reflexivity|]. cbn [o_tails tails vals map].
  rewrite (deref_ok _ s _ _ _ H) by inc. apply sim_same. intros p _.
  eapply sim_bind; [apply IH; inc|]. intros r r' (-> & E). cbn. split; [reflexivity|]. unfold ids in *. cbn [map fst]. congruence.
Qed.
Lemma red_eq_sim dbg a R l : forall s, has s (ids l ++ R) -> In (fst a) R ->
  sim (fun r r' => r' = vals (fst r) /\ has (snd r) (ids (fst r) ++ R)) (o_red_eq dbg a l s) (red_eq dbg (wpol (snd a)) (vals l)).
Proof.
  revert R. induction l as [|u l IH]; intros R s H Ha; [cbn; split; [reflexivity|exact H]|]. cbn [o_red_eq red_eq vals map].
  rewrite (deref_ok _ s _ _ _ H); [|intros i [<-|[<-|[]]]; [apply in_app_iff; right; exact Ha|left; reflexivity]].
  apply sim_same. intros p _. destruct (is_zero p).
  - destruct (has_del s (ids l ++ R) (fst u) H) as (s1 & -> & H1). cbn [bind]. now apply IH.
  - apply sim_same. intros p' _.
    eapply sim_bind; [apply (IH (fst u :: R)); [eapply has_same; [exact H|cn]|right; exact Ha]|].
    intros [r s1] r' (-> & H1). cbn [fst snd] in *. cbn. split; [reflexivity|]. eapply has_same; [exact H1|cn].
Qed.
Lemma insert_all_sim dbg s L : has s L -> forall l q, incl (ids l ++ ids q) L ->
  sim (fun r r' => r' = vals r /\ same (ids r) (ids l ++ ids q)) (o_insert_all dbg s q l) (insert_all dbg (vals q) (vals l)).
Proof.
  intros H. induction l as [|u l IH]; intros q K; [cbn; split; [reflexivity|cn]|]. cbn [o_insert_all insert_all vals map].
  eapply sim_bind; [apply (insert_sim dbg s u q L H); inc|]. intros q1 r' (-> & E).
  eapply sim_weak; [apply IH|intros a b (Y1 & Y2); split; [exact Y1|cn]].
  intros i Hi. apply K. apply (count_occ_In Nat.eq_dec) in Hi. apply (count_occ_In Nat.eq_dec).
  assert (X : same (ids l ++ ids q1) (ids (u :: l) ++ ids q)) by cn. rewrite <- (X i). exact Hi.
Qed.

Lemma walk_sim fuel dbg mpos dg tid R : forall c js q s d w k,
  same tid (ids d ++ ids (match w with Some x => [x] | None => [] end) ++ ids k) ->
  has s (ids q ++ (ids d ++ ids (match w with Some x => [x] | None => [] end) ++ ids k) ++ R) ->
  sim (fun (r : list janet * list own * heap * list owe) r' => let '(js1, q1, s1, T1) := r in
         has s1 (ids q1 ++ ids T1 ++ R) /\ r' = (js1, vals q1, vals T1) /\ same tid (ids T1))
    (o_walk c fuel dbg mpos dg js tid q s d w k) (walk c fuel dbg mpos dg js (vals q) (vals d) (option_map snd w) (vals k)).
Proof.
  induction c as [|c IH]; intros js q s d w k HS H; assert (HT := same_incl _ _ HS).
  { cbn. destruct w as [x|], k as [|y k]; cbn; try exact Logic.I. split; [eapply has_same; [exact H|cn]|]. split; [reflexivity|cn]. }
  set (wl := match w with Some x => [x] | None => [] end) in *.
  assert (P : forall e w' k', same (fst e :: ids (match w' with Some x => [x] | None => [] end) ++ ids k') (ids wl ++ ids k) ->
    sim (fun (r : list janet * list own * heap * list owe) r' => let '(js1, q1, s1, T1) := r in
         has s1 (ids q1 ++ ids T1 ++ R) /\ r' = (js1, vals q1, vals T1) /\ same tid (ids T1))
     (do e' <- o_tail_reduce fuel dbg s mpos js tid (vals (d ++ match w' with Some x => [x] | None => [] end ++ k')) e;
        do r <- o_prolong_if dbg mpos dg js tid e' q s;
        let '(js', q', s') := r in
        o_walk c fuel dbg mpos dg js' tid q' s' (d ++ [e']) w' k')
     (do e' <- tail_reduce fuel dbg mpos js (vals d ++ match option_map snd w' with Some x => [x] | None => [] end ++ vals k') (snd e);
        do r <- prolong_if dbg mpos dg js e' (vals q);
        walk c fuel dbg mpos dg (fst r) (snd r) (vals d ++ [e']) (option_map snd w') (vals k'))).
  { intros e w' k' E. set (wl' := match w' with Some x => [x] | None => [] end) in *.
    replace (match option_map snd w' with Some x => [x] | None => [] end) with (vals wl') by (subst wl'; destruct w'; reflexivity).
    assert (He : In (fst e) (ids q ++ (ids d ++ ids wl ++ ids k) ++ R)).
    { rewrite !in_app_iff. right. left. right. rewrite <- in_app_iff. apply (count_occ_In Nat.eq_dec). rewrite <- (E (fst e)). apply (count_occ_In Nat.eq_dec). left. reflexivity. }
    rewrite !vals_app.
    eapply sim_bind; [apply (tail_reduce_sim fuel dbg s mpos js tid _ e _ H); [inc|exact He]|].
    intros e' r' (-> & Ee).
    assert (X : same (ids d ++ ids wl ++ ids k) (ids (d ++ [e']) ++ ids wl' ++ ids k')) by (rewrite <- Ee in E; cn).
    assert (H1 : has s (ids q ++ (ids (d ++ [e']) ++ ids wl' ++ ids k') ++ R)) by (eapply has_same; [exact H|cn]).
    assert (HS1 : same tid (ids (d ++ [e']) ++ ids wl' ++ ids k')) by cn.
    assert (HT1 := same_incl _ _ HS1).
    eapply sim_bind; [apply (prolong_if_sim dbg mpos dg js tid e' q s ((ids (d ++ [e']) ++ ids wl' ++ ids k') ++ R)); [inc|inn|exact H1]|].
    intros [[js1 q1] s1] r' (H2 & ->). cbn [fst snd].
    replace (vals d ++ [snd e']) with (vals (d ++ [e'])) by apply vals_app. now apply IH. }
  cbn [o_walk walk]. cbv zeta.
  destruct w as [e|], k as [|e' k]; cbn [vals map option_map]; subst wl.
  - apply (P e None []). cn.
  - rewrite (deref_ok _ s _ _ _ H) by inc. apply sim_same. intros z _. destruct (z <? 0).
    + apply (P e None (e' :: k)). cn.
    + apply (P e' (Some e) k). cn.
  - cbn. split; [eapply has_same; [exact H|cn]|]. split; [reflexivity|cn].
  - apply (P e' None k). cn.
Qed.

Lemma tq_loop_sim one dbg mpos R : forall fuel js tid q T s, same tid (ids T) -> has s (ids q ++ ids T ++ R) ->
  sim (fun K J => J = forget K /\ oinv R K) (o_tq_loop one fuel dbg mpos js tid q T s) (tq_loop one fuel dbg mpos js (vals q) (vals T)).
Proof.
  induction fuel as [|fuel IH]; intros js tid [|u q] T s HS H; assert (HT := same_incl _ _ HS); cbn [o_tq_loop tq_loop vals map];
    [cbn; split; [reflexivity|split; [exact H|split; [exact HS|left; reflexivity]]]|exact Logic.I|cbn; split; [reflexivity|split; [exact H|split; [exact HS|left; reflexivity]]]|].
  cbv zeta. rewrite (deref_ok _ s _ _ _ H) by inc. apply sim_same. intros m _.
  set (find := find_poly dbg mpos (Some js) (vals T)).
  eapply sim_bind.
  { apply (take_tq_sim false (S fuel) dbg find tid (deg m) (ids T ++ R) (u :: q)); [inc|]. eapply has_same; [exact H|cn]. }
  intros [[[b q1] tmp] s1] r' (H1 & ->). destruct b; [eapply sim_weak; [apply set_one_sim; exact H1|intros ? ? (Y1 & Y2 & _); split; assumption]|].
  rewrite assert_and. eapply sort_sim; [exact H1|inc|]. eapply sort_sim; [exact H1|inc|].
  destruct tmp as [|w0 tmp]; [apply IH; [exact HS|exact H1]|]. cbn [vals map].
  rewrite (deref_ok _ s1 _ _ _ H1) by inc. apply sim_same. intros m0 _.
  eapply sim_bind; [apply (same_lm_sim dbg s1 m0 _ H1 tmp); inc|]. intros [eqs rest] r' (-> & E1). cbn [fst snd] in *.
  assert (H2 : has s1 (ids q1 ++ ids (w0 :: eqs) ++ ids rest ++ ids T ++ R)) by (eapply has_same; [exact H1|cn]).
  eapply (sim_bind _ _ _ _ (fun w w' => w' = snd w /\ fst w = fst w0)).
  { destruct one; [|cbn; auto]. rewrite (deref_ok _ s1 _ _ _ H2) by inc. apply sim_same. intros p _. cbn. auto. }
  intros w1 r' (-> & Ew1).
  eapply (sim_bind _ _ _ _ (fun l l' => l' = vals l /\ ids l = ids eqs)).
  { destruct one; [|cbn; auto]. apply (tails_sim (S fuel) dbg s1 find tid _ H2); inc. }
  intros eqs1 r' (-> & Ee1).
  destruct (swap_min_sim eqs1 w1) as (E3 & E4). rewrite E3. destruct (o_swap_min w1 eqs1) as [w eqs2]. cbn [fst snd] in *.
  rewrite Ew1, Ee1 in E4.
  assert (H3 : has s1 (ids eqs2 ++ fst w :: ids q1 ++ ids rest ++ ids T ++ R)) by (eapply has_same; [exact H2|cn]).
  replace (length (vals eqs2)) with (length eqs2) by (symmetry; apply map_length).
  destruct (one && negb (length eqs2 =? 0)%nat).
  - eapply sim_bind; [apply (red_eq_sim dbg w _ eqs2 s1 H3); left; reflexivity|]. intros [eqs3 s2] r' (-> & H4). cbn [fst snd] in *.
    rewrite <- vals_app.
    eapply sim_bind; [apply (insert_sim dbg s2 w (rest ++ q1) _ H4); inc|]. intros q2 r' (-> & E5).
    assert (H5 : has s2 (ids eqs3 ++ ids q2 ++ ids T ++ R)) by (eapply has_same; [exact H4|cn]).
    eapply sim_bind; [apply (insert_all_sim dbg s2 _ H5 eqs3 q2); inc|]. intros q3 r' (-> & E6).
    assert (H6 : has s2 (ids q3 ++ ids T ++ R)) by (eapply has_same; [exact H5|cn]).
    eapply sort_sim; [exact H6|inc|]. now apply IH.
  - rewrite <- !vals_app. rewrite assert_and. eapply sort_sim; [exact H3|inc|]. eapply sort_sim; [exact H3|inc|].
    unfold o_enter_w. rewrite (deref_ok _ s1 _ _ _ H3) by inc.
    destruct (enter_w dbg js (snd w)) as [[js2 w']| | | |]; cbn [bind]; try exact Logic.I. cbn [fst snd].
    eapply (sim_bind _ _ _ _ (fun (r : list janet * list own * heap * list owe) r' => let '(js1, q1, s1, T1) := r in
         has s1 (ids q1 ++ ids T1 ++ R) /\ r' = (js1, vals q1, vals T1) /\ same (fst w :: tid) (ids T1))).
    + destruct T as [|e T].
      * cbn. split; [eapply has_same; [exact H3|cn]|]. split; [reflexivity|]. cn.
      * remember (e :: T) as T0 eqn:ET. replace (vals T0) with (snd e :: vals T) by (now subst T0).
        replace (length (vals T)) with (length T) by (symmetry; apply map_length).
        replace (snd e :: vals T) with (vals T0) by (now subst T0).
        replace (length (vals T0)) with (length T0) by (symmetry; apply map_length).
        apply (walk_sim (S fuel) dbg mpos (deg m) (fst w :: tid) R (S (length T0)) js2 ((eqs2 ++ rest) ++ q1) s1 [] (Some (fst w, (wlm w', wpol (snd w)))) T0);
          [cn|eapply has_same; [exact H3|cn]].
    + intros [[[js3 q3] s3] T3] r' (H4 & -> & I3). assert (I3' := same_incl _ _ I3). eapply assertT_sim; [exact H4|inc|]. now apply IH.
Qed.
Lemma tq_sim one fuel dbg R K : oinv R K -> sim (fun K J => J = forget K /\ oinv R K) (o_tq one fuel dbg K) (jp_tq one fuel dbg (forget K)).
Proof.
  intros H. unfold o_tq, jp_tq. destruct (oone K) as [w|] eqn:E1.
  { replace (jone (forget K)) with (Some (snd w)) by (unfold forget; cbn; now rewrite E1). split; [reflexivity|exact H]. }
  replace (jone (forget K)) with (@None wpoly) by (unfold forget; cbn; now rewrite E1).
  destruct (set_pos_sim K R H) as (K' & E2 & E3 & (H4 & H5 & H6) & E5 & E6 & E7). rewrite E2. cbn [bind]. cbv zeta. rewrite <- E3.
  unfold owned in H4. rewrite E5, E1 in H4. cbn [app] in H4. rewrite <- app_assoc in H4.
  cbn [forget jtrees jpos jq jt]. destruct (otrees K') as [js|] eqn:E8; [now apply tq_loop_sim|].
  destruct (oq K') as [|u q] eqn:E9; [|exact Logic.I]. cbn [vals map]. split; [now rewrite E3|].
  split; [|split; [exact H5|left; congruence]]. unfold owned. rewrite E5, E1, E9. exact H4.
Qed.

Lemma push_sim dbg R K a : oinv R K -> sim (fun K J => J = forget K /\ oinv R K) (o_push dbg K a) (jp_push dbg (forget K) a).
Proof.
  intros (H & I1 & I2). unfold o_push, jp_push.
  assert (X : (if dbg then o_comparable K a else Ok true) = if dbg then Ok (jp_comparable (forget K) a) else Ok true).
  { destruct dbg; [|reflexivity]. unfold o_comparable. rewrite (deref_ok _ _ _ _ _ H).
    - unfold jp_comparable, forget. cbn [jq jt jone]. destruct (oq K), (ot K), (oone K); reflexivity.
    - unfold owned. destruct (oq K), (ot K), (oone K); inc. }
  rewrite X. replace (do b <- if dbg then Ok (jp_comparable (forget K) a) else Ok true; assert_ dbg b
    match oone K with Some _ => Ok K | None => _ end) with (assert_ dbg (jp_comparable (forget K) a) match oone K with
    | Some _ => Ok K
    | None =>
        if is_zero a then Ok K
        else do m <- p_lm dbg a;
             do c <- p_copy dbg a;
             let (i, s) := h_new (oheap K) in
             do q <- o_insert dbg s (oq K) (i, WP (new_wrap m) c);
             Ok (OJ None q (ot K) (opos K) (otrees K) (otid K) s)
    end) by (destruct dbg; reflexivity).
  apply sim_assert. replace (jone (forget K)) with (option_map snd (oone K)) by reflexivity.
  assert (I3 : oinv R K) by (split; [exact H|split; [exact I1|exact I2]]). destruct (oone K) as [w|] eqn:E1; cbn [option_map].
  { split; [reflexivity|exact I3]. }
  destruct (is_zero a); [split; [reflexivity|exact I3]|].
  apply sim_same. intros m _. apply sim_same. intros c _.
  unfold owned in H. rewrite E1 in H. cbn [app] in H.
  assert (H1 := has_new _ _ H). destruct (h_new (oheap K)) as [i s]. cbn [fst snd] in H1. cbn [forget jq].
  eapply sim_bind; [apply (insert_sim dbg s (i, WP (new_wrap m) c) (oq K) _ H1); inc|]. intros q r' (-> & E).
  cbn. split; [reflexivity|]. split; [|split; [exact I1|left; reflexivity]]. cbn [oheap owned oone oq ot app]. eapply has_same; [exact H1|cn].
Qed.

(* ------------------------------------------------------------------------------------------ *)
(** * algorithmTQ2 *)
Lemma prolong_det_sim dbg mpos tid i p R js : incl tid R -> In i R -> forall c k w q s, has s (ids q ++ R) ->
  sim (fun (r : wrap * list own * heap) r' => let '(w1, q1, s1) := r in has s1 (ids q1 ++ R) /\ r' = (w1, vals q1))
    (o_prolong_det dbg mpos c k js tid i w p q s) (prolong_det dbg mpos c k js w p (vals q)).
Proof.
  intros HT Hi. induction c as [|c IH]; intros k w q s H; [cbn; split; [exact H|reflexivity]|]. cbn [o_prolong_det prolong_det].
  rewrite (deref_ok _ s _ _ _ H); [|intros x [<-|[]]; apply in_app_iff; right; exact Hi].
  apply sim_same. intros nm _. apply sim_same. intros b _. destruct (nm && negb b); [|now apply IH].
  cbv zeta. rewrite (deref_ok _ s _ _ _ H) by inc. apply sim_same. intros d _.
  destruct (match d with Some d0 => _ | None => false end).
  - apply sim_same. intros w' _. now apply IH.
  - apply sim_same. intros [v w'] _. apply sim_same. intros pv _.
    assert (H1 := has_new s _ H). destruct (h_new s) as [i' s']. cbn [fst snd] in H1.
    eapply sim_bind; [apply (insert_sim dbg s' (i', WP v pv) q _ H1); inc|].
    intros t t' (-> & E). apply IH. eapply has_same; [exact H1|cn].
Qed.
Definition kind (x : titem) : bool := match x with Att _ => true | Det _ => false end.
Lemma item_step_sim fuel dbg mpos dg js tid q s others x R : incl tid R -> In (fst x) R -> has s (ids q ++ R) ->
  sim (fun (r : list janet * list own * heap * oit) r' => let '(js1, q1, s1, x1) := r in
         has s1 (ids q1 ++ R) /\ r' = (js1, vals q1, snd x1) /\ fst x1 = fst x /\ kind (snd x1) = kind (snd x))
    (o_item_step fuel dbg mpos dg js tid q s others x) (item_step fuel dbg mpos dg js (vals q) others (snd x)).
Proof.
  intros HT Hi H. unfold o_item_step, item_step. destruct x as [i [e|w]]; cbn [fst snd] in *.
  - eapply sim_bind; [apply (tail_reduce_sim fuel dbg s mpos js tid others (i, e) _ H); [inc|apply in_app_iff; right; exact Hi]|].
    intros [i' e'] r' (-> & E). cbn [fst snd] in E. subst i'.
    eapply sim_bind; [apply (prolong_if_sim dbg mpos dg js tid (i, e') q s R); assumption|].
    intros [[js1 q1] s1] r' (H1 & ->). cbn. auto.
  - rewrite (deref_ok _ s _ _ _ H); [|intros y [<-|Hy]; apply in_app_iff; right; [exact Hi|now apply HT]].
    apply sim_same. intros p _. destruct (deg (wlm (wwrap w)) <=? dg)%nat; [|cbn; auto].
    eapply sim_bind; [apply (prolong_det_sim dbg mpos tid i p R js HT Hi _ _ _ _ _ H)|].
    intros [[w1 q1] s1] r' (H1 & ->). cbn. auto.
Qed.

Lemma attached_app T T' : attached (T ++ T') = attached T ++ attached T'.
Proof. unfold attached. now rewrite filter_app, ids_app. Qed.
Lemma attached_one x : attached [x] = if kind (snd x) then [fst x] else [].
Proof. unfold attached, kind. cbn. destruct (snd x); reflexivity. Qed.
Lemma attached_incl T : incl (attached T) (ids T).
Proof. intros i Hi. unfold attached, ids in *. apply in_map_iff in Hi. destruct Hi as (x & <- & Hx). apply filter_In in Hx. apply in_map. apply Hx. Qed.
Lemma attached_cons x T : attached (x :: T) = (if kind (snd x) then [fst x] else []) ++ attached T.
Proof. change (x :: T) with ([x] ++ T). rewrite attached_app, attached_one. reflexivity. Qed.

Definition owl (w : option owe) : list nat := match w with Some x => [fst x] | None => [] end.
Lemma walk2_sim fuel dbg mpos dg tid R : forall c js q s d w k,
  same tid (attached d ++ owl w ++ attached k) ->
  has s (ids q ++ (ids d ++ owl w ++ ids k) ++ R) ->
  sim (fun (r : list janet * list own * heap * list oit) r' => let '(js1, q1, s1, T1) := r in
         has s1 (ids q1 ++ ids T1 ++ R) /\ r' = (js1, vals q1, vals T1) /\ same tid (attached T1))
    (o_walk2 c fuel dbg mpos dg js tid q s d w k) (walk2 c fuel dbg mpos dg js (vals q) (vals d) (option_map snd w) (vals k)).
Proof.
  induction c as [|c IH]; intros js q s d w k HS H; assert (HT := same_incl _ _ HS).
  { cbn. destruct w as [x|], k as [|y k]; cbn; try exact Logic.I. cbn [owl] in *. change (attached []) with (@nil nat) in *.
    split; [eapply has_same; [exact H|cn]|]. split; [reflexivity|cn]. }
  assert (P : forall x w' k', same (fst x :: owl w' ++ ids k') (owl w ++ ids k) ->
     same ((if kind (snd x) then [fst x] else []) ++ owl w' ++ attached k') (owl w ++ attached k) ->
    sim (fun (r : list janet * list own * heap * list oit) r' => let '(js1, q1, s1, T1) := r in
         has s1 (ids q1 ++ ids T1 ++ R) /\ r' = (js1, vals q1, vals T1) /\ same tid (attached T1))
     (do r <- o_item_step fuel dbg mpos dg js tid q s (atts (vals d) ++ match w' with Some e => [snd e] | None => [] end ++ atts (vals k')) x;
        let '(js', q', s', x') := r in
        o_walk2 c fuel dbg mpos dg js' tid q' s' (d ++ [x']) w' k')
     (do r <- item_step fuel dbg mpos dg js (vals q) (atts (vals d) ++ match option_map snd w' with Some e => [e] | None => [] end ++ atts (vals k')) (snd x);
        let '(js', q', x') := r in
        walk2 c fuel dbg mpos dg js' q' (vals d ++ [x']) (option_map snd w') (vals k'))).
  { intros x w' k' E Ea.
    replace (match option_map snd w' with Some e => [e] | None => [] end) with (match w' with Some e => [snd e] | None => [] end) by (destruct w'; reflexivity).
    assert (He : In (fst x) ((ids d ++ owl w ++ ids k) ++ R)).
    { rewrite !in_app_iff. left. right. rewrite <- in_app_iff. apply (count_occ_In Nat.eq_dec). rewrite <- (E (fst x)). apply (count_occ_In Nat.eq_dec). left. reflexivity. }
    eapply sim_bind; [apply (item_step_sim fuel dbg mpos dg js tid q s _ x ((ids d ++ owl w ++ ids k) ++ R)); [|exact He|exact H]|].
    { intros y Hy. apply HT in Hy. rewrite !in_app_iff in *. destruct Hy as [Hy|[Hy|Hy]]; [apply attached_incl in Hy; tauto|tauto|apply attached_incl in Hy; tauto]. }
    intros [[[js1 q1] s1] x1] r' (H1 & -> & Ex & Ek).
    replace (vals d ++ [snd x1]) with (vals (d ++ [x1])) by apply vals_app. apply IH.
    - rewrite attached_app, attached_one, Ek, Ex. rewrite <- app_assoc. intro y. specialize (Ea y). specialize (HS y).
      rewrite !count_occ_app in *. lia.
    - rewrite ids_app. unfold ids at 3. cbn [map]. rewrite Ex. eapply has_same; [exact H1|cn]. }
  cbn [o_walk2 walk2]. cbv zeta.
  destruct w as [e|], k as [|x k]; cbn [vals map option_map].
  - apply (P (fst e, Att (snd e)) None []); [cbn [owl fst]; cn|cbn [owl kind fst snd]; cn].
  - rewrite (deref_ok _ s _ _ _ H) by (cbn [owl]; inc). apply sim_same. intros z _. destruct (z <? 0).
    + apply (P (fst e, Att (snd e)) None (x :: k)); [cbn [owl fst]; cn|cbn [owl kind fst snd]; cn].
    + apply (P x (Some e) k); cbn [owl]; [cn|]. rewrite attached_cons. cn.
  - cbn [owl] in *. cbn. change (attached []) with (@nil nat) in *. split; [eapply has_same; [exact H|cn]|]. split; [reflexivity|cn].
  - apply (P x None k); cbn [owl]; [cn|]. rewrite attached_cons. cn.
Qed.

Lemma back_sim s L js : has s L -> forall T q, incl (ids T) L ->
  sim (fun r r' => r' = vals r /\ same (ids r) (ids T ++ ids q)) (o_back s js T q) (back js (vals T) (vals q)).
Proof.
  intros H. induction T as [|x T IH]; intros q K; [cbn; split; [reflexivity|cn]|]. cbn [o_back back vals map].
  rewrite (deref_ok _ s _ _ _ H) by inc. apply sim_same. intros u _.
  change (u :: map snd q) with (vals ((fst x, u) :: q)).
  eapply sim_weak; [apply (IH ((fst x, u) :: q)); inc|]. intros a b (Y1 & Y2). split; [exact Y1|cn].
Qed.

Lemma bind_ok A (x : outcome A) : (do y <- x; Ok y) = x.
Proof. destruct x; reflexivity. Qed.

Definition oinv2 (R : list nat) (K : ojp2) : Prop := has (o2heap K) (owned2 K ++ R) /\ same (o2tid K) (attached (o2t K)).

Lemma assertT2_sim A B (Q : A -> B -> Prop) dbg s mpos js tid T L x y : has s L -> incl (ids T ++ tid) L -> sim Q x y ->
  sim Q (do b <- o_assertT2 dbg s mpos js tid T; assert_ dbg b x)
        (do b <- (if dbg then assertT2 dbg mpos js (vals T) else Ok true); assert_ dbg b y).
Proof.
  intros H K E. unfold o_assertT2. destruct dbg; [rewrite (deref_ok _ s _ _ _ H K)|]; apply sim_same; intros b _; now apply sim_assert.
Qed.

Lemma tq2_loop_sim dbg mpos R : forall fuel pref js tid q T s, same tid (attached T) -> has s (ids q ++ ids T ++ R) ->
  sim (fun K J => J = forget2 K /\ oinv2 R K) (o_tq2_loop fuel dbg mpos pref js tid q T s) (tq2_loop fuel dbg mpos pref js (vals q) (vals T)).
Proof.
  induction fuel as [|fuel IH]; intros pref js tid [|u q] T s HS H;
    assert (HT := incl_tran (same_incl _ _ HS) (attached_incl T)); cbn [o_tq2_loop tq2_loop vals map];
    [cbn; split; [reflexivity|split; [exact H|exact HS]]|exact Logic.I|cbn; split; [reflexivity|split; [exact H|exact HS]]|].
  cbv zeta. rewrite (deref_ok _ s _ _ _ H) by inc. apply sim_same. intros m _.
  set (find := find_poly dbg mpos (Some js) (atts (vals T))).
  eapply sim_bind.
  { apply (take_tq_sim true (S fuel) dbg find tid (deg m) (ids T ++ R) (u :: q)); [inc|]. eapply has_same; [exact H|cn]. }
  intros [[[b q1] tmp] s1] r' (H1 & ->). destruct b.
  { eapply sim_bind; [apply (set_one_sim dbg _ _ _ mpos tmp q1 _ s1 R)|].
    - unfold ids at 3. rewrite map_map. cbn [fst]. exact H1.
    - intros K J (-> & (X & Y & Z) & N). cbn [jone forget jpos jtrees]. cbn [sim]. split; [reflexivity|].
      destruct Z as [Z|(Z1 & Z2)]; [contradiction|]. unfold owned in X. rewrite Z1, Z2 in X. rewrite Z2 in Y. split; [|exact Y].
      unfold owned2. cbn [o2one o2t o2heap]. rewrite app_nil_r. cbn [ids map app] in X. rewrite app_nil_r in X. exact X. }
  rewrite assert_and. eapply sort_sim; [exact H1|inc|]. eapply sort_sim; [exact H1|inc|].
  destruct tmp as [|w0 tmp]; [apply IH; [exact HS|exact H1]|]. cbn [vals map].
  rewrite (deref_ok _ s1 _ _ _ H1) by inc. apply sim_same. intros m0 _.
  eapply sim_bind; [apply (same_deg_sim dbg s1 (deg m0) _ H1 tmp); inc|]. intros [eqs rest] r' (-> & E1). cbn [fst snd] in *.
  destruct (swap_min_sim eqs w0) as (E3 & E4). rewrite E3. destruct (o_swap_min w0 eqs) as [w1 eqs2]. cbn [fst snd] in *.
  assert (H3 : has s1 (ids ((eqs2 ++ rest) ++ q1) ++ fst w1 :: ids T ++ R)) by (eapply has_same; [exact H1|cn]).
  rewrite <- !vals_app. eapply sort_sim; [exact H3|inc|].
  rewrite (deref_ok _ s1 _ _ _ H3) by inc. apply sim_same. intros p _.
  unfold o_enter_w. cbn [fst snd]. rewrite (deref_ok _ s1 _ _ _ H3) by inc.
  destruct (enter_w dbg js (WP (wwrap (snd w1)) p)) as [[js2 w']| | | |]; cbn [bind]; try exact Logic.I. cbn [fst snd].
  eapply (sim_bind _ _ _ _ (fun (r : list janet * list own * heap * list oit * list nat) r' => let '(js1, q1, s1, T1, tid1) := r in
       has s1 (ids q1 ++ ids T1 ++ R) /\ r' = (js1, vals q1, vals T1) /\ same tid1 (attached T1))).
  - destruct (deg m <? (if (pref =? 0)%nat then deg m else pref))%nat.
    + eapply sim_bind; [apply (back_sim s1 _ js2 H3 T); inc|]. intros q3 r' (-> & E5).
      destruct (get_wrap js2 (wlm w')) as [w''|]; [|exact Logic.I]. cbn [sim].
      split; [eapply has_same; [exact H3|cn]|]. split; [reflexivity|]. rewrite attached_one. cn.
    + match goal with |- sim _ _ ?Y => rewrite <- (bind_ok _ Y) end.
      eapply (sim_bind _ _ _ _ (fun (r : list janet * list own * heap * list oit) r' => let '(js1, q1, s1, T1) := r in
         has s1 (ids q1 ++ ids T1 ++ R) /\ r' = (js1, vals q1, vals T1) /\ same (fst w1 :: tid) (attached T1))).
      * destruct T as [|e T].
        -- cbn [sim vals map]. split; [eapply has_same; [exact H3|cn]|]. split; [reflexivity|]. rewrite attached_one. cbn [snd kind fst].
           change (attached []) with (@nil nat) in HS. cn.
        -- remember (e :: T) as T0 eqn:ET. replace (vals T0) with (snd e :: vals T) by (now subst T0).
           replace (snd e :: vals T) with (vals T0) by (now subst T0).
           replace (length (vals T0)) with (length T0) by (symmetry; apply map_length).
           apply (walk2_sim (S fuel) dbg mpos (deg m) (fst w1 :: tid) R (S (length T0)) js2 ((eqs2 ++ rest) ++ q1) s1 [] (Some (fst w1, (wlm w', p))) T0);
             cbn [owl fst]; change (attached []) with (@nil nat); [cn|eapply has_same; [exact H3|cn]].
      * intros [[[js3 q3] s3] T3] r' (H4 & -> & I3). cbn. auto.
  - intros [[[[js3 q3] s3] T3] tid3] r' (H4 & -> & I3). assert (I3' := incl_tran (same_incl _ _ I3) (attached_incl T3)).
    eapply assertT2_sim; [exact H4|inc|]. now apply IH.
Qed.

Lemma att_ids (l : list owe) : ids (map (fun x => (fst x, Att (snd x))) l) = ids l.
Proof. unfold ids. rewrite map_map. reflexivity. Qed.
Lemma att_vals (l : list owe) : vals (map (fun x => (fst x, Att (snd x))) l) = map Att (vals l).
Proof. unfold vals. rewrite !map_map. reflexivity. Qed.
Lemma att_attached (l : list owe) : attached (map (fun x => (fst x, Att (snd x))) l) = ids l.
Proof. unfold attached. induction l as [|x l IH]; [reflexivity|]. unfold ids in *. cbn. now rewrite IH. Qed.

Lemma tq2_sim fuel dbg R K : oinv R K -> sim (fun K J => J = forget2 K /\ oinv2 R K) (o_tq2 fuel dbg K) (jp_tq2 fuel dbg (forget K)).
Proof.
  intros H. unfold o_tq2, jp_tq2. destruct (oone K) as [w|] eqn:E1.
  { replace (jone (forget K)) with (Some (snd w)) by (unfold forget; cbn; now rewrite E1). cbn [sim]. split; [reflexivity|].
    destruct H as (X & Y & [Z|(Z1 & Z2)]); [congruence|]. unfold owned in X. rewrite Z1, Z2 in X. rewrite Z2 in Y. split; [|exact Y].
    unfold owned2. cbn [o2one o2t o2heap]. rewrite E1 in X. exact X. }
  replace (jone (forget K)) with (@None wpoly) by (unfold forget; cbn; now rewrite E1).
  destruct (set_pos_sim K R H) as (K' & E2 & E3 & (H4 & H5 & H6) & E5 & E6 & E7). rewrite E2. cbn [bind]. cbv zeta. rewrite <- E3.
  unfold owned in H4. rewrite E5, E1 in H4. cbn [app] in H4. rewrite <- app_assoc in H4.
  cbn [forget jtrees jpos jq jt]. rewrite <- att_vals. destruct (otrees K') as [js|] eqn:E8.
  - apply tq2_loop_sim; [rewrite att_attached; exact H5|rewrite att_ids; exact H4].
  - destruct (oq K') as [|u q] eqn:E9; [|exact Logic.I]. cbn [vals map sim]. split; [reflexivity|].
    split; [|cbn [o2tid o2t]; rewrite att_attached; exact H5]. unfold owned2. cbn [o2one o2t o2heap app]. rewrite att_ids. exact H4.
Qed.

(* ------------------------------------------------------------------------------------------ *)
(** * Histories *)
Lemma has_good s : good_heap s -> has s (live s).
Proof.
  intros (ND & F) x. split; [reflexivity|]. split; [now apply (NoDup_count_occ Nat.eq_dec)|].
  destruct (count_occ Nat.eq_dec (live s) x) eqn:E; [now left|]. right. rewrite Forall_forall in F. apply F.
  apply (count_occ_In Nat.eq_dec). lia.
Qed.
Lemma sim_ok A B (P : A -> B -> Prop) x y a : sim P x y -> x = Ok a -> exists b, y = Ok b /\ P a b.
Proof. intros H ->. destruct y; cbn in H; try contradiction. now exists a0. Qed.
Lemma history_inv dbg s0 K : good_heap s0 -> own_history dbg s0 K -> oinv (live s0) K.
Proof.
  intros G. induction 1 as [|K a K' H IH E|K fuel K' H IH E|K one fuel K' H IH E].
  - split; [exact (has_good s0 G)|split; [cn|left; reflexivity]].
  - destruct (sim_ok _ _ _ _ _ _ (push_sim dbg _ K a IH) E) as (J & _ & _ & Y). exact Y.
  - destruct (sim_ok _ _ _ _ _ _ (build_sim fuel dbg _ K IH) E) as (J & _ & _ & Y). exact Y.
  - destruct (sim_ok _ _ _ _ _ _ (tq_sim one fuel dbg _ K IH) E) as (J & _ & _ & Y). exact Y.
Qed.
Lemma sim_forget R x y : sim (fun K J => J = forget K /\ oinv R K) x y -> forget_out x = y.
Proof. destruct x, y; cbn; try contradiction; try reflexivity. intros (-> & _). reflexivity. Qed.

Theorem own_same dbg s0 K : good_heap s0 -> own_history dbg s0 K ->
  (forall a, forget_out (o_push dbg K a) = jp_push dbg (forget K) a) /\
  (forall fuel, forget_out (o_build fuel dbg K) = jp_build fuel dbg (forget K)) /\
  (forall one fuel, forget_out (o_tq one fuel dbg K) = jp_tq one fuel dbg (forget K)).
Proof.
  intros G H. assert (X := history_inv dbg s0 K G H). split; [|split]; intros.
  - exact (sim_forget _ _ _ (push_sim dbg _ K a X)).
  - exact (sim_forget _ _ _ (build_sim fuel dbg _ K X)).
  - exact (sim_forget _ _ _ (tq_sim one fuel dbg _ K X)).
Qed.
Theorem own_live dbg s0 K : good_heap s0 -> own_history dbg s0 K ->
  Permutation (live (oheap K)) (owned K ++ live s0) /\ NoDup (live (oheap K)) /\ Permutation (otid K) (ids (ot K)).
Proof.
  intros G H. destruct (history_inv dbg s0 K G H) as (X & Y & _). split; [|split; [|apply (Permutation_count_occ Nat.eq_dec); exact Y]].
  - apply (Permutation_count_occ Nat.eq_dec). intro x. apply X.
  - apply (NoDup_count_occ Nat.eq_dec). intro x. destruct (X x) as (X1 & X2 & _). lia.
Qed.
Theorem own_destroy dbg s0 K : good_heap s0 -> own_history dbg s0 K ->
  exists s, o_destroy K = Ok s /\ Permutation (live s) (live s0).
Proof.
  intros G H. destruct (history_inv dbg s0 K G H) as (X & _). unfold o_destroy, owned in *.
  rewrite <- !app_assoc in X.
  assert (Y : exists s1, match oone K with Some w => h_del (fst w) (oheap K) | None => Ok (oheap K) end = Ok s1 /\ has s1 (ids (oq K) ++ ids (ot K) ++ live s0)).
  { destruct (oone K) as [w|]; [exact (has_del _ _ _ X)|]. exists (oheap K). split; [reflexivity|exact X]. }
  destruct Y as (s1 & -> & Y). cbn [bind].
  destruct (has_del_all _ _ _ Y) as (s2 & -> & Y2). cbn [bind].
  destruct (has_del_all _ _ _ Y2) as (s3 & -> & Y3). exists s3. split; [reflexivity|].
  apply (Permutation_count_occ Nat.eq_dec). intro x. apply Y3.
Qed.

Theorem own_tq2 dbg s0 K : good_heap s0 -> own_history dbg s0 K -> forall fuel,
  forget2_out (o_tq2 fuel dbg K) = jp_tq2 fuel dbg (forget K) /\
  forall K2, o_tq2 fuel dbg K = Ok K2 ->
    Permutation (live (o2heap K2)) (owned2 K2 ++ live s0) /\ NoDup (live (o2heap K2)) /\
    Permutation (o2tid K2) (attached (o2t K2)) /\
    exists s, o2_destroy K2 = Ok s /\ Permutation (live s) (live s0).
Proof.
  intros G H fuel. assert (X := history_inv dbg s0 K G H). assert (Y := tq2_sim fuel dbg _ K X). split.
  - destruct (o_tq2 fuel dbg K), (jp_tq2 fuel dbg (forget K)); cbn in *; try contradiction; try reflexivity. destruct Y as (-> & _). reflexivity.
  - intros K2 E. destruct (sim_ok _ _ _ _ _ _ Y E) as (J & _ & _ & Z & Z2). split; [|split; [|split]].
    + apply (Permutation_count_occ Nat.eq_dec). intro x. apply Z.
    + apply (NoDup_count_occ Nat.eq_dec). intro x. destruct (Z x) as (X1 & X2 & _). lia.
    + apply (Permutation_count_occ Nat.eq_dec). exact Z2.
    + unfold o2_destroy, owned2 in *. rewrite <- !app_assoc in Z.
      assert (V : exists s1, match o2one K2 with Some w => h_del (fst w) (o2heap K2) | None => Ok (o2heap K2) end = Ok s1 /\ has s1 (ids (o2t K2) ++ live s0)).
      { destruct (o2one K2) as [w|]; [exact (has_del _ _ _ Z)|]. exists (o2heap K2). split; [reflexivity|exact Z]. }
      destruct V as (s1 & -> & V). cbn [bind]. destruct (has_del_all _ _ _ V) as (s2 & -> & V2). exists s2. split; [reflexivity|].
      apply (Permutation_count_occ Nat.eq_dec). intro x. apply V2.
Qed.
