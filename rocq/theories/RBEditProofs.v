(** Insertion, removal, clearing and copying of represented red-black trees. *)
From Coq Require Import ZArith List Bool Arith Lia Permutation.
From Verif Require Import Outcome RandPermModel RBModel RBSpec RBHeapProofs RBFixProofs RBReadProofs.
Import ListNotations.
Local Open Scope nat_scope.

Section RB.
Context {T : Type}.
Variable compare : T -> T -> Z.
Hypothesis Hko : key_order compare.
Notation heap := (heap T).
Notation st := (st T).
Notation tr := (@tr T).
Notation frame := (@frame T).
Notation "a << b" := (compare a b < 0)%Z (at level 70).
Notation sorted := (sorted compare).

Ltac cn H := repeat first [rewrite cnt_plug in H | rewrite cnt_N in H | rewrite cnt_E in H | rewrite one_eq in H | progress cbn [cntz fs fa fc fsib fk] in H].
Ltac solve_fr := split; [cbn [hp]; rewrite ?length_put; reflexivity|
  let e := fresh "e" in let He := fresh "He" in intros e He; cn He; cbn [hp];
  repeat (rewrite get_put_ne by (intros ->; rewrite ?one_eq in He; lia)); reflexivity].
Ltac neq a b := let H := fresh in assert (H : a <> b) by
  (intros ->; match goal with Hnd : forall _, _ <= 1 |- _ => specialize (Hnd b); cn Hnd; lia end).
Ltac nocnt := let H := fresh in match goal with
  | Hnd : forall _, _ <= 1 |- cnt ?a _ = 0 => pose proof (Hnd a) as H; cn H; lia
  | Hnd : forall _, _ <= 1 |- cntz ?a _ = 0 => pose proof (Hnd a) as H; cn H; lia end.
Ltac simp := cbn [bind deref mKey mRed mParent mLeft mRight hp rt].
Ltac hs := simp; repeat (match goal with
  | |- context [get (put ?h ?a ?n) ?a] => rewrite (get_put_eq h a n) by (rewrite ?length_put; assumption)
  | |- context [get (put ?h ?a ?n) ?b] => rewrite (get_put_ne h a b n) by congruence
  | H : get ?h ?a = Ok _ |- context [get ?h ?a] => rewrite H
  end; simp).
Ltac framed := match goal with
  | |- repT (put _ _ _) _ _ => apply repT_put; [nocnt|framed]
  | |- repC (put _ _ _) _ _ => apply repC_put; [nocnt|framed]
  | |- _ => assumption
  end.

Lemma assert_true {A} dbg (k : outcome A) : assert_ dbg true k = k.
Proof. destruct dbg; reflexivity. Qed.
Lemma repT_frame h h' : forall (t : tr) p, (forall e, 1 <= cnt e t -> get h' e = get h e) -> repT h p t -> repT h' p t.
Proof.
  induction t as [|a c l IHl k r IHr]; intros p Hf Ht; [exact I|]. cbn [repT] in *. destruct Ht as (H1 & H2 & H3).
  split; [rewrite Hf; [exact H1|rewrite cnt_N, one_eq; lia]|].
  split; [apply IHl|apply IHr]; auto; intros e He; apply Hf; rewrite cnt_N; lia.
Qed.
Lemma rep_frame (s s' : st) t : (forall e, 1 <= cnt e t -> get (hp s') e = get (hp s) e) -> rt s' = rt s -> rep s t -> rep s' t.
Proof.
  intros Hf Hr (H1 & H2 & H3). split; [exact (repT_frame _ _ _ _ Hf H1)|]. split; [congruence|exact H3].
Qed.
Lemma get_app (h : heap) x a n : get h a = Ok n -> get (h ++ x) a = Ok n.
Proof.
  intro H. pose proof (get_lt _ _ _ H). unfold get, rd in *. rewrite nth_error_app1 by lia. exact H.
Qed.
Lemma get_new (h : heap) n x : get (h ++ Some n :: x) (length h) = Ok n.
Proof. unfold get, rd. rewrite nth_error_app2, Nat.sub_diag by lia. reflexivity. Qed.
Lemma rep_app (s : st) x t : rep s t -> rep (St (hp s ++ x) (rt s)) t.
Proof.
  intro H. apply (rep_frame s); [|reflexivity|exact H]. intros e He. cbn [hp].
  destruct H as (H & _). destruct (repT_live _ _ _ _ H He) as (n & Hn). rewrite Hn. apply get_app, Hn.
Qed.
Lemma plug_app (z1 z2 : list frame) t : plug (z1 ++ z2) t = plug z2 (plug z1 t).
Proof. revert t. induction z1 as [|f z1 IH]; intro t; [reflexivity|]. cbn [app plug]. apply IH. Qed.
Lemma el_app (z1 z2 : list frame) : el (z1 ++ z2) = el z2 ++ el z1.
Proof. induction z1 as [|f z1 IH]; cbn [app el]; [rewrite app_nil_r; reflexivity|]. rewrite IH, app_assoc. reflexivity. Qed.
Lemma er_app (z1 z2 : list frame) : er (z1 ++ z2) = er z1 ++ er z2.
Proof. induction z1 as [|f z1 IH]; cbn [app er]; [reflexivity|]. rewrite IH, app_assoc. reflexivity. Qed.

(** insertFixup *)
Lemma insertFixup_ok (s : st) z x k : rep s (plug z (N x true E k E)) -> rbz z false 0 ->
  exists s' t', insertFixup s x = Ok s' /\ same s s' (plug z (N x true E k E)) t' /\ exists h, rb t' false h.
Proof.
  intros H Hz. unfold insertFixup.
  destruct (ins_loop_ok (length z) z s x E k E 0 (enough (hp s))) as (s1 & t1 & E1 & (H1 & En1 & F1) & h & Hb);
    [lia|pose proof (rep_bound _ _ _ H); unfold enough; lia|exact H|constructor|constructor|exact Hz|].
  rewrite E1. cbn [bind]. destruct t1 as [|a c l ka r].
  { exfalso. rewrite ents_plug in En1. cbn [ents] in En1. destruct (el z); discriminate. }
  pose proof H1 as (_ & Hr1 & _). rewrite Hr1. cbn [ad deref bind].
  destruct (rep_color s1 [] a c l ka r false H1) as (s2 & E2 & H2 & F2). rewrite E2.
  exists s2, (N a false l ka r). split; [reflexivity|]. split; [|exists h; exact Hb].
  split; [exact H2|]. split; [exact En1|]. destruct F1 as [L1 F1], F2 as [L2 F2]. split; [congruence|].
  intros e He. rewrite F2, F1; auto. cbn [plug]. rewrite (cnt_ents _ _ e En1). exact He.
Qed.

(** linking a new leaf *)
Lemma insertNode_ok dbg (s : st) x k q t m :
  rep s t -> sorted (keys (ents t)) -> ~ In k (keys (ents t)) -> rb t false m ->
  get (hp s) x = Ok (Node k true q None None) -> cnt x t = 0 ->
  exists s' t' l1 l2, insertNode compare dbg s x = Ok s' /\ rep s' t' /\ (exists h, rb t' false h) /\
    ents t = l1 ++ l2 /\ ents t' = l1 ++ (x, k) :: l2 /\ Forall (fun y => y << k) (keys l1) /\ Forall (fun y => k << y) (keys l2) /\
    length (hp s') = length (hp s) /\ (forall e, cnt e t = 0 -> e <> x -> get (hp s') e = get (hp s) e).
Proof.
  intros H Hs Hk Hb Hx Hc. unfold insertNode. unfold key at 1. rewrite Hx. cbn [bind mKey].
  pose proof H as (_ & Hroot & _). rewrite Hroot.
  destruct (descend_ok compare Hko dbg s k (enough (hp s)) [] t) as (z & E1 & E2 & _ & E3 & l1 & l2 & E4 & E5 & E6 & E7);
    [pose proof (rep_size _ _ H); unfold enough; lia|exact H|exact Hs|exact Hk|].
  cbn [cpar] in E1. rewrite E1. cbn [bind].
  cbn [plug] in E2. subst t. cbn [el er] in E4, E5. rewrite app_nil_r in E5. cbn [app] in E4.
  assert (Hz : rbz z false 0).
  { destruct (rb_unplug _ _ _ Hb) as (c & n & Hn & Hz). inversion Hn; subst. exact Hz. }
  assert (G : exists s1, (do h1 <- set_parent (hp s) x (cpar z);
     match cpar z with
     | None => Ok (St h1 (Some x))
     | Some b => do k' <- key h1 b;
       assert_ dbg (negb (compare k k' =? 0)%Z)
         (if (compare k k' <? 0)%Z then do h2 <- set_left h1 b (Some x); Ok (St h2 (rt s))
          else do h2 <- set_right h1 b (Some x); Ok (St h2 (rt s)))
     end) = Ok s1 /\ rep s1 (plug z (N x true E k E)) /\ length (hp s1) = length (hp s) /\
     (forall e, cnt e (plug z E) = 0 -> e <> x -> get (hp s1) e = get (hp s) e)).
  { clear E1 Hb Hz. unfold set_parent, set_left, set_right, key. rewrite Hx. cbn [bind].
    pose proof (get_lt _ _ _ Hx) as Lx. destruct H as (Ht & _ & Hnd). unfold nodup in Hnd. apply rep_plug in Ht. destruct Ht as (HC & _).
    assert (Hnd' : nodup (plug z (N x true E k E))).
    { intro b. specialize (Hnd b). cn Hnd. cn Hc. rewrite cnt_plug, cnt_N, cnt_E. unfold one. destruct (Nat.eq_dec x b) as [->|]; lia. }
    destruct z as [|[sd a c sib kb] z].
    - cbn [cpar]. eexists. split; [reflexivity|]. split; [|split; [cbn [hp]; apply length_put|]].
      + split; [|split; [reflexivity|exact Hnd']]. cbn [plug repT hp ad]. hs. auto.
      + intros e _ He. cbn [hp]. rewrite get_put_ne by congruence. reflexivity.
    - cbn [cpar fa]. cbn [repC] in HC. cbn [fs fa fc fsib fk ad] in *. destruct HC as (Ha & Hsib & HC).
      pose proof (get_lt _ _ _ Ha) as La. cn Hc.
      assert (x <> a) by (intros ->; rewrite one_eq in Hc; lia). assert (a <> x) by congruence.
      hs. assert (Hcmp : if sd then k << kb else kb << k) by (apply E3; discriminate).
      assert (Hn0 : compare k kb <> 0%Z). { intro Q. destruct sd; [lia|]. apply (lt_gt _ Hko) in Hcmp. lia. }
      rewrite (proj2 (Z.eqb_neq _ _) Hn0). cbn [negb]. rewrite assert_true.
      unfold nodup in Hnd'.
      destruct sd.
      + rewrite (proj2 (Z.ltb_lt _ _) Hcmp). hs. eexists. split; [reflexivity|]. split; [|split; [cbn [hp]; rewrite !length_put; reflexivity|]].
        * split; [|split; [cbn [rt]; rewrite Hroot; apply ad_plug; congruence|exact Hnd']].
          apply rep_plug. cbn [repC repT fs fa fc fsib fk ad cpar hp]. hs. repeat split; framed.
        * intros e He Hex. cn He. cbn [hp]. rewrite !get_put_ne; [reflexivity|congruence|]. intros ->. rewrite one_eq in He. lia.
      + assert (Hge : (compare k kb <? 0)%Z = false) by (apply Z.ltb_ge; apply (lt_gt _ Hko) in Hcmp; lia). rewrite Hge.
        hs. eexists. split; [reflexivity|]. split; [|split; [cbn [hp]; rewrite !length_put; reflexivity|]].
        * split; [|split; [cbn [rt]; rewrite Hroot; apply ad_plug; congruence|exact Hnd']].
          apply rep_plug. cbn [repC repT fs fa fc fsib fk ad cpar hp]. hs. repeat split; framed.
        * intros e He Hex. cn He. cbn [hp]. rewrite !get_put_ne; [reflexivity|congruence|]. intros ->. rewrite one_eq in He. lia. }
  destruct G as (s1 & E8 & H1 & L1 & F1).
  assert (E9 : (do h1 <- set_parent (hp s) x (cpar z);
    do s1 <- match cpar z with
     | None => Ok (St h1 (Some x))
     | Some b => do k' <- key h1 b;
       assert_ dbg (negb (compare k k' =? 0)%Z)
         (if (compare k k' <? 0)%Z then do h2 <- set_left h1 b (Some x); Ok (St h2 (rt s))
          else do h2 <- set_right h1 b (Some x); Ok (St h2 (rt s)))
     end; insertFixup s1 x) = insertFixup s1 x).
  { destruct (set_parent (hp s) x (cpar z)) as [h1| | | |]; try discriminate. cbn [bind] in *. rewrite E8. reflexivity. }
  rewrite Hroot in E9. rewrite E9. destruct (insertFixup_ok _ _ _ _ H1 Hz) as (s2 & t2 & E10 & (H2 & En2 & F2) & h & Hh).
  exists s2, t2, (el z), (er z). split; [exact E10|]. split; [exact H2|]. split; [exists h; exact Hh|].
  split; [rewrite ents_plug; reflexivity|]. split; [rewrite En2, ents_plug; reflexivity|].
  rewrite E4, E5. split; [exact E6|]. split; [exact E7|]. destruct F2 as [L2 F2]. split; [congruence|].
  intros e He Hex. rewrite F2, F1; auto. cn He. rewrite cnt_plug, cnt_N, cnt_E. unfold one. destruct (Nat.eq_dec x e); [congruence|]. lia.
Qed.

(** unlinking a node with at most one child *)
Lemma splice_ok (s : st) z y c l k r : rep s (plug z (N y c l k r)) -> l = E \/ r = E ->
  let x := match ad l with Some _ => l | None => r end in
  exists s3 pp, (do h2 <- match ad x with Some a => set_parent (hp s) a (cpar z) | None => Ok (hp s) end;
              relink_left (St h2 (rt s)) y (ad x)) = Ok s3 /\
    rep s3 (plug z x) /\ fr s s3 (plug z (N y c l k r)) /\ get (hp s3) y = Ok (Node k c pp (ad l) (ad r)).
Proof.
  intros H Hlr x. pose proof H as (Ht & Hroot & Hnd). unfold nodup in Hnd. apply rep_plug in Ht. destruct Ht as (HC & Hy & Hl & Hr).
  cbn [ad] in HC. pose proof (get_lt _ _ _ Hy) as Ly.
  assert (Hx : repT (hp s) (Some y) x) by (unfold x; destruct l; assumption).
  assert (Hcx : forall b, cnt b x <= cnt b l + cnt b r) by (intro b; unfold x; destruct l; [cbn [ad]|cbn [ad]]; lia).
  assert (Hnd' : nodup (plug z x)).
  { intro b. specialize (Hnd b). specialize (Hcx b). rewrite cnt_plug, ?cnt_N in *. lia. }
  assert (Hxs : forall b, cnt b (plug z x) + one y b <= 1).
  { intro b. specialize (Hnd b). specialize (Hcx b). rewrite cnt_plug, ?cnt_N in *. lia. }
  assert (Hsub : forall b, cnt b (plug z (N y c l k r)) = 0 -> cnt b (plug z x) = 0 /\ b <> y).
  { intros b Hb. specialize (Hcx b). rewrite !cnt_plug, ?cnt_N in *. split; [lia|]. intros ->. rewrite one_eq in Hb. lia. }
  clearbody x. clear Hcx Hlr.
  unfold relink_left, set_parent, set_left, set_right, parent, left.
  destruct x as [|a ca al ka ar].
  - cbn [ad bind hp]. hs. destruct z as [|[sd b cb sib kb] z].
    + cbn [cpar]. eexists _, _. split; [reflexivity|]. split; [|split; [split; reflexivity|exact Hy]].
      split; [exact I|]. split; [reflexivity|exact Hnd'].
    + cbn [cpar fa]. cbn [repC] in HC. cbn [fs fa fc fsib fk ad] in *. destruct HC as (Ha & Hsib & HC).
      pose proof (get_lt _ _ _ Ha) as La. neq b y. neq y b. hs. destruct sd.
      * rewrite ptr_eqb_refl. hs. eexists _, _. split; [reflexivity|]. split; [|split].
        -- split; [|split; [cbn [rt]; rewrite Hroot; apply ad_plug; congruence|exact Hnd']].
           apply rep_plug. cbn [repC repT fs fa fc fsib fk ad cpar hp]. hs. repeat split; framed.
        -- solve_fr.
        -- hs. reflexivity.
      * assert (Hp : ptr_eqb (Some y) (ad sib) = false).
        { destruct sib as [|e]; [reflexivity|]. apply ptr_eqb_ne. cbn [repT] in Hsib. neq y e. assumption. }
        rewrite Hp. hs. eexists _, _. split; [reflexivity|]. split; [|split].
        -- split; [|split; [cbn [rt]; rewrite Hroot; apply ad_plug; congruence|exact Hnd']].
           apply rep_plug. cbn [repC repT fs fa fc fsib fk ad cpar hp]. hs. repeat split; framed.
        -- solve_fr.
        -- hs. reflexivity.
  - cbn [repT] in Hx. destruct Hx as (Ga & Hal & Har). pose proof (get_lt _ _ _ Ga) as La.
    assert (a <> y). { intros ->. specialize (Hxs y). cn Hxs. lia. } assert (y <> a) by congruence.
    cbn [ad bind hp]. hs.
    assert (Hfa : forall e, cnt e (plug z (N y c l k r)) = 0 -> e <> a).
    { intros e He ->. apply Hsub in He. destruct He as (He & _). cn He. lia. }
    destruct z as [|[sd b cb sib kb] z].
    + cbn [cpar]. eexists _, _. split; [reflexivity|]. split; [|split].
      * split; [|split; [reflexivity|exact Hnd']]. cbn [plug repT hp ad]. 
        assert (Hq := Hnd' a). cbn [plug] in Hq. cn Hq. hs. split; [reflexivity|]. split; apply repT_put; solve [lia|assumption].
      * split; [cbn [hp]; apply length_put|]. intros e He. cbn [hp]. apply get_put_ne. intro; subst; eapply Hfa; [exact He|reflexivity].
      * hs. reflexivity.
    + cbn [cpar fa]. cbn [repC] in HC. cbn [fs fa fc fsib fk ad] in *. destruct HC as (Gb & Hsib & HC).
      pose proof (get_lt _ _ _ Gb) as Lb. neq b y. neq y b.
      assert (a <> b). { intros ->. specialize (Hxs b). cn Hxs. lia. } assert (b <> a) by congruence.
      unfold nodup in Hnd'. clear Hnd.
      hs. destruct sd.
      * rewrite ptr_eqb_refl. hs. eexists _, _. split; [reflexivity|]. split; [|split].
        -- split; [|split; [cbn [rt]; rewrite Hroot; apply ad_plug; congruence|exact Hnd']].
           apply rep_plug. cbn [repC repT fs fa fc fsib fk ad cpar hp]. hs. repeat split; framed.
        -- split; [cbn [hp]; rewrite !length_put; reflexivity|]. intros e He. pose proof (Hfa e He). cn He. cbn [hp].
           rewrite !get_put_ne; [reflexivity|congruence|intros ->; rewrite one_eq in He; lia].
        -- hs. reflexivity.
      * assert (Hp : ptr_eqb (Some y) (ad sib) = false).
        { destruct sib as [|e]; [reflexivity|]. apply ptr_eqb_ne. cbn [repT] in Hsib. intros ->. specialize (Hxs e). cn Hxs. lia. }
        rewrite Hp. hs. eexists _, _. split; [reflexivity|]. split; [|split].
        -- split; [|split; [cbn [rt]; rewrite Hroot; apply ad_plug; congruence|exact Hnd']].
           apply rep_plug. cbn [repC repT fs fa fc fsib fk ad cpar hp]. hs. repeat split; framed.
        -- split; [cbn [hp]; rewrite !length_put; reflexivity|]. intros e He. pose proof (Hfa e He). cn He. cbn [hp].
           rewrite !get_put_ne; [reflexivity|congruence|intros ->; rewrite one_eq in He; lia].
        -- hs. reflexivity.
Qed.

Lemma rep_key (s : st) z a c l k r k' :
  rep s (plug z (N a c l k r)) ->
  exists h', set_key (hp s) a k' = Ok h' /\ rep (St h' (rt s)) (plug z (N a c l k' r)) /\ fr s (St h' (rt s)) (plug z (N a c l k r)).
Proof.
  intros Hr. pose proof (rep_get _ _ _ _ _ _ _ Hr) as Hg. destruct Hr as (Ht & Hroot & Hnd).
  unfold set_key. rewrite Hg. cbn [bind mRed mKey mParent mLeft mRight].
  eexists; split; [reflexivity|]. cbn [hp rt]. split; [|solve_fr].
  pose proof (Hnd a) as Ha. rewrite cnt_plug, cnt_N, one_eq in Ha.
  apply rep_plug in Ht. destruct Ht as (Hz & _ & Hl & Hr). cbn [ad] in Hz.
  split; [|split].
  - apply rep_plug. split; [apply repC_put; [lia|exact Hz]|]. cbn [repT hp].
    split; [apply get_put_eq; eapply get_lt; exact Hg|].
    split; apply repT_put; solve [lia|assumption].
  - cbn [rt]. rewrite Hroot. apply top_ad. reflexivity.
  - intro b. specialize (Hnd b). rewrite cnt_plug, cnt_N in *. exact Hnd.
Qed.

Lemma deleteFixup_ok dbg (s : st) z t n : rep s (plug z t) -> rbz z false (S n) ->
  (isred t = true /\ rb (blacken t) false (S n)) \/ rb t false n ->
  exists s' t', deleteFixup dbg s (ad t) (cpar z) = Ok s' /\ same s s' (plug z t) t' /\ exists h, rb t' false h.
Proof.
  intros H Hz Ht. unfold deleteFixup.
  assert (G : (if dbg then match ad t with None => Ok true | Some a => do p <- parent (hp s) a; Ok (ptr_eqb p (cpar z)) end else Ok true) = Ok true).
  { destruct dbg; [|reflexivity]. destruct t as [|a c l k r]; [reflexivity|]. cbn [ad]. unfold parent. rewrite (rep_get _ _ _ _ _ _ _ H).
    cbn [bind mParent]. f_equal. destruct (cpar z); [apply ptr_eqb_refl|reflexivity]. }
  rewrite G. cbn [bind]. rewrite assert_true.
  destruct (del_loop_ok (enough (hp s)) z s t n) as (s1 & z1 & t1 & E1 & (H1 & En1 & L1 & F1) & h & Hb);
    [pose proof (rep_bound _ _ _ H); unfold enough; lia|exact H|exact Hz|exact Ht|].
  rewrite E1. cbn [bind]. destruct t1 as [|a c l k r]; cbn [ad blacken] in *.
  - exists s1, (plug z1 E). split; [reflexivity|]. split; [|exists h; exact Hb]. split; [exact H1|]. split; [exact En1|split; assumption].
  - destruct (rep_color s1 z1 a c l k r false H1) as (s2 & E2 & H2 & L2 & F2). rewrite E2.
    exists s2, (plug z1 (N a false l k r)). split; [reflexivity|]. split; [|exists h; exact Hb]. split; [exact H2|].
    split; [rewrite <- En1; apply ents_plug_eq; reflexivity|]. split; [congruence|]. intros e He. rewrite F2, F1; auto.
    rewrite (cnt_ents _ _ e En1). exact He.
Qed.

(** from the choice of x on *)
Lemma splice_fix_ok dbg (s : st) z y c l k r m : rep s (plug z (N y c l k r)) -> l = E \/ r = E -> rb (plug z (N y c l k r)) false m ->
  exists s' t' n, (let x := match ad l with Some _ => ad l | None => ad r end in
     do xp <- parent (hp s) y;
     do h2 <- match x with Some a => set_parent (hp s) a xp | None => Ok (hp s) end;
     do s3 <- relink_left (St h2 (rt s)) y x;
     do c <- red (hp s3) y;
     do s4 <- (if negb c then deleteFixup dbg s3 x xp else Ok s3);
     Ok (s4, y)) = Ok (s', y) /\
    rep s' t' /\ (exists h, rb t' false h) /\ ents t' = el z ++ ents l ++ ents r ++ er z /\ fr s s' (plug z (N y c l k r)) /\ get (hp s') y = Ok n.
Proof.
  intros H Hlr Hb. cbv zeta. unfold parent. rewrite (rep_get _ _ _ _ _ _ _ H). cbn [bind mParent].
  destruct (splice_ok s z y c l k r H Hlr) as (s3 & pp & E3 & H3 & F3 & G3). cbv zeta in *.
  set (x := match ad l with Some _ => l | None => r end) in *.
  replace (match ad l with Some _ => ad l | None => ad r end) with (ad x) by (unfold x; destruct l; reflexivity).
  destruct (match ad x with Some a => set_parent (hp s) a (cpar z) | None => Ok (hp s) end) as [h2| | | |] eqn:Q; try discriminate.
  cbn [bind] in *. rewrite E3. cbn [bind]. unfold red. rewrite G3. cbn [bind mRed].
  assert (Hx : ents x = ents l ++ ents r).
  { unfold x. destruct Hlr as [-> | ->]; cbn [ad ents app]; [reflexivity|]. rewrite app_nil_r. destruct l; reflexivity. }
  assert (Hyx : cnt y (plug z x) = 0).
  { destruct H as (_ & _ & Hnd). specialize (Hnd y). rewrite cnt_plug, cnt_N, one_eq in Hnd. rewrite cnt_plug.
    enough (cnt y x <= cnt y l + cnt y r) by lia. unfold x. destruct l; cbn [ad]; lia. }
  assert (Hen : ents (plug z x) = el z ++ ents l ++ ents r ++ er z) by (rewrite ents_plug, Hx, <- !app_assoc; reflexivity).
  destruct (rb_unplug _ _ _ Hb) as (c0 & n & Hn & Hz).
  assert (D : c = true /\ rb x false 0 /\ rbz z false 0 \/ c = false /\ exists n, rbz z false (S n) /\ ((isred x = true /\ rb (blacken x) false (S n)) \/ rb x false n)).
  { inversion Hn as [|? ? ? ? ? Hl Hr|? ? ? ? ? cl cr Hl Hr]; subst.
    - left. split; [reflexivity|].
      assert (n = 0) by (destruct Hlr as [-> | ->]; [inversion Hl|inversion Hr]; reflexivity). subst n.
      split; [unfold x; destruct l; assumption|apply rbz_weaken, Hz].
    - right. split; [reflexivity|].
      assert (n0 = 0) by (destruct Hlr as [-> | ->]; [inversion Hl|inversion Hr]; reflexivity). subst n0. exists 0. split; [exact Hz|].
      assert (exists cx, rb x cx 0) as (cx & Hcx) by (unfold x; destruct l; eexists; eassumption).
      destruct cx; [left|right; exact Hcx]. split; [exact (rb_isred _ _ _ Hcx)|].
      inversion Hcx; subst; cbn [blacken]. econstructor; eassumption. }
  destruct D as [(Hc & Hx0 & Hz0) | (Hc & n0 & Hz0 & Hx0)]; subst c; cbn [negb].
  - exists s3, (plug z x), (Node k true pp (ad l) (ad r)). split; [reflexivity|]. split; [exact H3|].
    split; [exact (rb_plug _ _ _ _ Hz0 Hx0)|]. split; [exact Hen|]. split; [exact F3|exact G3].
  - destruct (deleteFixup_ok dbg s3 z x n0 H3 Hz0 Hx0) as (s4 & t4 & E4 & (H4 & En4 & L4 & F4) & Hh). rewrite E4. cbn [bind].
    exists s4, t4, (Node k false pp (ad l) (ad r)). split; [reflexivity|]. split; [exact H4|]. split; [exact Hh|].
    split; [rewrite En4; exact Hen|]. destruct F3 as [L3 F3]. split; [|rewrite F4 by exact Hyx; exact G3].
    split; [congruence|]. intros e He. rewrite F4, F3; auto. rewrite cnt_plug in *. rewrite cnt_N in He.
    enough (cnt e x <= cnt e l + cnt e r) by lia. unfold x. destruct l; cbn [ad]; lia.
Qed.

Lemma deleteNode_ok dbg (s : st) z a c l k r m : rep s (plug z (N a c l k r)) -> rb (plug z (N a c l k r)) false m ->
  exists s' t' y n, deleteNode dbg s a = Ok (s', y) /\ rep s' t' /\ (exists h, rb t' false h) /\ fr s s' (plug z (N a c l k r)) /\
    get (hp s') y = Ok n /\
    ((y = a /\ ents t' = el z ++ ents l ++ ents r ++ er z) \/
     (exists k' rest, ents r ++ er z = (y, k') :: rest /\ ents t' = el z ++ ents l ++ (a, k') :: rest)).
Proof.
  intros H Hb. unfold deleteNode. unfold left at 1. rewrite (rep_get _ _ _ _ _ _ _ H). cbn [bind mLeft].
  unfold right at 1. rewrite (rep_get _ _ _ _ _ _ _ H). cbn [bind mRight].
  destruct (is_null (ad l) || is_null (ad r)) eqn:Q.
  - cbn [bind]. unfold left. rewrite (rep_get _ _ _ _ _ _ _ H). cbn [bind mLeft].
    unfold right. rewrite (rep_get _ _ _ _ _ _ _ H). cbn [bind mRight]. rewrite Q, assert_true.
    assert (Hlr : l = E \/ r = E). { apply orb_true_iff in Q. destruct Q as [Q|Q]; [left; destruct l|right; destruct r]; cbn in Q; congruence. }
    destruct (splice_fix_ok dbg s z a c l k r m H Hlr Hb) as (s' & t' & n & E1 & E2 & E3 & E4 & E5 & E6).
    exists s', t', a, n. split; [exact E1|]. split; [exact E2|]. split; [exact E3|]. split; [exact E5|]. split; [exact E6|]. left. auto.
  - apply orb_false_iff in Q. destruct Q as (Q1 & Q2). destruct r as [|b cb lb kb rb']; [discriminate|]. cbn [ad deref bind].
    destruct (minimum_ok s b cb lb kb rb' (F false a c l k :: z) H) as (y & cy & ky & ry & z1 & E1 & E2 & E3 & _).
    rewrite E1. cbn [bind].
    assert (Hy : rep s (plug (z1 ++ F false a c l k :: z) (N y cy E ky ry))) by (rewrite plug_app, <- E2; exact H).
    unfold key. rewrite (rep_get _ _ _ _ _ _ _ Hy). cbn [bind mKey].
    destruct (rep_key s z a c l k _ ky H) as (h1 & E4 & H4 & L4 & F4). rewrite E4. cbn [bind].
    set (z2 := z1 ++ F false a c l ky :: z).
    assert (Hp2 : plug z2 (N y cy E ky ry) = plug z (N a c l ky (N b cb lb kb rb'))) by (unfold z2; rewrite plug_app, <- E2; reflexivity).
    rewrite <- Hp2 in H4. pose proof (rep_get _ _ _ _ _ _ _ H4) as G4. cbn [hp] in G4.
    unfold left. rewrite G4. cbn [bind mLeft ad]. unfold right. rewrite G4. cbn [bind mRight is_null orb]. rewrite assert_true.
    assert (Hb4 : exists m', rb (plug z2 (N y cy E ky ry)) false m').
    { rewrite Hp2. destruct (rb_unplug _ _ _ Hb) as (c0 & n0 & Hn0 & Hz0).
      apply (rb_plug z _ c0 n0); [exact Hz0|]. inversion Hn0; subst; econstructor; eassumption. }
    destruct Hb4 as (m' & Hb4).
    destruct (splice_fix_ok dbg (St h1 (rt s)) z2 y cy E ky ry m' H4 (or_introl eq_refl) Hb4) as (s' & t' & n & X1 & X2 & X3 & X4 & X5 & X6).
    cbn [hp rt ad] in X1. exists s', t', y, n. split; [exact X1|]. split; [exact X2|]. split; [exact X3|]. split.
    { destruct X5 as [L5 F5]. cbn [hp] in *. split; [congruence|]. intros e He. rewrite F5, F4; auto. rewrite Hp2. rewrite cnt_plug, cnt_N in *. exact He. }
    split; [exact X6|]. right. exists ky, (ents ry ++ er z1 ++ er z). split.
    + rewrite E2, ents_plug, E3. cbn [ents app]. rewrite <- app_assoc. reflexivity.
    + rewrite X4. unfold z2. rewrite el_app, er_app, E3. cbn [el er fs fa fk fsib ents app]. rewrite app_nil_r, <- !app_assoc. reflexivity.
Qed.

(** clearing *)
Lemma length_upd_ {A} (l : list A) a x : length (upd l a x) = length l.
Proof. revert a; induction l as [|y l IH]; intros [|a]; cbn; auto. Qed.
Lemma get_free_ne (h : heap) a b : a <> b -> get (upd h a None) b = get h b.
Proof. intro H. unfold get, rd. rewrite nth_upd_ne by exact H. reflexivity. Qed.
Lemma get_free_bad (h : heap) a b n : get (upd h a None) b = Ok n -> a <> b /\ get h b = Ok n.
Proof.
  intro H. destruct (Nat.eq_dec a b) as [->|Hn].
  - exfalso. pose proof (get_lt _ _ _ H) as L. rewrite length_upd_ in L. unfold get, rd in H. rewrite nth_upd_eq in H by exact L. discriminate.
  - split; [exact Hn|]. rewrite get_free_ne in H by exact Hn. exact H.
Qed.
Lemma clear_loop_ok : forall f (t : tr) h p x, size t < f -> repT h p t -> nodup t -> ad t = Some x ->
  exists h', clear_loop f h x = Ok h' /\ length h' = length h /\ (forall e, cnt e t = 0 -> get h' e = get h e) /\
             forall e n, get h' e = Ok n -> cnt e t = 0.
Proof.
  induction f as [|f IH]; intros t h p x Hf Ht Hnd Hx; [lia|]. destruct t as [|a c l k r]; [discriminate|]. injection Hx as ->.
  cbn [repT size] in *. destruct Ht as (Hg & Hl & Hr). cbn [clear_loop]. unfold right. rewrite Hg. cbn [bind mRight].
  assert (Hndl : nodup l) by (intro b; specialize (Hnd b); rewrite cnt_N in Hnd; lia).
  assert (Hndr : nodup r) by (intro b; specialize (Hnd b); rewrite cnt_N in Hnd; lia).
  pose proof (Hnd x) as Hnx. rewrite cnt_N, one_eq in Hnx.
  assert (G1 : exists h1, match ad r with Some b => clear_loop f h b | None => Ok h end = Ok h1 /\ length h1 = length h /\
                          (forall e, cnt e r = 0 -> get h1 e = get h e) /\ forall e n, get h1 e = Ok n -> cnt e r = 0).
  { destruct r as [|b cb lb kb rb']; [exists h; repeat split; auto|]. cbn [ad]. eapply IH; [|exact Hr|exact Hndr|reflexivity]. lia. }
  destruct G1 as (h1 & E1 & L1 & F1 & D1). rewrite E1. cbn [bind].
  assert (Hg1 : get h1 x = Ok (Node k c p (ad l) (ad r))) by (rewrite F1; [exact Hg|lia]).
  unfold left, free. rewrite Hg1. cbn [bind mLeft].
  assert (Hl2 : repT (upd h1 x None) (Some x) l).
  { apply (repT_frame h); [|exact Hl]. intros e He. assert (cnt e r = 0). { specialize (Hnd e). rewrite cnt_N in Hnd. lia. }
    rewrite get_free_ne; [apply F1; lia|]. intros <-. lia. }
  destruct l as [|b cb lb kb rb']; cbn [ad].
  - eexists. split; [reflexivity|]. split; [rewrite length_upd_; exact L1|]. split.
    + intros e He. rewrite cnt_N in He. rewrite get_free_ne; [apply F1; lia|]. intros <-. rewrite one_eq in He. lia.
    + intros e n Hn. apply get_free_bad in Hn. destruct Hn as (Hne & Hn). apply D1 in Hn. rewrite cnt_N, cnt_E. unfold one.
      destruct (Nat.eq_dec x e); [congruence|lia].
  - destruct (IH (N b cb lb kb rb') (upd h1 x None) (Some x) b) as (h' & E2 & L2 & F2 & D2); [lia|exact Hl2|exact Hndl|reflexivity|].
    exists h'. split; [exact E2|]. split; [rewrite L2, length_upd_; exact L1|]. split.
    + intros e He. rewrite cnt_N in He.
      rewrite F2 by lia. rewrite get_free_ne; [apply F1; lia|]. intros <-. rewrite one_eq in He. lia.
    + intros e n Hn. pose proof (D2 _ _ Hn) as Q. rewrite F2 in Hn by exact Q. apply get_free_bad in Hn. destruct Hn as (Hne & Hn).
      apply D1 in Hn. rewrite cnt_N. unfold one. destruct (Nat.eq_dec x e); [congruence|lia].
Qed.

(** copying: u is the copy of t in fresh cells *)
Fixpoint alike (t u : tr) : Prop :=
  match t, u with
  | E, E => True
  | N _ c l k r, N _ c' l' k' r' => c = c' /\ k = k' /\ alike l l' /\ alike r r'
  | _, _ => False
  end.
Lemma alike_keys : forall t u, alike t u -> keys (ents u) = keys (ents t) /\ size u = size t.
Proof.
  induction t as [|a c l IHl k r IHr]; intros [|a' c' l' k' r']; cbn [alike]; try tauto. intros (-> & -> & Hl & Hr).
  destruct (IHl _ Hl) as (Kl & Sl), (IHr _ Hr) as (Kr & Sr). cbn [ents size]. split; [|lia].
  rewrite !keys_app. cbn [keys map snd]. unfold keys in *. rewrite Kl, Kr. reflexivity.
Qed.
Lemma alike_rb : forall t c n, rb t c n -> forall u, alike t u -> rb u c n.
Proof.
  induction 1; intros [|a' c' l' k' r']; cbn [alike]; try tauto; intros; [constructor| |].
  - destruct H1 as (<- & <- & Hl & Hr). constructor; auto.
  - destruct H1 as (<- & <- & Hl & Hr). econstructor; eauto.
Qed.
(** [grown b h h']: h' extends h, and only cells from b on differ *)
Definition grown (b : nat) (h h' : heap) : Prop := length h <= length h' /\ forall e, e < b -> get h' e = get h e.
Lemma copy_loop_ok : forall f t h p x i ki ci pi b, size t < f -> repT h p t -> (forall e, 1 <= cnt e t -> e < b) -> ad t = Some x ->
  b <= i -> i < length h ->
  get h i = Ok (Node ki ci pi None None) ->
  exists h' u l r, copy_loop f h x i = Ok h' /\ u = N i ci l ki r /\
    repT h' pi u /\ nodup u /\
    (match t with N _ _ tl _ tr => alike tl l /\ alike tr r | E => False end) /\
    length h <= length h' /\ (forall e, e < length h -> e <> i -> get h' e = get h e) /\
    (forall e, 1 <= cnt e l + cnt e r -> length h <= e) /\
    (forall e n, length h <= e -> get h' e = Ok n -> 1 <= cnt e l + cnt e r).
Proof.
  induction f as [|f IH]; intros t h p x i ki ci pi b Hf Ht Hlt Hx Hbi Hi Hgi; [lia|]. destruct t as [|a c l k r]; [discriminate|]. injection Hx as ->.
  cbn [repT size] in *. destruct Ht as (Hg & Hl & Hr). cbn [copy_loop]. unfold right. rewrite Hg. cbn [bind mRight].
  assert (Hx : x < b) by (apply Hlt; rewrite cnt_N, one_eq; lia).
  assert (Hll : forall e, 1 <= cnt e l -> e < b) by (intros e He; apply Hlt; rewrite cnt_N; lia).
  assert (Hlr : forall e, 1 <= cnt e r -> e < b) by (intros e He; apply Hlt; rewrite cnt_N; lia).
  assert (G1 : exists h1 ur, match ad r with
     | Some b => do (h1, j) <- clone h b (Some i); do h2 <- copy_loop f h1 b j; set_right h2 i (Some j)
     | None => Ok h end = Ok h1 /\ alike r ur /\ repT h1 (Some i) ur /\ nodup ur /\ get h1 i = Ok (Node ki ci pi None (ad ur)) /\
     length h <= length h1 /\ (forall e, e < length h -> e <> i -> get h1 e = get h e) /\ (forall e, 1 <= cnt e ur -> length h <= e < length h1) /\
     (forall e n, length h <= e -> get h1 e = Ok n -> 1 <= cnt e ur)).
  { destruct r as [|y cy ly ky ry]; cbn [ad].
    - exists h, E. split; [reflexivity|]. split; [exact I|]. split; [exact I|]. split; [intro; cbn; lia|]. split; [exact Hgi|].
      split; [lia|]. split; [reflexivity|]. split; [intros e He; cbn in He; lia|]. intros e n He Hn. apply get_lt in Hn. lia.
    - unfold clone, new_node. destruct Hr as (Hgy & Hly & Hry). rewrite Hgy. cbn [bind mKey mRed].
      set (h0 := h ++ [Some (Node ky cy (Some i) None None)]).
      assert (Hl0 : length h0 = S (length h)) by (unfold h0; rewrite app_length; cbn; lia).
      destruct (IH (N y cy ly ky ry) h0 (Some x) y (length h) ky cy (Some i) b) as (h2 & u & ul & ur & E1 & -> & R1 & N1 & A1 & L1 & F1 & D1 & K1).
      + cbn [size] in *. lia.
      + apply (repT_frame h).
        * intros e He. unfold h0. assert (exists n, get h e = Ok n) as (n & Hn).
          { apply (repT_live h (N y cy ly ky ry) (Some x)); [cbn [repT]; auto|exact He]. }
          rewrite Hn. apply get_app, Hn.
        * cbn [repT]. auto.
      + exact Hlr.
      + reflexivity.
      + lia.
      + lia.
      + apply get_new.
      + rewrite E1. cbn [bind]. unfold set_right.
        assert (Gi : get h2 i = Ok (Node ki ci pi None None)).
        { rewrite F1 by lia. unfold h0. apply get_app, Hgi. }
        rewrite Gi. cbn [bind mKey mRed mParent mLeft]. eexists _, (N (length h) cy ul ky ur). split; [reflexivity|].
        assert (Di : forall e, 1 <= cnt e (N (length h) cy ul ky ur) -> length h <= e).
        { intros e He. rewrite cnt_N in He. unfold one in He. destruct (Nat.eq_dec (length h) e); [lia|]. specialize (D1 e ltac:(lia)). lia. }
        split; [cbn [alike]; tauto|]. split; [|split; [exact N1|split; [|split; [|split; [|split]]]]].
        * apply repT_put; [|exact R1]. assert (~ 1 <= cnt i (N (length h) cy ul ky ur)); [|lia]. intro Q. apply Di in Q. lia.
        * apply get_put_eq. lia.
        * rewrite length_put. lia.
        * intros e He Hei. rewrite get_put_ne by congruence. rewrite F1 by lia. unfold h0, get, rd. rewrite nth_error_app1 by lia. reflexivity.
        * intros e He. split; [apply Di, He|]. rewrite length_put.
          destruct (repT_live _ _ _ _ R1 He) as (n & Hn). exact (get_lt _ _ _ Hn).
        * intros e n He Hn. rewrite get_put_ne in Hn by lia. rewrite cnt_N. unfold one. destruct (Nat.eq_dec (length h) e) as [|Hne]; [lia|].
          specialize (K1 e n ltac:(lia) Hn). lia. }
  destruct G1 as (h1 & ur & E1 & A1 & R1 & N1 & Gi1 & L1 & F1 & D1 & K1). rewrite E1. cbn [bind].
  unfold left. rewrite F1, Hg by lia. cbn [bind mLeft].
  destruct l as [|y cy ly ky ry]; cbn [ad].
  - exists h1, (N i ci E ki ur), E, ur. split; [reflexivity|]. split; [reflexivity|].
    split; [cbn [repT ad]; auto|]. split.
    + intro e. rewrite cnt_N, cnt_E. specialize (N1 e). unfold one. destruct (Nat.eq_dec i e) as [<-|]; [|lia].
      assert (~ 1 <= cnt i ur); [|lia]. intro Q. apply D1 in Q. lia.
    + split; [split; [exact I|exact A1]|]. split; [exact L1|]. split; [exact F1|]. split; [intros e He; rewrite cnt_E in He; apply D1; lia|].
      intros e n He Hn. rewrite cnt_E. exact (K1 _ _ He Hn).
  - unfold clone, new_node. destruct Hl as (Hgy & Hly & Hry).
    assert (Hyb : y < b) by (apply Hll; rewrite cnt_N, one_eq; lia).
    rewrite F1, Hgy by lia. cbn [bind mKey mRed]. unfold set_left.
    rewrite (get_app _ _ _ _ Gi1). cbn [bind mKey mRed mParent mRight].
    set (h0 := h1 ++ [Some (Node ky cy (Some i) None None)]).
    set (h2 := put h0 i (Node ki ci pi (Some (length h1)) (ad ur))).
    assert (Hl0 : length h0 = S (length h1)) by (unfold h0; rewrite app_length; cbn; lia).
    assert (Hl2 : length h2 = S (length h1)) by (unfold h2; rewrite length_put; exact Hl0).
    assert (F2 : forall e, e < length h1 -> e <> i -> get h2 e = get h1 e).
    { intros e He Hei. unfold h2. rewrite get_put_ne by congruence. unfold h0, get, rd. rewrite nth_error_app1 by lia. reflexivity. }
    destruct (IH (N y cy ly ky ry) h2 (Some x) y (length h1) ky cy (Some i) b) as (h3 & u & ul' & ur' & E3 & -> & R3 & N3 & A3 & L3 & F3 & D3 & K3).
    + cbn [size] in *. lia.
    + apply (repT_frame h).
      * intros e He. specialize (Hll e He). rewrite F2 by lia. rewrite F1 by lia. reflexivity.
      * cbn [repT]. auto.
    + exact Hll.
    + reflexivity.
    + lia.
    + lia.
    + unfold h2. rewrite get_put_ne by lia. apply get_new.
    + rewrite E3. set (ul := N (length h1) cy ul' ky ur'). exists h3, (N i ci ul ki ur), ul, ur. split; [reflexivity|]. split; [reflexivity|].
      assert (Di : forall e, 1 <= cnt e ul -> length h1 <= e).
      { intros e He. unfold ul in He. rewrite cnt_N in He. unfold one in He. destruct (Nat.eq_dec (length h1) e); [lia|]. specialize (D3 e ltac:(lia)). lia. }
      split; [|split; [|split; [|split; [|split; [|split]]]]].
      * cbn [repT]. split; [|split; [exact R3|]].
        -- rewrite F3 by lia. unfold h2. rewrite get_put_eq by lia. reflexivity.
        -- apply (repT_frame h1); [|exact R1]. intros e He. specialize (D1 e He). rewrite F3 by lia. apply F2; lia.
      * intro e. rewrite cnt_N. specialize (N1 e). specialize (N3 e). fold ul in N3. unfold one. destruct (Nat.eq_dec i e) as [<-|Hne].
        -- assert (~ 1 <= cnt i ur) by (intro Q; apply D1 in Q; lia). assert (~ 1 <= cnt i ul) by (intro Q; apply Di in Q; lia). lia.
        -- destruct (le_lt_dec 1 (cnt e ur)) as [Q|Q]; [|lia]. apply D1 in Q. assert (~ 1 <= cnt e ul) by (intro Q'; apply Di in Q'; lia). lia.
      * split; [unfold ul; cbn [alike]; tauto|exact A1].
      * lia.
      * intros e He Hei. rewrite F3 by lia. rewrite F2 by lia. apply F1; assumption.
      * intros e He. destruct (le_lt_dec 1 (cnt e ur)) as [Q|Q]; [apply D1 in Q; lia|]. assert (1 <= cnt e ul) by lia. apply Di in H. lia.
      * intros e n He Hn. destruct (le_lt_dec (S (length h1)) e) as [Q|Q].
        -- specialize (K3 e n ltac:(lia) Hn). unfold ul. rewrite cnt_N. lia.
        -- destruct (Nat.eq_dec (length h1) e) as [<-|Hne]; [unfold ul; rewrite cnt_N, one_eq; lia|].
           rewrite F3 in Hn by lia. rewrite F2 in Hn by lia. specialize (K1 _ _ He Hn). lia.
Qed.
Lemma copy_ok (s : st) t x : rep s t -> ad t = Some x ->
  exists h' i u, copy (hp s) x = Ok (h', i) /\ rep (St h' (Some i)) u /\ alike t u /\
    (forall e, e < length (hp s) -> get h' e = get (hp s) e) /\ length (hp s) <= length h' /\ (forall e, 1 <= cnt e u -> length (hp s) <= e) /\
    (forall e n, length (hp s) <= e -> get h' e = Ok n -> 1 <= cnt e u).
Proof.
  intros H Hx. pose proof H as (Ht & Hr & Hnd). unfold copy, clone, new_node. destruct t as [|a c l k r]; [discriminate|]. injection Hx as ->.
  pose proof Ht as (Hg & _). rewrite Hg. cbn [bind mKey mRed].
  set (h1 := hp s ++ [Some (Node k c None None None)]).
  assert (Hl1 : length h1 = S (length (hp s))) by (unfold h1; rewrite app_length; cbn; lia).
  destruct (copy_loop_ok (enough (hp s)) (N x c l k r) h1 None x (length (hp s)) k c None (length (hp s))) as (h' & u & ul & ur & E1 & -> & R1 & N1 & A1 & L1 & F1 & D1 & K1).
  - pose proof (rep_size _ _ H). unfold enough. lia.
  - apply (rep_app s [Some (Node k c None None None)]) in H. exact (proj1 H).
  - intros e He. destruct (repT_live _ _ _ _ Ht He) as (n & Hn). exact (get_lt _ _ _ Hn).
  - reflexivity.
  - lia.
  - lia.
  - apply get_new.
  - rewrite E1. cbn [bind]. exists h', (length (hp s)), (N (length (hp s)) c ul k ur). split; [reflexivity|].
    split; [split; [exact R1|split; [reflexivity|exact N1]]|]. split; [cbn [alike]; tauto|]. split; [|split; [lia|split]].
    + intros e He. rewrite F1 by lia. unfold h1, get, rd. rewrite nth_error_app1 by lia. reflexivity.
    + intros e He. rewrite cnt_N in He. unfold one in He. destruct (Nat.eq_dec (length (hp s)) e); [lia|]. specialize (D1 e ltac:(lia)). lia.
    + intros e n He Hn. rewrite cnt_N. unfold one. destruct (Nat.eq_dec (length (hp s)) e); [lia|]. specialize (K1 e n ltac:(lia) Hn). lia.
Qed.
End RB.
