(** The two repair loops of the red-black tree. *)
From Coq Require Import ZArith List Bool Arith Lia Permutation.
From Verif Require Import Outcome RandPermModel RBModel RBHeapProofs.
Import ListNotations.
Local Open Scope nat_scope.

Section RB.
Context {T : Type}.
Notation heap := (heap T).
Notation st := (st T).
Notation tr := (@tr T).
Notation frame := (@frame T).

(** red-black trees: colour of the root and black height *)
Inductive rb : tr -> bool -> nat -> Prop :=
| rbE : rb E false 0
| rbR a l k r n : rb l false n -> rb r false n -> rb (N a true l k r) true n
| rbB a l k r n cl cr : rb l cl n -> rb r cr n -> rb (N a false l k r) false (S n).
(** contexts accepting such a tree *)
Inductive rbz : list frame -> bool -> nat -> Prop :=
| rbzN n : rbz [] false n
| rbzR s a sib k z n : rb sib false n -> rbz z true n -> rbz (F s a true sib k :: z) false n
| rbzB s a sib k z n c c' : rb sib c' n -> rbz z false (S n) -> rbz (F s a false sib k :: z) c n.

Definition blacken (t : tr) : tr := match t with E => E | N a _ l k r => N a false l k r end.

Lemma rb_isred t c n : rb t c n -> isred t = c.
Proof. destruct 1; reflexivity. Qed.
Lemma rb_blacken t c n : rb t c n -> exists m, rb (blacken t) false m.
Proof. destruct 1; cbn; eexists; econstructor; eauto. Qed.
Lemma blacken_black t n : rb t false n -> blacken t = t.
Proof. inversion 1; reflexivity. Qed.
Lemma rbz_weaken z n : rbz z true n -> rbz z false n.
Proof. inversion 1; subst. econstructor; eauto. Qed.
Lemma rb_plug : forall z t c n, rbz z c n -> rb t c n -> exists m, rb (plug z t) false m.
Proof.
  induction z as [|f z IH]; intros t c n Hz Ht; inversion Hz; subst; cbn [plug].
  - eauto.
  - eapply IH; [eassumption|]. unfold grow1; cbn. destruct s; constructor; assumption.
  - eapply IH; [eassumption|]. unfold grow1; cbn. destruct s; econstructor; eassumption.
Qed.
Lemma rb_unplug : forall z t m, rb (plug z t) false m -> exists c n, rb t c n /\ rbz z c n.
Proof.
  induction z as [|f z IH]; intros t m H; cbn [plug] in H.
  - exists false, m. split; [exact H|constructor].
  - apply IH in H. destruct H as (c & n & H & Hz). destruct f as [sd a cf sib k]. unfold grow1 in H; cbn in H.
    destruct sd; inversion H; subst.
    + exists false, n. split; [assumption|constructor; assumption].
    + eexists _, _. split; [eassumption|econstructor; eassumption].
    + exists false, n. split; [assumption|constructor; assumption].
    + eexists _, _. split; [eassumption|econstructor; eassumption].
Qed.

(** entries around the hole *)
Fixpoint el (z : list frame) : list (nat * T) :=
  match z with [] => [] | f :: z' => el z' ++ (if fs f then [] else ents (fsib f) ++ [(fa f, fk f)]) end.
Fixpoint er (z : list frame) : list (nat * T) :=
  match z with [] => [] | f :: z' => (if fs f then (fa f, fk f) :: ents (fsib f) else []) ++ er z' end.
Lemma ents_plug : forall z (t : tr), ents (plug z t) = el z ++ ents t ++ er z.
Proof.
  induction z as [|f z IH]; intro t; cbn [plug el er]; [rewrite app_nil_r; reflexivity|].
  rewrite IH. unfold grow1. destruct (fs f); cbn [ents app]; rewrite <- !app_assoc; cbn [app]; reflexivity.
Qed.
Lemma ents_plug_eq z (t t' : tr) : ents t = ents t' -> ents (plug z t) = ents (plug z t').
Proof. intro H. rewrite !ents_plug, H. reflexivity. Qed.

(** reading *)
Lemma is_red_rep (s : st) z t : rep s (plug z t) -> is_red (hp s) (ad t) = Ok (isred t).
Proof.
  intro H. destruct t as [|a c l k r]; [reflexivity|]. cbn [ad is_red isred]. unfold red.
  rewrite (rep_get _ _ _ _ _ _ _ H). reflexivity.
Qed.
Lemma not_root (s : st) z a c l k r : rep s (plug z (N a c l k r)) -> z <> [] -> ptr_eqb (Some a) (rt s) = false.
Proof.
  intros (_ & Hr & Hnd) Hz. rewrite Hr. clear Hr.
  assert (H : forall (z : list frame) t, z <> [] -> exists b, ad (plug z t) = Some b /\ 1 <= cntz b z).
  { clear. induction z as [|f z IH]; intros t Hz; [congruence|]. cbn [plug cntz].
    destruct z as [|g z].
    - exists (fa f). cbn [plug]. rewrite ad_grow1, one_eq. split; [reflexivity|lia].
    - destruct (IH (grow1 f t)) as (b & Hb & Hc); [congruence|]. exists b. split; [exact Hb|lia]. }
  destruct (H z (N a c l k r) Hz) as (b & Hb & Hc). rewrite Hb. apply ptr_eqb_ne. intros <-.
  specialize (Hnd a). rewrite cnt_plug, cnt_N, one_eq in Hnd. lia.
Qed.

Ltac rd_ H := let G := fresh "G" in pose proof (rep_get _ _ _ _ _ _ _ H) as G;
  unfold right, left, parent, red, key; rewrite G; cbn [bind mKey mRed mParent mLeft mRight]; clear G.
Ltac fetch s z a c l k r H := 
  let G := fresh "G" in pose proof (rep_get s z a c l k r H) as G.
Ltac go := unfold right, left, parent, red, key;
  repeat match goal with H : get ?h ?a = Ok _ |- context [get ?h ?a] => rewrite H; cbn [bind deref mKey mRed mParent mLeft mRight ad] end.
Ltac color s z a c l k r c' H :=
  let s' := fresh "s" in let E1 := fresh "E" in let H' := fresh "H" in let L := fresh "L" in
  destruct (rep_color s z a c l k r c' H) as (s' & E1 & H' & L); rewrite E1; cbn [bind].

Ltac ent := cbn [ents]; repeat (rewrite <- app_assoc; cbn [app]); reflexivity.

Ltac cn H := repeat first [rewrite cnt_plug in H | rewrite cnt_N in H | rewrite cnt_E in H | rewrite one_eq in H | progress cbn [cntz fs fa fc fsib fk] in H].
Ltac frs := match goal with |- fr _ _ _ =>
  split; [repeat match goal with H : fr _ _ _ |- _ => destruct H as [? ?] end; congruence|
  let e := fresh "e" in let He := fresh "He" in intros e He; cn He;
  repeat match goal with H : fr ?s ?s' _ |- get (hp ?s') e = _ =>
    rewrite (proj2 H e) by (let G := fresh in match goal with |- ?g = 0 => remember g as G eqn:HG; cn HG; lia end) end; reflexivity] end.
Lemma fr_refl (s : st) t : fr s s t.
Proof. split; reflexivity. Qed.
Lemma cnt_ents (t t' : tr) e : ents t = ents t' -> cnt e t = cnt e t'.
Proof. intro H. unfold cnt. rewrite !addrs_ents, H. reflexivity. Qed.

Definition same (s s' : st) (t t' : tr) : Prop :=
  rep s' t' /\ ents t' = ents t /\ fr s s' t.

(** insertFixup *)
Lemma ins_left_ok (s : st) z x l k r p sib_p kp sd xpp y kx n c' :
  rep s (plug (F sd p true sib_p kp :: F true xpp false y kx :: z) (N x true l k r)) ->
  rb l false n -> rb r false n -> rb sib_p false n -> rb y c' n -> rbz z false (S n) ->
  exists s' x' z' l' k' r' n',
    ins_left s x p xpp = Ok (s', x') /\
    same s s' (plug (F sd p true sib_p kp :: F true xpp false y kx :: z) (N x true l k r)) (plug z' (N x' true l' k' r')) /\
    length z' <= S (length z) /\ rb l' false n' /\ rb r' false n' /\ rbz z' false n' /\
    (c' = true \/ (exists sd' q sib kq z'', z' = F sd' q false sib kq :: z'' /\ rbz z' true n')).
Proof.
  intros H Hl Hr Hs Hy Hz.
  assert (Gp : get (hp s) xpp = Ok (Node kx false (cpar z) (Some p) (ad y))).
  { change (rep s (plug z (N xpp false (grow1 (F sd p true sib_p kp) (N x true l k r)) kx y))) in H.
    rewrite (rep_get _ _ _ _ _ _ _ H), ad_grow1. reflexivity. }
  unfold ins_left. go.
  assert (Iy : is_red (hp s) (ad y) = Ok (isred y)).
  { apply (is_red_rep s (F false xpp false (grow1 (F sd p true sib_p kp) (N x true l k r)) kx :: z)). exact H. }
  rewrite Iy. cbn [bind]. rewrite (rb_isred _ _ _ Hy). destruct c'.
  - (* red uncle *)
    inversion Hy as [|ay yl ky yr n' Hyl Hyr|]; subst.
    destruct sd.
    + destruct (rep_color s (F true xpp false (N ay true yl ky yr) kx :: z) p true (N x true l k r) kp sib_p false H) as (s1 & E1 & H1 & L1).
      rewrite E1. cbn [bind ad deref].
      destruct (rep_color s1 (F false xpp false (N p false (N x true l k r) kp sib_p) kx :: z) ay true yl ky yr false H1) as (s2 & E2 & H2 & L2).
      rewrite E2. cbn [bind].
      destruct (rep_color s2 z xpp false (N p false (N x true l k r) kp sib_p) kx (N ay false yl ky yr) true H2) as (s3 & E3 & H3 & L3).
      rewrite E3. cbn [bind].
      exists s3, xpp, z, (N p false (N x true l k r) kp sib_p), kx, (N ay false yl ky yr), (S n).
      split; [reflexivity|]. split; [|split; [lia|split; [eauto using rb|split; [eauto using rb|split; [exact Hz|left; reflexivity]]]]].
      split; [exact H3|]. split; [|frs].
      cbn [plug]. apply ents_plug_eq. reflexivity.
    + destruct (rep_color s (F true xpp false (N ay true yl ky yr) kx :: z) p true sib_p kp (N x true l k r) false H) as (s1 & E1 & H1 & L1).
      rewrite E1. cbn [bind ad deref].
      destruct (rep_color s1 (F false xpp false (N p false sib_p kp (N x true l k r)) kx :: z) ay true yl ky yr false H1) as (s2 & E2 & H2 & L2).
      rewrite E2. cbn [bind].
      destruct (rep_color s2 z xpp false (N p false sib_p kp (N x true l k r)) kx (N ay false yl ky yr) true H2) as (s3 & E3 & H3 & L3).
      rewrite E3. cbn [bind].
      exists s3, xpp, z, (N p false sib_p kp (N x true l k r)), kx, (N ay false yl ky yr), (S n).
      split; [reflexivity|]. split; [|split; [lia|split; [eauto using rb|split; [eauto using rb|split; [exact Hz|left; reflexivity]]]]].
      split; [exact H3|]. split; [|frs].
      cbn [plug]. apply ents_plug_eq. reflexivity.
  - (* black uncle *)
    destruct sd.
    + assert (Gpp : get (hp s) p = Ok (Node kp true (Some xpp) (Some x) (ad sib_p))).
      { apply (rep_get s (F true xpp false y kx :: z) p true (N x true l k r) kp sib_p). exact H. }
      assert (Gx : get (hp s) x = Ok (Node k true (Some p) (ad l) (ad r))).
      { exact (rep_get _ _ _ _ _ _ _ H). }
      go.
      assert (Hne : ptr_eqb (Some x) (ad sib_p) = false).
      { destruct sib_p as [|e]; [reflexivity|]. apply ptr_eqb_ne. intros ->. destruct H as (_ & _ & Hnd).
        specialize (Hnd e). cbn [plug grow1 fs fa fc fsib fk] in Hnd. rewrite !cnt_plug, !cnt_N, !one_eq in Hnd. lia. }
      rewrite Hne. cbn [bind]. go.
      destruct (rep_color s (F true xpp false y kx :: z) p true (N x true l k r) kp sib_p false H) as (s1 & E1 & H1 & L1).
      rewrite E1. cbn [bind].
      destruct (rep_color s1 z xpp false (N p false (N x true l k r) kp sib_p) kx y true H1) as (s2 & E2 & H2 & L2).
      rewrite E2. cbn [bind].
      destruct (rep_rotateRight s2 z xpp true p false (N x true l k r) kp sib_p kx y H2) as (s3 & E3 & H3 & L3).
      rewrite E3. cbn [bind].
      assert (Hz' : forall c, rbz (F true p false (N xpp true sib_p kx y) kp :: z) c n).
      { intro c. econstructor; [constructor; eassumption|assumption]. }
      exists s3, x, (F true p false (N xpp true sib_p kx y) kp :: z), l, k, r, n.
      split; [reflexivity|]. split; [|split; [cbn; lia|split; [assumption|split; [assumption|split; [apply Hz'|right]]]]].
      * split; [exact H3|split; [|frs]].
        cbn [plug grow1 fs fa fc fsib fk]. apply ents_plug_eq. ent.
      * repeat eexists; apply Hz'.
    + assert (Gpp : get (hp s) p = Ok (Node kp true (Some xpp) (ad sib_p) (Some x))).
      { apply (rep_get s (F true xpp false y kx :: z) p true sib_p kp (N x true l k r)). exact H. }
      go. rewrite ptr_eqb_refl.
      destruct (rep_rotateLeft s (F true xpp false y kx :: z) p true sib_p kp x true l k r H) as (s0 & E0 & H0 & L0).
      rewrite E0. cbn [bind].
      assert (Gp' : get (hp s0) p = Ok (Node kp true (Some x) (ad sib_p) (ad l))).
      { apply (rep_get s0 (F true x true r k :: F true xpp false y kx :: z) p true sib_p kp l). exact H0. }
      go.
      destruct (rep_color s0 (F true xpp false y kx :: z) x true (N p true sib_p kp l) k r false H0) as (s1 & E1 & H1 & L1).
      rewrite E1. cbn [bind].
      destruct (rep_color s1 z xpp false (N x false (N p true sib_p kp l) k r) kx y true H1) as (s2 & E2 & H2 & L2).
      rewrite E2. cbn [bind].
      destruct (rep_rotateRight s2 z xpp true x false (N p true sib_p kp l) k r kx y H2) as (s3 & E3 & H3 & L3).
      rewrite E3. cbn [bind].
      assert (Hz' : forall c, rbz (F true x false (N xpp true r kx y) k :: z) c n).
      { intro c. econstructor; [constructor; eassumption|assumption]. }
      exists s3, p, (F true x false (N xpp true r kx y) k :: z), sib_p, kp, l, n.
      split; [reflexivity|]. split; [|split; [cbn; lia|split; [assumption|split; [assumption|split; [apply Hz'|right]]]]].
      * split; [exact H3|split; [|frs]].
        cbn [plug grow1 fs fa fc fsib fk]. apply ents_plug_eq. ent.
      * repeat eexists; apply Hz'.
Qed.
Lemma ins_right_ok (s : st) z x l k r p sib_p kp sd xpp y kx n c' :
  rep s (plug (F sd p true sib_p kp :: F false xpp false y kx :: z) (N x true r k l)) ->
  rb l false n -> rb r false n -> rb sib_p false n -> rb y c' n -> rbz z false (S n) ->
  exists s' x' z' r' k' l' n',
    ins_right s x p xpp = Ok (s', x') /\
    same s s' (plug (F sd p true sib_p kp :: F false xpp false y kx :: z) (N x true r k l)) (plug z' (N x' true r' k' l')) /\
    length z' <= S (length z) /\ rb l' false n' /\ rb r' false n' /\ rbz z' false n' /\
    (c' = true \/ (exists sd' q sib kq z'', z' = F sd' q false sib kq :: z'' /\ rbz z' true n')).
Proof.
  intros H Hl Hr Hs Hy Hz.
  assert (Gp : get (hp s) xpp = Ok (Node kx false (cpar z) (ad y) (Some p))).
  { change (rep s (plug z (N xpp false y kx (grow1 (F sd p true sib_p kp) (N x true r k l))))) in H.
    rewrite (rep_get _ _ _ _ _ _ _ H), ad_grow1. reflexivity. }
  unfold ins_right. go.
  assert (Iy : is_red (hp s) (ad y) = Ok (isred y)).
  { apply (is_red_rep s (F true xpp false (grow1 (F sd p true sib_p kp) (N x true r k l)) kx :: z)). exact H. }
  rewrite Iy. cbn [bind]. rewrite (rb_isred _ _ _ Hy). destruct c'.
  - (* red uncle *)
    inversion Hy as [|ay yr ky yl n' Hyr Hyl|]; subst.
    destruct sd.
    + destruct (rep_color s (F false xpp false (N ay true yr ky yl) kx :: z) p true (N x true r k l) kp sib_p false H) as (s1 & E1 & H1 & L1).
      rewrite E1. cbn [bind ad deref].
      destruct (rep_color s1 (F true xpp false (N p false (N x true r k l) kp sib_p) kx :: z) ay true yr ky yl false H1) as (s2 & E2 & H2 & L2).
      rewrite E2. cbn [bind].
      destruct (rep_color s2 z xpp false (N ay false yr ky yl) kx (N p false (N x true r k l) kp sib_p) true H2) as (s3 & E3 & H3 & L3).
      rewrite E3. cbn [bind].
      exists s3, xpp, z, (N ay false yr ky yl), kx, (N p false (N x true r k l) kp sib_p), (S n).
      split; [reflexivity|]. split; [|split; [lia|split; [eauto using rb|split; [eauto using rb|split; [exact Hz|left; reflexivity]]]]].
      split; [exact H3|]. split; [|frs].
      cbn [plug]. apply ents_plug_eq. reflexivity.
    + destruct (rep_color s (F false xpp false (N ay true yr ky yl) kx :: z) p true sib_p kp (N x true r k l) false H) as (s1 & E1 & H1 & L1).
      rewrite E1. cbn [bind ad deref].
      destruct (rep_color s1 (F true xpp false (N p false sib_p kp (N x true r k l)) kx :: z) ay true yr ky yl false H1) as (s2 & E2 & H2 & L2).
      rewrite E2. cbn [bind].
      destruct (rep_color s2 z xpp false (N ay false yr ky yl) kx (N p false sib_p kp (N x true r k l)) true H2) as (s3 & E3 & H3 & L3).
      rewrite E3. cbn [bind].
      exists s3, xpp, z, (N ay false yr ky yl), kx, (N p false sib_p kp (N x true r k l)), (S n).
      split; [reflexivity|]. split; [|split; [lia|split; [eauto using rb|split; [eauto using rb|split; [exact Hz|left; reflexivity]]]]].
      split; [exact H3|]. split; [|frs].
      cbn [plug]. apply ents_plug_eq. reflexivity.
  - (* black uncle *)
    destruct sd.
    + assert (Gpp : get (hp s) p = Ok (Node kp true (Some xpp) (Some x) (ad sib_p))).
      { apply (rep_get s (F false xpp false y kx :: z) p true (N x true r k l) kp sib_p). exact H. }
      go. rewrite ptr_eqb_refl.
      destruct (rep_rotateRight s (F false xpp false y kx :: z) p true x true r k l kp sib_p H) as (s0 & E0 & H0 & L0).
      rewrite E0. cbn [bind].
      assert (Gp' : get (hp s0) p = Ok (Node kp true (Some x) (ad l) (ad sib_p))).
      { apply (rep_get s0 (F false x true r k :: F false xpp false y kx :: z) p true l kp sib_p). exact H0. }
      go.
      destruct (rep_color s0 (F false xpp false y kx :: z) x true r k (N p true l kp sib_p) false H0) as (s1 & E1 & H1 & L1).
      rewrite E1. cbn [bind].
      destruct (rep_color s1 z xpp false y kx (N x false r k (N p true l kp sib_p)) true H1) as (s2 & E2 & H2 & L2).
      rewrite E2. cbn [bind].
      destruct (rep_rotateLeft s2 z xpp true y kx x false r k (N p true l kp sib_p) H2) as (s3 & E3 & H3 & L3).
      rewrite E3. cbn [bind].
      assert (Hz' : forall c, rbz (F false x false (N xpp true y kx r) k :: z) c n).
      { intro c. econstructor; [constructor; eassumption|assumption]. }
      exists s3, p, (F false x false (N xpp true y kx r) k :: z), l, kp, sib_p, n.
      split; [reflexivity|]. split; [|split; [cbn; lia|split; [assumption|split; [assumption|split; [apply Hz'|right]]]]].
      * split; [exact H3|split; [|frs]].
        cbn [plug grow1 fs fa fc fsib fk]. apply ents_plug_eq. ent.
      * repeat eexists; apply Hz'.
    + assert (Gpp : get (hp s) p = Ok (Node kp true (Some xpp) (ad sib_p) (Some x))).
      { apply (rep_get s (F false xpp false y kx :: z) p true sib_p kp (N x true r k l)). exact H. }
      assert (Gx : get (hp s) x = Ok (Node k true (Some p) (ad r) (ad l))).
      { exact (rep_get _ _ _ _ _ _ _ H). }
      go.
      assert (Hne : ptr_eqb (Some x) (ad sib_p) = false).
      { destruct sib_p as [|e]; [reflexivity|]. apply ptr_eqb_ne. intros ->. destruct H as (_ & _ & Hnd).
        specialize (Hnd e). cbn [plug grow1 fs fa fc fsib fk] in Hnd. rewrite !cnt_plug, !cnt_N, !one_eq in Hnd. lia. }
      rewrite Hne. cbn [bind]. go.
      destruct (rep_color s (F false xpp false y kx :: z) p true sib_p kp (N x true r k l) false H) as (s1 & E1 & H1 & L1).
      rewrite E1. cbn [bind].
      destruct (rep_color s1 z xpp false y kx (N p false sib_p kp (N x true r k l)) true H1) as (s2 & E2 & H2 & L2).
      rewrite E2. cbn [bind].
      destruct (rep_rotateLeft s2 z xpp true y kx p false sib_p kp (N x true r k l) H2) as (s3 & E3 & H3 & L3).
      rewrite E3. cbn [bind].
      assert (Hz' : forall c, rbz (F false p false (N xpp true y kx sib_p) kp :: z) c n).
      { intro c. econstructor; [constructor; eassumption|assumption]. }
      exists s3, x, (F false p false (N xpp true y kx sib_p) kp :: z), r, k, l, n.
      split; [reflexivity|]. split; [|split; [cbn; lia|split; [assumption|split; [assumption|split; [apply Hz'|right]]]]].
      * split; [exact H3|split; [|frs]].
        cbn [plug grow1 fs fa fc fsib fk]. apply ents_plug_eq. ent.
      * repeat eexists; apply Hz'.
Qed.

Lemma same_trans s s1 s2 t t1 t2 : same s s1 t t1 -> same s1 s2 t1 t2 -> same s s2 t t2.
Proof.
  intros (H1 & H2 & H3) (H4 & H5 & H6). split; [exact H4|split; [congruence|]].
  split; [destruct H3, H6; congruence|]. intros e He.
  rewrite (proj2 H6 e) by (rewrite (cnt_ents _ _ e H2); exact He). apply (proj2 H3). exact He.
Qed.

Lemma ins_exit (s : st) z x l k r sd q sib kq f :
  rep s (plug (F sd q false sib kq :: z) (N x true l k r)) -> ins_loop (S f) s x = Ok s.
Proof.
  intro H. cbn [ins_loop]. rewrite (not_root _ _ _ _ _ _ _ H) by congruence.
  assert (Gx : get (hp s) x = Ok (Node k true (Some q) (ad l) (ad r))) by exact (rep_get _ _ _ _ _ _ _ H).
  assert (Gq : exists p a b, get (hp s) q = Ok (Node kq false p a b)).
  { destruct H as (H & _). apply rep_plug in H. cbn [repC fa fk fc fs fsib] in H. destruct H as ((H & _) & _). eauto. }
  destruct Gq as (? & ? & ? & Gq). go. reflexivity.
Qed.

Lemma ins_loop_ok : forall m z s x l k r n f, length z <= m -> m < f ->
  rep s (plug z (N x true l k r)) -> rb l false n -> rb r false n -> rbz z false n ->
  exists s' t', ins_loop f s x = Ok s' /\ same s s' (plug z (N x true l k r)) t' /\ exists h, rb (blacken t') false h.
Proof.
  induction m as [m IH] using lt_wf_ind. intros z s x l k r n f Hm Hf H Hl Hr Hz.
  destruct f as [|f]; [lia|].
  destruct z as [|[sd p cp sib_p kp] z].
  { exists s, (N x true l k r). split; [|split; [split; [exact H|split; [reflexivity|apply fr_refl]]|]].
    - cbn [ins_loop]. destruct H as (_ & Hroot & _). rewrite Hroot. cbn [plug ad]. rewrite ptr_eqb_refl. reflexivity.
    - exists (S n). cbn. econstructor; eassumption. }
  inversion Hz as [|? ? ? ? ? ? Hs Hz'|? ? ? ? ? ? ? c' Hs Hz']; subst.
  - (* red parent: the grandparent is black *)
    inversion Hz' as [| |sd' xpp y kx z' ? ? c' Hy Hz'']; subst. cbn [length] in Hm.
    assert (Gx : get (hp s) x = Ok (Node k true (Some p) (ad l) (ad r))) by exact (rep_get _ _ _ _ _ _ _ H).
    assert (Gp : exists a b, get (hp s) p = Ok (Node kp true (Some xpp) a b)).
    { destruct H as (H & _). apply rep_plug in H. cbn [repC fa fk fc fs fsib cpar] in H. destruct H as ((H & _) & _). eauto. }
    destruct Gp as (a & b & Gp).
    assert (Gpp : get (hp s) xpp = Ok (Node kx false (cpar z') (if sd' then Some p else ad y) (if sd' then ad y else Some p))).
    { destruct H as (H & _). apply rep_plug in H. cbn [repC fa fk fc fs fsib cpar] in H. destruct H as ((_ & _ & H & _) & _). exact H. }
    cbn [ins_loop]. rewrite (not_root _ _ _ _ _ _ _ H) by congruence. go. cbn [negb].
    destruct sd'.
    + rewrite ptr_eqb_refl.
      destruct (ins_left_ok s z' x l k r p sib_p kp sd xpp y kx n c' H Hl Hr Hs Hy Hz'')
        as (s' & x' & z1 & l' & k' & r' & n' & E1 & S1 & Hlen & Hl' & Hr' & Hz1 & Hc).
      rewrite E1. cbn [bind].
      destruct (IH (pred m)) with (z := z1) (s := s') (x := x') (l := l') (k := k') (r := r') (n := n') (f := f)
        as (s2 & t2 & E2 & S2 & Hb); try assumption; [lia|lia|lia|apply S1|].
      exists s2, t2. split; [exact E2|]. split; [exact (same_trans _ _ _ _ _ _ S1 S2)|exact Hb].
    + assert (Hne : ptr_eqb (Some p) (ad y) = false).
      { destruct y as [|e]; [reflexivity|]. apply ptr_eqb_ne. intros ->. destruct H as (_ & _ & Hnd).
        specialize (Hnd e). rewrite cnt_plug in Hnd. cbn [cntz fa fsib] in Hnd. rewrite !cnt_N, !one_eq in Hnd. lia. }
      rewrite Hne.
      destruct (ins_right_ok s z' x r k l p sib_p kp sd xpp y kx n c' H Hr Hl Hs Hy Hz'')
        as (s' & x' & z1 & l' & k' & r' & n' & E1 & S1 & Hlen & Hl' & Hr' & Hz1 & Hc).
      rewrite E1. cbn [bind].
      destruct (IH (pred m)) with (z := z1) (s := s') (x := x') (l := l') (k := k') (r := r') (n := n') (f := f)
        as (s2 & t2 & E2 & S2 & Hb); try assumption; [lia|lia|lia|apply S1|].
      exists s2, t2. split; [exact E2|]. split; [exact (same_trans _ _ _ _ _ _ S1 S2)|exact Hb].
  - (* black parent *)
    exists s, (plug (F sd p false sib_p kp :: z) (N x true l k r)).
    split; [exact (ins_exit _ _ _ _ _ _ _ _ _ _ _ H)|]. split; [split; [exact H|split; [reflexivity|apply fr_refl]]|].
    assert (Hz2 : rbz (F sd p false sib_p kp :: z) true n) by (econstructor; eassumption).
    destruct (rb_plug _ (N x true l k r) _ _ Hz2) as (h & Hh); [constructor; assumption|].
    exists h. rewrite (blacken_black _ _ Hh). exact Hh.
Qed.

(** deleteFixup, sibling on the right *)
Lemma sib_left_ok (s : st) z t p cp sib kp n :
  rep s (plug (F true p cp sib kp :: z) t) -> rbz (F true p cp sib kp :: z) false (S n) ->
  exists s' w z' cp' wl kw wr,
    sib_left s p = Ok (s', w) /\
    same s s' (plug (F true p cp sib kp :: z) t) (plug (F true p cp' (N w false wl kw wr) kp :: z') t) /\
    rbz (F true p cp' (N w false wl kw wr) kp :: z') false (S n) /\
    (length z' = length z \/ cp' = true).
Proof.
  intros H Hz.
  assert (Gp : get (hp s) p = Ok (Node kp cp (cpar z) (ad t) (ad sib))).
  { exact (rep_get s z p cp t kp sib H). }
  assert (Hsib : exists w cw wl kw wr, sib = N w cw wl kw wr).
  { inversion Hz as [|? ? ? ? ? ? Hs Hz'|? ? ? ? ? ? ? c' Hs Hz']; subst; inversion Hs; subst; eauto 8. }
  destruct Hsib as (w & cw & wl & kw & wr & ->).
  assert (Gw : get (hp s) w = Ok (Node kw cw (Some p) (ad wl) (ad wr))).
  { exact (rep_get s (F false p cp t kp :: z) w cw wl kw wr H). }
  unfold sib_left. go. destruct cw.
  - inversion Hz as [|? ? ? ? ? ? Hs Hz'|? ? ? ? ? ? ? c' Hs Hz']; subst; [inversion Hs|].
    inversion Hs; subst.
    destruct (rep_color s (F false p false t kp :: z) w true wl kw wr false H) as (s1 & E1 & H1 & L1).
    rewrite E1. cbn [bind].
    destruct (rep_color s1 z p false t kp (N w false wl kw wr) true H1) as (s2 & E2 & H2 & L2).
    rewrite E2. cbn [bind].
    destruct (rep_rotateLeft s2 z p true t kp w false wl kw wr H2) as (s3 & E3 & H3 & L3).
    rewrite E3. cbn [bind].
    assert (Gp3 : get (hp s3) p = Ok (Node kp true (Some w) (ad t) (ad wl))).
    { exact (rep_get s3 (F true w false wr kw :: z) p true t kp wl H3). }
    go.
    match goal with Hw : rb wl false (S n) |- _ => inversion Hw as [| |w' wll kw' wlr ? ? ? Hwll Hwlr]; subst end.
    cbn [ad deref bind].
    exists s3, w', (F true w false wr kw :: z), true, wll, kw', wlr.
    split; [reflexivity|]. split; [|split; [|right; reflexivity]].
    + split; [exact H3|split; [|frs]].
      cbn [plug grow1 fs fa fc fsib fk]. apply ents_plug_eq. ent.
    + constructor; [econstructor; eassumption|]. econstructor; eassumption.
  - exists s, w, z, cp, wl, kw, wr. split; [reflexivity|]. split; [split; [exact H|split; [reflexivity|apply fr_refl]]|]. split; [exact Hz|left; reflexivity].
Qed.

Lemma del_left_ok (s : st) z t p cp w wl kw wr kp n :
  rep s (plug (F true p cp (N w false wl kw wr) kp :: z) t) ->
  rbz (F true p cp (N w false wl kw wr) kp :: z) false (S n) -> rb t false n ->
  exists s' b z' t',
    del_left s p w = Ok (s', b) /\
    same s s' (plug (F true p cp (N w false wl kw wr) kp :: z) t) (plug z' t') /\
    if b then z' = z /\ ad t' = Some p /\ ((cp = true /\ isred t' = true /\ rb (blacken t') false (S n) /\ rbz z true (S n)) \/
                                           (cp = false /\ rb t' false (S n) /\ rbz z false (S (S n))))
    else t' = t /\ exists h, rb (plug z' t') false h.
Proof.
  intros H Hz Ht.
  assert (Gw : get (hp s) w = Ok (Node kw false (Some p) (ad wl) (ad wr))).
  { exact (rep_get s (F false p cp t kp :: z) w false wl kw wr H). }
  assert (Hw : rb (N w false wl kw wr) false (S n) /\ ((cp = true /\ rbz z true (S n)) \/ (cp = false /\ rbz z false (S (S n))))).
  { inversion Hz as [|? ? ? ? ? ? Hs Hz'|? ? ? ? ? ? ? c' Hs Hz']; subst; [tauto|].
    pose proof (rb_isred _ _ _ Hs) as Hc; cbn in Hc; subst. tauto. }
  destruct Hw as (Hw & Hcp).
  inversion Hw as [| |? ? ? ? ? cl cr Hwl Hwr]; subst.
  unfold del_left. go.
  assert (Il : is_red (hp s) (ad wl) = Ok cl).
  { rewrite (is_red_rep s (F true w false wr kw :: F false p cp t kp :: z) wl H), (rb_isred _ _ _ Hwl). reflexivity. }
  assert (Ir : is_red (hp s) (ad wr) = Ok cr).
  { rewrite (is_red_rep s (F false w false wl kw :: F false p cp t kp :: z) wr H), (rb_isred _ _ _ Hwr). reflexivity. }
  rewrite Il. cbn [bind]. rewrite Ir. cbn [bind].
  (* the last four steps, from a state where the outer nephew is red *)
  assert (Hend : forall s1 w1 a ka b c1 (S1 : same s s1 (plug (F true p cp (N w false wl kw wr) kp :: z) t)
                    (plug (F true p cp (N w1 false a ka b) kp :: z) t)), rb a c1 n -> rb b true n ->
    exists s' z', (do cp <- red (hp s1) p; do s2 <- set_color s1 w1 cp; do s3 <- set_color s2 p false;
         do wr' <- right (hp s3) w1; do s4 <- match wr' with Some b => set_color s3 b false | None => Ok s3 end;
         do s5 <- rotateLeft s4 p; Ok (s5, false)) = Ok (s', false) /\
      same s s' (plug (F true p cp (N w false wl kw wr) kp :: z) t) (plug z' t) /\ exists h, rb (plug z' t) false h).
  { intros s1 w1 a ka b c1 S1 Ha Hb. pose proof S1 as (R1 & _ & _).
    assert (Gp1 : get (hp s1) p = Ok (Node kp cp (cpar z) (ad t) (Some w1))).
    { exact (rep_get s1 z p cp t kp (N w1 false a ka b) R1). }
    go.
    destruct (rep_color s1 (F false p cp t kp :: z) w1 false a ka b cp R1) as (s2 & E2 & H2 & L2).
    rewrite E2. cbn [bind].
    destruct (rep_color s2 z p cp t kp (N w1 cp a ka b) false H2) as (s3 & E3 & H3 & L3).
    rewrite E3. cbn [bind].
    assert (Gw1 : get (hp s3) w1 = Ok (Node ka cp (Some p) (ad a) (ad b))).
    { exact (rep_get s3 (F false p false t kp :: z) w1 cp a ka b H3). }
    go. inversion Hb as [|eb bl kb br ? Hbl Hbr|]; subst. cbn [ad].
    destruct (rep_color s3 (F false w1 cp a ka :: F false p false t kp :: z) eb true bl kb br false H3) as (s4 & E4 & H4 & L4).
    rewrite E4. cbn [bind].
    destruct (rep_rotateLeft s4 z p false t kp w1 cp a ka (N eb false bl kb br) H4) as (s5 & E5 & H5 & L5).
    rewrite E5. cbn [bind].
    exists s5, (F true p false a kp :: F true w1 cp (N eb false bl kb br) ka :: z).
    split; [reflexivity|]. split.
    - apply (same_trans _ _ _ _ _ _ S1). split; [exact H5|split; [|frs]].
      cbn [plug grow1 fs fa fc fsib fk]. apply ents_plug_eq. ent.
    - eapply (rb_plug _ t false n); [|exact Ht].
      econstructor; [exact Ha|]. destruct Hcp as [(-> & Hz1)|(-> & Hz1)].
      + constructor; [econstructor; eassumption|exact Hz1].
      + econstructor; [econstructor; eassumption|exact Hz1]. }
  destruct cr.
  - (* outer nephew red *)
    rewrite andb_false_r. cbn [negb bind].
    destruct (Hend s w wl kw wr cl) as (s' & z' & E1 & S1 & Hh).
    { split; [exact H|split; [reflexivity|apply fr_refl]]. } { exact Hwl. } { exact Hwr. }
    exists s', false, z', t. split; [exact E1|]. split; [exact S1|]. split; [reflexivity|exact Hh].
  - destruct cl; cbn [negb andb].
    + (* inner nephew red *)
      inversion Hwl as [|b wll kb wlr ? Hll Hlr|]; subst. cbn [ad deref bind].
      destruct (rep_color s (F true w false wr kw :: F false p cp t kp :: z) b true wll kb wlr false H) as (s1 & E1 & H1 & L1).
      rewrite E1. cbn [bind].
      destruct (rep_color s1 (F false p cp t kp :: z) w false (N b false wll kb wlr) kw wr true H1) as (s2 & E2 & H2 & L2).
      rewrite E2. cbn [bind].
      destruct (rep_rotateRight s2 (F false p cp t kp :: z) w true b false wll kb wlr kw wr H2) as (s3 & E3 & H3 & L3).
      rewrite E3. cbn [bind].
      assert (Gp3 : get (hp s3) p = Ok (Node kp cp (cpar z) (ad t) (Some b))).
      { exact (rep_get s3 z p cp t kp (N b false wll kb (N w true wlr kw wr)) H3). }
      rewrite Gp3. cbn [bind deref mLeft mRight].
      destruct (Hend s3 b wll kb (N w true wlr kw wr) false) as (s' & z' & E4 & S1 & Hh).
      { split; [exact H3|split; [|frs]]. cbn [plug grow1 fs fa fc fsib fk]. apply ents_plug_eq. ent. }
      { exact Hll. } { constructor; assumption. }
      exists s', false, z', t. split; [exact E4|]. split; [exact S1|]. split; [reflexivity|exact Hh].
    + (* both black *)
      destruct (rep_color s (F false p cp t kp :: z) w false wl kw wr true H) as (s1 & E1 & H1 & L1).
      rewrite E1. cbn [bind].
      exists s1, true, z, (N p cp t kp (N w true wl kw wr)). split; [reflexivity|].
      split; [split; [exact H1|split; [|frs]]|].
      * cbn [plug grow1 fs fa fc fsib fk]. apply ents_plug_eq. ent.
      * split; [reflexivity|]. split; [reflexivity|]. destruct Hcp as [(-> & Hz1)|(-> & Hz1)]; [left|right].
        -- split; [reflexivity|]. split; [reflexivity|]. split; [|exact Hz1]. cbn. eauto using rb.
        -- split; [reflexivity|]. split; [|exact Hz1]. eauto using rb.
Qed.

(** deleteFixup, sibling on the left *)
Lemma sib_right_ok (s : st) z t p cp sib kp n :
  rep s (plug (F false p cp sib kp :: z) t) -> rbz (F false p cp sib kp :: z) false (S n) ->
  exists s' w z' cp' wl kw wr,
    sib_right s p = Ok (s', w) /\
    same s s' (plug (F false p cp sib kp :: z) t) (plug (F false p cp' (N w false wr kw wl) kp :: z') t) /\
    rbz (F false p cp' (N w false wr kw wl) kp :: z') false (S n) /\
    (length z' = length z \/ cp' = true).
Proof.
  intros H Hz.
  assert (Gp : get (hp s) p = Ok (Node kp cp (cpar z) (ad sib) (ad t))).
  { exact (rep_get s z p cp sib kp t H). }
  assert (Hsib : exists w cw wl kw wr, sib = N w cw wr kw wl).
  { inversion Hz as [|? ? ? ? ? ? Hs Hz'|? ? ? ? ? ? ? c' Hs Hz']; subst; inversion Hs; subst; eauto 8. }
  destruct Hsib as (w & cw & wl & kw & wr & ->).
  assert (Gw : get (hp s) w = Ok (Node kw cw (Some p) (ad wr) (ad wl))).
  { exact (rep_get s (F true p cp t kp :: z) w cw wr kw wl H). }
  unfold sib_right. go. destruct cw.
  - inversion Hz as [|? ? ? ? ? ? Hs Hz'|? ? ? ? ? ? ? c' Hs Hz']; subst; [inversion Hs|].
    inversion Hs; subst.
    destruct (rep_color s (F true p false t kp :: z) w true wr kw wl false H) as (s1 & E1 & H1 & L1).
    rewrite E1. cbn [bind].
    destruct (rep_color s1 z p false (N w false wr kw wl) kp t true H1) as (s2 & E2 & H2 & L2).
    rewrite E2. cbn [bind].
    destruct (rep_rotateRight s2 z p true w false wr kw wl kp t H2) as (s3 & E3 & H3 & L3).
    rewrite E3. cbn [bind].
    assert (Gp3 : get (hp s3) p = Ok (Node kp true (Some w) (ad wl) (ad t))).
    { exact (rep_get s3 (F false w false wr kw :: z) p true wl kp t H3). }
    go.
    match goal with Hw : rb wl false (S n) |- _ => inversion Hw as [| |w' wlr kw' wll ? ? ? Hwlr Hwll]; subst end.
    cbn [ad deref bind].
    exists s3, w', (F false w false wr kw :: z), true, wll, kw', wlr.
    split; [reflexivity|]. split; [|split; [|right; reflexivity]].
    + split; [exact H3|split; [|frs]].
      cbn [plug grow1 fs fa fc fsib fk]. apply ents_plug_eq. ent.
    + constructor; [econstructor; eassumption|]. econstructor; eassumption.
  - exists s, w, z, cp, wl, kw, wr. split; [reflexivity|]. split; [split; [exact H|split; [reflexivity|apply fr_refl]]|]. split; [exact Hz|left; reflexivity].
Qed.

Lemma del_right_ok (s : st) z t p cp w wl kw wr kp n :
  rep s (plug (F false p cp (N w false wr kw wl) kp :: z) t) ->
  rbz (F false p cp (N w false wr kw wl) kp :: z) false (S n) -> rb t false n ->
  exists s' b z' t',
    del_right s p w = Ok (s', b) /\
    same s s' (plug (F false p cp (N w false wr kw wl) kp :: z) t) (plug z' t') /\
    if b then z' = z /\ ad t' = Some p /\ ((cp = true /\ isred t' = true /\ rb (blacken t') false (S n) /\ rbz z true (S n)) \/
                                           (cp = false /\ rb t' false (S n) /\ rbz z false (S (S n))))
    else t' = t /\ exists h, rb (plug z' t') false h.
Proof.
  intros H Hz Ht.
  assert (Gw : get (hp s) w = Ok (Node kw false (Some p) (ad wr) (ad wl))).
  { exact (rep_get s (F true p cp t kp :: z) w false wr kw wl H). }
  assert (Hw : rb (N w false wr kw wl) false (S n) /\ ((cp = true /\ rbz z true (S n)) \/ (cp = false /\ rbz z false (S (S n))))).
  { inversion Hz as [|? ? ? ? ? ? Hs Hz'|? ? ? ? ? ? ? c' Hs Hz']; subst; [tauto|].
    pose proof (rb_isred _ _ _ Hs) as Hc; cbn in Hc; subst. tauto. }
  destruct Hw as (Hw & Hcp).
  inversion Hw as [| |? ? ? ? ? cr cl Hwr Hwl]; subst.
  unfold del_right. go.
  assert (Il : is_red (hp s) (ad wl) = Ok cl).
  { rewrite (is_red_rep s (F false w false wr kw :: F true p cp t kp :: z) wl H), (rb_isred _ _ _ Hwl). reflexivity. }
  assert (Ir : is_red (hp s) (ad wr) = Ok cr).
  { rewrite (is_red_rep s (F true w false wl kw :: F true p cp t kp :: z) wr H), (rb_isred _ _ _ Hwr). reflexivity. }
  rewrite Ir. cbn [bind]. rewrite Il. cbn [bind].
  (* the last four steps, from a state where the outer nephew is red *)
  assert (Hend : forall s1 w1 a ka b c1 (S1 : same s s1 (plug (F false p cp (N w false wr kw wl) kp :: z) t)
                    (plug (F false p cp (N w1 false b ka a) kp :: z) t)), rb a c1 n -> rb b true n ->
    exists s' z', (do cp <- red (hp s1) p; do s2 <- set_color s1 w1 cp; do s3 <- set_color s2 p false;
         do wl' <- left (hp s3) w1; do s4 <- match wl' with Some b => set_color s3 b false | None => Ok s3 end;
         do s5 <- rotateRight s4 p; Ok (s5, false)) = Ok (s', false) /\
      same s s' (plug (F false p cp (N w false wr kw wl) kp :: z) t) (plug z' t) /\ exists h, rb (plug z' t) false h).
  { intros s1 w1 a ka b c1 S1 Ha Hb. pose proof S1 as (R1 & _ & _).
    assert (Gp1 : get (hp s1) p = Ok (Node kp cp (cpar z) (Some w1) (ad t))).
    { exact (rep_get s1 z p cp (N w1 false b ka a) kp t R1). }
    go.
    destruct (rep_color s1 (F true p cp t kp :: z) w1 false b ka a cp R1) as (s2 & E2 & H2 & L2).
    rewrite E2. cbn [bind].
    destruct (rep_color s2 z p cp (N w1 cp b ka a) kp t false H2) as (s3 & E3 & H3 & L3).
    rewrite E3. cbn [bind].
    assert (Gw1 : get (hp s3) w1 = Ok (Node ka cp (Some p) (ad b) (ad a))).
    { exact (rep_get s3 (F true p false t kp :: z) w1 cp b ka a H3). }
    go. inversion Hb as [|eb br kb bl ? Hbr Hbl|]; subst. cbn [ad].
    destruct (rep_color s3 (F true w1 cp a ka :: F true p false t kp :: z) eb true br kb bl false H3) as (s4 & E4 & H4 & L4).
    rewrite E4. cbn [bind].
    destruct (rep_rotateRight s4 z p false w1 cp (N eb false br kb bl) ka a kp t H4) as (s5 & E5 & H5 & L5).
    rewrite E5. cbn [bind].
    exists s5, (F false p false a kp :: F false w1 cp (N eb false br kb bl) ka :: z).
    split; [reflexivity|]. split.
    - apply (same_trans _ _ _ _ _ _ S1). split; [exact H5|split; [|frs]].
      cbn [plug grow1 fs fa fc fsib fk]. apply ents_plug_eq. ent.
    - eapply (rb_plug _ t false n); [|exact Ht].
      econstructor; [exact Ha|]. destruct Hcp as [(-> & Hz1)|(-> & Hz1)].
      + constructor; [econstructor; eassumption|exact Hz1].
      + econstructor; [econstructor; eassumption|exact Hz1]. }
  destruct cr.
  - (* outer nephew red *)
    rewrite andb_false_r. cbn [negb bind].
    destruct (Hend s w wl kw wr cl) as (s' & z' & E1 & S1 & Hh).
    { split; [exact H|split; [reflexivity|apply fr_refl]]. } { exact Hwl. } { exact Hwr. }
    exists s', false, z', t. split; [exact E1|]. split; [exact S1|]. split; [reflexivity|exact Hh].
  - destruct cl; cbn [negb andb].
    + (* inner nephew red *)
      inversion Hwl as [|b wlr kb wll ? Hlr Hll|]; subst. cbn [ad deref bind].
      destruct (rep_color s (F false w false wr kw :: F true p cp t kp :: z) b true wlr kb wll false H) as (s1 & E1 & H1 & L1).
      rewrite E1. cbn [bind].
      destruct (rep_color s1 (F true p cp t kp :: z) w false wr kw (N b false wlr kb wll) true H1) as (s2 & E2 & H2 & L2).
      rewrite E2. cbn [bind].
      destruct (rep_rotateLeft s2 (F true p cp t kp :: z) w true wr kw b false wlr kb wll H2) as (s3 & E3 & H3 & L3).
      rewrite E3. cbn [bind].
      assert (Gp3 : get (hp s3) p = Ok (Node kp cp (cpar z) (Some b) (ad t))).
      { exact (rep_get s3 z p cp (N b false (N w true wr kw wlr) kb wll) kp t H3). }
      rewrite Gp3. cbn [bind deref mRight mLeft].
      destruct (Hend s3 b wll kb (N w true wr kw wlr) false) as (s' & z' & E4 & S1 & Hh).
      { split; [exact H3|split; [|frs]]. cbn [plug grow1 fs fa fc fsib fk]. apply ents_plug_eq. ent. }
      { exact Hll. } { constructor; assumption. }
      exists s', false, z', t. split; [exact E4|]. split; [exact S1|]. split; [reflexivity|exact Hh].
    + (* both black *)
      destruct (rep_color s (F true p cp t kp :: z) w false wr kw wl true H) as (s1 & E1 & H1 & L1).
      rewrite E1. cbn [bind].
      exists s1, true, z, (N p cp (N w true wr kw wl) kp t). split; [reflexivity|].
      split; [split; [exact H1|split; [|frs]]|].
      * cbn [plug grow1 fs fa fc fsib fk]. apply ents_plug_eq. ent.
      * split; [reflexivity|]. split; [reflexivity|]. destruct Hcp as [(-> & Hz1)|(-> & Hz1)]; [left|right].
        -- split; [reflexivity|]. split; [reflexivity|]. split; [|exact Hz1]. cbn. eauto using rb.
        -- split; [reflexivity|]. split; [|exact Hz1]. eauto using rb.
Qed.


Lemma same_refl (s : st) t : rep s t -> same s s t t.
Proof. intro H. split; [exact H|split; [reflexivity|apply fr_refl]]. Qed.

Lemma del_red (s : st) z t f xp : rep s (plug z t) -> isred t = true -> del_loop (S f) s (ad t) xp = Ok (s, ad t).
Proof.
  intros H Ht. cbn [del_loop]. destruct (ptr_eqb (ad t) (rt s)); [reflexivity|].
  rewrite (is_red_rep s z t H), Ht. reflexivity.
Qed.

Lemma del_loop_ok : forall f z s t n, length z < f ->
  rep s (plug z t) -> rbz z false (S n) -> (isred t = true /\ rb (blacken t) false (S n)) \/ rb t false n ->
  exists s' z' t', del_loop f s (ad t) (cpar z) = Ok (s', ad t') /\ same s s' (plug z t) (plug z' t') /\
    exists h, rb (plug z' (blacken t')) false h.
Proof.
  induction f as [|f IH]; intros z s t n Hf H Hz Ht; [lia|].
  destruct Ht as [(Hred & Hb)|Ht].
  { exists s, z, t. split; [apply (del_red _ z); assumption|]. split; [apply same_refl; exact H|].
    exact (rb_plug _ _ _ _ Hz Hb). }
  destruct z as [|[sd p cp sib kp] z].
  { exists s, [], t. split; [|split; [apply same_refl; exact H|]].
    - cbn [del_loop]. destruct H as (_ & Hr & _). rewrite Hr. cbn [plug].
      replace (ptr_eqb (ad t) (ad t)) with true; [reflexivity|]. destruct t; [reflexivity|]. cbn [ad]. rewrite ptr_eqb_refl. reflexivity.
    - cbn [plug]. exact (rb_blacken _ _ _ Ht). }
  cbn [del_loop]. cbn [length] in Hf.
  assert (Hnr : ptr_eqb (ad t) (rt s) = false).
  { destruct t as [|a c l k r].
    - destruct H as (_ & Hr & _). rewrite Hr. cbn [ad plug].
      assert (Hs : forall (y : list frame) (t : tr), t <> E -> exists b, ad (plug y t) = Some b).
      { clear. induction y as [|g y IH]; intros t Ht; cbn [plug].
        - destruct t; [elim Ht; reflexivity|cbn; eauto]. - apply IH. unfold grow1. destruct (fs g); discriminate. }
      destruct (Hs z (grow1 (F sd p cp sib kp) E)) as (b & ->); [unfold grow1; cbn; destruct sd; discriminate|reflexivity].
    - apply (not_root _ _ _ _ _ _ _ H). discriminate. }
  rewrite Hnr, (is_red_rep s _ t H), (rb_isred _ _ _ Ht). cbn [bind cpar deref fa].
  assert (Hsib : exists c, rb sib c (S n)).
  { inversion Hz; subst; eauto. }
  destruct Hsib as (cs & Hsib).
  destruct sd.
  - assert (Gp : get (hp s) p = Ok (Node kp cp (cpar z) (ad t) (ad sib))) by exact (rep_get s z p cp t kp sib H).
    go. replace (ptr_eqb (ad t) (ad t)) with true by (destruct t; [reflexivity|]; cbn [ad]; rewrite ptr_eqb_refl; reflexivity).
    destruct (sib_left_ok s z t p cp sib kp n H Hz) as (s1 & w & z1 & cp1 & wl & kw & wr & E1 & S1 & Hz1 & Hlen).
    rewrite E1. cbn [bind].
    destruct (del_left_ok s1 z1 t p cp1 w wl kw wr kp n (proj1 S1) Hz1 Ht) as (s2 & b & z2 & t2 & E2 & S2 & Hres).
    rewrite E2. cbn [bind]. pose proof (same_trans _ _ _ _ _ _ S1 S2) as S3. destruct b.
    + destruct Hres as (-> & Hp & Hc).
      destruct t2 as [|a2 c2 l2 k2 r2]; [discriminate|]. cbn [ad] in Hp. injection Hp as ->.
      assert (Gp2 : get (hp s2) p = Ok (Node k2 c2 (cpar z1) (ad l2) (ad r2))).
      { exact (rep_get _ _ _ _ _ _ _ (proj1 S2)). }
      go.
      change (Some p) with (ad (N p c2 l2 k2 r2)).
      destruct Hc as [(-> & Hr2 & Hb & Hz2)|(-> & Hb & Hz2)].
      * destruct f as [|f]; [lia|].
        exists s2, z1, (N p c2 l2 k2 r2). split; [apply (del_red _ z1); [exact (proj1 S2)|exact Hr2]|]. split; [exact S3|].
        exact (rb_plug _ _ _ _ (rbz_weaken _ _ Hz2) Hb).
      * destruct (IH z1 s2 (N p c2 l2 k2 r2) (S n)) as (s' & z' & t' & E4 & S4 & Hh).
        { destruct Hlen as [Hlen|Hlen]; [lia|discriminate]. } { exact (proj1 S2). } { exact Hz2. } { right; exact Hb. }
        exists s', z', t'. split; [exact E4|]. split; [exact (same_trans _ _ _ _ _ _ S3 S4)|exact Hh].
    + destruct Hres as (-> & Hh). exists s2, z2, t. split; [reflexivity|]. split; [exact S3|].
      rewrite (blacken_black _ _ Ht). exact Hh.
  - assert (Gp : get (hp s) p = Ok (Node kp cp (cpar z) (ad sib) (ad t))) by exact (rep_get s z p cp sib kp t H).
    go.
    assert (Hne : ptr_eqb (ad t) (ad sib) = false).
    { destruct sib as [|e ce le ke re]; [inversion Hsib|]. destruct t as [|e' ce' le' ke' re']; [reflexivity|]. apply ptr_eqb_ne. intros ->.
      destruct H as (_ & _ & Hnd). specialize (Hnd e). rewrite cnt_plug in Hnd. cbn [cntz fa fsib] in Hnd. rewrite !cnt_N, !one_eq in Hnd. lia. }
    rewrite Hne.
    destruct (sib_right_ok s z t p cp sib kp n H Hz) as (s1 & w & z1 & cp1 & wl & kw & wr & E1 & S1 & Hz1 & Hlen).
    rewrite E1. cbn [bind].
    destruct (del_right_ok s1 z1 t p cp1 w wl kw wr kp n (proj1 S1) Hz1 Ht) as (s2 & b & z2 & t2 & E2 & S2 & Hres).
    rewrite E2. cbn [bind]. pose proof (same_trans _ _ _ _ _ _ S1 S2) as S3. destruct b.
    + destruct Hres as (-> & Hp & Hc).
      destruct t2 as [|a2 c2 l2 k2 r2]; [discriminate|]. cbn [ad] in Hp. injection Hp as ->.
      assert (Gp2 : get (hp s2) p = Ok (Node k2 c2 (cpar z1) (ad l2) (ad r2))).
      { exact (rep_get _ _ _ _ _ _ _ (proj1 S2)). }
      go.
      change (Some p) with (ad (N p c2 l2 k2 r2)).
      destruct Hc as [(-> & Hr2 & Hb & Hz2)|(-> & Hb & Hz2)].
      * destruct f as [|f]; [lia|].
        exists s2, z1, (N p c2 l2 k2 r2). split; [apply (del_red _ z1); [exact (proj1 S2)|exact Hr2]|]. split; [exact S3|].
        exact (rb_plug _ _ _ _ (rbz_weaken _ _ Hz2) Hb).
      * destruct (IH z1 s2 (N p c2 l2 k2 r2) (S n)) as (s' & z' & t' & E4 & S4 & Hh).
        { destruct Hlen as [Hlen|Hlen]; [lia|discriminate]. } { exact (proj1 S2). } { exact Hz2. } { right; exact Hb. }
        exists s', z', t'. split; [exact E4|]. split; [exact (same_trans _ _ _ _ _ _ S3 S4)|exact Hh].
    + destruct Hres as (-> & Hh). exists s2, z2, t. split; [reflexivity|]. split; [exact S3|].
      rewrite (blacken_black _ _ Ht). exact Hh.
Qed.
End RB.
