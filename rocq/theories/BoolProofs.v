(** Lemmas for Boolean monomials (bmonom). *)
From Coq Require Import ZArith List Bool Arith Sorted Lia Permutation.
From Verif Require Import Outcome BoolModel BoolSpec.
Import ListNotations.
Local Open Scope Z_scope.

Lemma dec_cons : forall x l, decreasing (x :: l) <-> decreasing l /\ forall y, In y l -> y < x.
Proof.
  intros x l. unfold decreasing. split.
  - intros H. inversion H as [|? ? Hs Hf]; subst. split; [exact Hs|]. rewrite Forall_forall in Hf. intros y Hy. specialize (Hf y Hy). lia.
  - intros [Hs Hf]. constructor; [exact Hs|]. rewrite Forall_forall. intros y Hy. specialize (Hf y Hy). lia.
Qed.
Lemma dec_nil : decreasing [].
Proof. constructor. Qed.
Lemma dec_NoDup : forall l, decreasing l -> NoDup l.
Proof.
  induction l as [|x l IH]; intros H; [constructor|]. apply dec_cons in H as [Hl Hx]. constructor; [|auto].
  intros Hi. specialize (Hx x Hi). lia.
Qed.
Lemma dec_ext : forall a b, decreasing a -> decreasing b -> (forall x, In x a <-> In x b) -> a = b.
Proof.
  induction a as [|x a IH]; intros [|y b] Ha Hb He; [reflexivity| | |].
  - destruct (He y) as [_ H]. destruct (H (or_introl eq_refl)).
  - destruct (He x) as [H _]. destruct (H (or_introl eq_refl)).
  - apply dec_cons in Ha as [Ha Hx]. apply dec_cons in Hb as [Hb Hy].
    assert (Hxy : x = y).
    { destruct (proj1 (He x) (or_introl eq_refl)) as [->|H1]; [reflexivity|].
      destruct (proj2 (He y) (or_introl eq_refl)) as [->|H2]; [reflexivity|].
      specialize (Hx y H2). specialize (Hy x H1). lia. }
    subst y. f_equal. apply IH; [exact Ha|exact Hb|]. intros z. specialize (He z). cbn [In] in He. split; intros Hz.
    + destruct (proj1 He (or_intror Hz)) as [<-|H]; [specialize (Hx x Hz); lia|exact H].
    + destruct (proj2 He (or_intror Hz)) as [<-|H]; [specialize (Hy x Hz); lia|exact H].
Qed.
Lemma dec_app : forall a b, decreasing (a ++ b) <-> decreasing a /\ decreasing b /\ forall x y, In x a -> In y b -> y < x.
Proof.
  induction a as [|z a IH]; intros b; cbn [app].
  - split; [intros H; split; [apply dec_nil|split; [exact H|intros ? ? []]]|intros (_ & H & _); exact H].
  - rewrite !dec_cons, IH. split.
    + intros ((Ha & Hb & Hab) & Hz). split; [split; [exact Ha|intros y Hy; apply Hz, in_or_app; auto]|].
      split; [exact Hb|]. intros x y [<-|Hx] Hy; [apply Hz, in_or_app; auto|eauto].
    + intros ((Ha & Hz) & Hb & Hab). split; [split; [exact Ha|split; [exact Hb|intros x y Hx Hy; apply Hab; [right; exact Hx|exact Hy]]]|].
      intros y Hy. apply in_app_or in Hy as [Hy|Hy]; [auto|]. apply Hab; [left; reflexivity|exact Hy].
Qed.

(** ** Objects *)
Lemma shows_iff : forall m l, shows m l <-> decreasing l /\ bread m = Ok l /\ bdeg m = length l /\ (bdeg m <= bsize m)%nat.
Proof.
  intros m l. unfold shows, bm_degree, bread. split.
  - intros (Hd & Hl & Hs & Hg). split; [exact Hd|]. split; [|split; [exact Hl|exact Hs]].
    assert (Hn : forall i x, nth_error l i = Some x -> nth_error (bcells m) i = Some x).
    { intros i x Hi. specialize (Hg i x Hi). unfold bm_get, assert_ in Hg.
      destruct (i <? bdeg m)%nat; cbn [negb andb] in Hg; [|discriminate].
      destruct (nth_error (bcells m) i); [congruence|discriminate]. }
    assert (Hlen : (length l <= length (bcells m))%nat).
    { destruct l as [|x0 l0]; [cbn; lia|]. destruct (nth_error (x0 :: l0) (length l0)) as [x|] eqn:E.
      - apply Hn in E. assert (length l0 < length (bcells m))%nat by (apply nth_error_Some; congruence). cbn [length]. lia.
      - apply nth_error_None in E. cbn [length] in E. lia. }
    destruct (Nat.leb_spec (bdeg m) (length (bcells m))) as [_|H]; [|lia]. f_equal. rewrite Hl. clear -Hn Hlen.
    revert Hn Hlen. generalize (bcells m). induction l as [|x l IH]; intros c Hn Hlen; [reflexivity|].
    destruct c as [|y c]; [cbn in Hlen; lia|]. cbn [length firstn]. f_equal.
    + specialize (Hn 0%nat x eq_refl). cbn in Hn. congruence.
    + apply IH; [intros i z Hi; exact (Hn (S i) z Hi)|cbn in Hlen; lia].
  - intros (Hd & Hr & Hl & Hs). split; [exact Hd|]. split; [exact Hl|]. split; [exact Hs|].
    intros i x Hi. unfold bm_get, assert_. assert (Hb : (i < length l)%nat) by (apply nth_error_Some; congruence).
    destruct (Nat.ltb_spec i (bdeg m)) as [_|H]; [|lia]. cbn [negb andb].
    destruct (Nat.leb_spec (bdeg m) (length (bcells m))) as [H|H]; [|discriminate]. injection Hr as Hr.
    rewrite <- Hr in Hi. replace (nth_error (bcells m) i) with (nth_error (firstn (bdeg m) (bcells m)) i); [rewrite Hi; reflexivity|].
    clear -Hb Hl. rewrite <- Hl in Hb. revert Hb. generalize (bcells m), (bdeg m). intros c n; revert c i.
    induction n as [|n IH]; intros c i Hb; [lia|]. destruct c; [rewrite firstn_nil; reflexivity|]. destruct i; [reflexivity|]. cbn. apply IH. lia.
Qed.
Lemma shows_read : forall m l, shows m l -> bread m = Ok l /\ bdeg m = length l /\ decreasing l.
Proof. intros m l H. apply shows_iff in H. tauto. Qed.
Lemma shows_mk : forall n l, decreasing l -> (length l <= n)%nat -> shows (mkBM n (length l) l) l.
Proof.
  intros n l Hd Hn. apply shows_iff. unfold bread. cbn [bdeg bcells bsize]. rewrite Nat.leb_refl, firstn_all. auto.
Qed.
Lemma shows_fun : forall m a b, shows m a -> shows m b -> a = b.
Proof. intros m a b Ha Hb. apply shows_read in Ha as (Ha & _). apply shows_read in Hb as (Hb & _). congruence. Qed.

Lemma bdecr_ok : forall t x, decreasing (x :: t) -> bdecr x t = true.
Proof.
  induction t as [|y t IH]; intros x H; [reflexivity|]. apply dec_cons in H as [Ht Hx]. cbn [bdecr].
  specialize (Hx y (or_introl eq_refl)). destruct (Z.leb_spec x y); [lia|]. apply IH, Ht.
Qed.
Lemma valid_ok : forall m l, shows m l -> bm_valid m = Ok true.
Proof.
  intros m l H. apply shows_iff in H as (Hd & Hr & _ & Hs). unfold bm_valid. destruct (Nat.leb_spec (bdeg m) (bsize m)) as [_|H]; [|lia].
  rewrite Hr. cbn [bind]. destruct l as [|x t]; [reflexivity|]. rewrite bdecr_ok; [reflexivity|exact Hd].
Qed.
Lemma check_ok : forall dbg m l, shows m l -> bm_check dbg m = Ok m.
Proof. intros dbg m l H. unfold bm_check. destruct dbg; [|reflexivity]. rewrite (valid_ok _ _ H). reflexivity. Qed.

Lemma bput_ok : forall cap out v, (length out < cap)%nat -> bput cap out v = Ok (out ++ [v]).
Proof. intros. unfold bput. destruct (Nat.ltb_spec (length out) cap); [reflexivity|lia]. Qed.
Lemma bcopy_ok : forall cap ia out, (length out + length ia <= cap)%nat -> bcopy cap ia out = Ok (out ++ ia).
Proof.
  induction ia as [|x t IH]; intros out H; cbn [bcopy]; [rewrite app_nil_r; reflexivity|]. cbn [length] in H.
  rewrite bput_ok by lia. cbn [bind]. rewrite IH by (rewrite app_length; cbn [length]; lia). rewrite <- app_assoc. reflexivity.
Qed.

Lemma one_ok : shows bm_one [].
Proof. apply (shows_mk 0 []); [apply dec_nil|cbn; lia]. Qed.
Lemma var_ok : forall v, shows (bm_var v) [v].
Proof. intros v. apply (shows_mk 1 [v]); [apply dec_cons; split; [apply dec_nil|intros y []]|cbn; lia]. Qed.
Lemma copy_ok : forall dbg a l, shows a l -> exists c, bm_copy dbg a = Ok c /\ shows c l.
Proof.
  intros dbg a l H. destruct (shows_read _ _ H) as (Hr & Hl & Hd). unfold bm_copy. rewrite Hr. cbn [bind].
  rewrite bcopy_ok by (cbn [length]; lia). cbn [bind app]. rewrite Hl.
  pose proof (shows_mk (length l) l Hd (le_n _)) as Hm. rewrite (check_ok dbg _ _ Hm). eauto.
Qed.

Lemma take_ok : forall cap v ia out, decreasing ia -> (length out + length ia <= cap)%nat ->
  exists up ib, ia = up ++ ib /\ btake_above cap v ia out = Ok (ib, out ++ up) /\ (forall x, In x up -> v < x) /\
    match ib with [] => True | x :: _ => x <= v end.
Proof.
  induction ia as [|x t IH]; intros out Hd Hc; cbn [btake_above].
  - exists [], []. split; [reflexivity|]. split; [rewrite app_nil_r; reflexivity|]. split; [intros ? []|exact I].
  - apply dec_cons in Hd as [Ht Hx]. cbn [length] in Hc. destruct (Z.ltb_spec v x) as [Hv|Hv].
    + rewrite bput_ok by lia. cbn [bind]. destruct (IH (out ++ [x]) Ht ltac:(rewrite app_length; cbn [length]; lia)) as (up & ib & -> & He & Hu & Hi).
      exists (x :: up), ib. split; [reflexivity|]. split; [rewrite He, <- app_assoc; reflexivity|]. split; [|exact Hi].
      intros y [<-|Hy]; [exact Hv|auto].
    + exists [], (x :: t). split; [reflexivity|]. split; [rewrite app_nil_r; reflexivity|]. split; [intros ? []|exact Hv].
Qed.
Lemma mulvar_ok : forall dbg a l v, shows a l ->
  exists c u, bm_mulvar dbg a v = Ok c /\ shows c u /\ forall x, In x u <-> x = v \/ In x l.
Proof.
  intros dbg a l v H. destruct (shows_read _ _ H) as (Hr & Hl & Hd). unfold bm_mulvar. rewrite Hl.
  destruct (Nat.eqb_spec (length l + 1) 1) as [H1|H1].
  - assert (l = []) by (destruct l; [reflexivity|cbn in H1; lia]). subst l. cbn [length Nat.add] in *.
    rewrite bput_ok by (cbn; lia). cbn [bind app]. exists (mkBM 1 1 [v]), [v]. pose proof (var_ok v) as Hv. unfold bm_var in Hv; rewrite (check_ok dbg _ _ Hv).
    split; [reflexivity|]. split; [exact Hv|]. intros x; cbn [In]; intuition congruence.
  - rewrite Hr. cbn [bind]. destruct (take_ok (length l + 1) v l [] Hd ltac:(cbn; lia)) as (up & ib & El & He & Hu & Hi).
    rewrite He. cbn [bind app]. assert (Hlen : (length l = length up + length ib)%nat) by (rewrite El, app_length; reflexivity).
    rewrite bput_ok by lia. cbn [bind]. rewrite El in Hd. apply dec_app in Hd as (Hup & Hib & Hui).
    destruct ib as [|x t].
    + cbn [length] in Hlen. assert (Hdu : decreasing (up ++ [v])).
      { apply dec_app. split; [exact Hup|]. split; [exact (proj1 (var_ok v))|]. intros z y Hz [<-|[]]. auto. }
      replace (length l + 1)%nat with (length (up ++ [v])) by (rewrite app_length; cbn [length]; lia).
      pose proof (shows_mk _ _ Hdu (le_n _)) as Hm. rewrite (check_ok dbg _ _ Hm).
      do 2 eexists. split; [reflexivity|]. split; [exact Hm|]. intros z. rewrite El, !in_app_iff. cbn [In]. intuition congruence.
    + apply dec_cons in Hib as [Ht Hx]. destruct (Z.eqb_spec x v) as [->|Hne].
      * cbn [length] in Hlen. rewrite bcopy_ok by (rewrite app_length; cbn [length]; lia). cbn [bind].
        assert (Hdu : decreasing ((up ++ [v]) ++ t)).
        { rewrite <- app_assoc. cbn [app]. apply dec_app. split; [exact Hup|]. split; [apply dec_cons; auto|].
          intros z y Hz [<-|Hy]; [auto|]. apply Hui; [exact Hz|right; exact Hy]. }
        replace (length l + 1 - 1)%nat with (length ((up ++ [v]) ++ t)) by (rewrite !app_length; cbn [length]; lia).
        pose proof (shows_mk (length l + 1) _ Hdu ltac:(rewrite !app_length; cbn [length]; lia)) as Hm. rewrite (check_ok dbg _ _ Hm).
        do 2 eexists. split; [reflexivity|]. split; [exact Hm|]. intros z. rewrite El, !in_app_iff. cbn [In]. intuition congruence.
      * rewrite bcopy_ok by (rewrite app_length; cbn [length] in *; lia). cbn [bind].
        assert (Hdu : decreasing ((up ++ [v]) ++ x :: t)).
        { rewrite <- app_assoc. cbn [app]. apply dec_app. split; [exact Hup|]. split.
          - apply dec_cons. split; [apply dec_cons; auto|]. intros y [<-|Hy]; [lia|]. specialize (Hx y Hy). lia.
          - intros z y Hz [<-|Hy]; [auto|]. apply Hui; assumption. }
        replace (length l + 1)%nat with (length ((up ++ [v]) ++ x :: t)) by (rewrite !app_length; cbn [length] in *; lia).
        pose proof (shows_mk _ _ Hdu (le_n _)) as Hm. rewrite (check_ok dbg _ _ Hm).
        do 2 eexists. split; [reflexivity|]. split; [exact Hm|]. intros z. rewrite El, !in_app_iff. cbn [In]. intuition congruence.
Qed.

Lemma bmerge_eq : forall cap ia ib out deg, bmerge cap ia ib out deg =
    match ia with
    | [] => do out' <- bcopy cap ib out; Ok (out', deg)
    | x :: ta =>
      match ib with
      | [] => do out' <- bcopy cap ia out; Ok (out', deg)
      | y :: tb =>
        if (y <? x)%Z then do out' <- bput cap out x; bmerge cap ta ib out' deg
        else if (x <? y)%Z then do out' <- bput cap out y; bmerge cap ia tb out' deg
        else do out' <- bput cap out x; bmerge cap ta tb out' (deg - 1)
      end
    end.
Proof. intros cap [|x ta] [|y tb] out deg; reflexivity. Qed.
Lemma bmerge_ok : forall cap n ia ib out deg, (length ia + length ib <= n)%nat -> decreasing ia -> decreasing ib ->
  (length out + length ia + length ib <= cap)%nat -> (length ia + length ib <= deg)%nat ->
  exists u d, bmerge cap ia ib out deg = Ok (out ++ u, d) /\ decreasing u /\ (forall x, In x u <-> In x ia \/ In x ib) /\
    (d + (length ia + length ib) = deg + length u)%nat /\ (length u <= length ia + length ib)%nat.
Proof.
  intros cap. induction n as [|n IH]; intros ia ib out deg Hn Ha Hb Hc Hdg; rewrite bmerge_eq.
  { destruct ia, ib; cbn [length] in Hn; try lia. cbn [bcopy bind]. exists [], deg. rewrite app_nil_r. cbn. intuition. }
  destruct ia as [|x ta]; [|destruct ib as [|y tb]].
  - rewrite bcopy_ok by (cbn [length] in Hc; lia). cbn [bind]. exists ib, deg. split; [reflexivity|]. split; [exact Hb|]. cbn [In length]. split; [intuition|lia].
  - rewrite bcopy_ok by (cbn [length] in *; lia). cbn [bind]. exists (x :: ta), deg. split; [reflexivity|]. split; [exact Ha|]. split; [cbn [In]; intuition|cbn [length]; lia].
  - pose proof Ha as Ha'. pose proof Hb as Hb'. apply dec_cons in Ha as [Ha Hx]. apply dec_cons in Hb as [Hb Hy].
    cbn [length] in Hn, Hc, Hdg. destruct (Z.ltb_spec y x) as [Hyx|Hyx]; [|destruct (Z.ltb_spec x y) as [Hxy|Hxy]].
    + rewrite bput_ok by lia. cbn [bind].
      destruct (IH ta (y :: tb) (out ++ [x]) deg ltac:(cbn [length]; lia) Ha Hb' ltac:(rewrite app_length; cbn [length]; lia) ltac:(cbn [length]; lia)) as (u & d & He & Hu & Hi & Hd & Hl).
      exists (x :: u), d. split; [rewrite He, <- app_assoc; reflexivity|]. split.
      * apply dec_cons. split; [exact Hu|]. intros z Hz. apply Hi in Hz as [Hz|[<-|Hz]]; [auto|exact Hyx|specialize (Hy z Hz); lia].
      * split; [intros z; cbn [In]; rewrite Hi; cbn [In]; intuition|]. cbn [length] in *. lia.
    + rewrite bput_ok by lia. cbn [bind].
      destruct (IH (x :: ta) tb (out ++ [y]) deg ltac:(cbn [length]; lia) Ha' Hb ltac:(rewrite app_length; cbn [length]; lia) ltac:(cbn [length]; lia)) as (u & d & He & Hu & Hi & Hd & Hl).
      exists (y :: u), d. split; [rewrite He, <- app_assoc; reflexivity|]. split.
      * apply dec_cons. split; [exact Hu|]. intros z Hz. apply Hi in Hz as [[<-|Hz]|Hz]; [exact Hxy|specialize (Hx z Hz); lia|auto].
      * split; [intros z; cbn [In]; rewrite Hi; cbn [In]; intuition|]. cbn [length] in *. lia.
    + assert (x = y) by lia. subst y. rewrite bput_ok by lia. cbn [bind].
      destruct (IH ta tb (out ++ [x]) (deg - 1)%nat ltac:(lia) Ha Hb ltac:(rewrite app_length; cbn [length]; lia) ltac:(lia)) as (u & d & He & Hu & Hi & Hd & Hl).
      exists (x :: u), d. split; [rewrite He, <- app_assoc; reflexivity|]. split.
      * apply dec_cons. split; [exact Hu|]. intros z Hz. apply Hi in Hz as [Hz|Hz]; auto.
      * split; [intros z; cbn [In]; rewrite Hi; intuition|]. cbn [length] in *. lia.
Qed.
Lemma mul_ok : forall dbg a b la lb, shows a la -> shows b lb ->
  exists c u, bm_mul dbg a b = Ok c /\ shows c u /\ forall x, In x u <-> In x la \/ In x lb.
Proof.
  intros dbg a b la lb Ha Hb. destruct (shows_read _ _ Ha) as (Hra & Hla & Hda). destruct (shows_read _ _ Hb) as (Hrb & Hlb & Hdb).
  unfold bm_mul. rewrite Hla, Hlb. destruct (Nat.eqb_spec (length la + length lb) 0) as [H0|H0].
  - rewrite H0. destruct la, lb; cbn [length] in H0; try lia. exists bm_one, []. change (mkBM 0 0 []) with bm_one. rewrite (check_ok dbg _ _ one_ok).
    split; [reflexivity|]. split; [exact one_ok|]. cbn; tauto.
  - rewrite Hra, Hrb. cbn [bind].
    destruct (bmerge_ok (length la + length lb) (length la + length lb) la lb [] (length la + length lb) (le_n _) Hda Hdb (le_n _) (le_n _)) as (u & d & He & Hu & Hi & Hd & Hl).
    rewrite He. cbn [bind app]. assert (d = length u) by lia. subst d.
    pose proof (shows_mk _ _ Hu Hl) as Hm. rewrite (check_ok dbg _ _ Hm). eauto.
Qed.

Lemma bover_read : forall l c, firstn (length l) (bover l c) = l /\ (length l <= length (bover l c))%nat.
Proof.
  induction l as [|x l IH]; intros c; [cbn; split; [reflexivity|lia]|]. destruct c as [|y c]; cbn [bover length firstn].
  - destruct (IH []) as [-> H]. split; [reflexivity|lia].
  - destruct (IH c) as [-> H]. split; [reflexivity|lia].
Qed.
Lemma assign_ok : forall dbg self a ls la, shows self ls -> shows a la -> exists c, bm_assign dbg self a = Ok c /\ shows c la.
Proof.
  intros dbg self a ls la Hs Ha. destruct (shows_read _ _ Ha) as (Hra & Hla & Hda). unfold bm_assign. rewrite Hla.
  destruct (Nat.eqb_spec (length la) 0) as [H0|H0].
  - assert (la = []) by (destruct la; [reflexivity|cbn in H0; lia]). subst la. cbn [length].
    destruct (Nat.ltb_spec (bsize self) 0) as [H|_]; [lia|].
    assert (Hm : shows (mkBM (bsize self) 0 (bcells self)) []).
    { apply shows_iff. split; [apply dec_nil|]. split; [reflexivity|]. cbn. split; [reflexivity|lia]. }
    rewrite (check_ok dbg _ _ Hm). eauto.
  - rewrite Hra. cbn [bind].
    match goal with |- context [mkBM (bsize ?g) _ (bover la (bcells ?g))] => set (gr := g) end.
    assert (Hg : (length la <= bsize gr)%nat) by (unfold gr; destruct (Nat.ltb_spec (bsize self) (length la)); cbn [bsize]; lia).
    assert (Hm : shows (mkBM (bsize gr) (length la) (bover la (bcells gr))) la).
    { apply shows_iff. split; [exact Hda|]. unfold bread. cbn [bdeg bcells bsize]. destruct (bover_read la (bcells gr)) as [Hf Hb].
      destruct (Nat.leb_spec (length la) (length (bover la (bcells gr)))); [|lia]. rewrite Hf. auto. }
    rewrite (check_ok dbg _ _ Hm). eauto.
Qed.

(** ** Divisibility and quotient *)
Lemma bincl_ok : forall i ia, decreasing i -> decreasing ia -> (bincl i ia = true <-> incl ia i).
Proof.
  induction i as [|x t IH]; intros [|y ta] Hi Ha; cbn [bincl].
  - split; [intros _ ? []|reflexivity].
  - split; [discriminate|]. intros H. destruct (H y (or_introl eq_refl)).
  - split; [intros _ ? []|reflexivity].
  - pose proof Ha as Ha'. apply dec_cons in Hi as [Ht Hx]. apply dec_cons in Ha as [Hta Hy].
    destruct (Z.ltb_spec y x) as [H1|H1]; [|destruct (Z.ltb_spec x y) as [H2|H2]].
    + rewrite (IH (y :: ta) Ht Ha'). split; intros H z Hz; [right; auto|].
      destruct (H z Hz) as [<-|Hz']; [|exact Hz']. destruct Hz as [->|Hz]; [lia|specialize (Hy x Hz); lia].
    + split; [discriminate|]. intros H. destruct (H y (or_introl eq_refl)) as [->|Hz]; [lia|specialize (Hx y Hz); lia].
    + assert (x = y) by lia. subst y. rewrite (IH ta Ht Hta). split; intros H z Hz.
      * destruct Hz as [<-|Hz]; [left; reflexivity|right; auto].
      * destruct (H z (or_intror Hz)) as [<-|Hz']; [specialize (Hy x Hz); lia|exact Hz'].
Qed.
Lemma divisible_ok : forall m a l la, shows m l -> shows a la ->
  exists r, bm_divisible m a = Ok r /\ (r = true <-> incl la l).
Proof.
  intros m a l la Hm Ha. destruct (shows_read _ _ Ha) as (Hra & Hla & Hda). destruct (shows_read _ _ Hm) as (Hrm & Hlm & Hdm).
  unfold bm_divisible. rewrite Hla, Hlm. destruct (Nat.eqb_spec (length la) 0) as [H0|H0].
  - exists true. split; [reflexivity|]. destruct la; [|cbn in H0; lia]. split; [intros _ ? []|reflexivity].
  - destruct (Nat.ltb_spec (length l) (length la)) as [H1|H1].
    + exists false. split; [reflexivity|]. split; [discriminate|]. intros H. pose proof (NoDup_incl_length (dec_NoDup _ Hda) H). lia.
    + rewrite Hrm, Hra. cbn [bind]. exists (bincl l la). split; [reflexivity|apply bincl_ok; assumption].
Qed.
Lemma bquot_ok : forall dbg cap ia ib out, decreasing ia -> decreasing ib -> incl ib ia ->
  (length out + length ia <= cap + length ib)%nat ->
  exists u, bquot dbg cap ia ib out = Ok (out ++ u) /\ decreasing u /\ (forall x, In x u <-> In x ia /\ ~ In x ib) /\
    (length u + length ib = length ia)%nat.
Proof.
  intros dbg cap. induction ia as [|x t IH]; intros ib out Hi Hb Hin Hc; destruct ib as [|y tb]; cbn [bquot].
  - rewrite bcopy_ok by (cbn [length] in *; lia). exists []. split; [reflexivity|]. split; [apply dec_nil|]. cbn; intuition.
  - destruct (Hin y (or_introl eq_refl)).
  - rewrite bcopy_ok by (cbn [length] in *; lia). exists (x :: t). split; [reflexivity|]. split; [exact Hi|]. split; [cbn [In]; intuition|cbn [length]; lia].
  - pose proof Hb as Hb'. apply dec_cons in Hi as [Ht Hx]. apply dec_cons in Hb as [Htb Hy]. cbn [length] in Hc.
    destruct (Z.ltb_spec y x) as [H1|H1].
    + assert (Hin' : incl (y :: tb) t).
      { intros z Hz. destruct (Hin z Hz) as [<-|Hz']; [|exact Hz']. destruct Hz as [->|Hz]; [lia|specialize (Hy x Hz); lia]. }
      pose proof (NoDup_incl_length (dec_NoDup _ Hb') Hin') as Hlen. cbn [length] in Hlen.
      rewrite bput_ok by lia. cbn [bind].
      destruct (IH (y :: tb) (out ++ [x]) Ht Hb' Hin' ltac:(rewrite app_length; cbn [length]; lia)) as (u & He & Hu & Hiu & Hl).
      exists (x :: u). split; [rewrite He, <- app_assoc; reflexivity|]. split.
      * apply dec_cons. split; [exact Hu|]. intros z Hz. apply Hiu in Hz as [Hz _]. auto.
      * split; [|cbn [length] in *; lia]. intros z. cbn [In] in *. rewrite Hiu. split.
        -- intros [<-|[Hz Hnz]]; [|auto]. split; [auto|]. intros [->|Hz]; [lia|specialize (Hy x Hz); lia].
        -- intros [[<-|Hz] Hnz]; auto.
    + assert (x = y) by (destruct (Hin y (or_introl eq_refl)) as [->|Hz]; [reflexivity|specialize (Hx y Hz); lia]). subst y.
      rewrite Z.eqb_refl. unfold assert_. rewrite andb_comm. cbn [negb andb].
      assert (Hin' : incl tb t).
      { intros z Hz. destruct (Hin z (or_intror Hz)) as [<-|Hz']; [specialize (Hy x Hz); lia|exact Hz']. }
      destruct (IH tb out Ht Htb Hin' ltac:(lia)) as (u & He & Hu & Hiu & Hl). exists u. split; [exact He|]. split; [exact Hu|].
      split; [|cbn [length]; lia]. intros z. rewrite Hiu. cbn [In]. split.
      * intros [Hz Hnz]. split; [auto|]. intros [<-|Hz']; [specialize (Hx x Hz); lia|auto].
      * intros [[<-|Hz] Hnz]; [destruct Hnz; auto|]. split; [exact Hz|auto].
Qed.
Lemma div_ok : forall dbg a b la lb, shows a la -> shows b lb -> incl lb la ->
  exists c u, bm_div dbg a b = Ok c /\ shows c u /\ forall x, In x u <-> In x la /\ ~ In x lb.
Proof.
  intros dbg a b la lb Ha Hb Hin. destruct (shows_read _ _ Ha) as (Hra & Hla & Hda). destruct (shows_read _ _ Hb) as (Hrb & Hlb & Hdb).
  destruct (divisible_ok a b la lb Ha Hb) as (r & Hr & Hri). assert (r = true) by (apply Hri, Hin). subst r.
  unfold bm_div. rewrite Hr. replace (if dbg then Ok true else Ok true) with (Ok true) by (destruct dbg; reflexivity). cbn [bind].
  unfold assert_. rewrite andb_comm. cbn [negb andb]. rewrite Hla, Hlb.
  pose proof (NoDup_incl_length (dec_NoDup _ Hdb) Hin) as Hlen.
  destruct (Z.eqb_spec (Z.of_nat (length la) - Z.of_nat (length lb)) 0) as [H0|H0].
  - change (mkBM 0 0 []) with bm_one. rewrite (check_ok dbg _ _ one_ok). exists bm_one, []. split; [reflexivity|]. split; [exact one_ok|].
    intros x. split; [intros []|]. intros [Hx Hnx]. destruct Hnx. apply (@NoDup_length_incl Z lb la (dec_NoDup _ Hdb)); [lia|exact Hin|exact Hx].
  - destruct (Z.ltb_spec (Z.of_nat (length la) - Z.of_nat (length lb)) 0) as [H1|H1]; [lia|].
    rewrite Hra, Hrb. cbn [bind]. set (n := Z.to_nat _).
    destruct (bquot_ok dbg n la lb [] Hda Hdb Hin ltac:(subst n; cbn [length]; lia)) as (u & He & Hu & Hi & Hl).
    rewrite He. cbn [bind app]. assert (Hn : length u = n) by (subst n; lia). destruct (Nat.eqb_spec (length u) n); [|lia].
    rewrite <- Hn. pose proof (shows_mk _ _ Hu (le_n _)) as Hm. rewrite (check_ok dbg _ _ Hm). eauto.
Qed.
Lemma div_not : forall a b la lb, shows a la -> shows b lb -> ~ incl lb la -> bm_div true a b = AssertFail.
Proof.
  intros a b la lb Ha Hb Hin. destruct (divisible_ok a b la lb Ha Hb) as (r & Hr & Hri). unfold bm_div. rewrite Hr. cbn [bind].
  destruct r; [destruct Hin; apply Hri; reflexivity|reflexivity].
Qed.

(** ** The order *)
Lemma larger_irrefl : forall a, ~ larger a a.
Proof. intros a [H|(_ & v & H1 & H2 & _)]; [lia|auto]. Qed.
Lemma larger_trans : forall a b c, larger a b -> larger b c -> larger a c.
Proof.
  intros a b c [H1|(H1 & v & Hv1 & Hv2 & Hv)] [H2|(H2 & w & Hw1 & Hw2 & Hw)]; try (left; lia). right. split; [lia|].
  destruct (Z.lt_trichotomy v w) as [H|[->|H]]; [|contradiction|].
  - exists v. split; [apply Hw; assumption|]. split; [exact Hv2|]. intros u Hu. rewrite (Hv u Hu). apply Hw. lia.
  - exists w. split; [exact Hw1|]. split; [rewrite (Hv w H); exact Hw2|]. intros u Hu. rewrite <- (Hw u Hu). apply Hv. lia.
Qed.

Fixpoint ascending (l : list Z) : Prop := match l with [] => True | x :: t => (forall y, In y t -> x < y) /\ ascending t end.
Lemma asc_rev : forall l, decreasing l -> ascending (rev l).
Proof.
  assert (Hsn : forall l x, ascending l -> (forall y, In y l -> y < x) -> ascending (l ++ [x])).
  { induction l as [|y l IH]; intros x Ha Hy; cbn [app ascending]; [split; [intros ? []|exact I]|].
    destruct Ha as [H1 H2]. split.
    - intros z Hz. apply in_app_or in Hz as [Hz|[<-|[]]]; [auto|]. apply Hy. left; reflexivity.
    - apply IH; [exact H2|]. intros z Hz. apply Hy. right; exact Hz. }
  induction l as [|x l IH]; intros H; [exact I|]. apply dec_cons in H as [Hl Hx]. cbn [rev]. apply Hsn; [auto|].
  intros y Hy. apply Hx. apply in_rev. exact Hy.
Qed.
Lemma bback_cases : forall a b, length a = length b -> ascending a -> ascending b ->
  (bback a b = 0 /\ a = b) \/
  (bback a b = 1 /\ exists v, In v b /\ ~ In v a /\ forall u, u < v -> (In u a <-> In u b)) \/
  (bback a b = -1 /\ exists v, In v a /\ ~ In v b /\ forall u, u < v -> (In u b <-> In u a)).
Proof.
  induction a as [|x a IH]; intros [|y b] Hl Ha Hb; cbn [length] in Hl; try lia; [left; auto|]. cbn [bback].
  destruct Ha as [Hx Ha]. destruct Hb as [Hy Hb]. destruct (Z.eqb_spec x y) as [->|Hne].
  - destruct (IH b ltac:(lia) Ha Hb) as [[E ->]|[(E & v & H1 & H2 & H3)|(E & v & H1 & H2 & H3)]]; [left; auto| |]; right.
    + left. split; [exact E|]. exists v. split; [right; exact H1|]. split.
      * intros [<-|H]; [|auto]. specialize (Hy y H1). lia.
      * intros u Hu. cbn [In]. rewrite (H3 u Hu). tauto.
    + right. split; [exact E|]. exists v. split; [right; exact H1|]. split.
      * intros [<-|H]; [|auto]. specialize (Hx y H1). lia.
      * intros u Hu. cbn [In]. rewrite (H3 u Hu). tauto.
  - right. destruct (Z.ltb_spec y x) as [H|H]; [left|right]; (split; [reflexivity|]).
    + exists y. split; [left; reflexivity|]. split; [intros [->|Hi]; [lia|specialize (Hx y Hi); lia]|].
      intros u Hu. split; intros [<-|Hi]; try lia; [specialize (Hx u Hi)|specialize (Hy u Hi)]; lia.
    + exists x. split; [left; reflexivity|]. split; [intros [->|Hi]; [lia|specialize (Hy x Hi); lia]|].
      intros u Hu. split; intros [<-|Hi]; try lia; [specialize (Hy u Hi)|specialize (Hx u Hi)]; lia.
Qed.
Lemma compare_cases : forall m a l la, shows m l -> shows a la ->
  (bm_compare m a = Ok 0 /\ l = la) \/ (bm_compare m a = Ok 1 /\ larger l la) \/ (bm_compare m a = Ok (-1) /\ larger la l).
Proof.
  intros m a l la Hm Ha. destruct (shows_read _ _ Ha) as (Hra & Hla & Hda). destruct (shows_read _ _ Hm) as (Hrm & Hlm & Hdm).
  unfold bm_compare. rewrite Hla, Hlm. destruct (Nat.ltb_spec (length la) (length l)) as [H1|H1]; [right; left; split; [reflexivity|left; exact H1]|].
  destruct (Nat.ltb_spec (length l) (length la)) as [H2|H2]; [right; right; split; [reflexivity|left; exact H2]|].
  destruct (Nat.eqb_spec (length l) 0) as [H0|H0].
  - left. split; [reflexivity|]. destruct l, la; cbn [length] in *; try lia; reflexivity.
  - rewrite Hrm, Hra. cbn [bind].
    destruct (bback_cases (rev l) (rev la) ltac:(rewrite !rev_length; lia) (asc_rev _ Hdm) (asc_rev _ Hda)) as [[-> E]|[(-> & v & Q1 & Q2 & Q3)|(-> & v & Q1 & Q2 & Q3)]].
    + left. split; [reflexivity|]. rewrite <- (rev_involutive l), E, rev_involutive. reflexivity.
    + right. left. split; [reflexivity|]. right. split; [lia|]. exists v. rewrite !in_rev with (l := la), in_rev with (l := l).
      split; [exact Q1|]. split; [exact Q2|]. intros u Hu. rewrite in_rev with (l := l), in_rev with (l := la). auto.
    + right. right. split; [reflexivity|]. right. split; [lia|]. exists v. rewrite in_rev with (l := la), in_rev with (l := l).
      split; [exact Q1|]. split; [exact Q2|]. intros u Hu. rewrite in_rev with (l := l), in_rev with (l := la). auto.
Qed.
Lemma larger_total : forall a b, decreasing a -> decreasing b -> a = b \/ larger a b \/ larger b a.
Proof.
  intros a b Ha Hb. destruct (compare_cases _ _ _ _ (shows_mk _ a Ha (le_n _)) (shows_mk _ b Hb (le_n _))) as [[_ H]|[[_ H]|[_ H]]]; auto.
Qed.
Lemma larger_asym : forall a b, larger a b -> ~ larger b a.
Proof. intros a b H1 H2. exact (larger_irrefl a (larger_trans _ _ _ H1 H2)). Qed.
Lemma compare_ok : forall m a l la, shows m l -> shows a la ->
  exists c, bm_compare m a = Ok c /\ (c > 0 <-> larger l la) /\ (c < 0 <-> larger la l) /\ (c = 0 <-> l = la).
Proof.
  intros m a l la Hm Ha. destruct (compare_cases m a l la Hm Ha) as [[E ->]|[[E H]|[E H]]]; rewrite E; eexists; (split; [reflexivity|]).
  - repeat split; intros; try lia; try reflexivity; match goal with Q : larger ?x ?x |- _ => destruct (larger_irrefl _ Q) end.
  - repeat split; intros; try lia; try assumption; [destruct (larger_asym _ _ H); assumption|subst; destruct (larger_irrefl _ H)].
  - repeat split; intros; try lia; try assumption; [destruct (larger_asym _ _ H); assumption|subst; destruct (larger_irrefl _ H)].
Qed.

(** Multiplication by variables not in [a] keeps the order. *)
Lemma larger_mul : forall a b m am bm, decreasing a -> decreasing b -> decreasing m -> decreasing am -> decreasing bm ->
  (forall x, In x am <-> In x a \/ In x m) -> (forall x, In x bm <-> In x b \/ In x m) ->
  (forall x, In x a -> ~ In x m) -> larger a b -> larger am bm.
Proof.
  intros a b m am bm Ha Hb Hm Ham Hbm Iam Ibm Hdis Hl.
  assert (Lam : length am = (length a + length m)%nat).
  { rewrite <- app_length. apply Permutation_length. apply NoDup_Permutation; [apply dec_NoDup, Ham| |intros x; rewrite in_app_iff; apply Iam].
    clear -Ha Hm Hdis. induction a as [|x a IH]; cbn [app]; [apply dec_NoDup, Hm|]. apply dec_cons in Ha as [Ha Hx]. constructor.
    - intros Hi. apply in_app_or in Hi as [Hi|Hi]; [specialize (Hx x Hi); lia|]. exact (Hdis x (or_introl eq_refl) Hi).
    - apply IH; [exact Ha|]. intros y Hy. apply Hdis. right; exact Hy. }
  assert (Ibm' : incl bm (b ++ m)) by (intros x Hx; apply in_or_app, Ibm, Hx).
  pose proof (NoDup_incl_length (dec_NoDup _ Hbm) Ibm') as Lbm. rewrite app_length in Lbm.
  destruct Hl as [Hl|(Hl & v & Hv1 & Hv2 & Hv)]; [left; lia|].
  destruct (Nat.eq_dec (length bm) (length b + length m)) as [E|E]; [|left; lia]. right. split; [lia|].
  assert (Hbd : NoDup (b ++ m)) by (apply (@NoDup_incl_NoDup Z bm (b ++ m)); [apply dec_NoDup, Hbm|rewrite app_length; lia|exact Ibm']).
  assert (Hbdis : forall x, In x b -> ~ In x m).
  { clear -Hbd. intros x Hb Hm. apply in_split in Hb as (u & w & ->). rewrite <- app_assoc in Hbd. cbn [app] in Hbd.
    apply NoDup_remove_2 in Hbd. apply Hbd. apply in_or_app. right. apply in_or_app. right; exact Hm. }
  exists v. split; [apply Ibm; auto|]. split.
  - intros H. apply Iam in H as [H|H]; [auto|]. exact (Hbdis v Hv1 H).
  - intros u Hu. rewrite Iam, Ibm, (Hv u Hu). tauto.
Qed.
