(** Searching and walking in a represented red-black tree. *)
From Coq Require Import ZArith List Bool Arith Lia Permutation.
From Verif Require Import Outcome RandPermModel RBModel RBSpec RBHeapProofs RBFixProofs.
Import ListNotations.
Local Open Scope nat_scope.

Section RB.
Context {T : Type}.
Variable compare : T -> T -> Z.
Hypothesis Hko : key_order compare.
Notation heap := (heap T).
Notation st := (st T).
Notation tr := (@tr T).
Notation frame := (@frame T).

(** sizes *)
Lemma rep_size (s : st) t : rep s t -> size t <= length (hp s).
Proof.
  intros (Ht & _ & Hnd). apply nodup_NoDup in Hnd.
  replace (size t) with (length (addrs t)) by (rewrite addrs_ents, map_length, <- size_ents; reflexivity).
  rewrite <- (seq_length (length (hp s)) 0). apply NoDup_incl_length; [exact Hnd|].
  intros a Ha. apply cnt_in in Ha. destruct (repT_live _ _ _ _ Ht Ha) as (n & Hn). apply get_lt in Hn. apply in_seq. lia.
Qed.
Lemma size_plug : forall (z : list frame) t, length z + size t <= size (plug z t).
Proof.
  induction z as [|f z IH]; intro t; cbn [plug length]; [lia|]. specialize (IH (grow1 f t)).
  unfold grow1 in *. destruct (fs f); cbn [size] in IH; lia.
Qed.
Lemma rep_bound (s : st) z t : rep s (plug z t) -> length z + size t <= length (hp s).
Proof. intro H. pose proof (rep_size _ _ H). pose proof (size_plug z t). lia. Qed.

(** focusing on an entry *)
Lemma focus a k : forall (t : tr), In (a, k) (ents t) -> exists z c l r, t = plug z (N a c l k r).
Proof.
  intro t. enough (G : In (a, k) (ents t) -> forall z0, exists z c l r, plug z0 t = plug z (N a c l k r)).
  { intro H. exact (G H []). }
  induction t as [|b c l IHl kb r IHr]; cbn [ents]; intros H z0; [contradiction|].
  apply in_app_or in H. cbn in H. destruct H as [H|[H|H]].
  - exact (IHl H (F true b c r kb :: z0)).
  - injection H as -> ->. exists z0, c, l, r. reflexivity.
  - exact (IHr H (F false b c l kb :: z0)).
Qed.

Ltac go := unfold right, left, parent, red, key;
  repeat match goal with H : get ?h ?a = Ok _ |- context [get ?h ?a] => rewrite H; cbn [bind deref mKey mRed mParent mLeft mRight ad] end.

(** minimum and maximum *)
Lemma minimum_loop_ok (s : st) : forall f a c l k r z, size l < f -> rep s (plug z (N a c l k r)) ->
  exists y cy ky ry z1, minimum_loop f (hp s) a = Ok y /\ N a c l k r = plug z1 (N y cy E ky ry) /\ el z1 = [] /\
                        Forall (fun g => fs g = true) z1.
Proof.
  induction f as [|f IH]; intros a c l k r z Hf H; [lia|].
  cbn [minimum_loop]. pose proof (rep_get _ _ _ _ _ _ _ H) as G. go.
  destruct l as [|b cb lb kb rb'].
  - exists a, c, k, r, []. auto.
  - destruct (IH b cb lb kb rb' (F true a c r k :: z)) as (y & cy & ky & ry & z1 & E1 & E2 & E3 & E4); [cbn in Hf; lia|exact H|].
    exists y, cy, ky, ry, (z1 ++ [F true a c r k]). split; [exact E1|].
    assert (Hp : forall (zz : list frame) t g, plug (zz ++ [g]) t = grow1 g (plug zz t)).
    { clear. induction zz as [|f zz IH]; intros; [reflexivity|]. cbn [app plug]. apply IH. }
    assert (He : forall (zz : list frame) g, el (zz ++ [g]) = (if fs g then [] else ents (fsib g) ++ [(fa g, fk g)]) ++ el zz).
    { clear. induction zz as [|f zz IH]; intros; cbn [app el]; [rewrite app_nil_r; reflexivity|]. rewrite IH, app_assoc. reflexivity. }
    split; [rewrite Hp, <- E2; reflexivity|]. split; [rewrite He, E3; reflexivity|].
    apply Forall_app. split; [exact E4|repeat constructor].
Qed.
Lemma minimum_ok (s : st) a c l k r z : rep s (plug z (N a c l k r)) ->
  exists y cy ky ry z1, minimum (hp s) a = Ok y /\ N a c l k r = plug z1 (N y cy E ky ry) /\ el z1 = [] /\
                        Forall (fun g => fs g = true) z1.
Proof.
  intro H. pose proof (rep_bound _ _ _ H) as B. cbn [size] in B. apply (minimum_loop_ok s _ a c l k r z); [unfold enough; lia|exact H].
Qed.
Lemma minimum_hd (s : st) a c l k r z : rep s (plug z (N a c l k r)) ->
  exists y ky rest, minimum (hp s) a = Ok y /\ ents (N a c l k r) = (y, ky) :: rest.
Proof.
  intro H. destruct (minimum_ok _ _ _ _ _ _ _ H) as (y & cy & ky & ry & z1 & E1 & E2 & E3 & _).
  exists y, ky, (ents ry ++ er z1). split; [exact E1|]. rewrite E2, ents_plug, E3. reflexivity.
Qed.
Lemma maximum_loop_ok (s : st) : forall f a c l k r z, size r < f -> rep s (plug z (N a c l k r)) ->
  exists y ky rest, maximum_loop f (hp s) a = Ok y /\ ents (N a c l k r) = rest ++ [(y, ky)].
Proof.
  induction f as [|f IH]; intros a c l k r z Hf H; [lia|].
  cbn [maximum_loop]. pose proof (rep_get _ _ _ _ _ _ _ H) as G. go.
  destruct r as [|b cb lb kb rb'].
  - exists a, k, (ents l). auto.
  - destruct (IH b cb lb kb rb' (F false a c l k :: z)) as (y & ky & rest & E1 & E2); [cbn in Hf; lia|exact H|].
    exists y, ky, (ents l ++ (a, k) :: rest). split; [exact E1|].
    change (ents (N a c l k (N b cb lb kb rb'))) with (ents l ++ (a, k) :: ents (N b cb lb kb rb')). rewrite E2, <- app_assoc. reflexivity.
Qed.
Lemma maximum_last (s : st) a c l k r z : rep s (plug z (N a c l k r)) ->
  exists y ky rest, maximum (hp s) a = Ok y /\ ents (N a c l k r) = rest ++ [(y, ky)].
Proof.
  intro H. pose proof (rep_bound _ _ _ H) as B. cbn [size] in B. apply (maximum_loop_ok s _ a c l k r z); [unfold enough; lia|exact H].
Qed.

(** next and prev *)
Definition first (l : list (nat * T)) : option nat := option_map fst (hd_error l).
Definition last_ (l : list (nat * T)) : option nat := first (rev l).
Lemma first_app l l' : first (l ++ l') = match l with [] => first l' | _ => first l end.
Proof. destruct l; reflexivity. Qed.
Lemma last_app l l' : last_ (l ++ l') = match l' with [] => last_ l | _ => last_ l' end.
Proof.
  unfold last_. rewrite rev_app_distr, first_app. destruct l' as [|x l']; [reflexivity|].
  destruct (rev (x :: l')) eqn:Q; [|reflexivity]. apply (f_equal (@length _)) in Q. rewrite rev_length in Q. discriminate.
Qed.
Lemma last_snoc l x : last_ (l ++ [x]) = Some (fst x).
Proof. rewrite last_app. reflexivity. Qed.

Lemma climb_right_ok (s : st) : forall f z t x, length z < f -> rep s (plug z t) -> ad t = Some x ->
  climb_right f (hp s) x (cpar z) = Ok (first (er z)).
Proof.
  induction f as [|f IH]; intros z t x Hf H Hx; [lia|].
  destruct z as [|[sd a c sib k] z]; [reflexivity|]. cbn [climb_right cpar fa].
  cbn [plug] in H. unfold grow1 in H; cbn [fs fa fc fsib fk] in H. destruct t as [|b cb lb kb rb']; [discriminate|].
  injection Hx as ->.
  destruct sd; pose proof (rep_get _ _ _ _ _ _ _ H) as G; go.
  - cbn [er fs fa fk fsib app]. 
    assert (Q : ptr_eqb (Some x) (ad sib) = false).
    { destruct sib as [|y]; [reflexivity|]. apply ptr_eqb_ne. intros <-. destruct H as (_ & _ & Hnd). specialize (Hnd x).
      rewrite cnt_plug, !cnt_N, one_eq in Hnd. lia. }
    rewrite Q. reflexivity.
  - rewrite ptr_eqb_refl. cbn [er fs app]. cbn in Hf. apply (IH z _ a ltac:(lia) H). reflexivity.
Qed.
Lemma next_ok (s : st) z a c l k r : rep s (plug z (N a c l k r)) -> next (hp s) a = Ok (first (ents r ++ er z)).
Proof.
  intro H. unfold next. pose proof (rep_get _ _ _ _ _ _ _ H) as G. go. destruct r as [|b cb lb kb rb'].
  - cbn [ad ents app]. pose proof (rep_bound _ _ _ H). apply (climb_right_ok s (enough (hp s)) z _ a ltac:(unfold enough; lia) H). reflexivity.
  - cbn [ad]. destruct (minimum_hd s b cb lb kb rb' (F false a c l k :: z) H) as (y & ky & rest & E1 & E2).
    rewrite E1, E2. reflexivity.
Qed.
Lemma climb_left_ok (s : st) : forall f z t x, length z < f -> rep s (plug z t) -> ad t = Some x ->
  climb_left f (hp s) x (cpar z) = Ok (last_ (el z)).
Proof.
  induction f as [|f IH]; intros z t x Hf H Hx; [lia|].
  destruct z as [|[sd a c sib k] z]; [reflexivity|]. cbn [climb_left cpar fa].
  cbn [plug] in H. unfold grow1 in H; cbn [fs fa fc fsib fk] in H. destruct t as [|b cb lb kb rb']; [discriminate|].
  injection Hx as ->.
  destruct sd; pose proof (rep_get _ _ _ _ _ _ _ H) as G; go.
  - rewrite ptr_eqb_refl. cbn [el fs]. rewrite app_nil_r. cbn in Hf. apply (IH z _ a ltac:(lia) H). reflexivity.
  - cbn [el fs fa fk fsib]. rewrite app_assoc, last_snoc.
    assert (Q : ptr_eqb (Some x) (ad sib) = false).
    { destruct sib as [|y]; [reflexivity|]. apply ptr_eqb_ne. intros <-. destruct H as (_ & _ & Hnd). specialize (Hnd x).
      rewrite cnt_plug, !cnt_N, one_eq in Hnd. lia. }
    rewrite Q. reflexivity.
Qed.
Lemma prev_ok (s : st) z a c l k r : rep s (plug z (N a c l k r)) -> prev (hp s) a = Ok (last_ (el z ++ ents l)).
Proof.
  intro H. unfold prev. pose proof (rep_get _ _ _ _ _ _ _ H) as G. go. destruct l as [|b cb lb kb rb'].
  - cbn [ad ents]. rewrite app_nil_r. pose proof (rep_bound _ _ _ H). apply (climb_left_ok s (enough (hp s)) z _ a ltac:(unfold enough; lia) H). reflexivity.
  - cbn [ad]. destruct (maximum_last s b cb lb kb rb' (F true a c r k :: z) H) as (y & ky & rest & E1 & E2).
    rewrite E1, E2. cbn [bind]. rewrite app_assoc, last_snoc. reflexivity.
Qed.

(** order *)
Notation "a << b" := (compare a b < 0)%Z (at level 70).
Fixpoint sorted (l : list T) : Prop :=
  match l with [] => True | x :: l' => Forall (fun y => x << y) l' /\ sorted l' end.
Definition keys (l : list (nat * T)) : list T := map snd l.
Lemma lt_irrefl a : ~ a << a.
Proof. intro H. assert (compare a a = 0)%Z by (apply (ko_eq _ Hko); reflexivity). lia. Qed.
Lemma lt_gt a b : a << b -> (0 < compare b a)%Z.
Proof. apply (ko_anti _ Hko). Qed.
Lemma gt_lt a b : (0 < compare b a)%Z -> a << b.
Proof. apply (ko_anti _ Hko). Qed.
Lemma sorted_app l l' : sorted (l ++ l') <-> sorted l /\ sorted l' /\ forall x y, In x l -> In y l' -> x << y.
Proof.
  induction l as [|x l IH]; cbn [app sorted].
  - split; [intro H; split; [exact I|split; [exact H|intros ? ? []]]|tauto].
  - rewrite Forall_app, IH, !Forall_forall. split.
    + intros ((H1 & H2) & H3 & H4 & H5). split; [tauto|]. split; [tauto|]. intros a b [<-|Ha] Hb; [apply H2, Hb|apply H5; assumption].
    + intros ((H1 & H2) & H3 & H4). repeat split; try tauto; intros; apply H4; cbn; auto.
Qed.
Lemma keys_app l l' : keys (l ++ l') = keys l ++ keys l'.
Proof. apply map_app. Qed.

(** findNode *)
Lemma find_loop_ok (s : st) k : forall f z t, size t < f -> rep s (plug z t) -> sorted (keys (ents t)) ->
  exists o, find_loop compare f (hp s) k (ad t) = Ok o /\
    match o with Some a => In (a, k) (ents t) | None => ~ In k (keys (ents t)) end.
Proof.
  induction f as [|f IH]; intros z t Hf H Hs; [lia|]. cbn [find_loop].
  destruct t as [|a c l ka r]; cbn [ad].
  { exists None. split; [reflexivity|intros []]. }
  pose proof (rep_get _ _ _ _ _ _ _ H) as G. go. cbn [size] in Hf.
  cbn [ents] in *. rewrite keys_app in Hs. apply sorted_app in Hs. destruct Hs as (Hl & Hr & Hlr).
  change (keys ((a, ka) :: ents r)) with (ka :: keys (ents r)) in *. destruct Hr as (Hr1 & Hr2). rewrite Forall_forall in Hr1.
  destruct (compare k ka <? 0)%Z eqn:C1.
  - apply Z.ltb_lt in C1. destruct (IH (F true a c r ka :: z) l) as (o & E1 & E2); [lia|exact H|exact Hl|].
    exists o. split; [exact E1|]. destruct o as [b|]; [apply in_or_app; left; exact E2|].
    intro Hi. rewrite keys_app in Hi. apply in_app_or in Hi. destruct Hi as [Hi|[<-|Hi]]; [apply E2, Hi|exact (lt_irrefl _ C1)|].
    apply (lt_irrefl k). exact (ko_trans _ Hko _ _ _ C1 (Hr1 _ Hi)).
  - destruct (0 <? compare k ka)%Z eqn:C2.
    + apply Z.ltb_lt, gt_lt in C2. destruct (IH (F false a c l ka :: z) r) as (o & E1 & E2); [lia|exact H|exact Hr2|].
      exists o. split; [exact E1|]. destruct o as [b|]; [apply in_or_app; right; right; exact E2|].
      intro Hi. rewrite keys_app in Hi. apply in_app_or in Hi. destruct Hi as [Hi|[<-|Hi]]; [|exact (lt_irrefl _ C2)|apply E2, Hi].
      apply (lt_irrefl k). refine (ko_trans _ Hko _ _ _ _ C2). apply Hlr; [exact Hi|left; reflexivity].
    + exists (Some a). split; [reflexivity|]. assert (k = ka) as ->.
      { apply (ko_eq _ Hko). apply Z.ltb_ge in C1, C2. lia. }
      apply in_or_app. right. left. reflexivity.
Qed.
Lemma findNode_ok (s : st) k t : rep s t -> sorted (keys (ents t)) ->
  exists o, findNode compare s k = Ok o /\ match o with Some a => In (a, k) (ents t) | None => ~ In k (keys (ents t)) end.
Proof.
  intros H Hs. unfold findNode. destruct H as (H1 & H2 & H3). rewrite H2.
  assert (H : rep s (plug [] t)) by (split; auto).
  apply (find_loop_ok s k _ [] t); [|exact H|exact Hs]. pose proof (rep_bound _ _ _ H). unfold enough. cbn in *. lia.
Qed.

(** the descent of insertNode *)
Lemma descend_ok dbg (s : st) k : forall f z t, size t < f -> rep s (plug z t) -> sorted (keys (ents t)) -> ~ In k (keys (ents t)) ->
  exists z', descend compare f dbg (hp s) k (ad t) (cpar z) = Ok (cpar z') /\ plug z' E = plug z t /\
    (exists z1, z' = z1 ++ z) /\
    (match z' with [] => True | g :: _ => z' <> z -> if fs g then k << fk g else fk g << k end) /\
    exists l1 l2, el z' = el z ++ l1 /\ er z' = l2 ++ er z /\ Forall (fun x => x << k) (keys l1) /\ Forall (fun x => k << x) (keys l2).
Proof.
  induction f as [|f IH]; intros z t Hf H Hs Hk; [lia|]. cbn [descend].
  destruct t as [|a c l ka r]; cbn [ad].
  { exists z. split; [reflexivity|]. split; [reflexivity|]. split; [exists []; reflexivity|]. split; [destruct z; [exact I|intro X; elim X; reflexivity]|].
    exists [], []. rewrite app_nil_r. repeat split; constructor. }
  pose proof (rep_get _ _ _ _ _ _ _ H) as G. go. cbn [size] in Hf.
  cbn [ents] in *. rewrite keys_app in *. apply sorted_app in Hs. destruct Hs as (Hl & Hr & Hlr).
  change (keys ((a, ka) :: ents r)) with (ka :: keys (ents r)) in *. destruct Hr as (Hr1 & Hr2). rewrite Forall_forall in Hr1.
  assert (Hkl : ~ In k (keys (ents l))) by (intro; apply Hk, in_or_app; left; assumption).
  assert (Hkr : ~ In k (keys (ents r))) by (intro; apply Hk, in_or_app; right; right; assumption).
  assert (Hka : k <> ka) by (intros ->; apply Hk, in_or_app; right; left; reflexivity).
  assert (Hlong : forall (z1 z : list frame) g, z1 ++ g :: z <> z).
  { clear. intros z1 z g Q. apply (f_equal (@length _)) in Q. rewrite app_length in Q. cbn in Q. lia. }
  destruct (compare k ka <? 0)%Z eqn:C1.
  - apply Z.ltb_lt in C1. destruct (IH (F true a c r ka :: z) l) as (z' & E1 & E2 & (z1 & Ez) & E3 & l1 & l2 & E4 & E5 & E6 & E7); [lia|exact H|exact Hl|exact Hkl|].
    exists z'. split; [exact E1|]. split; [exact E2|]. split; [exists (z1 ++ [F true a c r ka]); rewrite <- app_assoc; exact Ez|]. split.
    + destruct z1 as [|g z1]; subst z'; cbn [app] in *; [intros _; exact C1|]. intros _. apply E3. apply (Hlong (g :: z1) (F true a c r ka :: z)) || (intro Q; apply (f_equal (@length _)) in Q; cbn in Q; rewrite app_length in Q; cbn in Q; lia).
    + exists l1, (l2 ++ (a, ka) :: ents r). rewrite E4, E5. cbn [el er fs fa fk fsib]. rewrite app_nil_r, <- app_assoc.
      split; [reflexivity|]. split; [reflexivity|]. split; [exact E6|]. rewrite keys_app. apply Forall_app. split; [exact E7|].
      cbn. constructor; [exact C1|]. apply Forall_forall. intros x Hx. exact (ko_trans _ Hko _ _ _ C1 (Hr1 _ Hx)).
  - assert (C2 : ka << k).
    { apply Z.ltb_ge in C1. apply gt_lt. assert (compare k ka <> 0)%Z by (intro Q; apply Hka, (ko_eq _ Hko), Q). lia. }
    assert (Q : (0 <? compare k ka)%Z = true) by (apply Z.ltb_lt, lt_gt, C2). rewrite Q.
    destruct (IH (F false a c l ka :: z) r) as (z' & E1 & E2 & (z1 & Ez) & E3 & l1 & l2 & E4 & E5 & E6 & E7); [lia|exact H|exact Hr2|exact Hkr|].
    exists z'. split; [destruct dbg; exact E1|]. split; [exact E2|]. split; [exists (z1 ++ [F false a c l ka]); rewrite <- app_assoc; exact Ez|]. split.
    + destruct z1 as [|g z1]; subst z'; cbn [app] in *; [intros _; exact C2|]. intros _. apply E3. intro Q'; apply (f_equal (@length _)) in Q'; cbn in Q'; rewrite app_length in Q'; cbn in Q'; lia.
    + exists (ents l ++ (a, ka) :: l1), l2. rewrite E4, E5. cbn [el er fs fa fk fsib app]. rewrite <- !app_assoc. cbn [app].
      split; [reflexivity|]. split; [reflexivity|]. split; [|exact E7]. rewrite keys_app. apply Forall_app. split.
      * apply Forall_forall. intros x Hx. refine (ko_trans _ Hko _ _ _ _ C2). apply Hlr; [exact Hx|left; reflexivity].
      * cbn. constructor; [exact C2|exact E6].
Qed.

(** findPrev and findNext *)
Lemma findPrev_loop_ok (s : st) k : forall f z t i, size t < f -> rep s (plug z t) -> ad t = Some i -> sorted (keys (ents (plug z t))) ->
  Forall (fun x => x << k) (keys (el z)) -> Forall (fun x => ~ x << k) (keys (er z)) ->
  exists l1 l2, ents (plug z t) = l1 ++ l2 /\ Forall (fun x => x << k) (keys l1) /\ Forall (fun x => ~ x << k) (keys l2) /\
    findPrev_loop compare f (hp s) k i = Ok (last_ l1).
Proof.
  induction f as [|f IH]; intros z t i Hf H Hi Hs Hl Hr; [lia|]. cbn [findPrev_loop].
  destruct t as [|a c l ka r]; [discriminate|]. injection Hi as ->. cbn [size] in Hf.
  pose proof (rep_get _ _ _ _ _ _ _ H) as G. go.
  pose proof Hs as Hs'. rewrite ents_plug in Hs'. cbn [ents] in Hs'. rewrite !keys_app in Hs'. cbn [keys map snd app] in Hs'.
  rewrite <- app_assoc in Hs'. cbn [app] in Hs'. rewrite !sorted_app in Hs'. destruct Hs' as (_ & (_ & (Hr1 & _) & Hlr) & _).
  apply Forall_app in Hr1. destruct Hr1 as (Hr1 & Hr2).
  destruct (compare k ka <=? 0)%Z eqn:C1.
  - apply Z.leb_le in C1. assert (C : ~ ka << k) by (intro Q; apply lt_gt in Q; lia).
    assert (Her : Forall (fun x => ~ x << k) (keys (er (F true i c r ka :: z)))).
    { cbn [er fs fa fk fsib]. cbn [app keys map snd]. rewrite map_app. constructor; [exact C|]. apply Forall_app. split; [|exact Hr].
      eapply Forall_impl; [|exact Hr1]. intros x Hx Q. apply C. exact (ko_trans _ Hko _ _ _ Hx Q). }
    destruct l as [|b cb lb kb rb'].
    + cbn [ad]. exists (el z), (er (F true i c r ka :: z)). split; [rewrite ents_plug; reflexivity|].
      split; [exact Hl|]. split; [exact Her|]. rewrite (prev_ok _ _ _ _ _ _ _ H). cbn [ents]. rewrite app_nil_r. reflexivity.
    + cbn [ad]. apply (IH (F true i c r ka :: z) (N b cb lb kb rb') b); [lia|exact H|reflexivity|exact Hs| |exact Her].
      cbn [el fs]. rewrite app_nil_r. exact Hl.
  - apply Z.leb_gt in C1. assert (C : ka << k) by (apply gt_lt; lia).
    assert (Hel : Forall (fun x => x << k) (keys (el (F false i c l ka :: z)))).
    { cbn [el fs fa fk fsib]. rewrite !keys_app. apply Forall_app. split; [exact Hl|]. apply Forall_app. split; [|constructor; [exact C|constructor]].
      apply Forall_forall. intros x Hx. refine (ko_trans _ Hko _ _ _ _ C). apply Hlr; [exact Hx|left; reflexivity]. }
    destruct r as [|b cb lb kb rb'].
    + cbn [ad]. exists (el (F false i c l ka :: z)), (er z). split; [rewrite ents_plug; cbn [el ents fs fa fk fsib]; rewrite <- !app_assoc; reflexivity|].
      split; [exact Hel|]. split; [exact Hr|]. cbn [el fs fa fk fsib]. rewrite app_assoc, last_snoc. reflexivity.
    + cbn [ad]. apply (IH (F false i c l ka :: z) (N b cb lb kb rb') b); [lia|exact H|reflexivity|exact Hs|exact Hel|].
      cbn [er fs app]. exact Hr.
Qed.
Lemma findNext_loop_ok (s : st) k : forall f z t i, size t < f -> rep s (plug z t) -> ad t = Some i -> sorted (keys (ents (plug z t))) ->
  Forall (fun x => ~ k << x) (keys (el z)) -> Forall (fun x => k << x) (keys (er z)) ->
  exists l1 l2, ents (plug z t) = l1 ++ l2 /\ Forall (fun x => ~ k << x) (keys l1) /\ Forall (fun x => k << x) (keys l2) /\
    findNext_loop compare f (hp s) k i = Ok (first l2).
Proof.
  induction f as [|f IH]; intros z t i Hf H Hi Hs Hl Hr; [lia|]. cbn [findNext_loop].
  destruct t as [|a c l ka r]; [discriminate|]. injection Hi as ->. cbn [size] in Hf.
  pose proof (rep_get _ _ _ _ _ _ _ H) as G. go.
  pose proof Hs as Hs'. rewrite ents_plug in Hs'. cbn [ents] in Hs'. rewrite !keys_app in Hs'. cbn [keys map snd app] in Hs'.
  rewrite <- app_assoc in Hs'. cbn [app] in Hs'. rewrite !sorted_app in Hs'. destruct Hs' as (_ & (_ & (Hr1 & _) & Hlr) & _).
  apply Forall_app in Hr1. destruct Hr1 as (Hr1 & Hr2).
  destruct (0 <=? compare k ka)%Z eqn:C1.
  - apply Z.leb_le in C1. assert (C : ~ k << ka) by lia.
    assert (Hel : Forall (fun x => ~ k << x) (keys (el (F false i c l ka :: z)))).
    { cbn [el fs fa fk fsib]. rewrite !keys_app. apply Forall_app. split; [exact Hl|]. apply Forall_app. split; [|constructor; [exact C|constructor]].
      apply Forall_forall. intros x Hx Q. apply C. refine (ko_trans _ Hko _ _ _ Q _). apply Hlr; [exact Hx|left; reflexivity]. }
    destruct r as [|b cb lb kb rb'].
    + cbn [ad]. exists (el (F false i c l ka :: z)), (er z). split; [rewrite ents_plug; cbn [el ents fs fa fk fsib]; rewrite <- !app_assoc; reflexivity|].
      split; [exact Hel|]. split; [exact Hr|]. rewrite (next_ok _ _ _ _ _ _ _ H). reflexivity.
    + cbn [ad]. apply (IH (F false i c l ka :: z) (N b cb lb kb rb') b); [lia|exact H|reflexivity|exact Hs|exact Hel|].
      cbn [er fs app]. exact Hr.
  - apply Z.leb_gt in C1.
    assert (Her : Forall (fun x => k << x) (keys (er (F true i c r ka :: z)))).
    { cbn [er fs fa fk fsib]. cbn [app keys map snd]. rewrite map_app. constructor; [exact C1|]. apply Forall_app. split; [|exact Hr].
      eapply Forall_impl; [|exact Hr1]. intros x Hx. exact (ko_trans _ Hko _ _ _ C1 Hx). }
    destruct l as [|b cb lb kb rb'].
    + cbn [ad]. exists (el z), (er (F true i c r ka :: z)). split; [rewrite ents_plug; reflexivity|].
      split; [exact Hl|]. split; [exact Her|]. reflexivity.
    + cbn [ad]. apply (IH (F true i c r ka :: z) (N b cb lb kb rb') b); [lia|exact H|reflexivity|exact Hs| |exact Her].
      cbn [el fs]. rewrite app_nil_r. exact Hl.
Qed.

(** black counts *)
Definition blk (c : bool) : nat := if c then 0 else 1.
Fixpoint bz (z : list frame) : nat := match z with [] => 0 | f :: z' => blk (fc f) + bz z' end.
Lemma count_loop_ok (s : st) : forall f z a c l k r sum, length z < f -> rep s (plug z (N a c l k r)) ->
  count_loop f (hp s) sum a (rt s) = Ok (sum + blk c + bz z).
Proof.
  induction f as [|f IH]; intros z a c l k r sum Hf H; [lia|]. cbn [count_loop].
  pose proof (rep_get _ _ _ _ _ _ _ H) as G. go. destruct z as [|[sd b cb sib kb] z].
  - destruct H as (_ & Hr & _). rewrite Hr. cbn [plug ad]. rewrite ptr_eqb_refl. cbn [bz]. f_equal. destruct c; cbn; lia.
  - rewrite (not_root _ _ _ _ _ _ _ H) by discriminate. cbn [cpar fa deref bind].
    cbn in Hf. cbn [plug] in H. unfold grow1 in H. cbn [fs fa fc fsib fk] in H.
    destruct sd; rewrite (IH z _ _ _ _ _ _ ltac:(lia) H); cbn [bz fc]; f_equal; destruct c; cbn; lia.
Qed.
Lemma countBlack_ok (s : st) z a c l k r : rep s (plug z (N a c l k r)) -> countBlack (hp s) a (rt s) = Ok (blk c + bz z).
Proof.
  intro H. pose proof (rep_bound _ _ _ H). unfold countBlack. rewrite (count_loop_ok s (enough (hp s)) z a c l k r 0 ltac:(unfold enough; lia) H). reflexivity.
Qed.
Lemma rb_fun (t : tr) c n c' n' : rb t c n -> rb t c' n' -> c = c' /\ n = n'.
Proof.
  intro H. revert c' n'. induction H as [|a l k r n Hl IHl Hr IHr|a l k r n cl cr Hl IHl Hr IHr]; intros c' n' H'; inversion H'; subst; auto.
  - split; [reflexivity|]. match goal with X : rb l _ _, Y : rb l _ _ |- _ => destruct (IHl _ _ X), (IHl _ _ Y) end. congruence.
  - split; [reflexivity|]. match goal with X : rb l _ _, Y : rb l _ _ |- _ => destruct (IHl _ _ X), (IHl _ _ Y) end. congruence.
Qed.
Lemma rb_depth : forall z (t : tr) c n cc m, rb (plug z t) cc m -> rb t c n -> m = n + bz z.
Proof.
  induction z as [|[sd a cf sib k] z IH]; intros t c n cc m H Ht; cbn [plug bz fc] in *.
  - destruct (rb_fun _ _ _ _ _ H Ht). lia.
  - assert (G : exists c' m', rb (grow1 (F sd a cf sib k) t) c' m').
    { clear -H. revert H. generalize (grow1 (F sd a cf sib k) t) as u. revert cc m. clear.
      induction z as [|f z IH]; intros cc m u H; [eauto|]. apply IH in H. destruct H as (c' & m' & H). unfold grow1 in H.
      destruct (fs f); inversion H; subst; eauto. }
    destruct G as (c' & m' & G). rewrite (IH _ _ _ _ _ H G). unfold grow1 in G; cbn [fs fa fc fsib fk] in G.
    destruct sd; inversion G; subst;
      match goal with X : rb ?u ?c1 ?n1, Y : rb ?u ?c2 ?n2 |- _ => destruct (rb_fun _ _ _ _ _ X Y) end; subst; cbn [blk]; lia.
Qed.

(** assertValid *)
Lemma valid_loop_ok (s : st) m : forall f done rest t,
  length rest < f -> rep s t -> rb t false m -> sorted (keys (ents t)) -> ents t = done ++ rest ->
  valid_loop compare f s m (first rest) = Ok true.
Proof.
  induction f as [|f IH]; intros done rest t Hf H Hb Hs He; [lia|]. cbn [valid_loop].
  destruct rest as [|[x k] rest]; cbn [first hd_error option_map fst]; [reflexivity|].
  assert (Hin : In (x, k) (ents t)) by (rewrite He; apply in_or_app; right; left; reflexivity).
  destruct (focus _ _ _ Hin) as (z & c & l & r & ->).
  pose proof (rep_get _ _ _ _ _ _ _ H) as G. rewrite G. cbn [bind mKey mRed mParent mLeft mRight].
  rewrite (is_red_rep s (F true x c r k :: z) l H). cbn [bind].
  destruct (rb_unplug _ _ _ Hb) as (c0 & n & Hn & Hz).
  pose proof Hs as Hs'. rewrite ents_plug in Hs'. cbn [ents] in Hs'. rewrite !keys_app in Hs'. apply sorted_app in Hs'. destruct Hs' as (_ & Hs' & _).
  cbn [keys map snd app] in Hs'. rewrite <- app_assoc in Hs'. apply sorted_app in Hs'. destruct Hs' as (_ & (Hr1 & _) & Hlr).
  assert (Ered : forall X, (do cr <- (if isred l then Ok true else is_red (hp s) (ad r)); (if c && cr then Ok false else X)) = X).
  { intro X. inversion Hn as [|? ? ? ? ? Hnl Hnr|]; subst.
    - rewrite (rb_isred _ _ _ Hnl). rewrite (is_red_rep s (F false x true l k :: z) r H), (rb_isred _ _ _ Hnr). reflexivity.
    - destruct (isred l); [reflexivity|]. rewrite (is_red_rep s (F false x false l k :: z) r H). reflexivity. }
  match goal with |- bind _ (fun cr => if c && cr then _ else ?X) = _ => rewrite (Ered X) end.
  assert (El : match ad l with None => Ok false | Some y => do k' <- key (hp s) y; Ok (0 <? compare k' k)%Z end = Ok false).
  { destruct l as [|y cy ly ky ry]; [reflexivity|]. cbn [ad]. unfold key.
    rewrite (rep_get s (F true x c r k :: z) y cy ly ky ry H). cbn [bind mKey]. f_equal. apply Z.ltb_ge.
    assert (ky << k). { apply Hlr; [|left; reflexivity]. unfold keys; cbn [ents]; rewrite map_app. apply in_or_app. right. left. reflexivity. } lia. }
  rewrite El. cbn [bind].
  assert (Er : match ad r with None => Ok false | Some y => do k' <- key (hp s) y; Ok (compare k' k <? 0)%Z end = Ok false).
  { destruct r as [|y cy ly ky ry]; [reflexivity|]. cbn [ad]. unfold key.
    rewrite (rep_get s (F false x c l k :: z) y cy ly ky ry H). cbn [bind mKey]. f_equal. apply Z.ltb_ge.
    assert (k << ky). { rewrite Forall_forall in Hr1. apply Hr1. apply in_or_app. left. unfold keys; cbn [ents]; rewrite map_app. apply in_or_app. right. left. reflexivity. }
    apply lt_gt in H0. lia. }
  rewrite Er. cbn [bind].
  assert (Ec : (if is_null (ad l) || is_null (ad r) then do c1 <- countBlack (hp s) x (rt s); Ok (negb (c1 =? m)) else Ok false) = Ok false).
  { rewrite (countBlack_ok _ _ _ _ _ _ _ H). cbn [bind].
    destruct (is_null (ad l) || is_null (ad r)) eqn:Q; [|reflexivity]. f_equal. apply negb_false_iff, Nat.eqb_eq.
    assert (c0 = c) as -> by (inversion Hn; reflexivity).
    pose proof (rb_depth z _ _ _ _ _ Hb Hn) as D. rewrite D.
    assert (n = blk c); [|lia].
    apply orb_true_iff in Q. destruct Q as [Q|Q]; [destruct l; [|discriminate]|destruct r; [|discriminate]]; inversion Hn; subst;
    match goal with X : rb E _ _ |- _ => inversion X; subst end; reflexivity. }
  rewrite Ec. cbn [bind]. rewrite (next_ok _ _ _ _ _ _ _ H). cbn [bind].
  assert (Er' : ents r ++ er z = rest).
  { rewrite ents_plug in He. cbn [ents] in He. rewrite <- !app_assoc in He. cbn [app] in He. rewrite app_assoc in He.
    clear -He H. destruct H as (_ & _ & Hnd). apply nodup_NoDup in Hnd. rewrite addrs_ents, ents_plug in Hnd. cbn [ents] in Hnd.
    replace (el z ++ (ents l ++ (x, k) :: ents r) ++ er z) with ((el z ++ ents l) ++ (x, k) :: ents r ++ er z) in Hnd by (rewrite <- !app_assoc; reflexivity).
    revert He Hnd. generalize (el z ++ ents l), (ents r ++ er z). intros p q. revert p. 
    induction done as [|d done IHd]; intros [|p0 p] He Hnd; cbn [app] in He; [injection He as H2|injection He as H1 H2..].
    - exact H2.
    - subst. cbn [map app fst] in Hnd. rewrite map_app in Hnd. cbn in Hnd. inversion Hnd as [|? ? Hx]; subst. elim Hx. apply in_or_app. right. left. reflexivity.
    - subst. cbn [map app fst] in Hnd. inversion Hnd as [|? ? Hx]; subst. elim Hx. rewrite map_app. apply in_or_app. right. left. reflexivity.
    - apply (IHd p); [exact H2|]. cbn [map app] in Hnd. inversion Hnd; assumption. }
  rewrite Er'. refine (IH (done ++ [(x, k)]) rest _ _ H Hb Hs _); [cbn in Hf; lia|]. rewrite <- app_assoc. exact He.
Qed.
Lemma assertValid_ok h t tt : rep (St h (mRoot t)) tt -> (exists m, rb tt false m) -> sorted (keys (ents tt)) -> mCount t = size tt ->
  assertValid compare h t = Ok true.
Proof.
  intros H (m & Hb) Hs Hc. unfold assertValid. pose proof H as (Ht & Hr & _). cbn [rt] in Hr. rewrite Hr, Hc. destruct tt as [|a c l k r].
  { reflexivity. }
  cbn [ad size Nat.eqb]. unfold red. cbn [repT hp] in Ht. rewrite (proj1 Ht). cbn [bind mRed].
  assert (c = false) as -> by (inversion Hb; reflexivity).
  destruct (minimum_ok (St h (mRoot t)) a false l k r [] H) as (y & cy & ky & ry & z1 & E1 & E2 & E3 & _). cbn [hp] in E1. rewrite E1. cbn [bind].
  assert (H' := H). rewrite E2 in H'. pose proof (countBlack_ok _ _ _ _ _ _ _ H') as C. cbn [hp rt] in C. rewrite Hr in C. cbn [ad] in C. rewrite C. cbn [bind].
  assert (m = blk cy + bz z1) as <-.
  { rewrite E2 in Hb. destruct (rb_unplug _ _ _ Hb) as (c0 & n & Hn & _). rewrite (rb_depth _ _ _ _ _ _ Hb Hn).
    inversion Hn; subst; match goal with X : rb E _ _ |- _ => inversion X; subst end; reflexivity. }
  replace (Some y) with (first (ents (N a false l k r))) by (rewrite E2, ents_plug, E3; reflexivity).
  rewrite Hr in H. cbn [ad] in H.
  apply (valid_loop_ok (St h (Some a)) m (enough h) [] (ents (N a false l k r)) _ ltac:(rewrite <- size_ents; pose proof (rep_size _ _ H); unfold enough; cbn [hp] in *; lia) H Hb Hs eq_refl).
Qed.
End RB.
