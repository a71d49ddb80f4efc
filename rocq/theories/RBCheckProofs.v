From Coq Require Import ZArith List Bool Arith Lia.
From Verif Require Import Outcome RandPermModel RBModel RBSpec RBHeapProofs RBFixProofs RBReadProofs RBCheckSpec.
Import ListNotations.
Local Open Scope nat_scope.

Section RB.
Context {T : Type}.
Variable compare : T -> T -> Z.
Notation heap := (heap T).
Notation st := (st T).
Notation tr := (@tr T).
Notation frame := (@frame T).

Lemma colour_rb (t : tr) : forall n, coloured t n <-> rb t (isred t) n.
Proof.
  induction t as [|a c l IHl k r IHr]; intro n; cbn [coloured isred].
  - split; [intros ->; constructor|intro H; inversion H; reflexivity].
  - destruct c.
    + split.
      * intros (A & B & C & D). apply IHl in C. apply IHr in D. rewrite A in C. rewrite B in D. constructor; assumption.
      * intro H. inversion H as [|? ? ? ? ? X Y|? ? ? ? ? ? ? X Y]; subst. rewrite (rb_isred _ _ _ X), (rb_isred _ _ _ Y). split; [reflexivity|]. split; [reflexivity|].
        split; [apply IHl; rewrite (rb_isred _ _ _ X)|apply IHr; rewrite (rb_isred _ _ _ Y)]; assumption.
    + split.
      * intros (m & -> & C & D). apply IHl in C. apply IHr in D. econstructor; eassumption.
      * intro H. inversion H as [|? ? ? ? ? X Y|? ? ? ? ? ? ? X Y]; subst. eexists. split; [reflexivity|].
        split; [apply IHl; rewrite (rb_isred _ _ _ X)|apply IHr; rewrite (rb_isred _ _ _ Y)]; assumption.
Qed.

(** What the loop asks of a node *)
Definition le_opt (l : tr) (k : T) : bool := match top l with Some y => negb (0 <? compare y k)%Z | None => true end.
Definition ge_opt (r : tr) (k : T) : bool := match top r with Some y => negb (compare y k <? 0)%Z | None => true end.
Definition node_ok (m : nat) (z : list frame) (c : bool) (l : tr) (k : T) (r : tr) : bool :=
  negb (c && (isred l || isred r)) && (le_opt l k && (ge_opt r k && (if is_null (ad l) || is_null (ad r) then (blk c + bz z =? m) else true))).

(** The step of the loop as a function of the node *)
Definition chk (s : st) (len : nat) (x : nat) : outcome bool :=
  do n <- get (hp s) x;
  do cl <- is_red (hp s) (mLeft n);
  do cr <- (if cl then Ok true else is_red (hp s) (mRight n));
  if mRed n && cr then Ok false
  else
    do bl <- match mLeft n with None => Ok false | Some y => do k <- key (hp s) y; Ok (0 <? compare k (mKey n))%Z end;
    if bl then Ok false
    else
      do br <- match mRight n with None => Ok false | Some y => do k <- key (hp s) y; Ok (compare k (mKey n) <? 0)%Z end;
      if br then Ok false
      else
        do bc <- (if is_null (mLeft n) || is_null (mRight n)
                  then do c <- countBlack (hp s) x (rt s); Ok (negb (c =? len))
                  else Ok false);
        Ok (negb bc).
Lemma loop_chk (s : st) len f x : valid_loop compare (S f) s len (Some x) =
  (do b <- chk s len x; if b then do i' <- next (hp s) x; valid_loop compare f s len i' else Ok false).
Proof.
  cbn [valid_loop]. unfold chk. destruct (get (hp s) x) as [n| | | |]; cbn [bind]; try reflexivity.
  destruct (is_red (hp s) (mLeft n)) as [cl| | | |]; cbn [bind]; try reflexivity.
  destruct (if cl then Ok true else is_red (hp s) (mRight n)) as [cr| | | |]; cbn [bind]; try reflexivity.
  destruct (mRed n && cr); cbn [bind]; [reflexivity|].
  destruct (match mLeft n with None => Ok false | Some y => do k <- key (hp s) y; Ok (0 <? compare k (mKey n))%Z end) as [bl| | | |]; cbn [bind]; try reflexivity.
  destruct bl; cbn [bind]; [reflexivity|].
  destruct (match mRight n with None => Ok false | Some y => do k <- key (hp s) y; Ok (compare k (mKey n) <? 0)%Z end) as [br| | | |]; cbn [bind]; try reflexivity.
  destruct br; cbn [bind]; [reflexivity|].
  destruct (if is_null (mLeft n) || is_null (mRight n) then do c <- countBlack (hp s) x (rt s); Ok (negb (c =? len)) else Ok false) as [bc| | | |]; cbn [bind]; try reflexivity.
  destruct bc; cbn [negb bind]; reflexivity.
Qed.
Lemma chk_ok (s : st) len z x c l k r : rep s (plug z (N x c l k r)) -> chk s len x = Ok (node_ok len z c l k r).
Proof.
  intro H. unfold chk, node_ok. rewrite (rep_get _ _ _ _ _ _ _ H). cbn [bind mKey mRed mParent mLeft mRight].
  rewrite (is_red_rep s (F true x c r k :: z) l H). cbn [bind].
  replace (if isred l then Ok true else is_red (hp s) (ad r)) with (Ok (isred l || isred r)) by (destruct (isred l); [reflexivity|symmetry; exact (is_red_rep s (F false x c l k :: z) r H)]).
  cbn [bind]. destruct (c && (isred l || isred r)); cbn [negb andb]; [reflexivity|].
  replace (match ad l with None => Ok false | Some y => do k' <- key (hp s) y; Ok (0 <? compare k' k)%Z end) with (Ok (negb (le_opt l k))).
  2:{ unfold le_opt. destruct l as [|y cy ly ky ry]; [reflexivity|]. cbn [ad top]. unfold key.
      rewrite (rep_get s (F true x c r k :: z) y cy ly ky ry H). cbn [bind mKey]. rewrite negb_involutive. reflexivity. }
  cbn [bind]. destruct (le_opt l k); cbn [negb andb]; [|reflexivity].
  replace (match ad r with None => Ok false | Some y => do k' <- key (hp s) y; Ok (compare k' k <? 0)%Z end) with (Ok (negb (ge_opt r k))).
  2:{ unfold ge_opt. destruct r as [|y cy ly ky ry]; [reflexivity|]. cbn [ad top]. unfold key.
      rewrite (rep_get s (F false x c l k :: z) y cy ly ky ry H). cbn [bind mKey]. rewrite negb_involutive. reflexivity. }
  cbn [bind]. destruct (ge_opt r k); cbn [negb andb]; [|reflexivity].
  rewrite (countBlack_ok _ _ _ _ _ _ _ H). cbn [bind]. destruct (is_null (ad l) || is_null (ad r)); cbn [bind]; [rewrite negb_involutive|]; reflexivity.
Qed.

(** The loop accepts when every node left is accepted. *)
Lemma loop_all (s : st) m t : rep s t -> forall f done rest, length rest < f -> ents t = done ++ rest ->
  exists b, valid_loop compare f s m (first rest) = Ok b /\ (b = true <-> Forall (fun e => chk s m (fst e) = Ok true) rest).
Proof.
  intro H. induction f as [|f IH]; intros done rest Hf He; [lia|].
  destruct rest as [|[x k] rest]; [exists true; split; [reflexivity|split; constructor]|].
  cbn [first hd_error option_map fst]. change (option_map fst (hd_error ((x, k) :: rest))) with (Some x).
  rewrite loop_chk.
  assert (Hin : In (x, k) (ents t)) by (rewrite He; apply in_or_app; right; left; reflexivity).
  destruct (focus _ _ _ Hin) as (z & c & l & r & ->).
  rewrite (chk_ok s m z x c l k r H). cbn [bind]. destruct (node_ok m z c l k r) eqn:En.
  2:{ exists false. split; [reflexivity|]. split; [discriminate|]. intro X. apply Forall_inv in X. cbn [fst] in X. rewrite (chk_ok s m z x c l k r H), En in X. discriminate. }
  rewrite (next_ok _ _ _ _ _ _ _ H). cbn [bind].
  assert (Er' : ents r ++ er z = rest).
  { rewrite ents_plug in He. cbn [ents] in He. rewrite <- !app_assoc in He. cbn [app] in He. rewrite app_assoc in He.
    clear -He H. destruct H as (_ & _ & Hnd). apply nodup_NoDup in Hnd. rewrite addrs_ents, ents_plug in Hnd. cbn [ents] in Hnd.
    replace (el z ++ (ents l ++ (x, k) :: ents r) ++ er z) with ((el z ++ ents l) ++ (x, k) :: ents r ++ er z) in Hnd by (rewrite <- !app_assoc; reflexivity).
    revert He Hnd. generalize (el z ++ ents l), (ents r ++ er z). intros p q. revert p.
    induction done as [|d done IHd]; intros [|p0 p] He Hnd; cbn [app] in He; [injection He as H2|injection He as H1 H2..].
    - exact H2.
    - subst. cbn [map app fst] in Hnd. rewrite map_app in Hnd. cbn in Hnd. inversion Hnd as [|? ? Hx]; subst. elim Hx. apply in_or_app. right. left. reflexivity.
    - subst. cbn [map app fst] in Hnd. inversion Hnd as [|? ? Hx]; subst. elim Hx. rewrite map_app. apply in_or_app. right. left. reflexivity.
    - apply (IHd p); [exact H2|]. cbn [map app] in Hnd. inversion Hnd; assumption. }
  rewrite Er'. destruct (IH (done ++ [(x, k)]) rest) as (b & Eb & B); [cbn in Hf; lia|rewrite <- app_assoc; exact He|].
  exists b. split; [exact Eb|]. rewrite B. split; [intro X; constructor; [cbn [fst]; rewrite (chk_ok s m z x c l k r H), En; reflexivity|exact X]|apply Forall_inv_tail].
Qed.

(** All nodes of a subtree are accepted exactly when it is coloured and ordered. *)
Lemma near_iff (l r : tr) k : le_opt l k = true /\ ge_opt r k = true <->
  (forall y, top l = Some y -> (compare y k <= 0)%Z) /\ (forall y, top r = Some y -> (0 <= compare y k)%Z).
Proof.
  unfold le_opt, ge_opt. destruct (top l) as [y|], (top r) as [y'|].
  - rewrite !negb_true_iff, !Z.ltb_ge. split; [intros [A B]; split; intros ? [= <-]; assumption|intros [A B]; split; auto].
  - rewrite negb_true_iff, Z.ltb_ge. split; [intros [A B]; split; [intros ? [= <-]; assumption|discriminate]|intros [A B]; auto].
  - rewrite negb_true_iff, Z.ltb_ge. split; [intros [A B]; split; [discriminate|intros ? [= <-]; assumption]|intros [A B]; auto].
  - split; [intros _; split; discriminate|auto].
Qed.
Lemma all_sound (s : st) m : forall t z, rep s (plug z t) -> Forall (fun e => chk s m (fst e) = Ok true) (ents t) ->
  (t = E -> bz z = m) -> near_ordered compare t /\ exists n, rb t (isred t) n /\ n + bz z = m.
Proof.
  induction t as [|x c l IHl k r IHr]; intros z H A HE; [split; [exact Logic.I|]; exists 0; split; [constructor|rewrite HE; reflexivity]|].
  cbn [ents] in A. apply Forall_app in A. destruct A as [Al A]. pose proof (Forall_inv A) as Ax. apply Forall_inv_tail in A. cbn [fst] in Ax.
  rewrite (chk_ok s m z x c l k r H) in Ax. injection Ax as Ax. unfold node_ok in Ax. apply andb_true_iff in Ax as [A1 Ax]. apply andb_true_iff in Ax as [A2 Ax]. apply andb_true_iff in Ax as [A3 A4].
  assert (HEl : l = E -> bz (F true x c r k :: z) = m). { intros ->. cbn in A4. apply Nat.eqb_eq in A4. exact A4. }
  assert (HEr : r = E -> bz (F false x c l k :: z) = m). { intros ->. cbn [ad is_null] in A4. rewrite orb_true_r in A4. apply Nat.eqb_eq in A4. exact A4. }
  destruct (IHl (F true x c r k :: z) H Al HEl) as (Nl & nl & Rl & El). destruct (IHr (F false x c l k :: z) H A HEr) as (Nr & nr & Rr & Er).
  cbn [bz fc] in El, Er. assert (nr = nl) by lia. subst nr.
  split; [cbn [near_ordered]; destruct (proj1 (near_iff l r k) (conj A2 A3)); auto|].
  cbn [isred]. destruct c; cbn [andb negb] in A1.
  - apply negb_true_iff in A1. apply orb_false_iff in A1 as [B1 B2]. rewrite B1 in Rl. rewrite B2 in Rr. exists nl. split; [constructor; assumption|cbn in El; lia].
  - exists (S nl). split; [econstructor; eassumption|cbn in El; lia].
Qed.
Lemma all_complete (s : st) m : forall t z n, rep s (plug z t) -> near_ordered compare t -> rb t (isred t) n -> n + bz z = m ->
  Forall (fun e => chk s m (fst e) = Ok true) (ents t).
Proof.
  induction t as [|x c l IHl k r IHr]; intros z n H Ne R En; [constructor|]. destruct Ne as (N1 & N2 & Nl & Nr).
  cbn [ents isred] in *.
  assert (X : exists nl, rb l (isred l) nl /\ rb r (isred r) nl /\ nl + blk c = n /\ negb (c && (isred l || isred r)) = true).
  { inversion R as [|? ? ? ? ? X Y|? ? ? ? ? ? ? X Y]; subst.
    - exists n. rewrite (rb_isred _ _ _ X), (rb_isred _ _ _ Y). cbn. auto.
    - eexists. rewrite (rb_isred _ _ _ X), (rb_isred _ _ _ Y). cbn. split; [exact X|]. split; [exact Y|]. split; [lia|reflexivity]. }
  destruct X as (nl & Rl & Rr & Enl & A1). apply Forall_app. split; [apply (IHl (F true x c r k :: z) nl H Nl Rl); cbn [bz fc]; lia|].
  constructor; [|apply (IHr (F false x c l k :: z) nl H Nr Rr); cbn [bz fc]; lia].
  cbn [fst]. rewrite (chk_ok s m z x c l k r H). f_equal. unfold node_ok. rewrite A1. destruct (proj2 (near_iff l r k) (conj N1 N2)) as [-> ->]. cbn [andb].
  destruct (is_null (ad l) || is_null (ad r)) eqn:Q; [|reflexivity]. apply Nat.eqb_eq.
  assert (nl = 0); [|lia]. apply orb_true_iff in Q. destruct Q as [Q|Q]; [destruct l; [|discriminate]; inversion Rl; reflexivity|destruct r; [|discriminate]; inversion Rr; reflexivity].
Qed.

Lemma c98_check h t tt : rep (St h (mRoot t)) tt ->
  exists b, assertValid compare h t = Ok b /\
    (b = true <-> (mCount t = 0 <-> tt = E) /\ isred tt = false /\ (exists n, coloured tt n) /\ near_ordered compare tt).
Proof.
  intro H. unfold assertValid. pose proof H as (Ht & Hr & _). cbn [rt] in Hr. rewrite Hr. destruct tt as [|a c l k r].
  { exists (mCount t =? 0). split; [reflexivity|]. rewrite Nat.eqb_eq. split.
    - intro E0. split; [tauto|]. split; [reflexivity|]. split; [exists 0; reflexivity|exact Logic.I].
    - intros [X _]. apply X. reflexivity. }
  cbn [ad]. destruct (Nat.eqb_spec (mCount t) 0) as [E0|E0].
  { exists false. split; [reflexivity|]. split; [discriminate|]. intros [X _]. apply X in E0. discriminate. }
  unfold red. cbn [repT hp] in Ht. rewrite (proj1 Ht). cbn [bind mRed]. destruct c.
  { exists false. split; [reflexivity|]. split; [discriminate|]. intros (_ & X & _). discriminate. }
  destruct (minimum_ok (St h (mRoot t)) a false l k r [] H) as (y & cy & ky & ry & z1 & E1 & E2 & E3 & _). cbn [hp] in E1. rewrite E1. cbn [bind].
  assert (H' := H). rewrite E2 in H'. pose proof (countBlack_ok _ _ _ _ _ _ _ H') as C. cbn [hp rt] in C. rewrite Hr in C. cbn [ad] in C. rewrite C. cbn [bind].
  set (m := blk cy + bz z1).
  replace (Some y) with (first (ents (N a false l k r))) by (rewrite E2, ents_plug, E3; reflexivity).
  pose proof H as H0. rewrite Hr in H. cbn [ad] in H.
  destruct (loop_all (St h (Some a)) m _ H (enough h) [] (ents (N a false l k r))) as (b & Eb & B);
    [rewrite <- size_ents; pose proof (rep_size _ _ H); unfold enough; cbn [hp] in *; lia|reflexivity|].
  exists b. split; [exact Eb|]. rewrite B. split.
  - intro A. split; [split; [intro; contradiction|discriminate]|]. split; [reflexivity|].
    destruct (all_sound (St h (Some a)) m _ [] H A ltac:(discriminate)) as (Ne & n & Rn & _). split; [exists n; apply colour_rb; exact Rn|exact Ne].
  - intros (_ & _ & (n & Cn) & Ne). apply colour_rb in Cn. apply (all_complete (St h (Some a)) m _ [] n H Ne Cn).
    cbn [bz]. rewrite Nat.add_0_r. unfold m. cbn [isred] in Cn. pose proof Cn as Cn'. rewrite E2 in Cn'. destruct (rb_unplug _ _ _ Cn') as (c0 & n1 & Hn & _).
    rewrite (rb_depth _ _ _ _ _ _ Cn' Hn). assert (c0 = cy) as -> by (inversion Hn; reflexivity).
    assert (n1 = blk cy); [|lia]. inversion Hn; subst; match goal with X : rb E _ _ |- _ => inversion X; subst end; reflexivity.
Qed.
End RB.
