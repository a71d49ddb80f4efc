(** Proofs about the Janet tree (JanetModel.v). *)
From Coq Require Import ZArith List Bool Arith Lia Permutation.
From Verif Require Import Outcome MonomModel MonomSpec MonomProofs JanetModel JanetSpec.
Import ListNotations.
Local Open Scope nat_scope.
Local Arguments Nat.ltb : simpl never.
Local Arguments Nat.leb : simpl never.
Local Arguments Nat.eqb : simpl never.

Definition lv (w : wrap) : list nat := vars (wlm w).
Definition lms (l : list wrap) : list (list nat) := map lv l.
Definition fl (u : wrap) (i : nat) : bool := nth i (wnm u) false.

Definition okw (n : nat) (w : wrap) : Prop :=
  length (lv w) = n /\ length (wnm w) = n /\ length (wnmd w) = n /\ length (wbuild w) = n.

(** Everything except the flags from v on. *)
Definition er (v : nat) (u : wrap) : wrap := Wrap (wlm u) (wanc u) (firstn v (wnm u)) (wnmd u) (wbuild u).

Lemma set_at_spec l i : i < length l ->
  exists l', set_at l i = Some l' /\ length l' = length l /\
    (forall j, nth j l' false = if Nat.eqb j i then true else nth j l false) /\
    firstn i l' = firstn i l.
Proof.
  revert i; induction l as [|b l IH]; intros i H; [cbn in H; lia|].
  destruct i as [|i]; cbn [set_at].
  - exists (true :: l). repeat split. intros [|j]; reflexivity.
  - destruct (IH i) as (l' & E & L & N & F); [cbn in H; lia|].
    rewrite E. exists (b :: l'). repeat split.
    + cbn; lia.
    + intros [|j]; cbn [nth]; [reflexivity|].
      rewrite N. destruct (Nat.eqb_spec j i), (Nat.eqb_spec (S j) (S i)); try reflexivity; lia.
    + cbn [firstn]. now rewrite F.
Qed.

Lemma firstn_le_eq {A} (l l' : list A) i v : v <= i -> firstn i l = firstn i l' -> firstn v l = firstn v l'.
Proof.
  intros H E. rewrite <- (firstn_firstn l v i), <- (firstn_firstn l' v i) || idtac.
  replace v with (Nat.min v i) by lia. rewrite <- !firstn_firstn. now rewrite E.
Qed.

Lemma nth_firstn_lt {A} (l : list A) v i d : i < v -> nth i (firstn v l) d = nth i l d.
Proof.
  revert v i; induction l as [|x l IH]; intros [|v] [|i] H; cbn; try lia; try reflexivity.
  apply IH; lia.
Qed.

Lemma er_er v v' u : v <= v' -> er v (er v' u) = er v u.
Proof. intros H. unfold er; cbn. rewrite firstn_firstn. now replace (Nat.min v v') with v by lia. Qed.

Lemma er_fl v u u' i : er v u = er v u' -> i < v -> fl u i = fl u' i.
Proof.
  intros E H. unfold fl. rewrite <- (nth_firstn_lt (wnm u) v i), <- (nth_firstn_lt (wnm u') v i) by lia.
  inversion E as [[E1 E2 E3 E4 E5]]. now rewrite E3.
Qed.
Lemma er_lv v u u' : er v u = er v u' -> lv u = lv u'.
Proof. unfold lv. intros E; inversion E; congruence. Qed.

Lemma set_nm_spec dbg n u i : okw n u -> i < n ->
  exists u', set_nm dbg u i = Ok u' /\ okw n u' /\ wlm u' = wlm u /\
    wanc u' = wanc u /\ wnmd u' = wnmd u /\ wbuild u' = wbuild u /\
    (forall j, fl u' j = if Nat.eqb j i then true else fl u j) /\
    (forall v, v <= i -> er v u' = er v u).
Proof.
  intros (L1 & L2 & L3 & L4) H. unfold set_nm.
  destruct (set_at_spec (wnm u) i) as (l & E & L & N & F); [lia|].
  rewrite E. eexists; split; [reflexivity|]. unfold okw, lv, fl; cbn.
  repeat split; auto; try lia.
  intros v Hv. unfold er; cbn. now rewrite (firstn_le_eq l (wnm u) i v Hv F).
Qed.

(* ---------------- degrees of suffixes ---------------- *)
Lemma expo_nth_error l i : i < length l -> nth_error l i = Some (expo l i).
Proof. intros H. unfold expo. now apply nth_error_nth'. Qed.

Lemma mget_ok dbg m i : i < length (vars m) -> mget dbg m i = Ok (expo (vars m) i).
Proof. intros H. unfold mget. now rewrite expo_nth_error. Qed.

Lemma skipn_cons l v : v < length l -> skipn v l = expo l v :: skipn (S v) l.
Proof.
  revert v; induction l as [|x l IH]; intros [|v] H; cbn in H; try lia.
  - reflexivity.
  - cbn [skipn]. rewrite IH by lia. reflexivity.
Qed.

Lemma degv_skipn l v : v < length l -> degv (skipn v l) = expo l v + degv (skipn (S v) l).
Proof. intros H. rewrite skipn_cons by auto. reflexivity. Qed.

Lemma degv_skipn_ge l v : length l <= v -> degv (skipn v l) = 0.
Proof. intros H. rewrite skipn_all2; auto. Qed.

Lemma degv_skipn_zero l v : degv (skipn v l) = 0 -> forall i, v <= i -> expo l i = 0.
Proof.
  revert v; induction l as [|x l IH]; intros v H i Hi; [destruct i; reflexivity|].
  destruct v; cbn [skipn] in H.
  - destruct i; cbn in *; [lia|]. apply (IH 0); [cbn; unfold degv in *; lia|lia].
  - destruct i; [lia|]. cbn. apply (IH v); [auto|lia].
Qed.

Lemma degv_skipn_pos l v : 0 < degv (skipn v l) -> exists i, v <= i /\ i < length l /\ 0 < expo l i.
Proof.
  revert v; induction l as [|x l IH]; intros v H; [destruct v; cbn in H; lia|].
  destruct v; cbn [skipn] in H.
  - destruct (Nat.eq_dec x 0) as [->|].
    + destruct (IH 0) as (i & ? & ? & ?); [cbn in *; unfold degv in *; lia|].
      exists (S i). cbn. repeat split; try lia. auto.
    + exists 0. cbn. repeat split; lia.
  - destruct (IH v H) as (i & ? & ? & ?). exists (S i). cbn. repeat split; try lia. auto.
Qed.

Lemma degv_skipn_zero_intro l v : (forall i, v <= i -> i < length l -> expo l i = 0) -> degv (skipn v l) = 0.
Proof.
  intros H. destruct (Nat.eq_dec (degv (skipn v l)) 0) as [|N]; auto.
  destruct (degv_skipn_pos l v) as (i & ? & ? & ?); [lia|]. rewrite H in H2; lia.
Qed.

Lemma expo_ge l i : length l <= i -> expo l i = 0.
Proof. intros; unfold expo. now apply nth_overflow. Qed.

(* ---------------- janet_nm ---------------- *)
Lemma janet_nm_app A B u i : janet_nm (A ++ B) u i <-> janet_nm A u i \/ janet_nm B u i.
Proof.
  unfold janet_nm. split.
  - intros (w & I & H). apply in_app_or in I as [I|I]; [left|right]; eauto.
  - intros [(w & I & H)|(w & I & H)]; exists w; split; auto; apply in_or_app; auto.
Qed.
Lemma janet_nm_cons a B u i : janet_nm (a :: B) u i <-> janet_nm [a] u i \/ janet_nm B u i.
Proof. apply (janet_nm_app [a] B). Qed.
Lemma janet_nm_nil u i : ~ janet_nm [] u i.
Proof. intros (w & [] & _). Qed.
Lemma janet_nm_one a u i :
  janet_nm [a] u i <-> (forall j, j < i -> expo a j = expo u j) /\ expo u i < expo a i.
Proof.
  split; [intros (w & [<-|[]] & H); auto|intros H; exists a; cbn; auto].
Qed.
Lemma janet_nm_incl A B u i : incl A B -> janet_nm A u i -> janet_nm B u i.
Proof. intros H (w & I & J). exists w. auto. Qed.
Lemma janet_nm_perm A B u i : Permutation A B -> janet_nm A u i <-> janet_nm B u i.
Proof.
  intros P; split; apply janet_nm_incl; intros x; apply Permutation_in; auto using Permutation_sym.
Qed.
Lemma janet_nm_irr_lt B u v i : v <= i -> (forall w, In w B -> expo w v < expo u v) -> ~ janet_nm B u i.
Proof.
  intros H K (w & I & A & G). specialize (K w I).
  destruct (Nat.eq_dec v i) as [->|]; [lia|]. rewrite A in K; lia.
Qed.
Lemma janet_nm_irr_ne B u v i : v < i -> (forall w, In w B -> expo w v <> expo u v) -> ~ janet_nm B u i.
Proof. intros H K (w & I & A & G). apply (K w I). apply A; lia. Qed.
Lemma janet_nm_irr_zero B u i : (forall w, In w B -> expo w i = 0) -> ~ janet_nm B u i.
Proof. intros K (w & I & A & G). rewrite (K w I) in G; lia. Qed.

(* ---------------- tree invariant ---------------- *)
Fixpoint wf (n v : nat) (t : tree) : Prop :=
  match t with
  | Nil => True
  | Node dg ow nd nv =>
      v < n /\
      (forall u, ow = Some u -> expo (lv u) v = dg /\ (forall i, v < i -> expo (lv u) i = 0) /\
                               (0 < v -> 0 < dg)) /\
      (ow = None -> nv <> Nil) /\
      (forall u, In u (wraps nv) -> expo (lv u) v = dg) /\
      (forall u, In u (wraps nd) -> dg < expo (lv u) v) /\
      match nd with Node dn _ _ _ => dg < dn | Nil => True end /\
      wf n v nd /\ wf n (S v) nv
  end.

Fixpoint flagsT (n v : nat) (t : tree) : Prop :=
  match t with
  | Nil => True
  | Node dg ow nd nv =>
      (forall u, ow = Some u -> (fl u v = true <-> nd <> Nil) /\
         forall i, v < i -> i < n -> (fl u i = true <-> janet_nm (lms (wraps nv)) (lv u) i)) /\
      (forall u, In u (wraps nv) -> (fl u v = true <-> nd <> Nil)) /\
      flagsT n (S v) nv /\ flagsT n v nd
  end.

Lemma wf_nonempty n v t : wf n v t -> t <> Nil -> wraps t <> [].
Proof.
  revert v; induction t as [|dg ow nd IHd nv IHv]; intros v W N; [congruence|].
  cbn in W |- *. destruct W as (_ & _ & K & _ & _ & _ & _ & W).
  destruct ow as [u|]; [discriminate|]. cbn.
  specialize (IHv _ W (K eq_refl)). destruct (wraps nv); [congruence|discriminate].
Qed.

Lemma wf_root n v t : wf n v t -> t <> Nil -> v < n.
Proof. destruct t; [congruence|]. intros (H & _) _; auto. Qed.

Lemma wf_pos n v t u : wf n v t -> 0 < v -> In u (wraps t) ->
  exists i, v <= i /\ i < n /\ 0 < expo (lv u) i.
Proof.
  revert v; induction t as [|dg ow nd IHd nv IHv]; intros v W P I; [destruct I|].
  cbn in W, I. destruct W as (Hv & A & K & B & C & D & Wd & Wv).
  apply in_app_or in I as [I|I]; [|apply in_app_or in I as [I|I]].
  - destruct ow as [u'|]; [|destruct I]. destruct I as [<-|[]].
    destruct (A _ eq_refl) as (A1 & _ & A3). exists v. rewrite A1. auto.
  - destruct (IHv (S v) Wv) as (i & ? & ? & ?); auto; try lia. exists i; repeat split; auto; lia.
  - exists v. specialize (C u I). repeat split; auto; lia.
Qed.

(** The compositional flags are the Janet flags of the whole tree. *)
Lemma flagsT_flags n v t :
  wf n v t ->
  (forall u u', In u (wraps t) -> In u' (wraps t) -> forall j, j < v -> expo (lv u) j = expo (lv u') j) ->
  flagsT n v t ->
  forall u, In u (wraps t) -> forall i, v <= i -> i < n ->
    (fl u i = true <-> janet_nm (lms (wraps t)) (lv u) i).
Proof.
  revert v; induction t as [|dg ow nd IHd nv IHv]; intros v W AG F u I i Hi1 Hi2; [destruct I|].
  assert (NE : nd <> Nil -> wraps nd <> []) by (intros; eapply wf_nonempty; [apply W|auto]).
  cbn in W, F, I, AG |- *. destruct W as (Hv & A & K & B & C & D & Wd & Wv).
  destruct F as (F1 & F2 & F3 & F4).
  set (O := match ow with Some u0 => [u0] | None => [] end) in *.
  assert (OK : forall x, In x O -> ow = Some x).
  { unfold O; destruct ow; cbn; intros x []; [now subst|destruct H]. }
  unfold lms. rewrite !map_app. rewrite !janet_nm_app.
  (* a later degree exists: v is non-multiplicative for everything with exponent dg *)
  assert (HV : forall x, In x O \/ In x (wraps nv) -> (nd <> Nil <->
       (janet_nm (map lv O) (lv x) v \/ janet_nm (map lv (wraps nv)) (lv x) v \/
        janet_nm (map lv (wraps nd)) (lv x) v))).
  { intros x Ix.
    assert (Ex : expo (lv x) v = dg) by (destruct Ix as [Ix|Ix]; [apply A, OK, Ix|apply B, Ix]).
    split.
    - intros N. right; right. specialize (NE N). destruct (wraps nd) as [|y r] eqn:E; [congruence|].
      exists (lv y). cbn. split; [auto|]. split.
      + intros j Hj. apply AG; auto.
        * apply in_or_app; right; apply in_or_app; right; rewrite ?E; cbn; auto.
        * apply in_or_app; destruct Ix; [left|right; apply in_or_app; left]; auto.
      + rewrite Ex. apply C. cbn; auto.
    - intros [H|[H|H]] N.
      + destruct H as (y & Iy & _ & G). apply in_map_iff in Iy as (z & <- & Iz).
        apply OK, A in Iz. destruct Iz as (E1 & _). lia.
      + destruct H as (y & Iy & _ & G). apply in_map_iff in Iy as (z & <- & Iz).
        apply B in Iz. lia.
      + subst nd. cbn in H. eapply janet_nm_nil; eauto. }
  apply in_app_or in I as [I|I]; [|apply in_app_or in I as [I|I]].
  - specialize (OK u I) as Eo. destruct (F1 u Eo) as (Fv & Fi). destruct (A u Eo) as (A1 & A2 & A3).
    destruct (Nat.eq_dec i v) as [->|Ni].
    + rewrite Fv. apply HV; auto.
    + rewrite Fi by lia. split; [intros; right; left; auto|].
      intros [H|[H|H]]; auto; exfalso.
      * destruct H as (y & Iy & _ & G). apply in_map_iff in Iy as (z & <- & Iz).
        apply OK, A in Iz. destruct Iz as (_ & Z & _). rewrite Z in G; lia.
      * eapply janet_nm_irr_ne with (v := v); [|intros w Iw|exact H]; [lia|].
        apply in_map_iff in Iw as (z & <- & Iz). apply C in Iz. lia.
  - destruct (Nat.eq_dec i v) as [->|Ni].
    + rewrite (F2 u I). apply HV; auto.
    + rewrite (IHv (S v)); auto; try lia.
      2:{ intros x y Ix Iy j Hj. destruct (Nat.eq_dec j v) as [->|].
          - now rewrite !B. 
          - apply AG; try lia; apply in_or_app; right; apply in_or_app; auto. }
      unfold lms. split; [intros; right; left; auto|].
      intros [H|[H|H]]; auto; exfalso.
      * destruct H as (y & Iy & _ & G). apply in_map_iff in Iy as (z & <- & Iz).
        apply OK, A in Iz. destruct Iz as (_ & Z & _). rewrite Z in G; lia.
      * eapply janet_nm_irr_ne with (v := v); [|intros w Iw|exact H]; [lia|].
        apply in_map_iff in Iw as (z & <- & Iz). apply C in Iz. rewrite (B u I). lia.
  - rewrite (IHd v); auto.
    2:{ intros x y Ix Iy j Hj. apply AG; auto; apply in_or_app; right; apply in_or_app; auto. }
    unfold lms. split; [intros; right; right; auto|].
    specialize (C u I).
    intros [H|[H|H]]; auto; exfalso.
    * eapply janet_nm_irr_lt with (v := v); [|intros w Iw|exact H]; [lia|].
      apply in_map_iff in Iw as (z & <- & Iz). apply OK, A in Iz as (-> & _). lia.
    * eapply janet_nm_irr_lt with (v := v); [|intros w Iw|exact H]; [lia|].
      apply in_map_iff in Iw as (z & <- & Iz). apply B in Iz as ->. lia.
Qed.
