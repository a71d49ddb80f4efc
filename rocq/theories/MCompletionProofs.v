(** MCompletion: sorted list, induced division, find and build. *)
From Coq Require Import ZArith List Bool Arith Lia Permutation.
From Verif Require Import Outcome MonomModel MonomSpec MonomProofs JanetModel JanetSpec JanetProofs
  JanetInsProofs JanetFindProofs CompletionModel CompletionSpec CompletionProofs MJanetProofs.
Import ListNotations.
Local Open Scope nat_scope.
Local Arguments Nat.ltb : simpl never.

(* -------- the comparators -------- *)
Definition okc (n : nat) (w : wrap) : Prop := okw n w /\ length (vars (wanc w)) = n.

Record wk (n : nat) (c : wrap -> wrap -> Z) : Prop := {
  wk_anti : forall a b, okc n a -> okc n b -> (c b a = - c a b)%Z;
  wk_trans : forall a b d, okc n a -> okc n b -> okc n d -> (c a b < 0)%Z -> (c b d < 0)%Z -> (c a d < 0)%Z;
  wk_cong : forall a b d, okc n a -> okc n b -> okc n d -> c a b = 0%Z -> c a d = c b d }.

Lemma wk_key n (c : list nat -> list nat -> Z) (k : wrap -> list nat) :
  good_cmp c -> (forall a, okc n a -> length (k a) = n) -> wk n (fun a b => c (k a) (k b)).
Proof.
  intros G L. constructor.
  - intros a b A B. apply (gc_antisym _ G). rewrite !L; auto.
  - intros a b d A B D H1 H2. pose proof (L a A) as La. pose proof (L b B) as Lb. pose proof (L d D) as Ld.
    assert (c (k a) (k b) = -1)%Z by (destruct (gc_range _ G (k a) (k b)) as [?|[?|?]]; lia).
    assert (c (k b) (k d) = -1)%Z by (destruct (gc_range _ G (k b) (k d)) as [?|[?|?]]; lia).
    assert (X : c (k d) (k a) = 1%Z).
    { apply (gc_trans _ G) with (b := k b); try congruence.
      - rewrite (gc_antisym _ G (k b) (k d)) by congruence. lia.
      - rewrite (gc_antisym _ G (k a) (k b)) by congruence. lia. }
    rewrite (gc_antisym _ G (k d) (k a)) by congruence. lia.
  - intros a b d A B D H. apply (gc_eq _ G) in H; [now rewrite H|]. rewrite !L; auto.
Qed.

Lemma wk_then n c1 c2 : wk n c1 -> wk n c2 -> wk n (fun a b => then_ (c1 a b) (c2 a b)).
Proof.
  intros W1 W2. constructor; unfold then_.
  - intros a b A B. rewrite (wk_anti _ _ W1 a b A B), (wk_anti _ _ W2 a b A B).
    destruct (Z.eqb_spec (c1 a b) 0), (Z.eqb_spec (- c1 a b) 0); lia.
  - intros a b d A B D. destruct (Z.eqb_spec (c1 a b) 0) as [E1|E1], (Z.eqb_spec (c1 b d) 0) as [E2|E2]; intros H1 H2.
    + rewrite (wk_cong _ _ W1 a b d A B D E1), E2. cbn. eapply (wk_trans _ _ W2 a b d); eauto.
    + rewrite (wk_cong _ _ W1 a b d A B D E1). destruct (Z.eqb_spec (c1 b d) 0); [lia|auto].
    + assert (E : c1 a d = c1 a b).
      { pose proof (wk_cong _ _ W1 b d a B D A E2) as C. rewrite (wk_anti _ _ W1 a b A B), (wk_anti _ _ W1 a d A D) in C. lia. }
      rewrite E. destruct (Z.eqb_spec (c1 a b) 0); [lia|auto].
    + pose proof (wk_trans _ _ W1 a b d A B D H1 H2). destruct (Z.eqb_spec (c1 a d) 0); lia.
  - intros a b d A B D H. destruct (Z.eqb_spec (c1 a b) 0) as [E|E]; [|lia].
    rewrite (wk_cong _ _ W1 a b d A B D E), (wk_cong _ _ W2 a b d A B D H). reflexivity.
Qed.

Lemma wk_degc n : wk n (fun a b => (if Nat.ltb (deg (wanc b)) (deg (wanc a)) then -1
                  else if Nat.ltb (deg (wanc a)) (deg (wanc b)) then 1 else 0)%Z).
Proof.
  constructor.
  - intros a b _ _. destruct (Nat.ltb_spec (deg (wanc b)) (deg (wanc a))), (Nat.ltb_spec (deg (wanc a)) (deg (wanc b))); lia.
  - intros a b d _ _ _. destruct (Nat.ltb_spec (deg (wanc b)) (deg (wanc a))), (Nat.ltb_spec (deg (wanc a)) (deg (wanc b))); try lia;
    destruct (Nat.ltb_spec (deg (wanc d)) (deg (wanc b))), (Nat.ltb_spec (deg (wanc b)) (deg (wanc d))); try lia;
    destruct (Nat.ltb_spec (deg (wanc d)) (deg (wanc a))); lia.
  - intros a b d _ _ _ H. assert (deg (wanc a) = deg (wanc b)) as ->; [|reflexivity].
    destruct (Nat.ltb_spec (deg (wanc b)) (deg (wanc a))), (Nat.ltb_spec (deg (wanc a)) (deg (wanc b))); lia.
Qed.

Lemma okc_lm n a : okc n a -> length (lv a) = n.
Proof. intros ((H & _) & _). auto. Qed.
Lemma okc_anc n a : okc n a -> length (vars (wanc a)) = n.
Proof. intros (_ & H). auto. Qed.

Lemma wk_mc n o : wk n (mc_cmp o).
Proof.
  pose proof (okc_lm n) as K1. pose proof (okc_anc n) as K2.
  destruct o; unfold mc_cmp, lex, deglex, alex;
  try (apply (wk_then n _ _)); try (apply wk_degc);
  first [ exact (wk_key n lexv lv good_lexv K1) | exact (wk_key n deglexv lv good_deglexv K1)
        | exact (wk_key n alexv lv good_alexv K1)
        | exact (wk_key n lexv (fun a => vars (wanc a)) good_lexv K2)
        | exact (wk_key n deglexv (fun a => vars (wanc a)) good_deglexv K2)
        | exact (wk_key n alexv (fun a => vars (wanc a)) good_alexv K2) ].
Qed.

Lemma mc_zero n o a b : okc n a -> okc n b -> mc_cmp o a b = 0%Z -> lv a = lv b.
Proof.
  intros A B. pose proof (okc_lm n a A) as La. pose proof (okc_lm n b B) as Lb.
  assert (GL := gc_eq _ good_lexv (lv a) (lv b)). assert (GD := gc_eq _ good_deglexv (lv a) (lv b)).
  assert (GA := gc_eq _ good_alexv (lv a) (lv b)).
  destruct o; unfold mc_cmp, then_, lex, deglex, alex; fold (lv a) (lv b);
  try (intros H; first [now apply GL; try congruence | now apply GD; try congruence | now apply GA; try congruence]);
  match goal with |- (if Z.eqb ?x 0 then _ else _) = _ -> _ => destruct (Z.eqb_spec x 0) end;
  intros H; try lia; first [now apply GL; try congruence | now apply GD; try congruence | now apply GA; try congruence].
Qed.

(* -------- er 0 as an equivalence -------- *)
Lemma er0_lm u u' : er 0 u = er 0 u' -> wlm u = wlm u'.
Proof. intros E; apply (f_equal wlm) in E; exact E. Qed.
Lemma er0_anc u u' : er 0 u = er 0 u' -> wanc u = wanc u'.
Proof. intros E; apply (f_equal wanc) in E; exact E. Qed.
Lemma er0_cmp o u u' w w' : er 0 u = er 0 u' -> er 0 w = er 0 w' -> mc_cmp o u w = mc_cmp o u' w'.
Proof.
  intros E F. pose proof (er0_lm _ _ E) as A. pose proof (er0_anc _ _ E) as B.
  pose proof (er0_lm _ _ F) as C. pose proof (er0_anc _ _ F) as D.
  unfold mc_cmp. rewrite A, B, C, D. reflexivity.
Qed.

(* -------- flags of the sorted list -------- *)
Definition hit (u w : wrap) (i : nat) : Prop := first_gt (lv w) (lv u) 0 = Some i.

Fixpoint flagsL (n : nat) (l : list wrap) : Prop :=
  match l with
  | [] => True
  | u :: l' => (forall i, i < n -> (fl u i = true <-> exists w, In w l' /\ hit u w i)) /\ flagsL n l'
  end.
Fixpoint sortedL (o : mc_order) (l : list wrap) : Prop :=
  match l with
  | [] => True
  | u :: l' => (forall w, In w l' -> (mc_cmp o u w < 0)%Z) /\ sortedL o l'
  end.

Lemma mark_ok dbg n u w : okw n u -> length (lv w) = n ->
  exists u', mark dbg w u = Ok u' /\ okw n u' /\ er 0 u' = er 0 u /\
    (forall i, fl u' i = true <-> fl u i = true \/ hit u w i).
Proof.
  intros O L. unfold mark, hit. fold (lv w) (lv u).
  pose proof (first_gt_spec (lv w) (lv u) 0) as S. destruct (first_gt (lv w) (lv u) 0) as [v|].
  - destruct S as (j & -> & Hj & _). { rewrite L. symmetry. apply O. }
    cbn in *. destruct (set_nm_spec dbg n u j O) as (u' & E & O' & _ & _ & _ & _ & F & R); [lia|].
    exists u'. rewrite E. split; [auto|]. split; [auto|]. split; [apply R; lia|].
    intros i. rewrite F. destruct (Nat.eqb_spec i j) as [->|N]; [tauto|].
    split; [auto|]. intros [H|H]; [auto|]. injection H as H. lia.
  - exists u. split; [auto|]. split; [auto|]. split; [auto|]. intros i. split; [auto|]. intros [H|H]; [auto|discriminate].
Qed.

Lemma hit_er u u' w w' i : er 0 u = er 0 u' -> er 0 w = er 0 w' -> hit u w i -> hit u' w' i.
Proof. intros E F. unfold hit, lv. now rewrite (er0_lm _ _ E), (er0_lm _ _ F). Qed.

Lemma mark_all_ok dbg n : forall l w, okw n w -> Forall (okw n) l ->
  exists w', mark_all dbg w l = Ok w' /\ okw n w' /\ er 0 w' = er 0 w /\
    (forall i, fl w' i = true <-> fl w i = true \/ exists u, In u l /\ hit w u i).
Proof.
  induction l as [|u l IH]; intros w O L; cbn [mark_all].
  - exists w. repeat split; auto; try apply O. intros [H|(u & [] & _)]; auto.
  - destruct (mark_ok dbg n w u O) as (w1 & E1 & O1 & R1 & F1). { apply (Forall_inv L). }
    rewrite E1; cbn [bind]. destruct (IH w1 O1 (Forall_inv_tail L)) as (w' & E & O' & R & F).
    exists w'. split; [auto|]. split; [auto|]. split; [congruence|].
    intros i. rewrite F, F1. split.
    + intros [[H|H]|(x & I & H)]; auto.
      * right. exists u. cbn; auto.
      * right. exists x. split; [cbn; auto|]. eapply hit_er; eauto.
    + intros [H|(x & [<-|I] & H)]; auto. right. exists x. split; auto. eapply hit_er; [symmetry|reflexivity|]; eauto.
Qed.

Lemma mc_insert_ok dbg n o : forall T w,
  Forall (okc n) T -> sortedL o T -> flagsL n T -> okc n w -> (forall i, i < n -> fl w i = false) ->
  ~ In (lv w) (lms T) ->
  exists T', mc_insert dbg o T w = Ok T' /\ Forall (okc n) T' /\ sortedL o T' /\ flagsL n T' /\
    Permutation (map (er 0) T') (er 0 w :: map (er 0) T).
Proof.
  induction T as [|u T IH]; intros w O S F Ow Fw NI.
  - exists [w]. cbn [mc_insert]. split; [auto|]. split; [auto|]. split; [cbn; split; [intros ? []|auto]|]. split; [|reflexivity].
    cbn. split; [|auto]. intros i Hi. rewrite Fw by auto. split; [discriminate|intros (? & [] & _)].
  - cbn [mc_insert]. destruct S as (S1 & S2). destruct F as (F1 & F2). pose proof (Forall_inv O) as Ou.
    destruct (Z.ltb_spec (mc_cmp o u w) 0) as [H|H].
    + destruct (mark_ok dbg n u w) as (u' & E1 & O1 & R1 & G1); [apply Ou|apply Ow|]. rewrite E1; cbn [bind].
      destruct (IH w) as (T1 & E & O' & S' & F' & P); auto.
      { now apply Forall_inv_tail in O. } { intros I; apply NI; cbn; auto. }
      rewrite E; cbn [bind]. exists (u' :: T1). split; [auto|]. split; [|split; [|split]].
      * constructor; auto. split; auto. rewrite (er0_anc _ _ R1). apply Ou.
      * cbn [sortedL]. split; auto. intros x Ix. pose proof (Permutation_map_In _ _ _ _ P Ix) as Iy.
        destruct Iy as [Iy|Iy].
        -- rewrite (er0_cmp o u' u x w); auto.
        -- apply in_map_iff in Iy as (y & Ey & Iy). rewrite (er0_cmp o u' u x y); auto.
      * cbn [flagsL]. split; auto. intros i Hi. rewrite G1, F1 by auto. split.
        -- intros [(x & Ix & Hx)|Hx].
           ++ assert (I' : In (er 0 x) (map (er 0) T1)).
              { eapply Permutation_in; [apply Permutation_sym, P|]. right. now apply in_map. }
              apply in_map_iff in I' as (y & Ey & Iy). exists y. split; auto.
              eapply hit_er; [| |exact Hx]; auto.
           ++ assert (I' : In (er 0 w) (map (er 0) T1)).
              { eapply Permutation_in; [apply Permutation_sym, P|]. left; auto. }
              apply in_map_iff in I' as (y & Ey & Iy). exists y. split; auto.
              eapply hit_er; [| |exact Hx]; auto.
        -- intros (x & Ix & Hx). pose proof (Permutation_map_In _ _ _ _ P Ix) as [Iy|Iy].
           ++ right. eapply hit_er; [| |exact Hx]; auto.
           ++ apply in_map_iff in Iy as (y & Ey & Iy). left. exists y. split; auto.
              eapply hit_er; [| |exact Hx]; auto.
      * cbn [map]. rewrite P, R1. apply perm_swap.
    + destruct (Z.ltb_spec 0 (mc_cmp o u w)) as [G|G].
      * destruct (mark_all_ok dbg n (u :: T) w) as (w' & E & O' & R & Fl).
        { apply Ow. } { eapply Forall_impl; [|exact O]. intros a A; apply A. }
        rewrite E; cbn [bind]. exists (w' :: u :: T). split; [auto|]. split; [|split; [|split]].
        -- constructor; auto. split; auto. rewrite (er0_anc _ _ R). apply Ow.
        -- cbn [sortedL]. split; auto.
           assert (Lt : (mc_cmp o w u < 0)%Z) by (rewrite (wk_anti n _ (wk_mc n o) u w); auto; lia).
           intros x Ix. rewrite (er0_cmp o w' w x x); auto. destruct Ix as [<-|Ix]; auto.
           eapply (wk_trans n _ (wk_mc n o)) with (b := u); auto.
           rewrite Forall_forall in O. apply O; cbn; auto.
        -- cbn [flagsL]. split; [|split; auto]. intros i Hi. rewrite Fl, Fw by auto. split.
           ++ intros [H1|(x & Ix & Hx)]; [discriminate|]. exists x. split; auto. eapply hit_er; [| |exact Hx]; auto.
           ++ intros (x & Ix & Hx). right. exists x. split; auto. eapply hit_er; [| |exact Hx]; auto.
        -- cbn [map]. now rewrite R.
      * exfalso. apply NI. left. apply (mc_zero n o); auto. lia.
Qed.

(** Membership form of the flags. *)
Lemma flagsL_in n o : forall T, Forall (okc n) T -> sortedL o T -> flagsL n T ->
  forall u i, In u T -> i < n ->
  (fl u i = true <-> exists w, In w T /\ (mc_cmp o u w < 0)%Z /\ hit u w i).
Proof.
  pose proof (wk_mc n o) as W.
  induction T as [|x T IH]; intros O S F u i I Hi; [destruct I|].
  cbn in S, F. destruct S as (S1 & S2), F as (F1 & F2). pose proof (Forall_inv O) as Ox.
  assert (OT : forall y, In y T -> okc n y) by (rewrite Forall_forall in O; intros; apply O; cbn; auto).
  destruct I as [<-|I].
  - rewrite F1 by auto. split.
    + intros (w & Iw & H). exists w. split; [cbn; auto|]. split; auto.
    + intros (w & [<-|Iw] & L & H).
      * exfalso. pose proof (wk_anti _ _ W x x Ox Ox). lia.
      * exists w; auto.
  - rewrite (IH (Forall_inv_tail O) S2 F2 u i I Hi). split.
    + intros (w & Iw & L & H). exists w. cbn; auto.
    + intros (w & [<-|Iw] & L & H).
      * exfalso. specialize (S1 u I). rewrite (wk_anti _ _ W x u) in L by auto. lia.
      * exists w; auto.
Qed.

(** For lex the induced division is Janet division. *)
Lemma lex_neg a b : (lexv a b < 0)%Z -> lexv a b = (-1)%Z.
Proof. intros H. destruct (lexv_range a b) as [?|[?|?]]; lia. Qed.

Lemma janet_flags n T : Forall (okc n) T -> sortedL MLex T -> flagsL n T ->
  forall u i, In u T -> i < n -> (fl u i = true <-> janet_nm (lms T) (lv u) i).
Proof.
  intros O S F u i I Hi. rewrite (flagsL_in n MLex T O S F u i I Hi).
  assert (OT : forall y, In y T -> length (lv y) = n) by (rewrite Forall_forall in O; intros y Iy; apply (O y Iy)).
  split.
  - intros (w & Iw & L & H). exists (lv w). split; [now apply in_map|].
    unfold mc_cmp, lex in L. apply lex_neg in L. fold (lv u) (lv w) in L.
    assert (G : lex_gt (lv w) (lv u)).
    { apply lexv_spec; [rewrite !OT; auto|]. rewrite lexv_antisym, L; reflexivity. }
    destruct G as (k & Hk & Ek & Gk). pose proof (first_gt_spec (lv w) (lv u) 0) as FS.
    unfold hit in H. rewrite H in FS. destruct FS as (j & -> & Hj & Gj & Ej); [rewrite !OT; auto|].
    cbn. assert (j = k) as ->.
    { destruct (lt_eq_lt_dec j k) as [[Q|Q]|Q]; auto.
      - specialize (Ek j Q). lia.
      - specialize (Ej k Q). lia. }
    auto.
  - intros (x & Ix & Ej & Gj). apply in_map_iff in Ix as (w & <- & Iw). exists w. split; auto.
    assert (G : lex_gt (lv w) (lv u)).
    { exists i. split; [rewrite OT; auto|]. auto. }
    split.
    + unfold mc_cmp, lex. fold (lv u) (lv w). apply lexv_spec in G; [|rewrite !OT; auto].
      rewrite lexv_antisym, G; lia.
    + unfold hit. pose proof (first_gt_spec (lv w) (lv u) 0) as FS.
      destruct (first_gt (lv w) (lv u) 0) as [v|].
      * destruct FS as (j & -> & Hj & G' & E'); [rewrite !OT; auto|]. cbn. f_equal.
        destruct (lt_eq_lt_dec j i) as [[Q|Q]|Q]; auto.
        -- specialize (Ej j Q). lia.
        -- specialize (E' i Q). lia.
      * exfalso. specialize (FS ltac:(rewrite !OT; auto) i). lia.
Qed.

(* -------- pushes -------- *)
Record linv (n : nat) (o : mc_order) (T : list wrap) : Prop := {
  li_ok : Forall (okc n) T; li_so : sortedL o T; li_fl : flagsL n T; li_nd : NoDup (lms T) }.

Lemma linv_nil n o : linv n o [].
Proof. constructor; cbn; auto; constructor. Qed.

Lemma mc_insert_linv dbg n o T w : linv n o T -> okc n w -> (forall i, i < n -> fl w i = false) ->
  ~ In (lv w) (lms T) ->
  exists T', mc_insert dbg o T w = Ok T' /\ linv n o T' /\
    Permutation (map (er 0) T') (er 0 w :: map (er 0) T).
Proof.
  intros [O S F ND] Ow Fw NI. destruct (mc_insert_ok dbg n o T w) as (T' & E & O' & S' & F' & P); auto.
  exists T'. split; auto. split; auto. constructor; auto.
  apply perm_er_lms in P. eapply Permutation_NoDup; [apply Permutation_sym, P|]. constructor; auto.
Qed.

Lemma mc_push_all_ok dbg n o : forall l T, linv n o T ->
  Forall (fun m => length (vars m) = n) l -> NoDup (map vars l ++ lms T) ->
  exists T', mc_push_all dbg o T l = Ok T' /\ linv n o T' /\
    Permutation (map (er 0) T') (map (fun m => er 0 (new_wrap m)) l ++ map (er 0) T).
Proof.
  induction l as [|m l IH]; intros T I L ND; cbn [mc_push_all].
  - exists T. split; auto.
  - cbn [map app] in ND. inversion ND as [|? ? NI ND']; subst.
    destruct (mc_insert_linv dbg n o T (new_wrap m)) as (T1 & E1 & I1 & P1); auto.
    { split; [apply new_wrap_okw|]; apply (Forall_inv L). }
    { intros; apply new_wrap_fl. }
    { intros X. apply NI. apply in_or_app; auto. }
    rewrite E1; cbn [bind].
    assert (PL : Permutation (map vars l ++ lms T1) (map vars (m :: l) ++ lms T)).
    { apply perm_er_lms in P1. change (lv (new_wrap m)) with (vars m) in P1.
      rewrite P1. cbn [map app]. symmetry. apply Permutation_middle. }
    destruct (IH T1 I1 (Forall_inv_tail L)) as (T' & E & I' & P).
    { eapply Permutation_NoDup; [|exact ND]. symmetry. exact PL. }
    exists T'. split; auto. split; auto. cbn [map app]. rewrite P, P1. symmetry. apply Permutation_middle.
Qed.

(* -------- find -------- *)
Lemma mc_find_ok dbg n : forall T m, Forall (okw n) T -> length (vars m) = n ->
  exists r, mc_find dbg T m = Ok r /\
    match r with
    | Some u => In u T /\ jd n u (vars m)
    | None => forall u, In u T -> ~ jd n u (vars m)
    end.
Proof.
  induction T as [|u T IH]; intros m O L; cbn [mc_find].
  - exists None. split; auto.
  - destruct (check_div_ok dbg n u m) as (b & E & B); auto. { now apply Forall_inv in O. }
    rewrite E; cbn [bind]. destruct b.
    + exists (Some u). split; auto. split; [cbn; auto|]. tauto.
    + destruct (IH m (Forall_inv_tail O) L) as (r & E' & R). exists r. split; auto. destruct r as [x|].
      * destruct R; split; cbn; auto.
      * intros x [<-|I]; [|auto]. intros J. apply B in J. discriminate.
Qed.

Lemma linv_okw n o T : linv n o T -> Forall (okw n) T.
Proof. intros I. eapply Forall_impl; [|apply (li_ok _ _ _ I)]. intros a A; apply A. Qed.

Lemma jd_janet_list n T u m :
  (forall i, i < n -> (fl u i = true <-> janet_nm (lms T) (lv u) i)) -> In u T ->
  (jd n u m <-> janet_divides n (lms T) (lv u) m).
Proof.
  intros F I. unfold jd, janet_divides. split.
  - intros J. split; [now apply in_map|]. split.
    + intros i Hi. apply J; auto.
    + intros i Hi L N. apply F in N; auto. apply J in L; auto. congruence.
  - intros (_ & D & M) i Hi. split; [apply D; auto|]. intros L.
    specialize (M i Hi L). destruct (fl u i) eqn:E; auto. exfalso. apply M. apply F; auto.
Qed.

Lemma mc_find_janet dbg n T m : linv n MLex T -> length (vars m) = n ->
  exists r, mc_find dbg T m = Ok r /\
    match r with
    | Some u => In u T /\ janet_divides n (lms T) (lv u) (vars m)
    | None => forall u, ~ janet_divides n (lms T) u (vars m)
    end.
Proof.
  intros I L. destruct (mc_find_ok dbg n T m (linv_okw _ _ _ I) L) as (r & E & R).
  pose proof (janet_flags n T (li_ok _ _ _ I) (li_so _ _ _ I) (li_fl _ _ _ I)) as JF.
  exists r. split; auto. destruct r as [u|].
  - destruct R as (Iu & J). split; auto. apply (jd_janet_list n T u); auto.
  - intros x D. pose proof D as (Ix & _). apply in_map_iff in Ix as (w & <- & Iw).
    apply (R w Iw). apply (jd_janet_list n T w); auto.
Qed.

(* -------- build with lex -------- *)
Record lstate (n : nat) (F : list (list nat)) (p : Z) (T Q : list wrap) : Prop := {
  ls_t : linv n MLex T;
  ls_c : cinv n F p T;
  ls_q : Forall (qinv n p T) Q;
  ls_a : Forall (okc n) Q;
  ls_h : handled n T Q }.

Lemma mc_process_ok dbg n F p : forall Q T, lstate n F p T Q ->
  exists T', mc_process dbg MLex T Q = Ok T' /\ lstate n F p T' [] /\ sumb T' = sumb T.
Proof.
  induction Q as [|w Q IH]; intros T [I C QI QA H]; cbn [mc_process].
  - exists T. split; [auto|]. split; [constructor; auto|auto].
  - pose proof (Forall_inv QI) as (Ow & Fw & Bw & Pw & u0 & k0 & I0 & Hk0 & NM0 & E0).
    destruct (mc_find_janet dbg n T (wlm w) I) as (r & E & R); [apply Ow|].
    rewrite E; cbn [bind]. destruct r as [d|].
    + destruct R as (Id & R). destruct (IH T) as (T' & E' & S'); [|exists T'; auto].
      constructor; auto. { now apply Forall_inv_tail in QI. } { now apply Forall_inv_tail in QA. }
      eapply handled_drop; eauto.
    + assert (NI : ~ In (lv w) (lms T)).
      { intros X. apply (R (lv w)). apply janet_self. auto. }
      destruct (mc_insert_linv dbg n MLex T w) as (T1 & E1 & I1 & P1); auto. { now apply Forall_inv in QA. }
      rewrite E1; cbn [bind].
      destruct (insert_step n F p T T1 w Q) as (C1 & Q1 & H1 & B1); auto.
      { eapply linv_okw; eauto. } { apply I1. }
      { apply janet_flags; apply I1. }
      destruct (IH T1) as (T' & E' & S' & B'); [constructor; auto; now apply Forall_inv_tail in QA|].
      exists T'. split; auto. split; auto. congruence.
Qed.

Lemma mc_loop_mono dbg o : forall f T Q T', mc_loop f dbg o T Q = Ok T' ->
  forall f', f <= f' -> mc_loop f' dbg o T Q = Ok T'.
Proof.
  induction f as [|f IH]; intros T Q T' E f' Hf; destruct Q as [|w Q]; cbn [mc_loop] in E.
  - destruct f'; exact E.
  - discriminate.
  - destruct f'; exact E.
  - destruct f' as [|f']; [lia|]. cbn [mc_loop].
    destruct (mc_process dbg o T (w :: Q)) as [T1| | | |]; cbn [bind] in *; try discriminate.
    destruct (prolong_list dbg T1 []) as [[t2 Q2]| | | |]; cbn [bind] in *; try discriminate.
    apply IH with (f' := f') in E; [exact E|lia].
Qed.

(** Prolonging keeps order, flags and ancestors. *)
Lemma prolong_anc dbg n : forall T Q T' Q', Forall (okc n) T -> Forall (okc n) Q ->
  prolong_list dbg T Q = Ok (T', Q') -> Forall (okw n) T' -> Forall (okw n) Q' -> Forall2 (pr n) T T' ->
  Forall (okc n) Q'.
Proof.
  assert (PV : forall cnt k u Q u' Q', length (vars (wanc u)) = n -> Forall (fun w => length (vars (wanc w)) = n) Q ->
    prolong_vars dbg k cnt u Q = Ok (u', Q') -> length (vars (wanc u')) = n /\ Forall (fun w => length (vars (wanc w)) = n) Q').
  { induction cnt as [|cnt IH]; intros k u Q u' Q' A B E; cbn [prolong_vars] in E.
    - injection E as <- <-. auto.
    - destruct (get_flag dbg (wnm u) k) as [b| | | |]; cbn [bind] in E; try discriminate.
      destruct (get_flag dbg (wbuild u) k) as [c| | | |]; cbn [bind] in E; try discriminate.
      destruct (b && negb c).
      + destruct (prolong_wrap dbg k u) as [[w u1]| | | |] eqn:EP; cbn [bind] in E; try discriminate.
        assert (wanc w = wanc u /\ wanc u1 = wanc u) as (A1 & A2).
        { unfold prolong_wrap, set_build, assert_ in EP.
          destruct (get_flag dbg (wnm u) k) as [?| | | |]; cbn [bind] in EP; try discriminate.
          destruct (get_flag dbg (wnmd u) k) as [?| | | |]; cbn [bind] in EP; try discriminate.
          destruct (get_flag dbg (wbuild u) k) as [?| | | |]; cbn [bind] in EP; try discriminate.
          destruct (set_at (wbuild u) k); unfold oob in EP;
            repeat match type of EP with context [if ?x then _ else _] => destruct x end;
            cbn [bind] in EP; try discriminate; injection EP as <- <-; cbn; auto. }
        eapply IH in E; eauto; [congruence|]. constructor; auto; congruence.
      + eapply IH in E; eauto. }
  assert (PL : forall T Q T' Q', Forall (okc n) T -> Forall (fun w => length (vars (wanc w)) = n) Q ->
     prolong_list dbg T Q = Ok (T', Q') -> Forall (fun w => length (vars (wanc w)) = n) Q').
  { induction T as [|u T IH]; intros Q T' Q' A B E; cbn [prolong_list] in E.
    - injection E as <- <-. auto.
    - destruct (prolong_elem dbg u Q) as [[u' Q1]| | | |] eqn:EE; cbn [bind] in E; try discriminate.
      destruct (prolong_list dbg T Q1) as [[T1 Q2]| | | |] eqn:EL; cbn [bind] in E; try discriminate.
      injection E as <- <-. apply PV in EE; auto; [|apply (Forall_inv A)].
      eapply IH; [|apply EE|exact EL]. now apply Forall_inv_tail in A. }
  intros T Q T' Q' A B E OT OQ R. apply Forall_forall. intros w Iw.
  rewrite Forall_forall in OQ. split; [auto|].
  eapply PL in E; eauto. { rewrite Forall_forall in E. auto. }
  eapply Forall_impl; [|exact B]. intros a H; apply H.
Qed.

Lemma Forall2_split_in {A B} (R : A -> B -> Prop) x y l l' : Forall2 R (x :: l) (y :: l') -> R x y /\ Forall2 R l l'.
Proof. intros H; inversion H; auto. Qed.

Lemma pr_linv n o : forall T T', Forall2 (pr n) T T' -> linv n o T -> linv n o T'.
Proof.
  intros T T' R I. constructor.
  - destruct I as [O _ _ _]. induction R as [|x y l l' Rx Rl IH]; constructor.
    + pose proof (Forall_inv O) as (A & B). destruct Rx as (E1 & E2 & E3 & E4 & E5 & E6).
      split; auto. rewrite E2; auto.
    + apply IH. now apply Forall_inv_tail in O.
  - destruct I as [_ S _ _]. induction R as [|x y l l' Rx Rl IH]; cbn in *; auto.
    destruct S as (S1 & S2). split; auto. intros w' Iw. destruct (Forall2_in_r _ _ _ _ Rl Iw) as (w & Iw0 & E).
    specialize (S1 w Iw0). destruct Rx as (A1 & A2 & _), E as (B1 & B2 & _).
    unfold mc_cmp in *. rewrite A1, A2, B1, B2. exact S1.
  - destruct I as [_ _ F _]. induction R as [|x y l l' Rx Rl IH]; cbn in *; auto.
    destruct F as (F1 & F2). split; auto. intros i Hi. destruct Rx as (A1 & A2 & A3 & _).
    unfold fl. rewrite A3. fold (fl x i). rewrite F1 by auto. unfold hit, lv. rewrite A1. split.
    + intros (w & Iw & H). destruct (Forall2_in_l _ _ _ _ Rl Iw) as (w' & Iw' & B1 & _). exists w'. split; auto.
      rewrite B1. auto.
    + intros (w' & Iw' & H). destruct (Forall2_in_r _ _ _ _ Rl Iw') as (w & Iw & B1 & _). exists w. split; auto.
      rewrite B1 in H. auto.
  - rewrite (pr_lms _ _ _ R). apply I.
Qed.

Lemma prolong_lstate dbg n F p T : lstate n F p T [] ->
  exists T' Q, prolong_list dbg T [] = Ok (T', Q) /\ lstate n F p T' Q /\
    sumb T' = sumb T + length Q /\ (Q = [] -> janet_basis n F (lms T')).
Proof.
  intros [I C QI QA H].
  destruct (prolong_list_ok dbg n T [] (ci_ok _ _ _ _ C)) as (T' & new & EL & R & NQ & NC & SB).
  rewrite app_nil_r in *.
  destruct (prolong_step n F p T T' new) as (C' & Q' & H' & FIN); auto.
  exists T', new. split; [auto|]. split; [|split; [auto|]].
  - constructor; auto.
    + eapply pr_linv; eauto.
    + eapply prolong_anc; [apply I|exact QA|exact EL|apply C'| |exact R].
      eapply Forall_impl; [|exact Q']. intros a A; apply A.
  - intros Eq. eapply settled_basis; eauto.
Qed.

Lemma mc_loop_ok dbg n F p : (forall f, In f F -> length f = n) ->
  forall fuel T Q, lstate n F p T Q -> (Q = [] -> janet_basis n F (lms T)) ->
  n * length (box (bound n F)) < fuel + sumb T ->
  exists T', mc_loop fuel dbg MLex T Q = Ok T' /\ lstate n F p T' [] /\ janet_basis n F (lms T').
Proof.
  intros LF. induction fuel as [|fuel IH]; intros T Q S FIN HF; destruct Q as [|w Q]; cbn [mc_loop].
  - exists T. auto.
  - exfalso. pose proof (sumb_bound n F p _ (ls_c _ _ _ _ _ S) LF). lia.
  - exists T. auto.
  - destruct (mc_process_ok dbg n F p (w :: Q) T S) as (T1 & E1 & S1 & B1). rewrite E1; cbn [bind].
    destruct (prolong_lstate dbg n F p T1 S1) as (t & Q2 & E2 & S2 & B2 & FIN2). rewrite E2; cbn [bind].
    destruct Q2 as [|w2 Q2].
    + exists t. destruct fuel; cbn [mc_loop]; auto.
    + apply IH; auto; try discriminate. cbn [length] in B2. lia.
Qed.

Lemma pushed_cinv_list n p l T : Forall (okw n) T -> NoDup (lms T) ->
  (forall u i, In u T -> i < n -> (fl u i = true <-> janet_nm (lms T) (lv u) i)) ->
  Forall (fun m => length (vars m) = n /\ pos m = p) l ->
  Permutation (map (er 0) T) (map (fun m => er 0 (new_wrap m)) l) ->
  cinv n (map vars l) p T /\ handled n T [] /\ sumb T = 0.
Proof.
  intros O ND FL L P.
  assert (PL : Permutation (lms T) (map vars l)).
  { apply (Permutation_map lv) in P. rewrite !map_map in P. exact P. }
  assert (INV : forall u, In u T -> exists m, In m l /\ er 0 u = er 0 (new_wrap m)).
  { intros u Iu. pose proof (Permutation_map_In _ _ _ _ P Iu) as H. apply in_map_iff in H as (m & E & Im).
    exists m. auto. }
  assert (B0 : forall u, In u T -> cntb u = 0).
  { intros u Iu. destruct (INV u Iu) as (m & _ & E). apply (f_equal wbuild) in E. cbn in E.
    unfold cntb. rewrite E. apply cnt_repeat_false. }
  split; [|split].
  - constructor; auto.
    + intros x Ix. eapply Permutation_in; [apply Permutation_sym, PL|auto].
    + intros x Ix. exists x. split; [eapply Permutation_in; [apply PL|auto]|]. intros i Hi; lia.
    + intros B HB x Ix. apply HB. eapply Permutation_in; [apply PL|auto].
    + intros u Iu. destruct (INV u Iu) as (m & Im & E). apply (f_equal wlm) in E. cbn in E. rewrite E.
      rewrite Forall_forall in L. apply L; auto.
  - intros u k Iu Hk Hb. rewrite (cntb_zero_bld u k) in Hb by auto. discriminate.
  - clear - B0. unfold sumb. induction T as [|u r IH]; cbn [fold_right]; [reflexivity|].
    rewrite B0 by (cbn; auto). rewrite IH; [reflexivity|]. intros; apply B0; cbn; auto.
Qed.

Lemma mc_all dbg n p l :
  Forall (fun m => length (vars m) = n /\ pos m = p) l -> NoDup (map vars l) ->
  exists T T', mc_push_all dbg MLex [] l = Ok T /\
    (exists N, forall fuel, N <= fuel -> mc_build fuel dbg MLex T = Ok T') /\
    lstate n (map vars l) p T' [] /\ janet_basis n (map vars l) (lms T').
Proof.
  intros L ND.
  destruct (mc_push_all_ok dbg n MLex l [] (linv_nil n MLex)) as (T & E & I & P).
  { eapply Forall_impl; [|exact L]. intros a (A & _); auto. }
  { cbn. now rewrite app_nil_r. }
  cbn in P. rewrite app_nil_r in P.
  destruct (pushed_cinv_list n p l T) as (C & H & B); auto.
  { eapply linv_okw; eauto. } { apply I. } { apply janet_flags; apply I. }
  assert (LF : forall f, In f (map vars l) -> length f = n).
  { intros f If. apply in_map_iff in If as (m & <- & Im). rewrite Forall_forall in L. apply L; auto. }
  destruct (prolong_lstate dbg n (map vars l) p T) as (t & Q & Ep & S & SB & FIN).
  { constructor; auto. }
  destruct (mc_loop_ok dbg n (map vars l) p LF (1 + n * length (box (bound n (map vars l)))) t Q S FIN)
    as (T' & EJ & SJ & BJ); [lia|].
  exists T, T'. split; [auto|]. split; [|auto].
  exists (1 + n * length (box (bound n (map vars l)))). intros fuel Hf.
  unfold mc_build. rewrite Ep; cbn [bind]. eapply mc_loop_mono; eauto.
Qed.

(* -------- the induced divisions on pushed monomials, in terms of the orders -------- *)
Lemma cmp_neg_gt c (G : good_cmp c) a b : length a = length b -> ((c a b < 0)%Z <-> c b a = 1%Z).
Proof.
  intros L. rewrite (gc_antisym _ G a b) by auto. destruct (gc_range _ G a b) as [?|[?|?]]; lia.
Qed.

Lemma mc_gt_cmp n o u w : okc n u -> okc n w -> wanc u = wlm u -> wanc w = wlm w ->
  ((mc_cmp o u w < 0)%Z <-> mc_gt o (lv w) (lv u)).
Proof.
  intros U W Eu Ew. pose proof (okc_lm _ _ U) as Lu. pose proof (okc_lm _ _ W) as Lw.
  assert (T : forall z, then_ z z = z) by (intros z; unfold then_; destruct (Z.eqb_spec z 0); auto).
  destruct o; unfold mc_cmp, mc_gt; rewrite ?Eu, ?Ew, ?T; unfold lex, deglex, alex; fold (lv u) (lv w);
    rewrite <- ?lexv_spec, <- ?deglexv_spec, <- ?alexv_spec by congruence;
    try (apply cmp_neg_gt; [|congruence]; first [apply good_lexv|apply good_deglexv|apply good_alexv]).
  (* MGB *)
  rewrite <- (cmp_neg_gt _ good_alexv (lv u) (lv w)) by congruence.
  assert (E : then_ (if Nat.ltb (deg (wlm w)) (deg (wlm u)) then -1
       else if Nat.ltb (deg (wlm u)) (deg (wlm w)) then 1 else 0)%Z (lexv (lv u) (lv w)) = alexv (lv u) (lv w)).
  { rewrite alexv_unfold by congruence. unfold deg. fold (lv u) (lv w). unfold then_.
    destruct (Nat.ltb (degv (lv w)) (degv (lv u))); [reflexivity|].
    destruct (Nat.ltb (degv (lv u)) (degv (lv w))); reflexivity. }
  rewrite E. reflexivity.
Qed.

Lemma hit_spec n u w i : length (lv u) = n -> length (lv w) = n ->
  (hit u w i <-> expo (lv u) i < expo (lv w) i /\ forall j, j < i -> expo (lv w) j <= expo (lv u) j).
Proof.
  intros Lu Lw. unfold hit. pose proof (first_gt_spec (lv w) (lv u) 0) as FS.
  destruct (first_gt (lv w) (lv u) 0) as [v|]; specialize (FS ltac:(congruence)).
  - destruct FS as (j & -> & Hj & Gj & Ej). cbn. split.
    + intros E. injection E as <-. auto.
    + intros (G & E). f_equal. destruct (lt_eq_lt_dec j i) as [[Q|Q]|Q]; auto.
      * specialize (E j Q). lia.
      * specialize (Ej i Q). lia.
  - split; [discriminate|]. intros (G & _). specialize (FS i). lia.
Qed.

Lemma er_new_anc T l : Permutation (map (er 0) T) (map (fun m => er 0 (new_wrap m)) l) ->
  forall u, In u T -> wanc u = wlm u.
Proof.
  intros P u I. pose proof (Permutation_map_In _ _ _ _ P I) as H. apply in_map_iff in H as (m & E & _).
  pose proof (f_equal wanc E) as A. pose proof (f_equal wlm E) as B. cbn in A, B. congruence.
Qed.

Lemma induced_perm gt A B u i : Permutation A B -> induced_nm gt A u i -> induced_nm gt B u i.
Proof. intros P (w & I & H). exists w. split; auto. eapply Permutation_in; eauto. Qed.

(** Any of the seven comparison functions. *)
Lemma mc_push_flags dbg n o l :
  Forall (fun m => length (vars m) = n) l -> NoDup (map vars l) ->
  exists T, mc_push_all dbg o [] l = Ok T /\ Permutation (map wlm T) l /\ linv n o T /\
    forall u i, In u T -> i < n ->
      (nth i (wnm u) false = true <-> induced_nm (mc_gt o) (map vars l) (vars (wlm u)) i).
Proof.
  intros L ND. destruct (mc_push_all_ok dbg n o l [] (linv_nil n o) L) as (T & E & I & P).
  { cbn. now rewrite app_nil_r. }
  cbn in P. rewrite app_nil_r in P. exists T. split; [auto|].
  assert (PW : Permutation (map wlm T) l).
  { apply (Permutation_map wlm) in P. rewrite !map_map in P. cbn in P. now rewrite map_id in P. }
  assert (PV : Permutation (lms T) (map vars l)).
  { apply (Permutation_map vars) in PW. rewrite map_map in PW. exact PW. }
  split; [auto|]. split; [auto|]. intros u i Iu Hi.
  change (nth i (wnm u) false) with (fl u i). pose proof (er_new_anc T l P) as AN.
  assert (OT : forall y, In y T -> okc n y) by (pose proof (li_ok _ _ _ I) as O; rewrite Forall_forall in O; auto).
  rewrite (flagsL_in n o T (li_ok _ _ _ I) (li_so _ _ _ I) (li_fl _ _ _ I) u i Iu Hi). split.
  - intros (w & Iw & C & H). apply (induced_perm _ (lms T)); [auto|]. exists (lv w).
    split; [now apply in_map|]. apply (mc_gt_cmp n) in C; auto. apply (hit_spec n) in H; try (apply okc_lm; auto).
    split; [exact C|]. exact H.
  - intros H. apply (induced_perm _ _ (lms T)) in H; [|now symmetry]. destruct H as (x & Ix & C & H).
    apply in_map_iff in Ix as (w & <- & Iw). exists w. split; auto.
    split; [apply (mc_gt_cmp n); auto|]. apply (hit_spec n); try (apply okc_lm; auto). exact H.
Qed.

(** find for any of the comparison functions *)
Lemma mc_push_find dbg n o l m :
  Forall (fun m => length (vars m) = n) l -> NoDup (map vars l) -> length (vars m) = n ->
  exists T r, mc_push_all dbg o [] l = Ok T /\ mc_find dbg T m = Ok r /\
    match r with
    | Some u => In u T /\ induced_divides (mc_gt o) n (map vars l) (vars (wlm u)) (vars m)
    | None => forall u, ~ induced_divides (mc_gt o) n (map vars l) u (vars m)
    end.
Proof.
  intros L ND Lm. destruct (mc_push_flags dbg n o l L ND) as (T & E & P & I & F).
  destruct (mc_find_ok dbg n T m (linv_okw _ _ _ I) Lm) as (r & Er & R).
  exists T, r. split; [auto|]. split; [auto|].
  assert (PV : Permutation (lms T) (map vars l)).
  { apply (Permutation_map vars) in P. rewrite map_map in P. exact P. }
  assert (K : forall u, In u T -> (jd n u (vars m) <-> induced_divides (mc_gt o) n (map vars l) (lv u) (vars m))).
  { intros u Iu. unfold jd, induced_divides. split.
    - intros J. split; [eapply Permutation_in; [exact PV|now apply in_map]|]. split.
      + intros i Hi. apply J; auto.
      + intros i Hi Lt N. apply F in N; auto. apply J in Lt; auto. unfold fl in Lt. congruence.
    - intros (_ & D & M) i Hi. split; [apply D; auto|]. intros Lt.
      specialize (M i Hi Lt). destruct (fl u i) eqn:Ef; auto. exfalso. apply M. apply F; auto. }
  destruct r as [u|].
  - destruct R as (Iu & J). split; auto. apply K; auto.
  - intros x D. pose proof D as (Ix & _).
    eapply Permutation_in in Ix; [|apply Permutation_sym; exact PV]. apply in_map_iff in Ix as (w & <- & Iw).
    apply (R w Iw). apply K; auto.
Qed.

(** Duplicates: the exact behaviour of push. *)
Lemma set_at_same l i : nth i l false = true -> set_at l i = Some l.
Proof.
  revert i; induction l as [|b l IH]; intros i H; [destruct i; discriminate|].
  destruct i; cbn in *; [now rewrite H|]. now rewrite IH.
Qed.
Lemma mark_same dbg u w : (forall i, hit u w i -> fl u i = true) -> mark dbg w u = Ok u.
Proof.
  intros H. unfold mark, hit in *. fold (lv w) (lv u).
  destruct (first_gt (lv w) (lv u) 0) as [v|]; auto. unfold set_nm.
  rewrite set_at_same; [|apply H; auto]. destruct u; reflexivity.
Qed.

Lemma mc_insert_dup dbg n o : forall T w u T1 T2, T = T1 ++ u :: T2 ->
  Forall (okc n) T -> sortedL o T -> flagsL n T -> okc n w -> wlm w = wlm u -> wanc w = wanc u ->
  mc_insert dbg o T w = match T2 with [] => Ok T | _ => Undef end.
Proof.
  intros T w u T1 T2 -> . revert T2. induction T1 as [|x T1 IH]; intros T2 O S F Ow E1 E2; cbn [app mc_insert] in *.
  - assert (Z : mc_cmp o u w = 0%Z).
    { assert (X : mc_cmp o u w = mc_cmp o u u) by (unfold mc_cmp; rewrite E1, E2; reflexivity). rewrite X.
      pose proof (wk_anti n _ (wk_mc n o) u u (Forall_inv O) (Forall_inv O)). lia. }
    rewrite Z. cbn. reflexivity.
  - destruct S as (S1 & S2), F as (F1 & F2).
    assert (C : mc_cmp o x w = mc_cmp o x u) by (unfold mc_cmp; rewrite E1, E2; reflexivity).
    assert (Iu : In u (T1 ++ u :: T2)) by (apply in_or_app; cbn; auto).
    specialize (S1 u Iu). rewrite C. destruct (Z.ltb_spec (mc_cmp o x u) 0); [|lia].
    rewrite mark_same.
    + cbn [bind]. rewrite (IH T2 (Forall_inv_tail O) S2 F2 Ow E1 E2). destruct T2; reflexivity.
    + intros i Hi. assert (Lw : length (lv w) = n) by (apply okc_lm; auto).
      assert (Lx : length (lv x) = n) by (apply okc_lm; apply (Forall_inv O)).
      apply F1.
      * pose proof (first_gt_spec (lv w) (lv x) 0) as FS. unfold hit in Hi. rewrite Hi in FS.
        destruct FS as (j & -> & Hj & _); [congruence|]. lia.
      * exists u. split; auto. unfold hit, lv in *. now rewrite <- E1.
Qed.

Lemma mc_push_dup dbg n o l m : Forall (fun m => length (vars m) = n) l -> NoDup (map vars l) -> In m l ->
  exists T, mc_push_all dbg o [] l = Ok T /\
    mc_push_all dbg o T [m] = (if existsb (fun a => (0 <? mc_cmp o (new_wrap a) (new_wrap m))%Z) l then Undef else Ok T).
Proof.
  intros L ND Im. destruct (mc_push_all_ok dbg n o l [] (linv_nil n o) L) as (T & E & I & P).
  { cbn. now rewrite app_nil_r. }
  cbn in P. rewrite app_nil_r in P. exists T. split; [auto|].
  assert (ICM : forall a, In a l -> exists u, In u T /\ er 0 u = er 0 (new_wrap a)).
  { intros a Ia. assert (X : In (er 0 (new_wrap a)) (map (er 0) T)).
    { eapply Permutation_in; [apply Permutation_sym, P|]. apply in_map_iff. exists a; auto. }
    apply in_map_iff in X as (u & Eu & Iu). exists u; auto. }
  destruct (ICM m Im) as (u & Iu & Eu). apply in_split in Iu as (T1 & T2 & ET).
  pose proof (er0_lm _ _ Eu) as E1. pose proof (er0_anc _ _ Eu) as E2. cbn in E1, E2.
  cbn [mc_push_all]. rewrite (mc_insert_dup dbg n o T (new_wrap m) u T1 T2); auto; try apply I.
  2: { split; [apply new_wrap_okw|]; rewrite Forall_forall in L; apply L; auto. }
  assert (S : sortedL o T) by apply I. assert (O : Forall (okc n) T) by apply I.
  rewrite ET in S.
  destruct (existsb _ l) eqn:EX.
  - destruct T2 as [|y T2]; cbn [bind]; auto. exfalso.
    apply existsb_exists in EX as (a & Ia & Ha). apply Z.ltb_lt in Ha.
    destruct (ICM a Ia) as (x & Ix & Ex).
    rewrite (er0_cmp o (new_wrap a) x (new_wrap m) u) in Ha; auto.
    assert (C : (mc_cmp o x u < 0)%Z \/ x = u).
    { rewrite ET in Ix. clear - S Ix. induction T1 as [|z T1 IH]; cbn in *.
      - destruct Ix as [->|[]]; auto.
      - destruct S as (S1 & S2). destruct Ix as [->|Ix]; [left; apply S1; apply in_or_app; cbn; auto|auto]. }
    rewrite Forall_forall in O. assert (Iu : In u T) by (rewrite ET; apply in_or_app; cbn; auto).
    destruct C as [C| ->]; [lia|]. pose proof (wk_anti n _ (wk_mc n o) u u (O _ Iu) (O _ Iu)). lia.
  - destruct T2 as [|y T2]; cbn [bind]; auto. exfalso.
    assert (Iy : In y T) by (rewrite ET; apply in_or_app; cbn; auto).
    assert (Iu : In u T) by (rewrite ET; apply in_or_app; cbn; auto).
    pose proof (Permutation_map_In _ _ _ _ P Iy) as H. apply in_map_iff in H as (a & Ea & Ia).
    assert (X : existsb (fun a => (0 <? mc_cmp o (new_wrap a) (new_wrap m))%Z) l = true).
    { apply existsb_exists. exists a. split; auto. apply Z.ltb_lt.
      rewrite (er0_cmp o (new_wrap a) y (new_wrap m) u); auto.
      assert (C : (mc_cmp o u y < 0)%Z).
      { clear - S. induction T1 as [|z T1 IH]; cbn in *; destruct S as (S1 & S2); auto. }
      rewrite Forall_forall in O. rewrite (wk_anti n _ (wk_mc n o) u y); auto. lia. }
    congruence.
Qed.
