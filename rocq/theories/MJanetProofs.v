(** MJanet: pushes and build() (tree based completion). *)
From Coq Require Import ZArith List Bool Arith Lia Permutation.
From Verif Require Import Outcome MonomModel MonomSpec MonomProofs JanetModel JanetSpec JanetProofs
  JanetInsProofs JanetFindProofs CompletionModel CompletionProofs.
Import ListNotations.
Local Open Scope nat_scope.

Lemma new_wrap_okw n m : length (vars m) = n -> okw n (new_wrap m).
Proof. intros L. unfold okw, new_wrap, lv, size; cbn. rewrite !repeat_length. auto. Qed.
Lemma new_wrap_fl m i : fl (new_wrap m) i = false.
Proof. apply nth_repeat_false. Qed.
Lemma new_wrap_cnt m : cntb (new_wrap m) = 0.
Proof. apply cnt_repeat_false. Qed.

(** State after pushes. *)
Definition fresh (l : list wrap) : Prop := forall u, In u l -> cntb u = 0 /\ wanc u = wlm u.

Record tinv (n : nat) (J : janet) : Prop := {
  ti_inv : jinv n (jroot J);
  ti_size : jsize J = length (wraps (jroot J)) }.

Lemma tinv_empty n : tinv n jempty.
Proof. split; [apply jinv_nil|reflexivity]. Qed.

(** What the debug assertions of push need: no element divides another, one module component. *)
Definition antichain (n : nat) (l : list (list nat)) : Prop :=
  forall a b, In a l -> In b l -> divides n a b -> a = b.

Lemma mj_push_ok dbg n p J m :
  tinv n J -> 0 < n -> length (vars m) = n -> ~ In (vars m) (lms (wraps (jroot J))) ->
  (dbg = true -> antichain n (vars m :: lms (wraps (jroot J))) /\ pos m = p /\
                 forall u, In u (wraps (jroot J)) -> pos (wlm u) = p) ->
  exists J', insert dbg J (new_wrap m) = Ok J' /\ tinv n J' /\
    Permutation (map (er 0) (wraps (jroot J'))) (er 0 (new_wrap m) :: map (er 0) (wraps (jroot J))).
Proof.
  intros [I S] Hn L NI D.
  destruct (insert_ok dbg n J (new_wrap m)) as (J' & E & I' & S' & _ & P); auto.
  - now apply new_wrap_okw.
  - intros; apply new_wrap_fl.
  - intros Ed. destruct (D Ed) as (A & Pm & Pu). split; [|split].
    + intros u (Iu & Du & _). apply NI. change (lv (new_wrap m)) with (vars m) in Du.
      assert (X : u = vars m) by (apply A; cbn [In]; auto). rewrite <- X. exact Iu.
    + intros NN. change (wlm (new_wrap m)) with m.
      destruct (Nat.eq_dec (deg m) 0) as [Z|Z]; [|lia]. exfalso.
      assert (W : wraps (jroot J) <> []) by (apply (wf_nonempty n 0); [apply I|auto]).
      destruct (wraps (jroot J)) as [|u r] eqn:Ew; [congruence|].
      apply NI. rewrite (A (vars m) (lv u)); [left; reflexivity|left; reflexivity|right; left; reflexivity|].
      intros i Hi. pose proof (expo_le_degv (vars m) i). unfold deg in Z. lia.
    + intros u [<-|Iu]; right; cbn [new_wrap wlm]; auto. rewrite Pm. symmetry. auto.
  - exists J'. split; [auto|]. split; [split; auto|auto].
Qed.

Lemma mj_push_all_ok dbg n p : 0 < n -> forall l J,
  tinv n J -> Forall (fun m => length (vars m) = n) l ->
  NoDup (map vars l ++ lms (wraps (jroot J))) ->
  (dbg = true -> antichain n (map vars l ++ lms (wraps (jroot J))) /\ (forall m, In m l -> pos m = p) /\
                 forall u, In u (wraps (jroot J)) -> pos (wlm u) = p) ->
  exists J', mj_push_all dbg J l = Ok J' /\ tinv n J' /\
    Permutation (map (er 0) (wraps (jroot J'))) (map (fun m => er 0 (new_wrap m)) l ++ map (er 0) (wraps (jroot J))).
Proof.
  intros Hn. induction l as [|m l IH]; intros J T L ND D; cbn [mj_push_all].
  - exists J. split; [auto|]. split; [auto|reflexivity].
  - cbn [map app] in ND. inversion ND as [|? ? NI ND']; subst.
    destruct (mj_push_ok dbg n p J m) as (J1 & E1 & T1 & P1); auto.
    { apply (Forall_inv L). }
    { intros I. apply NI. apply in_or_app; auto. }
    { intros Ed. destruct (D Ed) as (A & Pm & Pu). split; [|split].
      - intros a b Ia Ib. apply A; cbn [map app In] in *; rewrite in_app_iff; tauto.
      - apply Pm; cbn; auto.
      - auto. }
    rewrite E1; cbn [bind].
    assert (PL : Permutation (map vars l ++ lms (wraps (jroot J1))) (map vars (m :: l) ++ lms (wraps (jroot J)))).
    { apply perm_er_lms in P1. change (lv (new_wrap m)) with (vars m) in P1.
      rewrite P1. cbn [map app]. symmetry. apply Permutation_middle. }
    destruct (IH J1 T1 (Forall_inv_tail L)) as (J' & E & T' & P).
    { eapply Permutation_NoDup; [|exact ND]. symmetry. exact PL. }
    { intros Ed. destruct (D Ed) as (A & Pm & Pu). split; [|split].
      - intros a b Ia Ib. apply A; eapply Permutation_in; eauto.
      - intros; apply Pm; cbn; auto.
      - intros u Iu. pose proof (Permutation_map_In _ _ _ _ P1 Iu) as [E|I].
        + apply (f_equal wlm) in E. cbn in E. rewrite <- E. apply Pm; cbn; auto.
        + apply in_map_iff in I as (u0 & E & I0). apply (f_equal wlm) in E. cbn in E. rewrite <- E. auto. }
    exists J'. repeat split; auto; try apply T'. cbn [map app]. rewrite P, P1.
    symmetry. apply Permutation_middle.
Qed.

Lemma tinv_flags n J u i : tinv n J -> In u (wraps (jroot J)) -> i < n ->
  (nth i (wnm u) false = true <-> janet_nm (map vars (map wlm (wraps (jroot J)))) (vars (wlm u)) i).
Proof. intros T I Hi. rewrite map_map. apply (jinv_flags n (jroot J) u i (ti_inv _ _ T) I Hi). Qed.

Lemma map_er_wlm v l : map wlm (map (er v) l) = map wlm l.
Proof. rewrite map_map. reflexivity. Qed.

Lemma push_all_wlm l J' :
  Permutation (map (er 0) (wraps (jroot J'))) (map (fun m => er 0 (new_wrap m)) l ++ map (er 0) (wraps (jroot jempty))) ->
  Permutation (map wlm (wraps (jroot J'))) l.
Proof.
  intros P. apply (Permutation_map wlm) in P. rewrite map_er_wlm, map_app, map_er_wlm, map_map in P.
  cbn in P. rewrite app_nil_r, map_id in P. exact P.
Qed.

(** The completion invariant holds after the pushes. *)
Lemma pushed_cinv n p l J :
  tinv n J -> Forall (fun m => length (vars m) = n /\ pos m = p) l ->
  Permutation (map (er 0) (wraps (jroot J))) (map (fun m => er 0 (new_wrap m)) l) ->
  cinv n (map vars l) p (wraps (jroot J)) /\ handled n (wraps (jroot J)) [] /\ sumb (wraps (jroot J)) = 0.
Proof.
  intros [I S] L P.
  assert (PL : Permutation (lms (wraps (jroot J))) (map vars l)).
  { apply (Permutation_map lv) in P. rewrite !map_map in P. exact P. }
  assert (INV : forall u, In u (wraps (jroot J)) -> exists m, In m l /\ er 0 u = er 0 (new_wrap m)).
  { intros u Iu. pose proof (Permutation_map_In _ _ _ _ P Iu) as H. apply in_map_iff in H as (m & E & Im).
    exists m. auto. }
  assert (B0 : forall u, In u (wraps (jroot J)) -> cntb u = 0).
  { intros u Iu. destruct (INV u Iu) as (m & _ & E). apply (f_equal wbuild) in E. cbn in E.
    unfold cntb. rewrite E. apply cnt_repeat_false. }
  split; [|split].
  - constructor.
    + apply I.
    + apply I.
    + intros u i Iu Hi. apply (jinv_flags n (jroot J)); auto.
    + intros x Ix. eapply Permutation_in; [apply Permutation_sym, PL|auto].
    + intros x Ix. exists x. split; [eapply Permutation_in; [apply PL|auto]|]. intros i Hi; lia.
    + intros B HB x Ix. apply HB. eapply Permutation_in; [apply PL|auto].
    + intros u Iu. destruct (INV u Iu) as (m & Im & E). apply (f_equal wlm) in E. cbn in E. rewrite E.
      rewrite Forall_forall in L. apply L; auto.
  - intros u k Iu Hk Hb. rewrite (cntb_zero_bld u k) in Hb by auto. discriminate.
  - clear - B0. unfold sumb. induction (wraps (jroot J)) as [|u r IH]; cbn [fold_right]; [reflexivity|].
    rewrite B0 by (cbn; auto). rewrite IH; [reflexivity|]. intros; apply B0; cbn; auto.
Qed.

Record state (n : nat) (F : list (list nat)) (p : Z) (J : janet) (Q : list wrap) : Prop := {
  st_t : tinv n J;
  st_c : cinv n F p (wraps (jroot J));
  st_q : Forall (qinv n p (wraps (jroot J))) Q;
  st_h : handled n (wraps (jroot J)) Q }.

Lemma janet_self n U u : In u U -> janet_divides n U u u.
Proof. intros I. split; auto. split; [intros i Hi; lia|]. intros i Hi H; lia. Qed.

Lemma mj_process_ok dbg n F p : 0 < n -> forall Q J, state n F p J Q ->
  exists J', mj_process dbg J Q = Ok J' /\ state n F p J' [] /\ sumb (wraps (jroot J')) = sumb (wraps (jroot J)).
Proof.
  intros Hn. induction Q as [|w Q IH]; intros J [T C QI H]; cbn [mj_process].
  - exists J. split; [auto|]. split; [constructor; auto|auto].
  - pose proof (Forall_inv QI) as (Ow & Fw & Bw & Pw & u0 & k0 & I0 & Hk0 & NM0 & E0).
    destruct (find_janet dbg n (jroot J) (wlm w)) as (r & E & R); auto; try apply T.
    { apply Ow. }
    { apply Forall_forall. intros u Iu _. right. rewrite Pw. symmetry. apply (ci_pos _ _ _ _ C); auto. }
    rewrite E; cbn [bind]. destruct r as [d|].
    + destruct R as (Id & R). destruct (IH J) as (J' & E' & S'); [|exists J'; auto].
      constructor; auto. { now apply Forall_inv_tail in QI. }
      eapply handled_drop; eauto.
    + assert (NI : ~ In (lv w) (lms (wraps (jroot J)))).
      { intros I. apply (R (lv w)). apply janet_self. auto. }
      destruct (insert_ok dbg n J w) as (J1 & E1 & I1 & S1 & _ & P1); auto; try apply T.
      { intros _. split; [exact R|]. split.
        - intros _. unfold deg. change (vars (wlm w)) with (lv w). rewrite E0. rewrite incr_degv; [lia|].
          rewrite (cinv_len n F p _ u0 C I0). auto.
        - intros u Iu. right. rewrite Pw. destruct Iu as [<-|Iu]; [auto|]. symmetry. apply (ci_pos _ _ _ _ C); auto. }
      rewrite E1; cbn [bind].
      destruct (insert_step n F p (wraps (jroot J)) (wraps (jroot J1)) w Q) as (C1 & Q1 & H1 & B1); auto; try apply I1.
      { intros; apply (jinv_flags n (jroot J1)); auto. }
      destruct (IH J1) as (J' & E' & S' & B'); [constructor; auto; constructor; auto|].
      exists J'. split; auto. split; auto. congruence.
Qed.

Lemma mj_loop_mono dbg : forall f J Q J', mj_loop f dbg J Q = Ok J' ->
  forall f', f <= f' -> mj_loop f' dbg J Q = Ok J'.
Proof.
  induction f as [|f IH]; intros J Q J' E f' Hf; destruct Q as [|w Q]; cbn [mj_loop] in E.
  - destruct f'; exact E.
  - discriminate.
  - destruct f'; exact E.
  - destruct f' as [|f']; [lia|]. cbn [mj_loop].
    destruct (mj_process dbg J (w :: Q)) as [J1| | | |]; cbn [bind] in *; try discriminate.
    destruct (prolong_tree dbg (jroot J1) []) as [[t2 Q2]| | | |]; cbn [bind] in *; try discriminate.
    apply IH with (f' := f') in E; [exact E|lia].
Qed.

Lemma Forall2_len {A B} (R : A -> B -> Prop) l l' : Forall2 R l l' -> length l = length l'.
Proof. induction 1; cbn; auto. Qed.

Lemma prolong_state dbg n F p J : 0 < n -> state n F p J [] ->
  exists t Q, prolong_tree dbg (jroot J) [] = Ok (t, Q) /\ state n F p (JT (jsize J) t) Q /\
    sumb (wraps t) = sumb (wraps (jroot J)) + length Q /\
    (Q = [] -> janet_basis n F (lms (wraps t))).
Proof.
  intros Hn [T C QI H].
  destruct (prolong_tree_ok dbg n (jroot J) [] (ci_ok _ _ _ _ C)) as (t & Q & E & EL & R).
  destruct (prolong_list_ok dbg n (wraps (jroot J)) [] (ci_ok _ _ _ _ C)) as (T' & new & EL' & R' & NQ & NC & SB).
  rewrite EL in EL'. injection EL' as <- ->. rewrite app_nil_r in *.
  destruct (prolong_step n F p (wraps (jroot J)) (wraps t) new) as (C' & Q' & H' & FIN); auto.
  exists t, new. split; [auto|]. split; [|split; [auto|]].
  - destruct T as [TI TS]. destruct TI as [W Fl O ND].
    constructor; cbn [jroot]; auto. constructor; cbn [jroot jsize].
    + constructor.
      * eapply trel_wf; eauto.
      * eapply trel_flags; eauto.
      * apply C'.
      * apply C'.
    + apply trel_wraps in R. apply Forall2_len in R. lia.
  - intros Eq. eapply settled_basis; eauto.
Qed.

Lemma mj_loop_ok dbg n F p : 0 < n -> (forall f, In f F -> length f = n) ->
  forall fuel J Q, state n F p J Q -> (Q = [] -> janet_basis n F (lms (wraps (jroot J)))) ->
  n * length (box (bound n F)) < fuel + sumb (wraps (jroot J)) ->
  exists J', mj_loop fuel dbg J Q = Ok J' /\ state n F p J' [] /\ janet_basis n F (lms (wraps (jroot J'))).
Proof.
  intros Hn LF. induction fuel as [|fuel IH]; intros J Q S FIN HF; destruct Q as [|w Q]; cbn [mj_loop].
  - exists J. auto.
  - exfalso. pose proof (sumb_bound n F p _ (st_c _ _ _ _ _ S) LF). lia.
  - exists J. auto.
  - destruct (mj_process_ok dbg n F p Hn (w :: Q) J S) as (J1 & E1 & S1 & B1). rewrite E1; cbn [bind].
    destruct (prolong_state dbg n F p J1 Hn S1) as (t & Q2 & E2 & S2 & B2 & FIN2). rewrite E2; cbn [bind].
    destruct Q2 as [|w2 Q2].
    + exists (JT (jsize J1) t). destruct fuel; cbn [mj_loop]; auto.
    + apply IH; auto; try discriminate. cbn [jroot]. cbn [length] in B2. lia.
Qed.

Lemma mj_build_ok dbg n p l J : 0 < n ->
  tinv n J -> Forall (fun m => length (vars m) = n /\ pos m = p) l ->
  Permutation (map (er 0) (wraps (jroot J))) (map (fun m => er 0 (new_wrap m)) l) ->
  exists J', (exists N, forall fuel, N <= fuel -> mj_build fuel dbg J = Ok J') /\
    state n (map vars l) p J' [] /\ janet_basis n (map vars l) (lms (wraps (jroot J'))).
Proof.
  intros Hn T L P. destruct (pushed_cinv n p l J T L P) as (C & H & B).
  assert (LF : forall f, In f (map vars l) -> length f = n).
  { intros f If. apply in_map_iff in If as (m & <- & Im). rewrite Forall_forall in L. apply L; auto. }
  destruct (prolong_state dbg n (map vars l) p J Hn) as (t & Q & E & S & SB & FIN).
  { constructor; auto. }
  destruct (mj_loop_ok dbg n (map vars l) p Hn LF (1 + n * length (box (bound n (map vars l)))) (JT (jsize J) t) Q S FIN)
    as (J' & EJ & SJ & BJ); [cbn [jroot]; lia|].
  exists J'. split; [|auto]. exists (1 + n * length (box (bound n (map vars l)))). intros fuel Hf.
  unfold mj_build. rewrite E; cbn [bind]. eapply mj_loop_mono; eauto.
Qed.

(** Everything together, on pushed monomials. *)
Lemma mj_all dbg n p l : 0 < n ->
  Forall (fun m => length (vars m) = n /\ pos m = p) l -> NoDup (map vars l) ->
  (dbg = true -> antichain n (map vars l)) ->
  exists J J', mj_push_all dbg jempty l = Ok J /\
    (exists N, forall fuel, N <= fuel -> mj_build fuel dbg J = Ok J') /\
    state n (map vars l) p J' [] /\ janet_basis n (map vars l) (lms (wraps (jroot J'))).
Proof.
  intros Hn L ND D.
  destruct (mj_push_all_ok dbg n p Hn l jempty (tinv_empty n)) as (J & E & T & P).
  { eapply Forall_impl; [|exact L]. intros a (A & _); auto. }
  { cbn. now rewrite app_nil_r. }
  { intros Ed. cbn. rewrite app_nil_r. split; [auto|]. split; [|intros u []].
    intros m Im. rewrite Forall_forall in L. apply L; auto. }
  cbn in P. rewrite app_nil_r in P.
  destruct (mj_build_ok dbg n p l J Hn T L P) as (J' & EB & S & B).
  exists J, J'. auto.
Qed.
