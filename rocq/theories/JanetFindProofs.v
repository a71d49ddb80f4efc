(** Janet::find, and the public operations of the tree. *)
From Coq Require Import ZArith List Bool Arith Lia Permutation.
From Verif Require Import Outcome MonomModel MonomSpec MonomProofs JanetModel JanetSpec JanetProofs JanetInsProofs.
Import ListNotations.
Local Open Scope nat_scope.
Local Arguments Nat.ltb : simpl never.
Local Arguments Nat.leb : simpl never.
Local Arguments Nat.eqb : simpl never.
Local Arguments skipn : simpl never.

(** u divides m using only variables not flagged. *)
Definition jd (n : nat) (u : wrap) (m : list nat) : Prop :=
  forall i, i < n -> expo (lv u) i <= expo m i /\ (expo (lv u) i < expo m i -> fl u i = false).

Lemma check_from_ok dbg n u m v : okw n u -> length m = n -> v <= n ->
  exists b, check_from dbg u v (skipn v m) = Ok b /\
    (b = true <-> forall i, v <= i -> i < n -> expo (lv u) i <= expo m i /\ (expo (lv u) i < expo m i -> fl u i = false)).
Proof.
  intros (L1 & L2 & _) Lm. remember (n - v) as k eqn:Ek. revert v Ek.
  induction k as [|k IH]; intros v Ek Hv.
  - rewrite skipn_all2 by lia. exists true. split; [reflexivity|]. split; auto. intros; lia.
  - rewrite skipn_cons by lia. cbn [check_from]. rewrite mget_ok by (unfold lv in L1; lia). cbn [bind].
    change (vars (wlm u)) with (lv u).
    destruct (Nat.ltb_spec (expo m v) (expo (lv u) v)) as [H|H].
    { exists false. split; auto. split; [discriminate|]. intros K. specialize (K v). lia. }
    destruct (IH (S v)) as (b & E & B); [lia|lia|].
    assert (STEP : (expo (lv u) v < expo m v -> fl u v = false) ->
       (b = true <-> forall i, v <= i -> i < n -> expo (lv u) i <= expo m i /\ (expo (lv u) i < expo m i -> fl u i = false))).
    { intros Q. rewrite B. split; intros K i Hi1 Hi2.
      - destruct (Nat.eq_dec i v) as [->|]; [split; auto|apply K; lia].
      - apply K; lia. }
    destruct (Nat.ltb_spec (expo (lv u) v) (expo m v)) as [H2|H2].
    + unfold get_flag. rewrite (nth_error_nth' _ false) by lia. cbn [bind].
      change (nth v (wnm u) false) with (fl u v). destruct (fl u v) eqn:Ef.
      * exists false. split; auto. split; [discriminate|]. intros K. destruct (K v) as (_ & K2); try lia.
        rewrite K2 in Ef by lia. discriminate.
      * exists b. split; auto.
    + exists b. split; auto. apply STEP. lia.
Qed.

Lemma check_div_ok dbg n u m : okw n u -> length (vars m) = n ->
  exists b, check_div dbg u m = Ok b /\ (b = true <-> jd n u (vars m)).
Proof.
  intros O L. destruct (check_from_ok dbg n u (vars m) 0) as (b & E & B); auto; try lia.
  exists b. unfold check_div. split; [exact E|]. rewrite B. unfold jd. split; intros K i Hi; apply K; auto; lia.
Qed.

(** In a debug build find also tests divisibility including positions. *)
Definition pos_ok (dbg : bool) (m : monom) (u : wrap) : Prop :=
  dbg = true -> pos (wlm u) = (-1)%Z \/ pos m = pos (wlm u).

Lemma assert_div_ok {A} dbg n u m (k : outcome A) :
  pos_ok dbg m u -> okw n u -> length (vars m) = n -> jd n u (vars m) -> assert_div dbg u m k = k.
Proof.
  intros P (L1 & _) L J. unfold assert_div, assert_. destruct dbg; [|reflexivity].
  replace (divisiable m (wlm u)) with true; [reflexivity|]. symmetry. unfold divisiable.
  apply andb_true_intro; split.
  - destruct (P eq_refl) as [->| ->]; [reflexivity|]. rewrite Z.eqb_refl. apply orb_true_r.
  - apply gev_spec; [unfold lv in L1; lia|]. intros i Hi. destruct (J i) as (Q & _); [lia|]. exact Q.
Qed.

Lemma find_loop_ok dbg n m d v t :
  wf n v t -> t <> Nil -> flagsT n v t -> Forall (okw n) (wraps t) -> length (vars m) = n ->
  Forall (pos_ok dbg m) (wraps t) ->
  d = degv (skipn v (vars m)) -> 0 < d ->
  (forall u, In u (wraps t) -> forall i, i < v ->
     expo (lv u) i <= expo (vars m) i /\ (expo (lv u) i < expo (vars m) i -> fl u i = false)) ->
  exists r, find_loop dbg m d v t = Ok r /\
    match r with
    | Some u => In u (wraps t) /\ jd n u (vars m)
    | None => forall u, In u (wraps t) -> ~ jd n u (vars m)
    end.
Proof.
  revert d v; induction t as [|dg ow nd IHd nv IHv]; intros d v W N F OT L PO Ed Dp PR; [congruence|].
  cbn [wf] in W. destruct W as (Hv & A & K & B & C & D & Wd & Wv).
  cbn [flagsT] in F. destruct F as (F1 & F2 & F3 & F4).
  cbn [wraps] in *. rewrite !Forall_app in OT, PO. destruct OT as (O1 & O2 & O3). destruct PO as (P1 & P2 & P3).
  set (OL := match ow with Some u0 => [u0] | None => [] end) in *.
  assert (OK : forall y, In y OL -> ow = Some y).
  { unfold OL; destruct ow; cbn; intros y []; [now subst|destruct H]. }
  cbn [find_loop]. unfold assert_ at 1. destruct (Nat.ltb_spec 0 d); [|lia]. rewrite andb_false_r.
  rewrite mget_ok by lia. cbn [bind]. set (x := expo (vars m) v) in *.
  assert (EXN : forall u, In u OL \/ In u (wraps nv) -> expo (lv u) v = dg).
  { intros u [I|I]; [apply A, OK, I|apply B, I]. }
  assert (FLV : forall u, In u OL \/ In u (wraps nv) -> (fl u v = true <-> nd <> Nil)).
  { intros u [I|I]; [apply F1, OK, I|apply F2, I]. }
  destruct (Nat.ltb dg x && negb (is_nil nd)) eqn:Eadv.
  { (* next degree *)
    apply andb_prop in Eadv as (E1 & E2). apply Nat.ltb_lt in E1.
    assert (NN : nd <> Nil) by (destruct nd; [discriminate|congruence]).
    destruct (IHd d v) as (r & E & R); auto.
    { intros u Iu. apply PR. apply in_or_app; right; apply in_or_app; auto. }
    exists r. split; auto. destruct r as [u|].
    - destruct R; split; auto. apply in_or_app; right; apply in_or_app; auto.
    - intros u Iu J. rewrite app_assoc in Iu. apply in_app_or in Iu as [Iu|Iu]; [|apply (R u Iu J)].
      apply in_app_or in Iu. destruct (J v Hv) as (_ & J2). fold x in J2. rewrite (EXN u Iu) in J2.
      pose proof (FLV u Iu) as Q. rewrite J2 in Q by auto. destruct Q as (_ & Q). specialize (Q NN). discriminate. }
  destruct (Nat.ltb_spec x dg) as [H1|H1].
  { exists None. split; auto. intros u Iu J. destruct (J v Hv) as (J1 & _). fold x in J1.
    rewrite app_assoc in Iu. apply in_app_or in Iu as [Iu|Iu].
    - apply in_app_or in Iu. rewrite (EXN u Iu) in J1. lia.
    - specialize (C u Iu). lia. }
  rewrite degv_skipn in Ed by lia. fold x in Ed.
  destruct (Nat.ltb_spec d x); [lia|].
  (* elements of later degrees cannot divide *)
  assert (NDx : forall u, In u (wraps nd) -> ~ jd n u (vars m)).
  { intros u Iu J. destruct (J v Hv) as (J1 & _). fold x in J1. specialize (C u Iu).
    apply andb_false_iff in Eadv as [E1|E1].
    - apply Nat.ltb_ge in E1. lia.
    - destruct nd; [destruct Iu|discriminate]. }
  (* at v everything with exponent dg is fine *)
  assert (ATV : forall u, In u OL \/ In u (wraps nv) ->
            expo (lv u) v <= expo (vars m) v /\ (expo (lv u) v < expo (vars m) v -> fl u v = false)).
  { intros u Iu. rewrite (EXN u Iu). fold x. split; [lia|]. intros Hlt.
    apply andb_false_iff in Eadv as [E1|E1].
    - apply Nat.ltb_ge in E1. lia.
    - destruct (fl u v) eqn:Ef; auto. exfalso. apply (FLV u Iu) in Ef. destruct nd; [congruence|discriminate]. }
  assert (SPLIT : forall u, In u (OL ++ wraps nv ++ wraps nd) ->
            In u OL \/ In u (wraps nv) \/ In u (wraps nd)).
  { intros u Iu. apply in_app_or in Iu as [|Iu]; auto. apply in_app_or in Iu as [|]; auto. }
  destruct (Nat.eqb_spec (d - x) 0) as [D0|D0].
  { (* m is exhausted *)
    assert (Zm : forall i, v < i -> expo (vars m) i = 0) by (intros; eapply degv_skipn_zero with (v := S v); lia).
    assert (NVx : forall u, In u (wraps nv) -> ~ jd n u (vars m)).
    { intros u Iu J. destruct (wf_pos n (S v) nv u Wv) as (i & Hi1 & Hi2 & Hi3); auto; try lia.
      destruct (J i Hi2) as (J1 & _). rewrite Zm in J1 by lia. lia. }
    destruct ow as [u|].
    - assert (Iu : In u OL) by (cbn; auto).
      assert (J : jd n u (vars m)).
      { intros i Hi. destruct (Nat.lt_trichotomy i v) as [Hlt|[->|Hlt]].
        - apply PR; auto. apply in_or_app; auto.
        - apply ATV; auto.
        - rewrite Zm by lia. destruct (A u eq_refl) as (_ & A2 & _). rewrite A2 by lia. lia. }
      rewrite (assert_div_ok dbg n u m (Ok (Some u)) (Forall_inv P1) (Forall_inv O1) L J).
      exists (Some u). split; auto. split; auto. apply in_or_app; auto.
    - unfold assert_. specialize (K eq_refl). destruct nv as [|] eqn:Env; [congruence|]. cbn [is_nil].
      rewrite andb_false_r. cbn [negb]. rewrite andb_false_r. exists None. split; auto.
      intros u Iu J. destruct (SPLIT u Iu) as [I|[I|I]]; [destruct I|eapply NVx; eauto|eapply NDx; eauto]. }
  assert (PRv : forall u, In u (wraps nv) -> forall i, i < S v ->
     expo (lv u) i <= expo (vars m) i /\ (expo (lv u) i < expo (vars m) i -> fl u i = false)).
  { intros u Iu i Hi. destruct (Nat.eq_dec i v) as [->|]; [apply ATV; auto|].
    apply PR; [|lia]. apply in_or_app; right; apply in_or_app; auto. }
  assert (CK : exists ok, match ow with Some u => check_div dbg u m | None => Ok false end = Ok ok /\
             (ok = true -> exists u, ow = Some u /\ jd n u (vars m)) /\
             (ok = false -> forall u, In u OL -> ~ jd n u (vars m))).
  { destruct ow as [u|].
    - destruct (check_div_ok dbg n u m) as (b & E & Q); auto; [apply (Forall_inv O1)|].
      exists b. split; auto. split.
      + intros ->. exists u. split; auto. apply Q; auto.
      + intros -> u' [<-|[]] J. apply Q in J. discriminate.
    - exists false. split; auto. split; [discriminate|]. intros _ u []. }
  destruct CK as (ok & Eok & C1 & C2). rewrite Eok; cbn [bind]. destruct ok.
  { destruct (C1 eq_refl) as (u & -> & J). exists (Some u). split; auto. split; auto. cbn; auto. }
  destruct nv as [|dv owv ndv nvv] eqn:Env.
  { cbn [is_nil]. destruct ow as [u|]; [|specialize (K eq_refl); congruence].
    (* impossible: without a subtree the flags of u behind v are clear *)
    exfalso. apply (C2 eq_refl u); [cbn; auto|]. intros i Hi.
    destruct (Nat.lt_trichotomy i v) as [Hlt|[->|Hlt]].
    - apply PR; auto. apply in_or_app; left; cbn; auto.
    - apply ATV; left; cbn; auto.
    - destruct (A u eq_refl) as (_ & A2 & _). rewrite A2 by lia. split; [lia|]. intros _.
      destruct (F1 u eq_refl) as (_ & G). destruct (fl u i) eqn:Ef; auto. apply G in Ef; try lia.
      exfalso. eapply janet_nm_nil. exact Ef. }
  rewrite <- Env in *. assert (NN : nv <> Nil) by (rewrite Env; discriminate).
  replace (is_nil nv) with false by (rewrite Env; reflexivity).
  destruct (IHv (d - x) (S v)) as (r & E & R); auto; try lia.
  exists r. split; auto. destruct r as [u|].
  - destruct R; split; auto. apply in_or_app; right; apply in_or_app; auto.
  - intros u Iu J. destruct (SPLIT u Iu) as [I|[I|I]]; [eapply C2; eauto|eapply R; eauto|eapply NDx; eauto].
Qed.

(** Invariant of a reachable tree. *)
Record jinv (n : nat) (t : tree) : Prop := {
  ji_wf : wf n 0 t;
  ji_fl : flagsT n 0 t;
  ji_ok : Forall (okw n) (wraps t);
  ji_nd : NoDup (lms (wraps t)) }.

Lemma jinv_nil n : jinv n Nil.
Proof. split; cbn; auto. constructor. Qed.

Lemma jinv_flags n t u i : jinv n t -> In u (wraps t) -> i < n ->
  (fl u i = true <-> janet_nm (lms (wraps t)) (lv u) i).
Proof. intros [W F O N] I Hi. eapply flagsT_flags; eauto; try lia. Qed.

Lemma jd_janet n t u m : jinv n t -> In u (wraps t) -> (jd n u m <-> janet_divides n (lms (wraps t)) (lv u) m).
Proof.
  intros J I. unfold jd, janet_divides, divides. split.
  - intros H. split; [now apply in_map|]. split; [intros i Hi; apply H; auto|].
    intros i Hi Hlt Hn. apply (jinv_flags n t u i J I Hi) in Hn. destruct (H i Hi) as (_ & K). rewrite K in Hn by auto. discriminate.
  - intros (_ & H1 & H2) i Hi. split; auto. intros Hlt. destruct (fl u i) eqn:E; auto.
    exfalso. apply (H2 i Hi Hlt). apply (jinv_flags n t u i J I Hi). auto.
Qed.

Lemma nodup_lms_eq (l : list wrap) u u' : NoDup (lms l) -> In u l -> In u' l -> lv u = lv u' -> u = u'.
Proof.
  induction l as [|a l IH]; intros ND I I' E; [destruct I|].
  cbn in ND. inversion ND as [|? ? NI ND']; subst.
  destruct I as [->|I], I' as [->|I']; auto.
  - exfalso. apply NI. rewrite E. now apply in_map.
  - exfalso. apply NI. rewrite <- E. now apply in_map.
Qed.

(** Cones of different elements are disjoint. *)
Lemma janet_unique n U u u' m :
  (forall x, In x U -> length x = n) -> janet_divides n U u m -> janet_divides n U u' m -> u = u'.
Proof.
  intros L (I & D & M) (I' & D' & M').
  apply expo_ext; [rewrite !L by auto; auto|]. rewrite L by auto.
  intros i. induction i as [i IH] using lt_wf_ind. intros Hi.
  destruct (Nat.lt_trichotomy (expo u i) (expo u' i)) as [H|[H|H]]; auto; exfalso.
  - apply (M i Hi); [specialize (D' i Hi); lia|]. exists u'. repeat split; auto.
    intros j Hj. symmetry. apply IH; lia.
  - apply (M' i Hi); [specialize (D i Hi); lia|]. exists u. repeat split; auto.
    intros j Hj. apply IH; lia.
Qed.

Lemma jinv_len n t x : jinv n t -> In x (lms (wraps t)) -> length x = n.
Proof.
  intros J I. apply in_map_iff in I as (u & <- & Iu). pose proof (ji_ok _ _ J) as O.
  rewrite Forall_forall in O. apply O in Iu. apply Iu.
Qed.

Lemma deg_zero_expo m i : degv m = 0 -> expo m i = 0.
Proof. intros H. apply (degv_skipn_zero m 0); [exact H|lia]. Qed.

Lemma find_ok dbg n t m :
  jinv n t -> 0 < n -> length (vars m) = n -> Forall (pos_ok dbg m) (wraps t) ->
  exists r, find dbg t m = Ok r /\
    match r with
    | Some u => In u (wraps t) /\ jd n u (vars m)
    | None => forall u, In u (wraps t) -> ~ jd n u (vars m)
    end.
Proof.
  intros J Hn L P. destruct t as [|dg ow nd nv].
  { exists None. cbn. auto. }
  unfold find. destruct (Nat.eqb_spec (deg m) 0) as [D|D].
  - pose proof (ji_wf _ _ J) as W. cbn [wf] in W. destruct W as (_ & A & K & B & C & _ & Wd & Wv).
    assert (Z : forall i, expo (vars m) i = 0) by (intros; apply deg_zero_expo; auto).
    assert (SPLIT : forall u, In u (wraps (Node dg ow nd nv)) ->
            ow = Some u \/ In u (wraps nv) \/ In u (wraps nd)).
    { cbn [wraps]. intros u Iu. apply in_app_or in Iu as [Iu|Iu].
      - destruct ow; [|destruct Iu]. destruct Iu as [->|[]]; auto.
      - apply in_app_or in Iu as [|]; auto. }
    destruct (Nat.eqb_spec dg 0) as [E|E].
    + exists ow. split; auto. destruct ow as [u|].
      * split; [cbn; auto|]. intros i Hi. rewrite Z. destruct (A u eq_refl) as (A1 & A2 & _).
        destruct i; [rewrite A1|rewrite A2 by lia]; lia.
      * intros u Iu Jd. destruct (SPLIT u Iu) as [I|[I|I]]; [discriminate| |].
        -- destruct (wf_pos n 1 nv u Wv) as (i & Hi1 & Hi2 & Hi3); auto.
           destruct (Jd i Hi2) as (J1 & _). rewrite Z in J1. lia.
        -- specialize (C u I). destruct (Jd 0 Hn) as (J1 & _). rewrite Z in J1. lia.
    + exists None. split; auto. intros u Iu Jd. destruct (Jd 0 Hn) as (J1 & _). rewrite Z in J1.
      destruct (SPLIT u Iu) as [I|[I|I]].
      * destruct (A u I) as (A1 & _). lia.
      * rewrite (B u I) in J1. lia.
      * specialize (C u I). lia.
  - destruct J as [W F O N]. apply (find_loop_ok dbg n m (deg m) 0 (Node dg ow nd nv)); auto; try discriminate.
    + unfold deg in *. lia.
    + intros; lia.
Qed.

(** find as a statement about Janet division. *)
Lemma find_janet dbg n t m :
  jinv n t -> 0 < n -> length (vars m) = n -> Forall (pos_ok dbg m) (wraps t) ->
  exists r, find dbg t m = Ok r /\
    match r with
    | Some u => In u (wraps t) /\ janet_divides n (lms (wraps t)) (lv u) (vars m)
    | None => forall u, ~ janet_divides n (lms (wraps t)) u (vars m)
    end.
Proof.
  intros J Hn L P. destruct (find_ok dbg n t m J Hn L P) as (r & E & R). exists r. split; auto.
  destruct r as [u|].
  - destruct R as (I & R). split; auto. apply jd_janet; auto.
  - intros u D. pose proof D as (I & _). apply in_map_iff in I as (w & <- & Iw).
    apply (R w Iw). eapply jd_janet; eauto.
Qed.

Lemma ins_root_ok dbg n t w :
  jinv n t -> 0 < n -> okw n w -> (forall i, i < n -> fl w i = false) ->
  ~ In (lv w) (lms (wraps t)) -> (dbg = true -> t <> Nil -> 0 < deg (wlm w)) ->
  exists t', ins_root dbg t w = Ok t' /\ t' <> Nil /\ jinv n t' /\
    Permutation (map (er 0) (wraps t')) (er 0 w :: map (er 0) (wraps t)).
Proof.
  intros [W F O N] Hn Ow FZ NI Db.
  assert (E : ins_root dbg t w = ins_loop dbg w (deg (wlm w)) 0 t) by (destruct t; reflexivity).
  rewrite E. destruct (ins_loop_ok dbg n w (deg (wlm w)) 0 t) as (t' & E' & N' & W' & F' & O' & P' & _); auto.
  { intros; lia. }
  exists t'. repeat split; auto.
  apply (Permutation_map lv) in P'. rewrite map_map in P'. cbn [map] in P'. rewrite map_map in P'.
  change (Permutation (lms (wraps t')) (lv w :: lms (wraps t))) in P'.
  eapply Permutation_NoDup; [apply Permutation_sym, P'|]. constructor; auto.
Qed.

Lemma perm_er_lms v l w l0 : Permutation (map (er v) l) (er v w :: map (er v) l0) ->
  Permutation (lms l) (lv w :: lms l0).
Proof.
  intros P. apply (Permutation_map lv) in P. rewrite map_map in P. cbn [map] in P. rewrite map_map in P. exact P.
Qed.

Lemma assert_valid_ok n v t : wf n v t -> t <> Nil -> assert_valid_tree t = true.
Proof.
  revert v; induction t as [|dg ow nd IHd nv IHv]; intros v W N; [congruence|].
  cbn [wf] in W. destruct W as (Hv & A & K & B & C & D & Wd & Wv). cbn [assert_valid_tree].
  assert (NVT : is_nil nv || assert_valid_tree nv = true).
  { destruct nv; [reflexivity|]. rewrite (IHv (S v)); auto; discriminate. }
  destruct nd as [|dn own ndn nvn] eqn:End.
  - destruct nv; cbn [is_nil] in *; [|rewrite (IHv (S v)); auto; discriminate].
    destruct ow; auto. specialize (K eq_refl). congruence.
  - rewrite NVT. rewrite (IHd v) by (auto; discriminate).
    destruct (Nat.leb_spec dn dg); [lia|reflexivity].
Qed.

Lemma ins_self_divides n t : jinv n t -> forall u, In u (wraps t) -> jd n u (lv u).
Proof. intros J u I i Hi. lia. Qed.

Lemma insert_ok dbg n J w :
  jinv n (jroot J) -> jsize J = length (wraps (jroot J)) -> 0 < n -> okw n w ->
  (forall i, i < n -> fl w i = false) ->
  ~ In (lv w) (lms (wraps (jroot J))) ->
  (dbg = true -> (forall u, ~ janet_divides n (lms (wraps (jroot J))) u (lv w)) /\
                 (jroot J <> Nil -> 0 < deg (wlm w)) /\
                 forall u, In u (w :: wraps (jroot J)) -> pos (wlm u) = (-1)%Z \/ pos (wlm w) = pos (wlm u)) ->
  exists J', insert dbg J w = Ok J' /\ jinv n (jroot J') /\ jsize J' = length (wraps (jroot J')) /\
    jroot J' <> Nil /\
    Permutation (map (er 0) (wraps (jroot J'))) (er 0 w :: map (er 0) (wraps (jroot J))).
Proof.
  intros Ji Sz Hn Ow FZ NI Db. unfold insert.
  destruct (ins_root_ok dbg n (jroot J) w) as (t' & E & N' & J' & P); auto.
  { intros; apply Db; auto. }
  assert (Sz' : S (jsize J) = length (wraps t')).
  { apply Permutation_length in P. cbn in P. rewrite !map_length in P. lia. }
  destruct dbg.
  - destruct (Db eq_refl) as (D1 & D2 & D3).
    destruct (find_janet true n (jroot J) (wlm w)) as (r & Er & R); auto.
    { apply Ow. }
    { apply Forall_forall. intros u Iu _. apply D3. cbn; auto. }
    rewrite Er; cbn [bind]. destruct r as [u|].
    { exfalso. destruct R as (_ & R). apply (D1 _ R). }
    rewrite E; cbn [bind].
    destruct (find_ok true n t' (wlm w)) as (r & Er' & R'); auto.
    { apply Ow. }
    { apply Forall_forall. intros u Iu _. pose proof (Permutation_map_In _ _ _ _ P Iu) as Iu'.
      cbn [In] in Iu'. destruct Iu' as [Eu|Iu'].
      - assert (wlm u = wlm w) by (inversion Eu; auto). right. congruence.
      - apply in_map_iff in Iu' as (u0 & Eu & I0). assert (Eq : wlm u = wlm u0) by (inversion Eu; auto).
        rewrite Eq. apply D3. cbn; auto. }
    rewrite Er'; cbn [bind]. destruct r as [u|].
    + unfold assert_. rewrite (assert_valid_ok n 0) by (auto; apply J'). cbn. eexists; split; [reflexivity|].
      cbn. auto.
    + exfalso.
      assert (I : In (er 0 w) (map (er 0) (wraps t'))) by (eapply Permutation_in; [apply Permutation_sym, P|cbn; auto]).
      apply in_map_iff in I as (u0 & Eu & I0). apply (R' u0 I0). apply er_lv in Eu.
      change (vars (wlm w)) with (lv w). rewrite <- Eu. intros i Hi; lia.
  - cbn [bind]. rewrite E; cbn [bind]. eexists; split; [reflexivity|]. cbn. auto.
Qed.
