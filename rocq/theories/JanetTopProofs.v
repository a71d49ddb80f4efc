(** The statements of Prop_Janet.v and Prop_Completion.v, derived from the invariants. *)
From Coq Require Import ZArith List Bool Arith Lia Permutation.
From Verif Require Import Outcome MonomModel MonomSpec MonomProofs JanetModel JanetSpec JanetProofs
  JanetInsProofs JanetFindProofs CompletionModel CompletionSpec CompletionProofs MJanetProofs MCompletionProofs.
Import ListNotations.
Local Open Scope nat_scope.

Lemma map_vars_wlm l : map vars (map wlm l) = lms l.
Proof. unfold lms, lv. now rewrite map_map. Qed.

Lemma antichain_def n l : (forall a b, In a l -> In b l -> divides n a b -> a = b) -> antichain n l.
Proof. auto. Qed.

Lemma push_all_spec dbg n p l : 0 < n -> Forall (fun m => length (vars m) = n) l -> NoDup (map vars l) ->
  (dbg = true -> antichain n (map vars l) /\ forall m, In m l -> pos m = p) ->
  exists J, mj_push_all dbg jempty l = Ok J /\ tinv n J /\
    Permutation (map wlm (wraps (jroot J))) l /\
    forall u i, In u (wraps (jroot J)) -> i < n ->
      (nth i (wnm u) false = true <-> janet_nm (map vars l) (vars (wlm u)) i).
Proof.
  intros Hn L ND D.
  destruct (mj_push_all_ok dbg n p Hn l jempty (tinv_empty n) L) as (J & E & T & P).
  { cbn. now rewrite app_nil_r. }
  { intros Ed. cbn. rewrite app_nil_r. destruct (D Ed). split; [auto|]. split; [auto|]. intros u []. }
  pose proof (push_all_wlm l J P) as PW.
  exists J. split; [auto|]. split; [auto|]. split; [auto|]. intros u i Iu Hi.
  rewrite (tinv_flags n J u i T Iu Hi). apply janet_nm_perm. now apply Permutation_map.
Qed.

Lemma c18_release n l : 0 < n -> Forall (fun m => length (vars m) = n) l -> NoDup (map vars l) ->
  exists J, mj_push_all false jempty l = Ok J /\ jsize J = length l /\
    Permutation (map wlm (wraps (jroot J))) l /\
    forall u i, In u (wraps (jroot J)) -> i < n ->
      (nth i (wnm u) false = true <-> janet_nm (map vars l) (vars (wlm u)) i).
Proof.
  intros Hn L ND. destruct (push_all_spec false n (-1)%Z l Hn L ND) as (J & E & T & P & F); [discriminate|].
  exists J. split; [auto|]. split; [|auto]. rewrite (ti_size _ _ T). apply Permutation_length in P.
  rewrite map_length in P. auto.
Qed.

Lemma c18_debug n p l : 0 < n -> Forall (fun m => length (vars m) = n /\ pos m = p) l -> NoDup (map vars l) ->
  (forall a b, In a (map vars l) -> In b (map vars l) -> divides n a b -> a = b) ->
  exists J, mj_push_all true jempty l = Ok J /\ jsize J = length l /\
    Permutation (map wlm (wraps (jroot J))) l /\
    forall u i, In u (wraps (jroot J)) -> i < n ->
      (nth i (wnm u) false = true <-> janet_nm (map vars l) (vars (wlm u)) i).
Proof.
  intros Hn L ND A. destruct (push_all_spec true n p l Hn) as (J & E & T & P & F); auto.
  { eapply Forall_impl; [|exact L]. intros a H; apply H. }
  { intros _. split; auto. rewrite Forall_forall in L. intros; apply L; auto. }
  exists J. split; [auto|]. split; [|auto]. rewrite (ti_size _ _ T). apply Permutation_length in P.
  rewrite map_length in P. auto.
Qed.

Lemma c18_debug_assert n p l J m : 0 < n ->
  Forall (fun m => length (vars m) = n /\ pos m = p) (m :: l) -> NoDup (map vars l) ->
  mj_push_all false jempty l = Ok J ->
  (exists u, janet_divides n (map vars l) u (vars m)) ->
  mj_push_all true J [m] = AssertFail.
Proof.
  intros Hn L ND E (u & D).
  destruct (push_all_spec false n (-1)%Z l Hn) as (J' & E' & T & P & F); auto; try discriminate.
  { apply Forall_inv_tail in L. eapply Forall_impl; [|exact L]. intros a H; apply H. }
  rewrite E in E'. injection E' as <-.
  pose proof (Permutation_map vars P) as PV. rewrite map_vars_wlm in PV.
  cbn [mj_push_all]. unfold insert. cbn [new_wrap wlm].
  destruct (find_janet true n (jroot J) m) as (r & Er & R); auto; try apply T.
  { apply (Forall_inv L). }
  { apply Forall_forall. intros w Iw _. right. destruct (Forall_inv L) as (_ & Pm). rewrite Pm.
    assert (I : In (wlm w) l) by (eapply Permutation_in; [exact P|now apply in_map]).
    apply Forall_inv_tail in L. rewrite Forall_forall in L. symmetry. apply L; auto. }
  rewrite Er; cbn [bind]. destruct r as [x|]; [reflexivity|]. exfalso. apply (R u).
  destruct D as (I & D1 & D2). split; [eapply Permutation_in; [apply Permutation_sym, PV|auto]|].
  split; auto. intros i Hi Hl N. apply (D2 i Hi Hl). eapply janet_nm_perm; [|exact N]. now symmetry.
Qed.

Lemma c19_find dbg n p l m : 0 < n -> Forall (fun m => length (vars m) = n /\ pos m = p) l -> NoDup (map vars l) ->
  length (vars m) = n -> (dbg = true -> p = (-1)%Z \/ pos m = p) ->
  exists J r, mj_push_all false jempty l = Ok J /\ find dbg (jroot J) m = Ok r /\
    match r with
    | Some u => In u (wraps (jroot J)) /\ janet_divides n (map vars l) (vars (wlm u)) (vars m)
    | None => forall u, ~ janet_divides n (map vars l) u (vars m)
    end.
Proof.
  intros Hn L ND Lm D.
  destruct (push_all_spec false n (-1)%Z l Hn) as (J & E & T & P & F); auto; try discriminate.
  { eapply Forall_impl; [|exact L]. intros a H; apply H. }
  pose proof (Permutation_map vars P) as PV. rewrite map_vars_wlm in PV.
  assert (JP : forall u, janet_divides n (lms (wraps (jroot J))) u (vars m) <-> janet_divides n (map vars l) u (vars m)).
  { intros u. split; intros (I & D1 & D2).
    - split; [eapply Permutation_in; eauto|]. split; auto. intros i Hi Hl N. apply (D2 i Hi Hl).
      eapply janet_nm_perm; [|exact N]. auto.
    - split; [eapply Permutation_in; [apply Permutation_sym|]; eauto|]. split; auto. intros i Hi Hl N. apply (D2 i Hi Hl).
      eapply janet_nm_perm; [|exact N]. now symmetry. }
  destruct (find_janet dbg n (jroot J) m) as (r & Er & R); auto; try apply T.
  { apply Forall_forall. intros w Iw Ed.
    assert (I : In (wlm w) l) by (eapply Permutation_in; [exact P|now apply in_map]).
    rewrite Forall_forall in L. destruct (L _ I) as (_ & ->). auto. }
  exists J, r. split; [auto|]. split; [auto|]. destruct r as [u|].
  - destruct R as (I & R). split; auto. apply JP. exact R.
  - intros u D'. apply (R u). apply JP. exact D'.
Qed.

(** Copying. *)
Lemma copy_incl t : incl (wraps (copy_tree t)) (wraps t).
Proof.
  induction t as [|dg ow nd IHd nv IHv]; [apply incl_refl|]. intros x I.
  destruct nd as [|dg' ow' nd' nv'].
  - cbn [copy_tree wraps] in *. cbn [wraps] in I. rewrite !app_nil_r in *.
    apply in_or_app; auto.
  - remember (Node dg' ow' nd' nv') as nd. 
    assert (E : copy_tree (Node dg ow nd nv) = Node dg ow (copy_tree nd) (copy_tree nv)) by (rewrite Heqnd; reflexivity).
    rewrite E in I. cbn [wraps] in *. rewrite !in_app_iff in *. intuition auto.
Qed.

Lemma c20_incl J : incl (wraps (jroot (janet_copy J))) (wraps (jroot J)).
Proof. apply copy_incl. Qed.

Lemma copy_exact n t : forall v, wf n v t -> flagsT n v t -> Forall (okw n) (wraps t) -> forall u, In u (wraps t) ->
  (In u (wraps (copy_tree t)) <-> forall i j, v <= i -> i < j -> 0 < expo (lv u) j -> fl u i = true).
Proof.
  induction t as [|dg ow nd IHd nv IHv]; intros v W F O u I; [destruct I|].
  assert (E : wraps (copy_tree (Node dg ow nd nv)) =
    match ow with Some x => [x] | None => [] end ++ (if is_nil nd then [] else wraps (copy_tree nv)) ++ wraps (copy_tree nd)) by (destruct nd; reflexivity).
  rewrite E. clear E. cbn [wf] in W. cbn [flagsT] in F. cbn [wraps] in I, O. destruct W as (Hv & A & K & B & C & D & Wd & Wv). destruct F as (F1 & F2 & F3 & F4).
  rewrite !Forall_app in O. destruct O as (O1 & O2 & O3).
  assert (Z : forall j, 0 < expo (lv u) j -> j < n).
  { intros j Hj. assert (Lu : length (lv u) = n). { rewrite Forall_forall in O1, O2, O3. apply in_app_or in I as [I|I]; [apply O1 in I|apply in_app_or in I as [I|I]; [apply O2 in I|apply O3 in I]]; apply I. }
    destruct (Nat.lt_ge_cases j n); [auto|]. rewrite expo_ge in Hj by lia. lia. }
  apply in_app_or in I as [I|I]; [|apply in_app_or in I as [I|I]].
  - destruct ow as [x|]; [|destruct I]. destruct I as [->|[]]. split; [|intros _; left; reflexivity].
    intros _ i j Hi Hj P. destruct (A u eq_refl) as (_ & A2 & _). rewrite A2 in P by lia. lia.
  - assert (P := wf_pos n (S v) nv u Wv ltac:(lia) I). destruct P as (j0 & P1 & P2 & P3).
    assert (NO : ~ In u (match ow with Some x => [x] | None => [] end)).
    { intro X. destruct ow as [x|]; [|destruct X]. destruct X as [->|[]]. destruct (A u eq_refl) as (_ & A2 & _). rewrite A2 in P3 by lia. lia. }
    assert (ND : ~ In u (wraps (copy_tree nd))). { intro X. apply copy_incl in X. specialize (C u X). specialize (B u I). lia. }
    rewrite !in_app_iff. specialize (F2 u I). specialize (IHv (S v) Wv F3 O2 u I). split.
    + intros [X|[X|X]] i j Hi Hj P; try contradiction. destruct nd as [|? ? ? ?]; cbn [is_nil] in X; [destruct X|].
      destruct (Nat.eq_dec i v) as [->|N]; [apply F2; discriminate|]. apply (proj1 IHv X i j); lia.
    + intro X. right. left. assert (N : nd <> Nil) by (apply F2, (X v j0); lia). destruct nd; [congruence|]. cbn [is_nil].
      apply IHv. intros i j Hi. apply X. lia.
  - assert (Cu := C u I). assert (NO : ~ In u (match ow with Some x => [x] | None => [] end)).
    { intro X. destruct ow as [x|]; [|destruct X]. destruct X as [->|[]]. destruct (A u eq_refl) as (A1 & _). lia. }
    assert (NV : ~ In u (if is_nil nd then [] else wraps (copy_tree nv))).
    { intro X. destruct (is_nil nd); [destruct X|]. apply copy_incl in X. specialize (B u X). lia. }
    rewrite !in_app_iff. specialize (IHd v Wd F4 O3 u I). tauto.
Qed.

Lemma c20_exact n l J u : 0 < n -> Forall (fun m => length (vars m) = n) l -> NoDup (map vars l) ->
  mj_push_all false jempty l = Ok J -> In u (wraps (jroot J)) ->
  (In u (wraps (jroot (janet_copy J))) <->
   forall i j, i < j -> j < n -> 0 < expo (vars (wlm u)) j -> janet_nm (map vars l) (vars (wlm u)) i).
Proof.
  intros Hn L ND E I. destruct (push_all_spec false n (-1)%Z l Hn L ND) as (J' & E' & T & _ & X); [discriminate|].
  rewrite E in E'. injection E' as <-. assert (Ji : jinv n (jroot J)) by apply T. destruct Ji as [W F O _].
  unfold janet_copy. cbn [jroot]. rewrite (copy_exact n _ 0 W F O u I). assert (Lu : length (lv u) = n) by (rewrite Forall_forall in O; apply O, I).
  split.
  - intros H i j Hi Hj P. apply X; [exact I|lia|]. apply (H i j); [lia|exact Hi|exact P].
  - intros H i j _ Hi P. assert (j < n). { destruct (Nat.lt_ge_cases j n); [auto|]. unfold lv in *. rewrite expo_ge in P by lia. lia. }
    apply X; [exact I|lia|]. apply (H i j); auto.
Qed.

Lemma copy_tree_wf1 t : wf 1 0 t -> copy_tree t = t.
Proof.
  induction t as [|dg ow nd IHd nv IHv]; [reflexivity|]. intros W.
  assert (Ev : nv = Nil).
  { destruct nv as [|a b c d]; [reflexivity|]. exfalso. cbn [wf] in W. destruct W as (_ & _ & _ & _ & _ & _ & _ & W).
    cbn [wf] in W. lia. }
  subst nv. destruct nd as [|a b c d]; [reflexivity|].
  remember (Node a b c d) as nd. 
  assert (E : copy_tree (Node dg ow nd Nil) = Node dg ow (copy_tree nd) (copy_tree Nil)) by (rewrite Heqnd; reflexivity).
  rewrite E. cbn [wf] in W. rewrite IHd by tauto. reflexivity.
Qed.

Lemma c20_one_variable l J : Forall (fun m => length (vars m) = 1) l -> NoDup (map vars l) ->
  mj_push_all false jempty l = Ok J -> janet_copy J = J.
Proof.
  intros L ND E. destruct (push_all_spec false 1 (-1)%Z l) as (J' & E' & T & _); auto; try discriminate.
  rewrite E in E'. injection E' as <-. unfold janet_copy. rewrite copy_tree_wf1 by apply T. destruct J; reflexivity.
Qed.

(** MCompletion. *)
Lemma c22 dbg n l m : Forall (fun m => length (vars m) = n) l -> NoDup (map vars l) -> length (vars m) = n ->
  exists T r, mc_push_all dbg MLex [] l = Ok T /\ Permutation (map wlm T) l /\
    (forall u i, In u T -> i < n -> (nth i (wnm u) false = true <-> janet_nm (map vars l) (vars (wlm u)) i)) /\
    mc_find dbg T m = Ok r /\
    match r with
    | Some u => In u T /\ janet_divides n (map vars l) (vars (wlm u)) (vars m)
    | None => forall u, ~ janet_divides n (map vars l) u (vars m)
    end.
Proof.
  intros L ND Lm. destruct (mc_push_flags dbg n MLex l L ND) as (T & E & P & I & _).
  pose proof (Permutation_map vars P) as PV. rewrite map_vars_wlm in PV.
  destruct (mc_find_janet dbg n T m I Lm) as (r & Er & R).
  exists T, r. split; [auto|]. split; [auto|]. split; [|split; [auto|]].
  - intros u i Iu Hi. change (nth i (wnm u) false) with (fl u i).
    rewrite (janet_flags n T (li_ok _ _ _ I) (li_so _ _ _ I) (li_fl _ _ _ I) u i Iu Hi).
    apply janet_nm_perm. auto.
  - destruct r as [u|].
    + destruct R as (Iu & D1 & D2 & D3). split; auto. split; [eapply Permutation_in; eauto|]. split; auto.
      intros i Hi Hl N. apply (D3 i Hi Hl). eapply janet_nm_perm; [|exact N]. auto.
    + intros u (D1 & D2 & D3). apply (R u). split; [eapply Permutation_in; [apply Permutation_sym|]; eauto|]. split; auto.
      intros i Hi Hl N. apply (D3 i Hi Hl). eapply janet_nm_perm; [|exact N]. now symmetry.
Qed.

Lemma c23 dbg n p l :
  Forall (fun m => length (vars m) = n /\ pos m = p) l -> NoDup (map vars l) ->
  exists T T', mc_push_all dbg MLex [] l = Ok T /\
    (exists N, forall fuel, N <= fuel -> mc_build fuel dbg MLex T = Ok T') /\
    janet_basis n (map vars l) (map vars (map wlm T')) /\
    NoDup (map wlm T') /\ incl l (map wlm T') /\
    (forall B, (forall f, In f l -> divides n (vars f) B) -> forall x, In x (map wlm T') -> divides n (vars x) B) /\
    forall m, length (vars m) = n -> exists r, mc_find dbg T' m = Ok r /\
      (r <> None <-> in_ideal n (map vars l) (vars m)) /\
      forall u, r = Some u -> In u T' /\ janet_divides n (map vars (map wlm T')) (vars (wlm u)) (vars m).
Proof.
  intros L ND. destruct (mc_all dbg n p l L ND) as (T & T' & E & B & S & JB).
  exists T, T'. rewrite map_vars_wlm. split; [auto|]. split; [auto|]. split; [auto|]. split; [|split; [|split]].
  - pose proof (li_nd _ _ _ (ls_t _ _ _ _ _ S)) as N. rewrite <- map_vars_wlm in N. now apply NoDup_map_inv in N.
  - intros m Im. pose proof (ci_in _ _ _ _ (ls_c _ _ _ _ _ S) (vars m) (in_map vars _ _ Im)) as I.
    apply in_map_iff in I as (u & Eu & Iu). apply in_map_iff. exists u. split; auto.
    pose proof (ci_pos _ _ _ _ (ls_c _ _ _ _ _ S) u Iu) as Pu. rewrite Forall_forall in L.
    destruct (L m Im) as (_ & Pm). unfold lv in Eu. destruct (wlm u), m; cbn in *; congruence.
  - intros b Hb x Ix. apply in_map_iff in Ix as (u & <- & Iu).
    apply (ci_box _ _ _ _ (ls_c _ _ _ _ _ S)); [|apply (in_map lv); auto].
    intros f If. apply in_map_iff in If as (m & <- & Im). auto.
  - intros m Lm. destruct (mc_find_janet dbg n T' m (ls_t _ _ _ _ _ S) Lm) as (r & Er & R).
    exists r. split; [auto|]. destruct r as [u|].
    + destruct R as (Iu & D). split.
      * split; [|discriminate]. intros _. destruct JB as (J1 & _). destruct (J1 (lv u)) as (f & If & Df).
        { now apply in_map. }
        exists f. split; auto. intros i Hi. destruct D as (_ & D & _). specialize (D i Hi). specialize (Df i Hi). lia.
      * intros v Ev. injection Ev as <-. auto.
    + split; [|discriminate]. split; [congruence|]. intros I. destruct JB as (_ & J2).
      destruct (J2 (vars m) Lm I) as (u & D). exfalso. apply (R u D).
Qed.

Lemma c24 dbg n p l : 0 < n ->
  Forall (fun m => length (vars m) = n /\ pos m = p) l -> NoDup (map vars l) ->
  (dbg = true -> forall a b, In a (map vars l) -> In b (map vars l) -> divides n a b -> a = b) ->
  exists J J', mj_push_all dbg jempty l = Ok J /\
    (exists N, forall fuel, N <= fuel -> mj_build fuel dbg J = Ok J') /\
    janet_basis n (map vars l) (map vars (map wlm (wraps (jroot J')))) /\
    NoDup (map wlm (wraps (jroot J'))) /\ jsize J' = length (wraps (jroot J')) /\
    incl l (map wlm (wraps (jroot J'))) /\
    (forall B, (forall f, In f l -> divides n (vars f) B) ->
       forall x, In x (map wlm (wraps (jroot J'))) -> divides n (vars x) B) /\
    forall m, length (vars m) = n -> (dbg = true -> p = (-1)%Z \/ pos m = p) ->
      exists r, find dbg (jroot J') m = Ok r /\
      (r <> None <-> in_ideal n (map vars l) (vars m)) /\
      forall u, r = Some u -> In u (wraps (jroot J')) /\
        janet_divides n (map vars (map wlm (wraps (jroot J')))) (vars (wlm u)) (vars m).
Proof.
  intros Hn L ND D. destruct (mj_all dbg n p l Hn L ND D) as (J & J' & E & B & S & JB).
  exists J, J'. rewrite map_vars_wlm. split; [auto|]. split; [auto|]. split; [auto|].
  pose proof (st_t _ _ _ _ _ S) as TI. pose proof (st_c _ _ _ _ _ S) as C.
  split; [|split; [|split; [|split]]].
  - pose proof (ci_nd _ _ _ _ C) as N. rewrite <- map_vars_wlm in N. now apply NoDup_map_inv in N.
  - apply TI.
  - intros m Im. pose proof (ci_in _ _ _ _ C (vars m) (in_map vars _ _ Im)) as I.
    apply in_map_iff in I as (u & Eu & Iu). apply in_map_iff. exists u. split; auto.
    pose proof (ci_pos _ _ _ _ C u Iu) as Pu. rewrite Forall_forall in L.
    destruct (L m Im) as (_ & Pm). unfold lv in Eu. destruct (wlm u), m; cbn in *; congruence.
  - intros b Hb x Ix. apply in_map_iff in Ix as (u & <- & Iu).
    apply (ci_box _ _ _ _ C); [|apply (in_map lv); auto].
    intros f If. apply in_map_iff in If as (m & <- & Im). auto.
  - intros m Lm Pm. destruct (find_janet dbg n (jroot J') m) as (r & Er & R); auto; try apply TI.
    { apply Forall_forall. intros w Iw Ed. rewrite (ci_pos _ _ _ _ C w Iw). auto. }
    exists r. split; [auto|]. destruct r as [u|].
    + destruct R as (Iu & Dv). split.
      * split; [|discriminate]. intros _. destruct JB as (J1 & _). destruct (J1 (lv u)) as (f & If & Df).
        { now apply in_map. }
        exists f. split; auto. intros i Hi. destruct Dv as (_ & Dv & _). specialize (Dv i Hi). specialize (Df i Hi). lia.
      * intros v Ev. injection Ev as <-. auto.
    + split; [|discriminate]. split; [congruence|]. intros I. destruct JB as (_ & J2).
      destruct (J2 (vars m) Lm I) as (u & Dv). exfalso. apply (R u Dv).
Qed.

Lemma c22_any dbg n o l : Forall (fun m => length (vars m) = n) l -> NoDup (map vars l) ->
  exists T, mc_push_all dbg o [] l = Ok T /\ Permutation (map wlm T) l /\
    forall u i, In u T -> i < n ->
      (nth i (wnm u) false = true <-> induced_nm (mc_gt o) (map vars l) (vars (wlm u)) i).
Proof. intros L ND. destruct (mc_push_flags dbg n o l L ND) as (T & A & B & _ & C). exists T. auto. Qed.
