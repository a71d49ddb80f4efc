From Coq Require Import ZArith List Bool Arith Lia Permutation.
From Verif Require Import Outcome MonomModel MonomSpec MonomProofs JanetModel JanetSpec JanetProofs JanetFindProofs GBModel GBSpec.
Import ListNotations.
Local Open Scope nat_scope.

Definition fd (u : wrap) (i : nat) : bool := nth i (wnmd u) false.
(** everything but the flags wnmd *)
Definition same_but_nmd (u u' : wrap) : Prop :=
  wlm u' = wlm u /\ wanc u' = wanc u /\ wnm u' = wnm u /\ wbuild u' = wbuild u /\ length (wnmd u') = length (wnmd u).

Lemma sbn_refl u : same_but_nmd u u.
Proof. repeat split. Qed.
Lemma sbn_trans u v w : same_but_nmd u v -> same_but_nmd v w -> same_but_nmd u w.
Proof. intros (A1 & A2 & A3 & A4 & A5) (B1 & B2 & B3 & B4 & B5). repeat split; congruence. Qed.
Lemma sbn_okw n u u' : same_but_nmd u u' -> okw n u -> okw n u'.
Proof. intros (A1 & A2 & A3 & A4 & A5) (O1 & O2 & O3 & O4). unfold okw, lv. rewrite A1, A3, A4, A5. auto. Qed.

Lemma set_nmd_spec dbg n u i : okw n u -> i < n ->
  exists u', set_nmd dbg u i = Ok u' /\ same_but_nmd u u' /\ forall j, fd u' j = if Nat.eqb j i then true else fd u j.
Proof.
  intros (O1 & O2 & O3 & O4) H. unfold set_nmd.
  destruct (set_at_spec (wnmd u) i) as (l & E & L & F & _); [lia|]. rewrite E.
  eexists. split; [reflexivity|]. split; [repeat split; auto|]. exact F.
Qed.

(** what setMNprec looks for in the tree *)
Definition above (l : list wrap) (w : wrap) (v i : nat) : Prop :=
  v <= i /\ exists u, In u l /\ expo (lv w) i < expo (lv u) i /\ forall k, v <= k -> k < i -> expo (lv u) k <= expo (lv w) k.

Lemma set_mn_prec_ok dbg n t : forall w v, wf n v t -> okw n w -> Forall (okw n) (wraps t) ->
  exists w', set_mn_prec dbg w v t = Ok w' /\ same_but_nmd w w' /\
    forall i, i < n -> (fd w' i = true <-> fd w i = true \/ above (wraps t) w v i).
Proof.
  induction t as [|dg ow nd IHd nv IHv]; intros w v W O Fo.
  - exists w. split; [reflexivity|]. split; [apply sbn_refl|]. intros i _. split; [auto|]. intros [H|(_ & u & [] & _)]; auto.
  - pose proof (wf_nonempty n v _ W ltac:(discriminate)) as NE.
    cbn [wf] in W. destruct W as (Hv & A & K & B & C & D & Wd & Wv).
    cbn [wraps] in Fo. rewrite !Forall_app in Fo. destruct Fo as (_ & Fv & Fd).
    assert (EV : forall u, In u (wraps (Node dg ow nd nv)) -> dg <= expo (lv u) v).
    { intros u I. cbn [wraps] in I. apply in_app_or in I as [I|I]; [|apply in_app_or in I as [I|I]].
      - destruct ow as [u'|]; [|destruct I]. destruct I as [<-|[]]. destruct (A _ eq_refl). lia.
      - rewrite (B u I). lia.
      - specialize (C u I). lia. }
    cbn [set_mn_prec]. rewrite mget_ok by (destruct O as (O & _); unfold lv in O; rewrite O; exact Hv). cbn [bind].
    change (expo (vars (wlm w)) v) with (expo (lv w) v).
    destruct (Nat.ltb_spec (expo (lv w) v) dg) as [Lt|Ge].
    + destruct (set_nmd_spec dbg n w v O Hv) as (w' & E & S & F). exists w'. split; [exact E|]. split; [exact S|].
      intros i Hi. rewrite F. destruct (Nat.eqb_spec i v) as [->|Ne].
      * split; [intros _|auto]. right. split; [lia|]. destruct (wraps (Node dg ow nd nv)) as [|u r] eqn:Ew; [congruence|].
        exists u. split; [left; reflexivity|]. split; [|intros; lia]. specialize (EV u (or_introl eq_refl)). lia.
      * split; [auto|]. intros [H|(Hvi & u & Iu & _ & Hk)]; auto. exfalso. specialize (EV u Iu). specialize (Hk v (le_n v)). lia.
    + assert (Hnv : exists w1, (if is_nil nv then Ok w else set_mn_prec dbg w (S v) nv) = Ok w1 /\ same_but_nmd w w1 /\
        forall i, i < n -> (fd w1 i = true <-> fd w i = true \/ above (wraps nv) w (S v) i)).
      { destruct nv as [|a b c e]; [|exact (IHv w (S v) Wv O Fv)].
        exists w. split; [reflexivity|]. split; [apply sbn_refl|]. intros i _. split; [auto|]. intros [H|(_ & u & [] & _)]; auto. }
      destruct Hnv as (w1 & E1 & S1 & F1). rewrite E1. cbn [bind].
      destruct (IHd w1 v Wd (sbn_okw _ _ _ S1 O) Fd) as (w2 & E2 & S2 & F2). exists w2. split; [exact E2|].
      split; [eapply sbn_trans; eauto|]. intros i Hi. rewrite F2, F1 by exact Hi.
      assert (Ew : lv w1 = lv w) by (unfold lv; destruct S1 as (-> & _); reflexivity).
      cbn [wraps]. unfold above. rewrite Ew. split.
      * intros [[H|(Hi1 & u & Iu & U1 & U2)]|(Hi1 & u & Iu & U)]; [auto| |].
        { right. split; [lia|]. exists u. split; [rewrite !in_app_iff; auto|]. split; [exact U1|].
          intros k Hk1 Hk2. destruct (Nat.eq_dec k v) as [->|Ne]; [rewrite (B u Iu); lia|]. apply U2; lia. }
        { right. split; [exact Hi1|]. exists u. split; [rewrite !in_app_iff; auto|exact U]. }
      * intros [H|(Hi1 & u & Iu & U1 & U2)]; [auto|].
        apply in_app_or in Iu as [Iu|Iu]; [|apply in_app_or in Iu as [Iu|Iu]].
        { exfalso. destruct ow as [u'|]; [|destruct Iu]. destruct Iu as [<-|[]]. destruct (A _ eq_refl) as (A1 & A2 & _).
          destruct (Nat.eq_dec i v) as [->|Ne]; [lia|]. rewrite A2 in U1; lia. }
        { left. right. destruct (Nat.eq_dec i v) as [->|Ne]; [rewrite (B u Iu) in U1; lia|].
          split; [lia|]. exists u. split; [exact Iu|]. split; [exact U1|]. intros; apply U2; lia. }
        { right. split; [exact Hi1|]. exists u. auto. }
Qed.

(** one tree of the forest *)
Record tree_ok (n : nat) (h : list entry) (d : nat) (J : janet) : Prop := {
  to_j : jinv n (jroot J);
  to_s : jsize J = length (wraps (jroot J));
  to_p : Permutation (lms (wraps (jroot J))) (at_level d h);
  to_e : forall u, In u (wraps (jroot J)) -> exists before after, h = before ++ (wlm u, wanc u) :: after /\
    level (wlm u, wanc u) = d /\ forall v, v < n -> (fd u v = true <-> forbidden before (wlm u, wanc u) v) }.
Record forest_ok (n : nat) (h : list entry) (f : list janet) : Prop := {
  fo_len : 20 <= length f;
  fo_tree : forall d J, nth_error f d = Some J -> tree_ok n h d J;
  fo_out : forall d, length f <= d -> at_level d h = [] }.

Lemma prec_all_ok dbg n h : forall f k w, (forall i J, nth_error f i = Some J -> tree_ok n h (k + i) J) -> okw n w ->
  exists w', prec_all dbg f w = Ok w' /\ same_but_nmd w w' /\
    forall v, v < n -> (fd w' v = true <-> fd w v = true \/
      exists b, In b h /\ k <= level b < k + length f /\ expo (lv w) v < expo (lead b) v /\
        forall j, j < v -> expo (lead b) j <= expo (lv w) j).
Proof.
  induction f as [|J f IH]; intros k w T O.
  - exists w. split; [reflexivity|]. split; [apply sbn_refl|]. intros v Hv. split; [auto|]. intros [H|(b & _ & H & _)]; [auto|]. cbn in H; lia.
  - cbn [prec_all]. pose proof (T 0 J eq_refl) as TJ. rewrite Nat.add_0_r in TJ. destruct TJ as [[W _ Ok _] _ P E].
    destruct (set_mn_prec_ok dbg n (jroot J) w 0 W O Ok) as (w1 & E1 & S1 & F1). rewrite E1. cbn [bind].
    destruct (IH (S k) w1) as (w2 & E2 & S2 & F2).
    { intros i J' H. replace (S k + i) with (k + S i) by lia. apply T. exact H. }
    { eapply sbn_okw; eauto. }
    exists w2. split; [exact E2|]. split; [eapply sbn_trans; eauto|]. intros v Hv. rewrite F2, F1 by exact Hv.
    assert (Ew : lv w1 = lv w) by (unfold lv; destruct S1 as (-> & _); reflexivity). rewrite Ew. cbn [length]. unfold above. split.
    + intros [[H|(_ & u & Iu & U1 & U2)]|(b & Ib & Lb & U)]; [auto| |right; exists b; split; [exact Ib|]; split; [lia|exact U]].
      right. destruct (E u Iu) as (bf & af & -> & Lu & _). exists (wlm u, wanc u). split; [apply in_elt|]. split; [lia|].
      split; [exact U1|]. intros j Hj. apply U2; lia.
    + intros [H|(b & Ib & Lb & U1 & U2)]; [auto|]. destruct (Nat.eq_dec (level b) k) as [Ek|Nk].
      * left. right. split; [lia|].
        assert (I : In (lead b) (lms (wraps (jroot J)))).
        { eapply Permutation_in; [apply Permutation_sym, P|]. apply in_map. apply filter_In. split; [exact Ib|]. apply Nat.eqb_eq, Ek. }
        apply in_map_iff in I as (u & Eu & Iu). exists u. split; [exact Iu|]. rewrite Eu. split; [exact U1|]. intros; apply U2; auto.
      * right. exists b. split; [exact Ib|]. split; [lia|]. auto.
Qed.

Lemma at_level_app d h h' : at_level d (h ++ h') = at_level d h ++ at_level d h'.
Proof. unfold at_level. rewrite filter_app, map_app. reflexivity. Qed.

Lemma nth_error_replace {A} (l : list A) i x j : i < length l ->
  nth_error (replace_at l i x) j = if Nat.eqb j i then Some x else nth_error l j.
Proof.
  revert i j; induction l as [|y l IH]; intros i j H; [cbn in H; lia|]. destruct i, j; cbn [replace_at nth_error Nat.eqb]; auto.
  apply IH. cbn in H; lia.
Qed.
Lemma length_replace {A} (l : list A) i x : length (replace_at l i x) = length l.
Proof. revert i; induction l as [|y l IH]; intros [|i]; cbn; auto. Qed.

Lemma tree_ok_empty n h d : at_level d h = [] -> tree_ok n h d jempty.
Proof. intros E. constructor; [apply jinv_nil|reflexivity|rewrite E; constructor|intros u []]. Qed.

Lemma grow_ok n h f d : forest_ok n h f -> (Z.of_nat d * 13 <= INT_MAX)%Z ->
  exists f', gb_grow f d = Ok f' /\ forest_ok n h f' /\ d < length f'.
Proof.
  intros [L T O] Hd. unfold gb_grow. destruct (Nat.ltb_spec d (length f)) as [Lt|Ge].
  - exists f. split; [reflexivity|]. split; [constructor; auto|auto].
  - unfold int_. destruct (in_int (Z.of_nat d * 13)) eqn:Ei.
    2:{ unfold in_int, INT_MIN in Ei. apply andb_false_iff in Ei as [Ei|Ei]; apply Z.leb_gt in Ei; lia. }
    cbn [bind].
    assert (Q : (Z.of_nat d * 13 / 10 >= Z.of_nat d + 1)%Z).
    { apply Z.le_ge. apply Z.div_le_lower_bound; lia. }
    eexists. split; [reflexivity|]. rewrite app_length, repeat_length. split; [|lia].
    constructor.
    + rewrite app_length; lia.
    + intros i J H. destruct (Nat.lt_ge_cases i (length f)) as [Hi|Hi].
      * rewrite nth_error_app1 in H by exact Hi. auto.
      * rewrite nth_error_app2 in H by exact Hi. apply nth_error_In, repeat_spec in H. subst J. apply tree_ok_empty. auto.
    + intros i Hi. apply O. rewrite app_length in Hi. lia.
Qed.

Definition all_pos (P : Prop) (h : list entry) : Prop := P -> Forall (fun e => pos (fst e) = (-1)%Z) h.

Lemma fresh_ok n m a : length (vars m) = n -> okw n (fresh_wrap m a).
Proof. intros L. unfold okw, fresh_wrap, lv, size; cbn. rewrite !repeat_length. auto. Qed.
Lemma nth_repeat_false n i : nth i (repeat false n) false = false.
Proof. revert i; induction n as [|n IH]; intros [|i]; cbn; auto. Qed.

Lemma er_perm_In l w l0 u : Permutation (map (er 0) l) (er 0 w :: map (er 0) l0) -> In u l -> 
  er 0 u = er 0 w \/ exists u0, In u0 l0 /\ er 0 u = er 0 u0.
Proof.
  intros P I. pose proof (Permutation_in _ P (in_map (er 0) _ _ I)) as [H|H]; [left; congruence|right].
  apply in_map_iff in H as (u0 & E & I0). eauto.
Qed.
Lemma er_parts u u' : er 0 u = er 0 u' -> wlm u = wlm u' /\ wanc u = wanc u' /\ wnmd u = wnmd u'.
Proof. unfold er. intros H. injection H. auto. Qed.

(** insert into one tree in either build, given that it returns *)
Lemma insert_any dbg n J w : jinv n (jroot J) -> jsize J = length (wraps (jroot J)) -> 0 < n -> okw n w ->
  (forall i, i < n -> fl w i = false) -> ~ In (lv w) (lms (wraps (jroot J))) ->
  (dbg = true -> forall u, In u (w :: wraps (jroot J)) -> pos (wlm u) = (-1)%Z) ->
  (dbg = false \/ exists J0, insert dbg J w = Ok J0) ->
  exists J', insert dbg J w = Ok J' /\ jinv n (jroot J') /\ jsize J' = length (wraps (jroot J')) /\
    Permutation (map (er 0) (wraps (jroot J'))) (er 0 w :: map (er 0) (wraps (jroot J))).
Proof.
  intros Ji Sz Hn Ow FZ NI Ps R.
  destruct (insert_ok dbg n J w Ji Sz Hn Ow FZ NI) as (J' & E & A & B & _ & C).
  - intros ->. destruct R as [R|(J0 & R)]; [discriminate|]. unfold insert in R.
    destruct (find_janet true n (jroot J) (wlm w)) as (r & Er & Hr); auto; [apply Ow| |].
    { apply Forall_forall. intros u Iu _. left. apply (Ps eq_refl). right; exact Iu. }
    rewrite Er in R. cbn [bind] in R. destruct r as [u|]; [discriminate|]. split; [exact Hr|]. split.
    + intros NN. destruct (jroot J) as [|dg ow nd nv]; [congruence|]. destruct (deg (wlm w)) as [|k] eqn:Ed; [|lia].
      exfalso. cbn [ins_root] in R. rewrite Ed in R. cbn [ins_loop Nat.ltb Nat.leb] in R. discriminate.
    + intros u Iu. left. apply (Ps eq_refl). exact Iu.
  - exists J'. auto.
Qed.

Lemma firstn_nth_error {A} (l : list A) d i x : nth_error (firstn d l) i = Some x -> nth_error l i = Some x.
Proof.
  revert d i; induction l as [|y l IH]; intros [|d] [|i] H; cbn in *; try discriminate; auto. eapply IH; eauto.
Qed.

Definition gb_ok (n : nat) (h : list entry) (g : gb) : Prop := gsize g = length h /\ forest_ok n h (gforest g).

Lemma gb_insert_ok dbg n h g m a : gb_ok n h g -> 0 < n -> history n (h ++ [(m, a)]) ->
  (dbg = true -> Forall (fun e => pos (fst e) = (-1)%Z) (h ++ [(m, a)])) ->
  (dbg = false \/ exists g0, gb_insert dbg g (fresh_wrap m a) = Ok g0) ->
  exists g', gb_insert dbg g (fresh_wrap m a) = Ok g' /\ gb_ok n (h ++ [(m, a)]) g'.
Proof.
  intros (Sz & Fo) Hn (H1 & H2) Ps R.
  assert (Hme : length (lead (m, a)) = n /\ (Z.of_nat (level (m, a)) * 13 <= INT_MAX)%Z).
  { rewrite Forall_forall in H1. apply H1. apply in_elt. }
  destruct Hme as (Lm & La). cbn [lead fst] in Lm.
  unfold gb_insert in *. cbn [fresh_wrap wlm wanc] in *.
  assert (Hd : deg a = level (m, a)) by (unfold deg, level; cbn [snd]; apply degv_total).
  set (body := let d := deg a in do f <- gb_grow (gforest g) d; assert_ dbg (Nat.ltb d (length f))
    (do w1 <- prec_all dbg (firstn d f) (fresh_wrap m a);
         match nth_error f d with
         | None => Undef
         | Some J => do J' <- insert dbg J w1; Ok (GB (S (gsize g)) (replace_at f d J'))
         end)) in *.
  assert (Main : (dbg = false \/ exists g0, body = Ok g0) -> exists g', body = Ok g' /\ gb_ok n (h ++ [(m, a)]) g').
  { clear R. intros R. unfold body in *. clear body. cbv zeta in *. rewrite Hd in *. set (d := level (m, a)) in *.
    destruct (grow_ok n h (gforest g) d Fo La) as (f & Ef & [L T O] & Hdl). rewrite Ef in *. cbn [bind] in *.
    unfold assert_ in *. assert (Eb : Nat.ltb d (length f) = true) by (apply Nat.ltb_lt; exact Hdl). rewrite Eb in *.
    rewrite andb_comm in *. cbn [andb negb] in *.
    destruct (prec_all_ok dbg n h (firstn d f) 0 (fresh_wrap m a)) as (w & Ew & Sw & Fw).
    { intros i J H. apply T. eapply firstn_nth_error; eauto. }
    { apply fresh_ok, Lm. }
    rewrite Ew in *. cbn [bind] in *.
    destruct (nth_error f d) as [J|] eqn:EJ; [|apply nth_error_None in EJ; lia].
    pose proof (T d J EJ) as [Tj Ts Tp Te].
    assert (Ow : okw n w) by (eapply sbn_okw; [exact Sw|apply fresh_ok, Lm]).
    destruct Sw as (Sw1 & Sw2 & Sw3 & Sw4 & Sw5).
    assert (Elv : lv w = vars m) by (unfold lv; rewrite Sw1; reflexivity).
    assert (NI : ~ In (lv w) (lms (wraps (jroot J)))).
    { rewrite Elv. intros I. apply (Permutation_in _ Tp) in I. specialize (H2 d). rewrite at_level_app in H2.
      unfold at_level at 2 in H2. cbn [filter] in H2. fold d in H2. rewrite Nat.eqb_refl in H2. cbn [map] in H2.
      apply NoDup_remove_2 in H2. apply H2. rewrite app_nil_r. exact I. }
    destruct (insert_any dbg n J w Tj Ts Hn Ow) as (J' & EJ' & Ji' & Js' & Jp').
    { intros i Hi. unfold fl. rewrite Sw3. cbn. apply nth_repeat_false. }
    { exact NI. }
    { intros Db u [<-|Iu]; specialize (Ps Db); rewrite Forall_app in Ps; destruct Ps as (Ps1 & Ps2).
      - rewrite Sw1. inversion Ps2; subst. assumption.
      - destruct (Te u Iu) as (bf & af & Eh & _). rewrite Forall_forall in Ps1. apply (Ps1 (wlm u, wanc u)). rewrite Eh. apply in_elt. }
    { destruct R as [R|(g0 & R)]; [auto|]. right. destruct (insert dbg J w) as [J0| | | |]; try discriminate. eauto. }
    rewrite EJ' in *. cbn [bind]. eexists. split; [reflexivity|]. split; [cbn [gsize]; rewrite app_length; cbn; lia|].
    cbn [gforest]. constructor.
    - rewrite length_replace. exact L.
    - intros i Ji Hi. rewrite nth_error_replace in Hi by exact Hdl. destruct (Nat.eqb_spec i d) as [->|Ne].
      + injection Hi as <-. constructor; auto.
        * rewrite at_level_app. unfold at_level at 2. cbn [filter]. fold d. rewrite Nat.eqb_refl. cbn [map].
          eapply Permutation_trans; [apply (perm_er_lms _ _ _ _ Jp')|]. rewrite Elv.
          eapply Permutation_trans; [apply perm_skip, Tp|]. apply Permutation_cons_append.
        * intros u Iu. destruct (er_perm_In _ _ _ _ Jp' Iu) as [E|(u0 & I0 & E)]; apply er_parts in E as (E1 & E2 & E3).
          { exists h, []. rewrite E1, E2, Sw1, Sw2. cbn [fresh_wrap wlm wanc]. split; [reflexivity|]. split; [reflexivity|].
            intros v Hv. unfold fd at 1. rewrite E3. fold (fd w v). rewrite (Fw v Hv). unfold fd. cbn [fresh_wrap wnmd]. rewrite nth_repeat_false.
            rewrite firstn_length, Nat.min_l by lia. unfold forbidden. fold d. unfold lv. cbn [fresh_wrap wlm lead fst]. split.
            - intros [H|(b & Ib & Lb & Ub)]; [discriminate|]. exists b. split; [exact Ib|]. split; [lia|exact Ub].
            - intros (b & Ib & Lb & Ub). right. exists b. split; [exact Ib|]. split; [lia|exact Ub]. }
          { destruct (Te u0 I0) as (bf & af & Eh & Lu & Fu). exists bf, (af ++ [(m, a)]). rewrite E1, E2. split; [|split; [exact Lu|]].
            - rewrite Eh, <- app_assoc. reflexivity.
            - intros v Hv. unfold fd. rewrite E3. apply (Fu v Hv). }
      + destruct (T i Ji Hi) as [A1 A2 A3 A4]. constructor; auto.
        * rewrite at_level_app. unfold at_level at 2. cbn [filter]. fold d. destruct (Nat.eqb_spec d i); [congruence|].
          cbn [map]. rewrite app_nil_r. exact A3.
        * intros u Iu. destruct (A4 u Iu) as (bf & af & Eh & Lu & Fu). exists bf, (af ++ [(m, a)]). split; [|split; [exact Lu|exact Fu]].
          rewrite Eh, <- app_assoc. reflexivity.
    - intros i Hi. rewrite length_replace in Hi. rewrite at_level_app, (O i Hi). unfold at_level. cbn [filter]. fold d.
      destruct (Nat.eqb_spec d i); [lia|]. reflexivity. }
  destruct dbg.
  - destruct R as [R|(g0 & R)]; [discriminate|]. destruct (gb_find true g m) as [r| | | |]; try discriminate. cbn [bind] in *.
    destruct r; [discriminate|]. apply Main. eauto.
  - cbn [bind] in *. apply Main. auto.
Qed.

Lemma gb_new_ok n : gb_ok n [] gb_new.
Proof.
  split; [reflexivity|]. cbn [gb_new gforest]. constructor.
  - rewrite repeat_length. lia.
  - intros d J H. apply nth_error_In, repeat_spec in H. subst. apply tree_ok_empty. reflexivity.
  - reflexivity.
Qed.

Lemma NoDup_app_l {A} (l l' : list A) : NoDup (l ++ l') -> NoDup l.
Proof. induction l as [|x l IH]; cbn; intros H; [constructor|]. inversion H; subst. constructor; [|auto]. intros I. apply H2, in_or_app; auto. Qed.

Lemma history_prefix n h h' : history n (h ++ h') -> history n h.
Proof.
  intros (A & B). rewrite Forall_app in A. split; [apply A|]. intros d. specialize (B d). rewrite at_level_app in B.
  eapply NoDup_app_l; eauto.
Qed.

Lemma gb_insert_all_ok dbg n : 0 < n -> forall h' h g, gb_ok n h g -> history n (h ++ h') ->
  (dbg = true -> Forall (fun e => pos (fst e) = (-1)%Z) (h ++ h')) ->
  (dbg = false \/ exists g0, gb_insert_all dbg g h' = Ok g0) ->
  exists g', gb_insert_all dbg g h' = Ok g' /\ gb_ok n (h ++ h') g'.
Proof.
  intros Hn. induction h' as [|(m, a) h' IH]; intros h g G H Ps R.
  - exists g. rewrite app_nil_r. auto.
  - assert (H' : history n ((h ++ [(m, a)]) ++ h')) by (rewrite <- app_assoc; exact H).
    assert (Ps' : dbg = true -> Forall (fun e => pos (fst e) = (-1)%Z) ((h ++ [(m, a)]) ++ h')) by (rewrite <- app_assoc; exact Ps).
    cbn [gb_insert_all] in *.
    destruct (gb_insert_ok dbg n h g m a G Hn (history_prefix _ _ _ H')) as (g1 & E1 & G1).
    { intros Db. specialize (Ps' Db). rewrite Forall_app in Ps'. apply Ps'. }
    { destruct R as [R|(g0 & R)]; [auto|]. right. destruct (gb_insert dbg g (fresh_wrap m a)); try discriminate. eauto. }
    rewrite E1 in *. cbn [bind] in *. destruct (IH _ g1 G1 H' Ps' R) as (g' & E' & G'). exists g'. split; [exact E'|].
    rewrite <- app_assoc in G'. exact G'.
Qed.

(** ** find *)
Lemma nmd_from_ok dbg n u m : okw n u -> length m = n -> forall l v, v + length l = n -> (forall i, expo l i = expo m (v + i)) ->
  exists b, nmd_from dbg u v l = Ok b /\
    (b = true <-> forall i, v <= i -> i < n -> expo (lv u) i < expo m i -> fd u i = false).
Proof.
  intros (O1 & O2 & O3 & O4) Lm. induction l as [|x l IH]; intros v Hv E.
  - exists true. split; [reflexivity|]. split; [|auto]. intros _ i H1 H2. cbn in Hv. lia.
  - cbn [nmd_from]. cbn [length] in Hv. rewrite mget_ok by (unfold lv in O1; lia). cbn [bind].
    pose proof (E 0) as E0. rewrite Nat.add_0_r in E0. change (x = expo m v) in E0. change (expo (vars (wlm u)) v) with (expo (lv u) v).
    destruct (IH (S v)) as (b & Eb & Hb); [lia| |].
    { intros i. change (expo l i) with (expo (x :: l) (S i)). rewrite E. f_equal. lia. }
    destruct (Nat.ltb_spec (expo (lv u) v) x) as [Lt|Ge].
    + unfold get_flag. assert (Ev : nth_error (wnmd u) v = Some (fd u v)) by (apply nth_error_nth'; lia). rewrite Ev. cbn [bind].
      destruct (fd u v) eqn:Ef.
      * exists false. split; [reflexivity|]. split; [discriminate|]. intros H. rewrite (H v) in Ef; [discriminate|lia|lia|lia].
      * exists b. split; [exact Eb|]. rewrite Hb. split; intros H i H1 H2 H3.
        -- destruct (Nat.eq_dec i v) as [->|]; [exact Ef|]. apply H; auto; lia.
        -- apply H; auto; lia.
    + exists b. split; [exact Eb|]. rewrite Hb. split; intros H i H1 H2 H3.
      * destruct (Nat.eq_dec i v) as [->|]; [lia|]. apply H; auto; lia.
      * apply H; auto; lia.
Qed.

Lemma split_unique n (h : list entry) d : NoDup (at_level d h) -> forall b1 e1 a1 b2 e2 a2,
  h = b1 ++ e1 :: a1 -> h = b2 ++ e2 :: a2 -> level e1 = d -> level e2 = d -> lead e1 = lead e2 -> length (lead e1) = n ->
  b1 = b2 /\ e1 = e2.
Proof.
  intros ND b1 e1 a1 b2 e2 a2 H1 H2 L1 L2 LE _. revert h ND b2 H1 H2.
  induction b1 as [|x b1 IH]; intros h ND b2 H1 H2.
  - destruct b2 as [|y b2]; [cbn in *; split; congruence|]. exfalso. cbn in *. subst h. injection H2 as <- ->.
    revert ND. unfold at_level. cbn [filter]. rewrite L1, Nat.eqb_refl. cbn [map]. intros ND. inversion ND as [|? ? N _]; subst. apply N.
    rewrite LE. apply in_map, filter_In. split; [apply in_elt|apply Nat.eqb_eq; congruence].
  - destruct b2 as [|y b2].
    + exfalso. cbn in *. subst h. injection H2 as -> <-.
      revert ND. unfold at_level. cbn [filter]. rewrite L2, Nat.eqb_refl. cbn [map]. intros ND. inversion ND as [|? ? N _]; subst. apply N.
      rewrite <- LE. apply in_map, filter_In. split; [apply in_elt|apply Nat.eqb_eq; congruence].
    + cbn in *. subst h. injection H2 as -> H2. destruct (IH (b1 ++ e1 :: a1)) with (b2 := b2) as (-> & ->); auto.
      revert ND. unfold at_level. cbn [filter]. destruct (Nat.eqb (level y) d); auto. cbn [map]. intros ND. inversion ND; auto.
Qed.

Lemma at_level_In d h x : In x (at_level d h) -> exists e, In e h /\ level e = d /\ lead e = x.
Proof.
  unfold at_level. intros I. apply in_map_iff in I as (e & E & I). apply filter_In in I as (I & L). apply Nat.eqb_eq in L. eauto.
Qed.

Lemma janet_divides_perm n U V u m : Permutation U V -> janet_divides n U u m -> janet_divides n V u m.
Proof.
  intros P (I & D & M). split; [eapply Permutation_in; eauto|]. split; [exact D|]. intros i Hi Hm N. apply (M i Hi Hm).
  eapply janet_nm_perm; eauto.
Qed.

Lemma forest_find_ok dbg n h m : 0 < n -> history n h -> length (vars m) = n ->
  (dbg = true -> Forall (fun e => pos (fst e) = (-1)%Z) h) ->
  forall f k, (forall i J, nth_error f i = Some J -> tree_ok n h (k + i) J) ->
  exists r, forest_find dbg f m = Ok r /\
    match r with
    | Some u => forest_divides n h (wlm u, wanc u) (vars m) /\
        forall e, forest_divides n h e (vars m) -> k <= level e < k + length f ->
          level (wlm u, wanc u) <= level e /\ (level e = level (wlm u, wanc u) -> e = (wlm u, wanc u))
    | None => forall e, forest_divides n h e (vars m) -> ~ k <= level e < k + length f
    end.
Proof.
  intros Hn (H1 & H2) Lm Ps. induction f as [|J f IH]; intros k T.
  - exists None. split; [reflexivity|]. cbn [length]. intros e _. lia.
  - pose proof (T 0 J eq_refl) as TJ. rewrite Nat.add_0_r in TJ. destruct TJ as [Tj Ts Tp Te].
    cbn [forest_find]. destruct (find_janet dbg n (jroot J) m Tj Hn Lm) as (r & Er & Hr).
    { apply Forall_forall. intros u Iu Db. left. destruct (Te u Iu) as (bf & af & Eh & _). specialize (Ps Db). rewrite Forall_forall in Ps.
      apply (Ps (wlm u, wanc u)). rewrite Eh. apply in_elt. }
    rewrite Er. cbn [bind].
    destruct (IH (S k)) as (r' & Er' & Hr').
    { intros i J' H. replace (S k + i) with (k + S i) by lia. apply T. exact H. }
    (* the forest divisors of this level *)
    assert (LenE : forall e, In e h -> length (lead e) = n) by (intros e I; rewrite Forall_forall in H1; apply H1; exact I).
    assert (Lev : forall e, forest_divides n h e (vars m) -> level e = k ->
        exists u, r = Some u /\ e = (wlm u, wanc u) /\ forall i, i < n -> expo (lv u) i < expo (vars m) i -> fd u i = false).
    { intros e (bf & af & Eh & Jd & Nf) Le. subst k. assert (Ie : In e h) by (rewrite Eh; apply in_elt).
      pose proof (janet_divides_perm _ _ _ _ _ (Permutation_sym Tp) Jd) as Jd'.
      destruct r as [u|]; [|exfalso; eapply Hr; eauto]. destruct Hr as (Iu & Ju). exists u. split; [reflexivity|].
      assert (El : lead e = lv u).
      { eapply (janet_unique n (lms (wraps (jroot J)))); eauto. intros x Ix. eapply jinv_len; eauto. }
      destruct (Te u Iu) as (bf' & af' & Eh' & Lu & Fu).
      destruct (split_unique n h (level e) (H2 _) bf e af bf' (wlm u, wanc u) af') as (-> & Ee); auto.
      split; [exact Ee|]. intros i Hi Hm. destruct (fd u i) eqn:Ef; [|reflexivity]. exfalso.
      apply (Nf i Hi); [rewrite El; exact Hm|]. rewrite Ee. apply Fu; auto. }
    assert (Next : (forall e, forest_divides n h e (vars m) -> level e <> k) -> match r' with
       | Some u => forest_divides n h (wlm u, wanc u) (vars m) /\
        forall e, forest_divides n h e (vars m) -> k <= level e < k + length (J :: f) ->
          level (wlm u, wanc u) <= level e /\ (level e = level (wlm u, wanc u) -> e = (wlm u, wanc u))
       | None => forall e, forest_divides n h e (vars m) -> ~ k <= level e < k + length (J :: f) end).
    { intros Nk. cbn [length]. destruct r' as [u|].
      - destruct Hr' as (A & B). split; [exact A|]. intros e He Hk. apply B; [exact He|]. specialize (Nk e He). lia.
      - intros e He Hk. apply (Hr' e He). specialize (Nk e He). lia. }
    destruct r as [u|].
    + destruct Hr as (Iu & Ju).
      assert (Ou : okw n u) by (destruct Tj as [_ _ O _]; rewrite Forall_forall in O; auto).
      destruct (nmd_from_ok dbg n u (vars m) Ou Lm (vars m) 0) as (b & Eb & Hb); [exact Lm|reflexivity|]. rewrite Eb. cbn [bind].
      destruct b.
      * exists (Some u). split; [reflexivity|].
        destruct (Te u Iu) as (bf & af & Eh & Lu & Fu). split.
        { exists bf, af. split; [exact Eh|]. split.
          - rewrite Lu. eapply janet_divides_perm; [exact Tp|]. exact Ju.
          - intros v Hv Hm F. apply (Fu v Hv) in F. rewrite (proj1 Hb eq_refl v) in F; [discriminate|lia|exact Hv|exact Hm]. }
        { intros e He Hk. split; [lia|]. intros Le. destruct (Lev e He) as (u' & Eu & Ee & _); [lia|]. injection Eu as <-. exact Ee. }
      * exists r'. split; [exact Er'|]. apply Next. intros e He Le. destruct (Lev e He Le) as (u' & Eu & _ & F). injection Eu as <-.
        assert (false = true); [|discriminate]. apply Hb. intros i _. apply F.
    + exists r'. split; [exact Er'|]. apply Next. intros e He Le. destruct (Lev e He Le) as (u & Eu & _). discriminate.
Qed.

Lemma gb_insert_all_release n h : 0 < n -> history n h ->
  exists g, gb_insert_all false gb_new h = Ok g /\ gsize g = length h.
Proof.
  intros Hn H. destruct (gb_insert_all_ok false n Hn h [] gb_new (gb_new_ok n) H) as (g & E & G & _); [discriminate|auto|]. eauto.
Qed.

Lemma gb_find_top dbg n h g m : 0 < n -> history n h -> (dbg = true -> Forall (fun e => pos (fst e) = (-1)%Z) h) ->
  gb_insert_all dbg gb_new h = Ok g -> length (vars m) = n ->
  exists r, gb_find dbg g m = Ok r /\
    match r with
    | Some u => forest_divides n h (wlm u, wanc u) (vars m) /\
        forall e, forest_divides n h e (vars m) -> level (wlm u, wanc u) <= level e /\ (level e = level (wlm u, wanc u) -> e = (wlm u, wanc u))
    | None => forall e, ~ forest_divides n h e (vars m)
    end.
Proof.
  intros Hn H Ps E Lm. destruct (gb_insert_all_ok dbg n Hn h [] gb_new (gb_new_ok n) H Ps) as (g' & E' & _ & [L T O]); [eauto|].
  rewrite E in E'. injection E' as <-. cbn [app] in *.
  destruct (forest_find_ok dbg n h m Hn H Lm Ps (gforest g) 0 T) as (r & Er & Hr). exists r. split; [exact Er|].
  assert (In_range : forall e, forest_divides n h e (vars m) -> 0 <= level e < 0 + length (gforest g)).
  { intros e (_ & _ & _ & (I & _) & _). split; [lia|]. destruct (Nat.lt_ge_cases (level e) (length (gforest g))) as [|Ge]; [auto|].
    rewrite (O _ Ge) in I. destruct I. }
  destruct r as [u|].
  - destruct Hr as (A & B). split; [exact A|]. intros e He. apply B; auto.
  - intros e He. apply (Hr e He). auto.
Qed.
