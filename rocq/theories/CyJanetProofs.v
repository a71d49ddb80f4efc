(** Proofs for CyJanetModel.v. *)
From Coq Require Import ZArith List Bool Arith Lia Permutation QArith.
From Verif Require Import Outcome MonomModel MonomSpec MonomProofs PolyModel PolySpec PolyProofs PolyRedProofs PolyNfProofs
  PolyTopProofs JanetModel JanetSpec JanetProofs JanetFindProofs HilbertModel HilbertSpec JanetPolyModel TQModel JanetPolySpec IdealProofs JanetPolyProofs JanetPolyTop
  InvolutiveProofs InvolutiveTop JanetPolyHPModel JanetPolyHPProofs CyMonomModel CyMonomProofs CyJanetModel CyJanetSpec.
Import ListNotations.
Local Open Scope Z_scope.

Lemma bindE {A B} (e : outcome A) (f : A -> outcome B) v : bind e f = Ok v -> exists a, e = Ok a /\ f a = Ok v.
Proof. destruct e; cbn; intro H; try discriminate. eauto. Qed.
Lemma liftE {A} (e : outcome A) v : lift e = Ok (Ret v) -> e = Ok v.
Proof. unfold lift. intro H. apply bindE in H as (a & -> & H). congruence. Qed.

Section S.
Variables (t : pos_order) (o : base_order) (n : nat).
Hypothesis Hn : (0 < n)%nat.
Hypothesis Ho : o <> OAlex.
Let A : list term -> Prop := fun _ => True.

Lemma session_history F J : session t o n F J -> jp_history false t o n F J.
Proof.
  induction 1 as [|F J a J' _ IH Ra E|F J fuel J' _ IH E]; [constructor| |].
  - cbn [cj_push with_parg] in E. unfold passert in E. destruct (jp_comparable J a); [|discriminate]. apply liftE in E. econstructor; eassumption.
  - apply liftE in E. eapply hist_build; eassumption.
Qed.
Lemma session_state F J : session t o n F J -> jstate t o n A J.
Proof.
  intro H. apply session_history in H. destruct (history_state t o n F J Hn Ho H) as (S & _). eapply jstate_G; [|exact S]. intros; exact Logic.I.
Qed.
Lemma good_ring G p : good t o n G p -> of_ring t o n p.
Proof. intros [(_ & E & _) _]. exact E. Qed.
Lemma of_ring_comparable p a : of_ring t o n p -> (comparable p a = true <-> of_ring t o n a).
Proof.
  intros (E1 & E2 & E3). unfold comparable, of_ring. rewrite E1, E2, E3, !andb_true_iff, Nat.eqb_eq.
  clear. destruct t, (pto a), o, (pbo a); cbn; intuition congruence.
Qed.
(** What the object holds, unless it is empty. *)
Lemma held F J a : session t o n F J -> (jq J <> [] \/ jt J <> []) -> (jp_comparable J a = true <-> of_ring t o n a).
Proof.
  intros H NE. assert (S := session_state F J H). unfold jstate in S. unfold jp_comparable. destruct (jone J) as [w|].
  { destruct S as (_ & E1 & E2 & _). rewrite E1, E2 in NE. destruct NE; congruence. }
  destruct S as [Q T].
  assert (HQ : forall u q, jq J = u :: q -> of_ring t o n (wpol u)). { intros u q E. rewrite E in Q. apply (good_ring A). apply (Forall_inv Q). }
  assert (HT : forall e l, jt J = e :: l -> of_ring t o n (snd e)).
  { intros e l E. destruct T as [(_ & _ & E')|(Ja & _ & _ & T)]; [congruence|]. rewrite E in T. apply (good_ring A). apply (Forall_inv (ti_good _ _ _ _ _ _ T)). }
  destruct (jq J) as [|u q]; destruct (jt J) as [|e l]; cbn [orb].
  - destruct NE; congruence.
  - rewrite !orb_false_r. apply of_ring_comparable. now apply (HT e l).
  - rewrite !orb_false_r. apply of_ring_comparable. now apply (HQ u q).
  - rewrite !orb_false_r, orb_true_iff. rewrite (of_ring_comparable _ a (HQ u q eq_refl)), (of_ring_comparable _ a (HT e l eq_refl)). tauto.
Qed.
Lemma ring_comparable F J a : session t o n F J -> of_ring t o n a -> jp_comparable J a = true.
Proof.
  intros H R. destruct (jq J) as [|u q] eqn:E1; [destruct (jt J) as [|e l] eqn:E2|].
  - unfold jp_comparable. now rewrite E1, E2.
  - apply (held F J a H); [right; rewrite E2; discriminate|exact R].
  - apply (held F J a H); [left; rewrite E1; discriminate|exact R].
Qed.
Lemma ring_of a : ring_input t o n a -> of_ring t o n a.
Proof. intros (_ & E & E1 & E2 & _). repeat split; assumption. Qed.

(** Once something non-zero has been pushed, the object is not empty. *)
Lemma not_empty F J f : session t o n F J -> In f F -> terms f <> [] -> jone J = None -> jq J <> [] \/ jt J <> [].
Proof.
  intros H I N Eo. destruct (jq J) eqn:E1; [|left; discriminate]. destruct (jt J) eqn:E2; [|right; discriminate]. exfalso.
  destruct (history_state t o n F J Hn Ho (session_history F J H)) as (_ & R & M).
  assert (X : Forall (fun f => rational_member n (fun _ => False) (terms f)) F).
  { apply M. unfold memJ. rewrite Eo, E1, E2. split; constructor. }
  rewrite Forall_forall in X, R. destruct (X f I) as (k & q & K & C & E). assert (Q : forall m, coef q m = 0).
  { clear -C. destruct C as [p Z|p q u g c _ N]; [exact Z|contradiction]. }
  destruct (R f I) as (V & _). unfold valid_poly in V. destruct (terms f) as [|[m c] l] eqn:Ef; [congruence|].
  destruct (canonical_coef _ _ _ _ m c V (or_introl eq_refl)) as [E0 N0]. specialize (E m). rewrite Q, E0 in E. nia.
Qed.

(** The built object. *)
Lemma built F J : session t o n F J -> jone J = None ->
  jt J = [] /\ jtrees J = None /\ jpos J = -2 \/ exists Ja, jtrees J = Some [Ja] /\ jpos J = -1 /\ tinv t o n A Ja (jt J).
Proof.
  intros H Eo. assert (S := session_state F J H). unfold jstate in S. rewrite Eo in S. destruct S as [_ [(D1 & D2 & D3)|D]]; [left; auto|right; exact D].
Qed.
Lemma basis_t J : jone J = None -> basis J = map snd (jt J).
Proof. unfold basis. intros ->. reflexivity. Qed.

Section B.
Variables (F : list poly) (J : jpoly).
Hypothesis HS : session t o n F J.
Hypothesis Eo : jone J = None.

Lemma tree_leads Ja : tinv t o n A Ja (jt J) -> Permutation (lms (wraps (jroot Ja))) (map lead (basis J)).
Proof.
  intro T. rewrite <- (jstate_leads t o n A J (session_state F J HS) Eo). assert (P := Permutation_map vars (ti_perm _ _ _ _ _ _ T)). rewrite map_map in P. exact P.
Qed.
Lemma wlm_R Ja u : tinv t o n A Ja (jt J) -> In u (wraps (jroot Ja)) -> wlm u = Mon (-1) (lv u).
Proof.
  intros T I. assert (P := ti_pos _ _ _ _ _ _ T). rewrite Forall_forall in P. specialize (P u I). unfold lv. destruct (wlm u) as [p v]. cbn in *. now subst p.
Qed.
Lemma nm_perm U V u i : Permutation U V -> janet_nm U u i -> janet_nm V u i.
Proof. intros P (w & Iw & H). exists w. split; [eapply Permutation_in; eassumption|exact H]. Qed.
Lemma wrap_describes Ja e u : tinv t o n A Ja (jt J) -> In e (jt J) -> In u (wraps (jroot Ja)) -> wlm u = fst e ->
  describes n (map lead (basis J)) (WP u (snd e)) (lead (snd e)).
Proof.
  intros T Ie Iu Eu. assert (Gg := ti_good _ _ _ _ _ _ T). rewrite Forall_forall in Gg. destruct (Gg e Ie) as [_ (c & l & Hd)].
  assert (L : lead (snd e) = lv u) by (unfold lead, lv; rewrite Hd, Eu; reflexivity). split; [|split; [reflexivity|]].
  - unfold cw_lm. cbn [wwrap]. rewrite L. apply (wlm_R Ja u T Iu).
  - intros i Hi Mi. unfold cw_NM, cw_flag. cbn [wwrap].
    assert (O := ji_ok _ _ (ti_inv _ _ _ _ _ _ T)). rewrite Forall_forall in O. destruct (O u Iu) as (L1 & L2 & L3 & L4).
    assert (Lf : length (wnm u) = n) by congruence.
    rewrite cint_ok by (split; [unfold INT_MIN; lia|exact Mi]). destruct (Z.ltb_spec (Z.of_nat i) 0); [lia|]. rewrite Nat2Z.id. unfold get_flag.
    destruct (nth_error (wnm u) i) as [b|] eqn:E; [|apply nth_error_None in E; lia]. exists b. split; [reflexivity|].
    assert (Ef : fl u i = b) by (unfold fl; apply nth_error_nth; exact E). rewrite <- Ef, L, (jinv_flags n (jroot Ja) u i (ti_inv _ _ _ _ _ _ T) Iu Hi).
    split; apply nm_perm; [|apply Permutation_sym]; apply (tree_leads Ja T).
Qed.

Lemma wraps_of_ok Ja : tinv t o n A Ja (jt J) -> forall l, (forall e, In e l -> In e (jt J)) ->
  exists ws, wraps_of [Ja] l = Ok ws /\ map cw_poly ws = map snd l /\ Forall2 (fun w p => describes n (map lead (basis J)) w (lead p)) ws (map snd l).
Proof.
  intro T. induction l as [|e l IH]; intro I; [exists []; repeat split; constructor|].
  destruct (get_wrap_ok t o n A Ja (jt J) e T (I e (or_introl eq_refl))) as (u & Eu & Iu & Eq).
  destruct IH as (ws & Ew & E2 & E3); [intros x Ix; apply I; right; exact Ix|]. cbn [wraps_of]. rewrite Eu, Ew. cbn [bind].
  exists (WP u (snd e) :: ws). split; [reflexivity|]. split; [cbn [map cw_poly wpol]; now rewrite <- E2|].
  constructor; [|exact E3]. apply (wrap_describes Ja); auto. apply I. left. reflexivity.
Qed.

Lemma iter_ok : cj_len J = Z.of_nat (length (basis J)) /\
  exists ws, cj_iter J = Ok (Ret ws) /\ map cw_poly ws = basis J /\ Forall2 (fun w p => describes n (map lead (basis J)) w (lead p)) ws (basis J).
Proof.
  unfold cj_len, is_one. rewrite Eo, (basis_t J Eo), map_length. split; [reflexivity|]. unfold cj_iter.
  destruct (built F J HS Eo) as [(E1 & E2 & E3)|(Ja & E1 & E2 & T)].
  - rewrite E1, E2. exists []. repeat split. constructor.
  - rewrite E1. destruct (wraps_of_ok Ja T (jt J)) as (ws & Ew & E4 & E5); [auto|]. exists ws. unfold lift. rewrite Ew. cbn [bind].
    rewrite (basis_t J Eo) in E5. auto.
Qed.

(** Indices that are no variables *)
Lemma flags_len Ja : tinv t o n A Ja (jt J) -> forall l ws, wraps_of [Ja] l = Ok ws -> Forall (fun w => length (wnm (wwrap w)) = n /\ length (wbuild (wwrap w)) = n) ws.
Proof.
  intro T. induction l as [|e l IH]; intros ws E; cbn [wraps_of] in E; [injection E as <-; constructor|].
  destruct (get_wrap [Ja] (fst e)) as [u|] eqn:Eu; [|discriminate]. apply bindE in E as (r & Er & E). injection E as <-. constructor; [|apply IH; exact Er].
  unfold get_wrap in Eu. cbn [map concat] in Eu. rewrite app_nil_r in Eu. apply find_some in Eu as [Iu _].
  assert (O := ji_ok _ _ (ti_inv _ _ _ _ _ _ T)). rewrite Forall_forall in O. destruct (O u Iu) as (L1 & L2 & L3 & L4). cbn [wwrap]. split; congruence.
Qed.
Lemma flag_outside l v : INT_MIN <= v <= INT_MAX -> v < 0 \/ Z.of_nat (length l) <= v -> cw_flag false l v = Undef.
Proof.
  intros R H. unfold cw_flag. rewrite cint_ok by exact R. destruct (Z.ltb_spec v 0); [reflexivity|]. unfold get_flag.
  destruct (nth_error l (Z.to_nat v)) eqn:E; [|reflexivity]. assert (X : nth_error l (Z.to_nat v) <> None) by congruence. apply nth_error_Some in X. lia.
Qed.
Lemma outside_undef ws w v : cj_iter J = Ok (Ret ws) -> In w ws -> INT_MIN <= v <= INT_MAX -> v < 0 \/ Z.of_nat n <= v ->
  cw_NM false w v = Undef /\ cw_build false w v = Undef.
Proof.
  intros E I R H. unfold cj_iter in E. apply liftE in E. destruct (built F J HS Eo) as [(E1 & E2 & E3)|(Ja & E1 & E2 & T)].
  - rewrite E1 in E. injection E as <-. destruct I.
  - rewrite E1 in E. assert (X := flags_len Ja T _ _ E). rewrite Forall_forall in X. destruct (X w I) as [X1 X2].
    split; apply flag_outside; try exact R; rewrite ?X1, ?X2; exact H.
Qed.

(** find *)
Lemma find_R u : length u = n ->
  match cj_find false J (MArg (Mon (-1) u)) with
  | Ok (Ret (Some w)) => In (cw_poly w) (basis J) /\ describes n (map lead (basis J)) w (lead (cw_poly w)) /\ janet_divides n (map lead (basis J)) (lead (cw_poly w)) u
  | Ok (Ret None) => forall v, ~ janet_divides n (map lead (basis J)) v u
  | _ => False
  end.
Proof.
  intro Lu. unfold cj_find. rewrite Eo. destruct (built F J HS Eo) as [(E1 & E2 & E3)|(Ja & E1 & E2 & T)].
  - rewrite E2. unfold find_wrap, pbind, lift. cbn [bind]. rewrite (basis_t J Eo), E1. intros v (I & _). exact I.
  - rewrite E1, E2. assert (Mm : mono n (Mon (-1) u)) by (split; [exact Lu|cbn; lia]).
    destruct (find_wrap_ok n Hn Ja (Mon (-1) u) (ti_inv _ _ _ _ _ _ T) Mm) as (r & -> & R). unfold pbind, lift. cbn [bind].
    destruct r as [w|].
    + destruct R as (_ & Iw & D). assert (I : In (wlm w) (map fst (jt J))) by (eapply Permutation_in; [apply (ti_perm _ _ _ _ _ _ T)|apply in_map; exact Iw]).
      apply in_map_iff in I as ([k a] & Ek & I). cbn [fst] in Ek. subst k.
      rewrite (lookup_in n (jt J) (wlm w) a); [|intros e Ie; apply (tinv_len t o n A Ja (jt J) e T Ie)|apply (tinv_len t o n A Ja (jt J) (wlm w, a) T I)|apply (tinv_nd t o n A Ja (jt J) T)|exact I].
      cbn [cw_poly wpol]. split; [rewrite (basis_t J Eo); apply in_map_iff; exists (wlm w, a); auto|].
      assert (De := wrap_describes Ja (wlm w, a) w T I Iw eq_refl). split; [exact De|].
      destruct De as (D1 & _). unfold cw_lm in D1. cbn [wwrap snd] in D1.
      assert (El : lead a = lv w) by (unfold lv; rewrite D1; reflexivity). rewrite El. eapply perm_janet; [apply (tree_leads Ja T)|exact D].
    + intros v D. apply (R eq_refl v). eapply perm_janet; [apply Permutation_sym, (tree_leads Ja T)|exact D].
Qed.
Lemma find_module m : 0 <= pos m -> cj_find false J (MArg m) = Ok (Ret None).
Proof.
  intro P. unfold cj_find. rewrite Eo. destruct (built F J HS Eo) as [(E1 & E2 & E3)|(Ja & E1 & E2 & T)]; rewrite ?E1, ?E2; unfold find_wrap; [reflexivity|].
  destruct (Z.ltb_spec (-1) (pos m)); [reflexivity|lia].
Qed.

(** nf of an element of the basis *)
Lemma nf_view_undef k fuel : (k < length (basis J))%nat -> cj_nf_view fuel false J k = Undef.
Proof.
  intro Hk. rewrite (basis_t J Eo), map_length in Hk. unfold cj_nf_view. destruct (nth_error (jt J) k) as [[m p]|] eqn:E; [|apply nth_error_None in E; lia].
  apply nth_error_In in E. destruct (built F J HS Eo) as [(E1 & _)|(Ja & E1 & E2 & T)]; [rewrite E1 in E; destruct E|].
  assert (Gg := ti_good _ _ _ _ _ _ T). rewrite Forall_forall in Gg. destruct (Gg _ E) as [Gp (c & l & Hd)]. cbn [fst snd] in *.
  assert (Mm := hd_mono t o n A p m (proj1 Gp) (ex_intro _ c (ex_intro _ l Hd))). destruct Mm as [Mm Pm].
  unfold assert_. cbn [andb]. assert (X : find_other false J m m = Undef).
  { unfold find_other. rewrite E1, E2. destruct (find_wrap_ok n Hn Ja m (ti_inv _ _ _ _ _ _ T) Mm) as (r & -> & R). cbn [bind].
    assert (Im : In (vars m) (lms (wraps (jroot Ja)))).
    { eapply Permutation_in; [apply Permutation_sym, (tree_leads Ja T)|]. rewrite <- (jstate_leads t o n A J (session_state F J HS) Eo).
      apply in_map. apply in_map_iff. exists (m, p). auto. }
    assert (D : janet_divides n (lms (wraps (jroot Ja))) (vars m) (vars m)) by (split; [exact Im|]; split; [intros i _; lia|intros i _ Y; lia]).
    destruct r as [u|]; [|exfalso; apply (R Pm _ D)]. destruct R as (_ & Iu & Du).
    assert (Eu : lv u = vars m) by (eapply (janet_unique n); [|exact Du|exact D]; intros x Ix; apply (jinv_len n (jroot Ja) x (ti_inv _ _ _ _ _ _ T) Ix)).
    assert (Em : wlm u = m) by (rewrite (wlm_R Ja u T Iu), Eu; destruct m; cbn in *; congruence).
    rewrite Em. rewrite (proj2 (same_key_spec m m eq_refl) eq_refl). reflexivity. }
  unfold p_nf. destruct fuel; cbn [nf_loop]; rewrite Hd, X; reflexivity.
Qed.

Lemma janet_size_ok : jt J <> [] -> cj_janet_size false J (-1) = Ok (Ret (cj_len J)).
Proof.
  intro N. destruct (built F J HS Eo) as [(E1 & _)|(Ja & E1 & E2 & T)]; [congruence|].
  unfold cj_janet_size, cj_len, is_one. rewrite Eo, E1, E2. cbn -[Z.of_nat]. do 3 f_equal. rewrite (ti_size _ _ _ _ _ _ T).
  assert (L := Permutation_length (ti_perm _ _ _ _ _ _ T)). now rewrite !map_length in L.
Qed.
Lemma janet_size_raises p : p < -1 \/ 0 <= p -> cj_janet_size false J p = Ok (Raises AssertionError).
Proof.
  intro Hp. unfold cj_janet_size, passert. assert (X : (-1 <=? p) && (p <=? jpos J) = false); [|now rewrite X].
  apply andb_false_iff. destruct (built F J HS Eo) as [(_ & _ & E)|(Ja & _ & E & _)]; rewrite E; destruct Hp; [left|right|left|right]; apply Z.leb_gt; lia.
Qed.

Lemma hilbert_ok : basis J <> [] -> exists h, cj_hilbert false J = Ok (Ret h) /\ length h = S n /\ Forall lowest_terms h /\
    forall s, (forall g, In g (basis J) -> total (lead g) <= s)%nat ->
      exists k, number_of n s (fun m => forall u, ~ janet_divides n (map lead (basis J)) u m) k /\
        (peval h (inject_Z (Z.of_nat s)) == inject_Z (Z.of_nat k))%Q.
Proof.
  intro N. destruct (c52_count t o n Hn Ho false F J (session_history F J HS) Eo N) as (h & E & R). exists h. split; [|exact R].
  assert (L : (0 < length (jt J))%nat) by (rewrite (basis_t J Eo) in N; destruct (jt J); [contradiction N; reflexivity|cbn; lia]).
  unfold cj_hilbert, cj_len, is_one, passert. rewrite Eo. cbn [negb]. destruct (Z.ltb_spec 0 (Z.of_nat (length (jt J)))); [|lia]. unfold lift. rewrite E. reflexivity.
Qed.
End B.

(** push *)
Lemma push_ok_ring F J a : session t o n F J -> ring_input t o n a ->
  exists J', cj_push false J (PObj (Some a)) = Ok (Ret J') /\ session t o n (a :: F) J' /\ basis J' = basis J /\ cj_isOne J' = cj_isOne J.
Proof.
  intros H R. assert (G := goodzA t o n a R). destruct (push_ok t o n A Hn J a (session_state F J H) G) as (J' & E & _).
  assert (E' : cj_push false J (PObj (Some a)) = Ok (Ret J')).
  { cbn [cj_push with_parg]. unfold passert. rewrite (ring_comparable F J a H (ring_of a R)). unfold lift. rewrite E. reflexivity. }
  exists J'. split; [exact E'|]. split; [econstructor; eassumption|]. clear -E. unfold jp_push, assert_ in E. cbn [andb] in E. unfold cj_isOne, is_one, basis.
  destruct (jone J) as [w|] eqn:Eo; [injection E as <-; rewrite Eo; auto|]. destruct (is_zero a); [injection E as <-; rewrite Eo; auto|].
  apply bindE in E as (m & _ & E). apply bindE in E as (c & _ & E). apply bindE in E as (q & _ & E). injection E as <-. auto.
Qed.
Lemma push_raises F J f a dbg : session t o n F J -> In f F -> terms f <> [] -> cj_isOne J = false -> ~ of_ring t o n a ->
  cj_push dbg J (PObj (Some a)) = Ok (Raises AssertionError) /\ cj_comparable J (PObj (Some a)) = Ok (Ret false).
Proof.
  intros H I N Eo R. assert (E : jone J = None) by (unfold cj_isOne, is_one in Eo; destruct (jone J); congruence).
  assert (C : jp_comparable J a = false).
  { destruct (jp_comparable J a) eqn:C; [|reflexivity]. exfalso. apply R. apply (held F J a H); [|exact C]. apply (not_empty F J f); assumption. }
  cbn [cj_push cj_comparable with_parg]. rewrite C. auto.
Qed.

(** After isOne *)
Lemma block_tq_pos : forall fuel dbg mpos js q T J, block_tq fuel dbg mpos js q T = Ok J -> jpos J = mpos.
Proof.
  induction fuel as [|fuel IH]; intros dbg mpos js q T J E; destruct q as [|u q]; cbn [block_tq] in E; try (injection E as <-; reflexivity); [discriminate|].
  apply bindE in E as (m & _ & E). apply bindE in E as ([[q1 tmp]|] & _ & E).
  - unfold assert_ in E. match type of E with context [if ?c then _ else _] => destruct c; [discriminate|] end.
    destruct tmp as [|x tmp]; [eapply IH; exact E|].
    apply bindE in E as ([[tmp2 q2] dg] & _ & E). apply bindE in E as ([js2 new] & _ & E). apply bindE in E as ([[js3 q3] t3] & _ & E).
    apply bindE in E as (b & _ & E). match type of E with context [if ?c then _ else _] => destruct c; [discriminate|] end. eapply IH; exact E.
  - unfold set_one in E. apply bindE in E as (p & _ & E). apply bindE in E as (m' & _ & E). injection E as <-. reflexivity.
Qed.
Lemma one_pos F J : session t o n F J -> jone J <> None -> jpos J = -1.
Proof.
  induction 1 as [|F J a J' H IH Ra E|F J fuel J' H IH E]; intro N; [contradiction N; reflexivity| |].
  - cbn [cj_push with_parg] in E. unfold passert in E. destruct (jp_comparable J a); [|discriminate]. apply liftE in E. unfold jp_push, assert_ in E. cbn [andb] in E.
    destruct (jone J) as [w|] eqn:Eo; [injection E as <-; apply IH; discriminate|]. destruct (is_zero a); [injection E as <-; congruence|].
    apply bindE in E as (m & _ & E). apply bindE in E as (c & _ & E). apply bindE in E as (q & _ & E). injection E as <-. contradiction N; reflexivity.
  - apply liftE in E. unfold jp_build in E. destruct (jone J) as [w|] eqn:Eo; [injection E as <-; apply IH; congruence|].
    assert (X : jpos (set_pos J) = -1).
    { assert (S := session_state F J H). unfold jstate in S. rewrite Eo in S. destruct S as [Q D]. unfold set_pos. rewrite (q_pos_ring t o n A _ Q).
      destruct D as [(_ & -> & _)|(Ja & _ & D & _)]; [reflexivity|]. rewrite D. exact D. }
    destruct (jtrees (set_pos J)); [rewrite <- X; eapply block_tq_pos; exact E|].
    destruct (jq (set_pos J)); [|discriminate]. injection E as <-. exact X.
Qed.
Lemma after_one F J : session t o n F J -> cj_isOne J = true ->
  cj_len J = 1 /\ cj_iter J = Ok (Ret []) /\ (forall a, cj_comparable J (PObj (Some a)) = Ok (Ret true)) /\
  (forall a, cj_push false J (PObj (Some a)) = Ok (Ret J)) /\ (forall fuel, cj_build fuel false J = Ok (Ret J)) /\
  cj_hilbert false J = Ok (Raises AssertionError) /\ cj_maxPos J = -1 /\ cj_janet_size false J (-1) = Undef.
Proof.
  intros H Eo. unfold cj_isOne, is_one in Eo. destruct (jone J) as [w|] eqn:E; [|discriminate]. assert (P := one_pos F J H).
  assert (S := session_state F J H). unfold jstate in S. rewrite E in S. destruct S as (_ & E1 & E2 & E3).
  assert (Cm : forall a, jp_comparable J a = true) by (intro a; unfold jp_comparable; rewrite E1, E2; reflexivity).
  split; [unfold cj_len, is_one; now rewrite E|]. split; [unfold cj_iter; now rewrite E2|].
  split; [intro a; cbn [cj_comparable with_parg]; now rewrite Cm|].
  split; [intro a; cbn [cj_push with_parg]; rewrite Cm; unfold passert, jp_push, assert_; cbn [andb]; rewrite E; reflexivity|].
  split; [intro fuel; unfold cj_build, jp_build; rewrite E; reflexivity|]. split; [unfold cj_hilbert, is_one; rewrite E; reflexivity|].
  split; [apply P; congruence|]. unfold cj_janet_size. rewrite E3, (P ltac:(congruence)). reflexivity.
Qed.
Lemma find_one F J m : session t o n F J -> cj_isOne J = true -> exists w, cj_find false J (MArg m) = Ok (Ret (Some w)) /\ basis J = [cw_poly w] /\ terms (cw_poly w) = one n.
Proof.
  intros H Eo. unfold cj_isOne, is_one in Eo. destruct (jone J) as [w|] eqn:E; [|discriminate].
  assert (S := session_state F J H). unfold jstate in S. rewrite E in S. destruct S as ([_ Ew] & _).
  exists w. unfold cj_find, basis. rewrite E. auto.
Qed.

(** build never removes an element *)
Lemma merge_keys : forall cnt fuel dbg mpos dg js q d j k js' q' T, merge_loop cnt fuel dbg mpos dg js q d j k = Ok (js', q', T) ->
  incl (map fst (d ++ j ++ k)) (map fst T).
Proof.
  assert (Put : forall (e e' : entry) d j k (T : list entry), fst e' = fst e -> incl (map fst ((d ++ [e']) ++ j ++ k)) (map fst T) ->
    incl (map fst d ++ fst e :: map fst j ++ map fst k) (map fst T)).
  { intros e e' d j k T E I x Ix. apply I. rewrite !map_app. cbn [map]. rewrite E, <- !app_assoc. exact Ix. }
  assert (Tr : forall fuel dbg mpos js others e e', tail_reduce fuel dbg mpos js others e = Ok e' -> fst e' = fst e).
  { intros fuel dbg mpos js others e e' E. unfold tail_reduce in E. apply bindE in E as ([p c] & _ & E). apply bindE in E as (p' & _ & E). injection E as <-. reflexivity. }
  induction cnt as [|cnt IH]; intros fuel dbg mpos dg js q d j k js' q' T E; cbn [merge_loop] in E.
  { destruct j, k; try discriminate. injection E as <- <- <-. rewrite !app_nil_r. apply incl_refl. }
  destruct j as [|e j], k as [|e' k].
  - injection E as <- <- <-. rewrite !app_nil_r. apply incl_refl.
  - apply bindE in E as (e2 & E2 & E). apply bindE in E as (r & _ & E). apply IH in E. rewrite !map_app. cbn [map app].
    apply (Put e' e2 d [] k); [eapply Tr; exact E2|exact E].
  - apply bindE in E as (b & _ & E). unfold assert_ in E. match type of E with context [if ?c then _ else _] => destruct c; [discriminate|] end.
    apply bindE in E as (r & _ & E). apply IH in E. rewrite !map_app. cbn [map app]. apply (Put e e d j []); [reflexivity|exact E].
  - apply bindE in E as (c & _ & E). destruct (c <? 0).
    + apply bindE in E as (b & _ & E). unfold assert_ in E. match type of E with context [if ?c then _ else _] => destruct c; [discriminate|] end.
      apply bindE in E as (r & _ & E). apply IH in E. rewrite !map_app. cbn [map app]. apply (Put e e d j (e' :: k)); [reflexivity|exact E].
    + apply bindE in E as (e2 & E2 & E). apply bindE in E as (r & _ & E). apply IH in E. rewrite !map_app in *. cbn [map] in *.
      intros x Ix. apply E. rewrite (Tr _ _ _ _ _ _ _ E2). repeat (rewrite in_app_iff in * || cbn [In] in * ). tauto.
Qed.
Lemma block_tq_keys : forall fuel dbg mpos js q T J, block_tq fuel dbg mpos js q T = Ok J -> jone J = None -> incl (map fst T) (map fst (jt J)).
Proof.
  induction fuel as [|fuel IH]; intros dbg mpos js q T J E Eo; destruct q as [|u q]; cbn [block_tq] in E; try (injection E as <-; apply incl_refl); [discriminate|].
  apply bindE in E as (m & _ & E). apply bindE in E as ([[q1 tmp]|] & _ & E).
  - unfold assert_ in E. match type of E with context [if ?c then _ else _] => destruct c; [discriminate|] end.
    destruct tmp as [|x tmp]; [eapply IH; [exact E|exact Eo]|].
    apply bindE in E as ([[tmp2 q2] dg] & _ & E). apply bindE in E as ([js2 new] & _ & E). apply bindE in E as ([[js3 q3] t3] & M & E).
    apply bindE in E as (b & _ & E). match type of E with context [if ?c then _ else _] => destruct c; [discriminate|] end.
    apply merge_keys in M. apply IH in E; [|exact Eo]. eapply incl_tran; [|exact E]. intros y Iy. apply M. cbn [app]. rewrite map_app. apply in_or_app. right. exact Iy.
  - unfold set_one in E. apply bindE in E as (p & _ & E). apply bindE in E as (m' & _ & E). injection E as <-. discriminate.
Qed.
Lemma build_keeps F J fuel J' : session t o n F J -> cj_build fuel false J = Ok (Ret J') -> cj_isOne J' = false ->
  incl (map lead (basis J)) (map lead (basis J')).
Proof.
  intros H E Eo. assert (E' : jone J' = None) by (unfold cj_isOne, is_one in Eo; destruct (jone J'); congruence).
  assert (H' : session t o n F J') by (eapply s_build; eassumption).
  apply liftE in E. unfold jp_build in E. destruct (jone J) as [w|] eqn:E0; [injection E as <-; congruence|].
  rewrite <- (jstate_leads t o n A J (session_state F J H) E0), <- (jstate_leads t o n A J' (session_state F J' H') E').
  apply incl_map.
  assert (X : jt (set_pos J) = jt J) by (unfold set_pos; destruct (jpos J <? q_pos (jq J)); reflexivity).
  destruct (jtrees (set_pos J)).
  - apply block_tq_keys in E; [|exact E']. rewrite X in E. exact E.
  - destruct (jq (set_pos J)); [|discriminate]. injection E as <-. rewrite X. apply incl_refl.
Qed.

(** nf *)
Lemma nf_ok F J a : session t o n F J -> ring_input t o n a ->
  exists N r, (forall fuel, (N <= fuel)%nat -> cj_nf fuel false J (PObj (Some a)) = Ok (Ret r)) /\ ring_input t o n r /\
    reduces_to n (among (basis J)) (terms a) (terms r) /\
    (cj_isOne J = false -> forall m c, In (m, c) (terms r) -> forall w, cj_find false J (MArg m) <> Ok (Ret (Some w))) /\
    (terms r = [] -> rational_member n (among F) (terms a)).
Proof.
  intros H R. assert (HH := session_history F J H). destruct (c40_nf t o n F J a Hn Ho HH R) as (N & r & E & Rr & C & D).
  destruct (c40_zero t o n F J a Hn Ho HH R) as (N2 & r2 & E2 & Z).
  assert (r2 = r). { assert (X := E (N + N2)%nat ltac:(lia)). assert (Y := E2 (N + N2)%nat ltac:(lia)). congruence. } subst r2.
  exists N, r. split; [intros fuel Hf; cbn [cj_nf with_parg]; unfold lift; now rewrite (E fuel Hf)|]. split; [exact Rr|]. split; [exact C|].
  split; [|exact Z]. intros Eo m c I w Ew. assert (E0 : jone J = None) by (unfold cj_isOne, is_one in Eo; destruct (jone J); congruence).
  destruct Rr as (V & E1 & Et & Eb & Rm). unfold valid_poly in V. apply canonical_iff in V as (_ & Mo & _).
  rewrite E1 in Mo. unfold monos in Mo. rewrite Forall_forall in Mo. assert (Mm := Mo (m, c) I). unfold ring_poly in Rm. rewrite Forall_forall in Rm. assert (Pm := Rm (m, c) I). cbn [fst] in *.
  assert (X := find_R F J H E0 (vars m) (proj1 Mm)). destruct m as [p v]. cbn [pos vars] in *. subst p. rewrite Ew in X.
  destruct X as (_ & _ & X). exact (D _ _ I _ X).
Qed.
End S.

(** * Witnesses *)
From Verif Require Import JanetPolyExamples InvolutiveExamples.

Lemma iv_session : session TOP ODegLex 2 [iv_f2; iv_f1] iv_J.
Proof.
  eapply (s_build _ _ _ _ _ 40).
  - eapply s_push; [eapply s_push; [apply s_new| |vm_compute; reflexivity]| |vm_compute; reflexivity].
    + apply (Forall_inv iv_in).
    + apply (Forall_inv (Forall_inv_tail iv_in)).
  - vm_compute. reflexivity.
Qed.
Definition oj_f : poly := pol ODegLex 2 [([0;0]%nat, 3)].
Definition oj_J : jpoly := match run 40 false [oj_f] with Ok J => J | _ => jp_empty end.
Lemma oj_session : session TOP ODegLex 2 [oj_f] oj_J /\ cj_isOne oj_J = true.
Proof.
  split; [|reflexivity]. eapply (s_build _ _ _ _ _ 40).
  - eapply s_push; [apply s_new| |vm_compute; reflexivity]. repeat constructor; cbn; try lia; try discriminate.
  - vm_compute. reflexivity.
Qed.
Definition mixed : poly := pol OLex 2 [([1;0]%nat, 1); ([0;5]%nat, 1)].
Lemma mixed_input : ring_input TOP OLex 2 mixed.
Proof.
  split; [|repeat constructor]. apply canonical_iff. split; [|split]; repeat constructor; cbn; try lia; try discriminate.
Qed.
Lemma nf_mixed : exists r, cj_comparable iv_J (PObj (Some mixed)) = Ok (Ret false) /\ cj_nf 40 false iv_J (PObj (Some mixed)) = Ok (Ret r) /\ ~ valid_poly r.
Proof.
  eexists. split; [reflexivity|]. split; [vm_compute; reflexivity|]. unfold valid_poly. cbn [pto pbo psize terms].
  intro V. apply canonical_iff in V as (C & _). inversion C as [|? ? _ C1]; subst. apply Forall_inv in C1. cbv in C1. discriminate.
Qed.
