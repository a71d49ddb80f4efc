(** Histories of calls of ginvMin and ginvBlockLow. *)
From Coq Require Import ZArith List Bool Arith Lia Permutation.
From Verif Require Import Outcome MonomModel MonomSpec MonomProofs PolyModel PolySpec PolyProofs PolyNfProofs PolyRedProofs IdealProofs JanetSpec JanetPolySpec JanetPolyProofs CompletionProofs
  PyMonomModel PyMonomSpec PyMonomProofs PyPolyModel PyPolySpec PyPolyProofs PyRedProofs PyJanetModel PyJanetSpec PyJanetProofs PyJanetTop PyJanetProlong
  PyHPModel PyForestModel PyForestProofs PyQueueModel PyQueueProofs PyDivProofs PySpan PyGinvModel PyGinvSpec PyGinvBase PyGinvSweep PyGinvRound PyGinvCover PyInvolutive PyGinvMin PyGinvLoop PyGinvLow.
Import ListNotations.
Local Open Scope nat_scope.

Section Mono.
Variables (o : py_order) (n : nat) (k : Z) (F F' : ppoly -> Prop).
Hypothesis I : forall p, F p -> F' p.
Lemma fine_mono T w : fine o n k F T w -> fine o n k F' T w.
Proof. intros (G & P & S). split; [exact G|]. split; [exact P|]. revert S. apply rspan_mono; auto. Qed.
Lemma treeok_mono T : treeok o n k F T -> treeok o n k F' T.
Proof. intros (D & Fi & Nd). split; [exact D|]. split; [|exact Nd]. revert Fi. apply Forall_impl. exact (fine_mono T). Qed.
Lemma sinv_mono T l id id' : id <= id' -> sinv o n k F T l id -> sinv o n k F' T l id'.
Proof. intros Le (To & Fl & Nd & B). split; [exact (treeok_mono T To)|]. split; [intros w W; exact (fine_mono T w (Fl w W))|]. split; [exact Nd|]. intros x X. specialize (B x X). lia. Qed.
End Mono.
Lemma covered_mono o n k (S S' : ppoly -> Prop) g v : (forall s, S s -> S' s) -> covered o n k S g v -> covered o n k S' g v.
Proof. intros I (s & u & j & c & d & H1 & H2 & H3 & H4 & H5 & H6 & H7). exists s, u, j, c, d. split; [exact (I s H1)|]. repeat (split; [assumption|]). split; [|exact H7]. revert H6. apply rspan_mono; auto. Qed.

Section Start.
Variables (o : py_order) (n : nat) (k : Z).
Hypothesis K : (0 <= k)%Z.
Hypothesis N : 0 < n.
Notation list_of s := (pq_list (ps_queue s)).

Lemma wraps_ok T ps : forall id, Forall (input o n k T) ps -> exists l, wraps id ps = Ok l /\ map pw_poly l = ps /\ map pw_id l = seq id (length ps) /\
  (forall w, In w l -> good o n k w /\ pure T (pw_poly w) /\ spotless n w).
Proof.
  induction ps as [|p ps IH]; intros id H; cbn [wraps]; [exists []; cbn; repeat split; contradiction|]. inversion H as [|? ? (C & Np & P) H']; subst. destruct p as [|[m c] p]; [contradiction|]. cbn [w_of_poly bind].
  destruct (IH (S id) H') as (l & E & Ep & Ei & Hl). rewrite E. cbn [bind]. eexists. split; [reflexivity|]. cbn [map pw_poly pw_id length seq]. split; [now rewrite Ep|]. split; [now rewrite Ei|]. intros w [<-|W]; [|exact (Hl w W)].
  pose proof (pcanonical_mono o n k [] m c p C) as M. pose proof (proj1 (proj1 M)) as Lm. split; [|split].
  - split; [exact Lm|]. cbn [pw_nonmult pw_prolong]. rewrite repeat_length. split; [exact Lm|]. split; [exact Lm|]. split; [exists c, p; reflexivity|exact C].
  - cbn [pw_poly]. exact P.
  - split; [split; [exact Lm|]; cbn [pw_nonmult pw_prolong]; rewrite Lm; split; [reflexivity|apply repeat_length]|cbn [pw_prolong]; now rewrite Lm].
Qed.
Lemma start_ok F T id id' ps : sinv o n k F T [] id -> id <= id' -> ps <> [] -> Forall (input o n k T) ps ->
  exists s, start o ps T id' = Ok s /\ ps_tree s = T /\ crits s = 0 /\ sinv o n k (fun p => F p \/ In p ps) T (list_of s) (ps_id s) /\
    (dfit flags n k T -> finv n k T (list_of s)) /\ (cinv o n k F T [] -> cinv o n k (fun p => F p \/ In p ps) T (list_of s)).
Proof.
  intros Si Le Np H. unfold start. destruct ps as [|p0 ps0]; [congruence|]. set (ps := p0 :: ps0) in *. destruct (wraps_ok T ps id' H) as (l & E & Ep & Ei & Hl). rewrite E. cbn [bind].
  destruct (new_ok o n k l (fun w W => proj1 (Hl w W))) as (q & Eq & P & C1 & C2). rewrite Eq. cbn [bind]. eexists. split; [reflexivity|]. cbn [ps_tree ps_queue ps_id]. split; [reflexivity|]. split; [unfold crits; cbn [ps_queue]; lia|].
  set (F' := fun p => F p \/ In p ps). assert (Fl : forall w, In w l -> fine o n k F' T w).
  { intros w W. destruct (Hl w W) as (G & Pw & _). split; [exact G|]. split; [exact Pw|]. assert (Fw : F' (pw_poly w)) by (right; rewrite <- Ep; now apply in_map). pose proof (good_lmon o n k w G) as El.
    apply (rspan_mono n F' F' (ble o n k (lmon (pw_poly w)))); auto; [intros x _; exact Logic.I|]. apply rspan_self; [exact Fw|rewrite El; exact (good_pmono o n k w G)|exact (good_monos o n k w G)]. }
  split; [|split].
  - apply (sinv_perm o n k F' T l); [exact P|]. destruct (sinv_mono o n k F F' (fun p X => or_introl X) T [] id id' Le Si) as (To & _ & Nd & B). rewrite app_nil_r in *. split; [exact To|]. split; [exact Fl|]. rewrite map_app, Ei. split.
    + apply NoDup_app_intro; [exact Nd|apply seq_NoDup|]. intros x X Y. apply in_seq in Y. specialize (B x X). lia.
    + intros x X. apply in_app_iff in X. destruct X as [X|X]; [specialize (B x X); lia|apply in_seq in X; lia].
  - intro D. split; [exact D|]. intros w W. left. apply (Permutation_in w P) in W. exact (proj2 (proj2 (Hl w W))).
  - intros [A B]. assert (Inc : forall s, all_polys T [] s -> all_polys T (pq_list q) s) by (unfold all_polys, polys; intros s X; rewrite app_nil_r in X; rewrite map_app; apply in_app_iff; now left).
    assert (Gl : forall f, In f ps -> all_polys T (pq_list q) f) by (intros f X; unfold all_polys, polys; rewrite map_app; apply in_app_iff; right; rewrite <- Ep in X; apply (Permutation_in f (Permutation_map pw_poly (Permutation_sym P))); exact X). split.
    + intros f [X|X]; [revert X; intro X; generalize (A f X); apply rspan_mono; auto|]. rewrite Forall_forall in H. destruct (H f X) as (Cf & Nf & _). destruct f as [|[m c] f]; [contradiction|].
      apply (rspan_mono n (all_polys T (pq_list q)) (all_polys T (pq_list q)) (ble o n k (lmon ((m, c) :: f)))); auto; [intros x _; exact Logic.I|]. apply rspan_self; [exact (Gl _ X)|exact (pcanonical_mono o n k [] m c f Cf)|]. exact (proj1 (proj2 (proj1 (py_canonical_iff o n k _) Cf))).
    + intros g v G V Dn. destruct (B g v G V Dn) as [Nm Cv]. split; [exact Nm|]. revert Cv. apply covered_mono. exact Inc.
Qed.
Lemma sinv_drop F T l id : sinv o n k F T l id -> sinv o n k F T [] id.
Proof.
  intros (To & _ & Nd & B). split; [exact To|]. split; [intros w []|]. rewrite app_nil_r. split; [apply To|]. intros x X. apply B. rewrite map_app. apply in_app_iff. now left.
Qed.

Record sess (cs : list (call * nat)) (T : pdiv) (id : nat) : Prop := {
  se_sinv : sinv o n k (inputs cs) T [] id;
  se_tinv : tinv T;
  se_uncut : uncut cs -> dfit flags n k T /\ cinv o n k (inputs cs) T [];
  se_last : uncut cs -> prolonging cs -> no_pending n T
}.
Lemma inputs_snoc cs c x p : inputs (cs ++ [(c, x)]) p <-> inputs cs p \/ In p (call_inputs c).
Proof.
  unfold inputs. split.
  - intros (y & Y & P). apply in_app_iff in Y. destruct Y as [Y|[<-|[]]]; [left; exists y; auto|now right].
  - intros [(y & Y & P)|P]; [exists y; split; [apply in_app_iff; now left|exact P]|exists (c, x); split; [apply in_app_iff; right; now left|exact P]].
Qed.
Lemma empty_treeok F T : dfit bare n k T -> d_elems T = [] -> treeok o n k F T.
Proof. intros D E. split; [exact D|]. rewrite E. split; [constructor|constructor]. Qed.
Lemma sess_new T id : dfit bare n k T -> dfit flags n k T -> d_elems T = [] -> sess [] T id.
Proof.
  intros D1 D2 E. constructor.
  - split; [exact (empty_treeok _ T D1 E)|]. rewrite E. split; [intros w []|]. split; [constructor|intros x []].
  - intros u U. rewrite E in U. destruct U.
  - intros _. split; [exact D2|]. split; [intros f (c & [] & _)|]. intros g v G. rewrite E in G. destruct G.
  - intros _ (cs' & ps & x & Q). destruct cs'; discriminate Q.
Qed.
Lemma ghost_empty e p : ghost e n p pj_empty.
Proof. exists pj_empty. split; [apply built_new|]. split; [intros w []|reflexivity]. Qed.
Lemma perform_ok fuel nf cs T id c id' : sess cs T id -> id <= id' -> call_inputs c <> [] -> Forall (input o n k T) (call_inputs c) -> match c with CMin _ _ => True | CLow _ => o = TOPdeglex end ->
  perform fuel nf o c T id' = OutOfFuel \/ exists s, perform fuel nf o c T id' = Ok s /\ sess (cs ++ [(c, counters s)]) (ps_tree s) (ps_id s) /\ match c with CMin _ _ => list_of s = [] | CLow _ => True end.
Proof.
  intros Se Le Np H Ho. destruct (start_ok _ T id id' (call_inputs c) (se_sinv _ _ _ Se) Le Np H) as (s0 & E0 & Et & C0 & S0 & F0 & Ci0). set (F' := fun p => inputs cs p \/ In p (call_inputs c)) in *.
  assert (Eq : forall s p, F' p <-> inputs (cs ++ [(c, counters s)]) p) by (intros s p; symmetry; apply inputs_snoc). destruct c as [level ps|ps]; cbn [perform call_inputs] in *.
  - unfold ginv_min. rewrite E0. cbn [bind]. rewrite <- Et in S0. destruct (min_loop_ok o n k F' K N nf level fuel s0 S0) as [E|(s & E & (S1 & Cr & Ti & Fi) & Eq1 & Np1)]; rewrite E; [now left|]. right. exists s. split; [reflexivity|]. split; [|exact Eq1].
    assert (Un : uncut (cs ++ [(CMin level ps, counters s)]) -> uncut cs /\ counters s = 0) by (intro U; apply Forall_app in U; destruct U as [U1 U2]; inversion U2; subst; auto).
    rewrite <- Et in *. constructor.
    + apply (sinv_mono o n k F' _ (fun p => proj1 (Eq s p)) _ _ (ps_id s)); [lia|]. exact (sinv_drop _ _ _ _ S1).
    + apply Ti. exact (se_tinv _ _ _ Se).
    + intro U. apply Un in U. destruct U as [U Z]. destruct (se_uncut _ _ _ Se U) as [D Ci]. destruct (Fi (F0 D)) as [[D1 _] Ci1]. split; [exact D1|]. destruct (Ci1 Z (Ci0 Ci)) as [A B]. rewrite Eq1 in A, B. split; [|exact B]. intros f X. apply A, (Eq s), X.
    + intros U (cs' & ps' & x & Q). apply app_inj_tail in Q. destruct Q as [_ Q]. injection Q as -> _ _. apply Un in U. destruct U as [U Z]. destruct (se_uncut _ _ _ Se U) as [D _]. exact (Np1 eq_refl (F0 D)).
  - unfold ginv_low. assert (Q : match o with TOPdeglex => true | _ => false end = true) by (rewrite Ho; reflexivity). rewrite Q. destruct ps as [|p0 ps0]; [congruence|]. set (ps := p0 :: ps0) in *. unfold assert_. cbn [negb andb]. rewrite E0. cbn [bind]. assert (Ss : sound_state o n k F' s0) by (split; [rewrite Et; exact S0|rewrite Et; exact (se_tinv _ _ _ Se)]).
    destruct (low_loop_ok o n k F' K N nf fuel s0 Ss) as [E|(s & E & S1 & T1)]; rewrite E; [now left|]. right. exists s. split; [reflexivity|]. split; [|exact I].
    assert (Un : ~ uncut (cs ++ [(CLow ps, counters s)])) by (intro U; apply Forall_app in U; destruct U as [_ U2]; inversion U2; contradiction). constructor.
    + apply (sinv_mono o n k F' _ (fun p => proj1 (Eq s p)) _ _ (ps_id s)); [lia|]. exact (sinv_drop _ _ _ _ S1).
    + exact T1.
    + intro U. destruct (Un U).
    + intros U. destruct (Un U).
Qed.
Lemma session_kind cs T id : session o n k cs T id -> sess cs T id.
Proof.
  intro S. induction S as [id Ek|Fo id Kp E|cs T id c fuel nf id' s S IH Le H E].
  - apply sess_new; [split; [exact Ek|apply ghost_empty]|split; [exact Ek|apply ghost_empty]|reflexivity].
  - unfold pf_new, assert_ in E. destruct (true && negb (Nat.ltb 0 (Z.to_nat k))); [discriminate E|]. injection E as <-. assert (D : forall e, dfit e n k (DForest (repeat pj_empty (Z.to_nat k)))).
    { intro e. cbn. rewrite repeat_length. split; [lia|]. intros i J X. apply nth_error_In in X. apply repeat_spec in X. subst J. apply ghost_empty. }
    apply sess_new; [apply D|apply D|]. cbn. clear. induction (Z.to_nat k) as [|j IH]; [reflexivity|exact IH].
  - assert (Np : call_inputs c <> []) by (intro Q; destruct c as [level ps|ps]; cbn in Q; subst ps; cbn in E; discriminate E).
    assert (Ho : match c with CMin _ _ => True | CLow _ => o = TOPdeglex end) by (destruct c as [level ps|ps]; [exact Logic.I|]; destruct ps as [|p0 ps0]; [discriminate E|]; destruct o; try discriminate E; reflexivity).
    destruct (perform_ok fuel nf cs T id c id' IH Le Np H Ho) as [X|(s' & X & S' & _)]; rewrite E in X; [discriminate X|]. injection X as <-. exact S'.
Qed.

(* ---- final statements ---- *)
Lemma gi_total fuel nf cs T id c id' : session o n k cs T id -> id <= id' -> call_inputs c <> [] -> Forall (input o n k T) (call_inputs c) -> match c with CMin _ _ => True | CLow _ => o = TOPdeglex end ->
  perform fuel nf o c T id' = OutOfFuel \/ exists s, perform fuel nf o c T id' = Ok s /\ match c with CMin _ _ => list_of s = [] | CLow _ => True end.
Proof. intros S Le Np H Ho. destruct (perform_ok fuel nf cs T id c id' (session_kind _ _ _ S) Le Np H Ho) as [E|(s & E & _ & Q)]; [now left|right]. exists s. auto. Qed.
Lemma gi_sound cs T id : session o n k cs T id -> forall g, In g (basis T) -> input o n k T g /\ rational_member n (inputs cs) g.
Proof.
  intros S g G. apply in_map_iff in G. destruct G as (w & <- & W). destruct (se_sinv _ _ _ (session_kind _ _ _ S)) as ((_ & Fi & _) & _). rewrite Forall_forall in Fi. destruct (Fi w W) as ((L1 & L2 & L3 & (c & l & E) & C) & P & So).
  split; [|exact (proj1 (rspan_member n _ _) So)]. split; [exact C|]. split; [rewrite E; discriminate|]. exact P.
Qed.
Lemma gi_reducible T m : dfit bare n k T -> pmono n k m -> zone T m -> (d_findWrap T m = Ok None <-> ~ reducible n T m).
Proof.
  intros D M Z. destruct (d_find_ok bare n k bare_eraser N T m D M) as (_ & _ & H). specialize (H Z). rewrite H. unfold reducible. split; [intros A (u & U); exact (A u U)|]. intros A x X. apply A. exists x. exact X.
Qed.
Lemma gi_find cs T id : session o n k cs T id -> forall m, pmono n k m -> (match T with DJanet _ => pos m = (-1)%Z | DForest _ => (0 <= pos m)%Z end) ->
  (exists r, d_find T m = Ok r) /\ (d_find T m = Ok None <-> ~ reducible n T m) /\
  forall q, d_find T m = Ok (Some q) -> In q (basis T) /\ pos (lmon q) = pos m /\ janet_divides n (lead_exps T (pos m)) (vars (lmon q)) (vars m).
Proof.
  intros S m M Z. pose proof (session_kind _ _ _ S) as Se. destruct (se_sinv _ _ _ Se) as ((D & Fi & Nd) & _). destruct (d_find_ok bare n k bare_eraser N T m D M) as ((r & E) & H & _). rewrite d_find_eq. rewrite E. split; [eexists; reflexivity|]. split.
  - rewrite <- (gi_reducible T m D M Z), E. destruct r; cbn; split; congruence.
  - intros q Q. destruct r as [u|]; [|discriminate Q]. cbn in Q. injection Q as <-. destruct (H u E) as (U & _ & Pu & Ju). split; [now apply in_map|]. rewrite Forall_forall in Fi. rewrite (good_lmon o n k u (proj1 (Fi u U))). split; [exact Pu|exact Ju].
Qed.
Lemma gi_tails cs T id : session o n k cs T id -> forall m c q, In ((m, c) :: q) (basis T) -> primitive ((m, c) :: q) /\ forall x, In x q -> ~ reducible n T (fst x).
Proof.
  intros S m c q G. apply in_map_iff in G. destruct G as (w & E & W). pose proof (session_kind _ _ _ S) as Se. destruct (se_sinv _ _ _ Se) as ((D & Fi & Nd) & _). rewrite Forall_forall in Fi. destruct (Fi w W) as ((_ & _ & _ & _ & C) & P & _). destruct (se_tinv _ _ _ Se w W) as [Ti Pr]. rewrite E in *.
  split; [exact Pr|]. intros x X. cbn [skipn] in Ti. rewrite Forall_forall in Ti. unfold pure in P. rewrite Forall_forall in P. apply py_canonical_iff in C as (_ & M & _). unfold pmonos in M. rewrite Forall_forall in M.
  apply gi_reducible; [exact D|exact (M x (or_intror X))|exact (P x (or_intror X))|exact (Ti x X)].
Qed.
Lemma gi_ideal cs T id : session o n k cs T id -> uncut cs -> forall p, rational_member n (fun g => In g (basis T)) p <-> rational_member n (inputs cs) p.
Proof.
  intros S U p. split; apply mem_trans.
  - intros g G. exact (proj2 (gi_sound cs T id S g G)).
  - intros f Ff. destruct (se_uncut _ _ _ (session_kind _ _ _ S) U) as [_ [A _]]. specialize (A f Ff). apply rspan_member. revert A. apply rspan_mono; auto. unfold all_polys, polys, basis. intros g G. rewrite app_nil_r in G. exact G.
Qed.
Lemma gi_complete cs T id : session o n k cs T id -> uncut cs -> prolonging cs -> forall m c p, py_canonical o n k ((m, c) :: p) -> rational_member n (inputs cs) ((m, c) :: p) -> reducible n T m.
Proof.
  intros S U L m c p C R. pose proof (session_kind _ _ _ S) as Se. destruct (se_sinv _ _ _ Se) as (To & _). destruct (se_uncut _ _ _ Se U) as [_ [_ B]]. pose proof (se_last _ _ _ Se U L) as Np.
  apply (gi_ideal cs T id S U) in R. destruct (lead_divisible o n k _ K N T To) with (p := (m, c) :: p) as (w & W & Pw & Jw).
  - intros w v W V Nm. destruct (B w v W V (Np w v W V Nm)) as [_ Cv]. unfold all_polys in Cv. rewrite app_nil_r in Cv. exact Cv.
  - exact C.
  - discriminate.
  - apply rspan_member. exact R.
  - exists (exps w). exact Jw.
Qed.
Lemma gi_normal cs T id : session o n k cs T id -> uncut cs -> prolonging cs -> forall p, py_canonical o n k p ->
  exists bound r, (forall fuel, bound <= fuel -> py_nfhead fuel o (d_find T) p = Ok r) /\ (r = [] <-> rational_member n (inputs cs) p).
Proof.
  intros S U L p C. pose proof (session_kind _ _ _ S) as Se. destruct (se_sinv _ _ _ Se) as (To & _). assert (Ff : py_good_find o n k (polys (d_elems T)) (d_find T)) by (apply find_good; [exact N|apply To|exact (treeok_good o n k _ T To)]).
  destruct (nfhead_ok o n k (polys (d_elems T)) (d_find T) Ff K p C) as (b & r & E & _). exists b, r. split; [exact E|]. destruct (nfhead_span o n k K (polys (d_elems T)) (d_find T) Ff b p r C (E b (le_n b))) as (Cr & Hr & j & l & d & J & Ln & Sd & Co).
  assert (Md : rational_member n (inputs cs) d) by (apply (gi_ideal cs T id S U); apply rspan_member, rspan_of; revert Sd; apply span_mono; [auto|intros x _; exact Logic.I]). split.
  - intros ->. apply rspan_member. apply (rspan_scaled n _ _ p d j 1 J); [apply rspan_member; exact Md|]. intro m. rewrite Co. cbn [coef]. ring.
  - intro Mp. destruct r as [|[m c] r]; [reflexivity|exfalso]. destruct Hr as [Q|[Q _]]; [discriminate Q|]. cbn [lmon] in Q. assert (Mr : rational_member n (inputs cs) ((m, c) :: r)).
    { apply rspan_member. apply (rspan_lin n _ _ ((m, c) :: r) p d l j (-1) Ln); [apply rspan_member; exact Mp|apply rspan_member; exact Md|]. intro x. assert (Y : forall a b c : Z, (a = b + c -> b = a + -1 * c)%Z) by (intros; lia). exact (Y _ _ _ (Co x)). }
    pose proof (gi_complete cs T id S U L m c r Cr Mr) as Rd. pose proof (pcanonical_mono o n k [] m c r Cr) as M.
    assert (Z : zone T m). { destruct Rd as (u & Iu & _). apply d_comp_in in Iu. destruct Iu as (w & W & Pw & _). destruct To as (_ & Fi & _). rewrite Forall_forall in Fi. pose proof (good_zone o n k _ T w (Fi w W)) as Zw. unfold zone in *. destruct T; rewrite <- Pw; exact Zw. }
    apply (gi_reducible T m (proj1 To) M Z); [|exact Rd]. rewrite d_find_eq in Q. destruct (d_findWrap T m) as [[u|]| | | |]; cbn in Q; congruence.
Qed.
End Start.

Section LowCall.
Variables (n : nat) (k : Z).
Hypothesis K : (0 <= k)%Z.
Hypothesis N : 0 < n.
Lemma low_session fuel nf cs T id ps id' s : session TOPdeglex n k cs T id -> id <= id' -> Forall (input TOPdeglex n k T) ps -> ginv_low fuel nf TOPdeglex ps T id' = Ok s ->
  session TOPdeglex n k (cs ++ [(CLow ps, counters s)]) (ps_tree s) (ps_id s).
Proof. intros S Le H E. exact (ses_call TOPdeglex n k cs T id (CLow ps) fuel nf id' s S Le H E). Qed.
Lemma gi_low_sound fuel nf cs T id ps id' s : session TOPdeglex n k cs T id -> id <= id' -> Forall (input TOPdeglex n k T) ps -> ginv_low fuel nf TOPdeglex ps T id' = Ok s ->
  forall g, In g (basis (ps_tree s)) -> input TOPdeglex n k (ps_tree s) g /\ rational_member n (fun p => inputs cs p \/ In p ps) g.
Proof.
  intros S Le H E g G. destruct (gi_sound TOPdeglex n k K N _ _ _ (low_session fuel nf cs T id ps id' s S Le H E) g G) as [A B]. split; [exact A|]. revert B. apply mem_mono. intros p P. exact (proj1 (inputs_snoc cs (CLow ps) (counters s) p) P).
Qed.
Lemma gi_low_reduced fuel nf cs T id ps id' s : session TOPdeglex n k cs T id -> id <= id' -> Forall (input TOPdeglex n k T) ps -> ginv_low fuel nf TOPdeglex ps T id' = Ok s ->
  (forall m, pmono n k m -> (match ps_tree s with DJanet _ => pos m = (-1)%Z | DForest _ => (0 <= pos m)%Z end) ->
    (exists r, d_find (ps_tree s) m = Ok r) /\ (d_find (ps_tree s) m = Ok None <-> ~ reducible n (ps_tree s) m)) /\
  forall m c q, In ((m, c) :: q) (basis (ps_tree s)) -> primitive ((m, c) :: q) /\ forall x, In x q -> ~ reducible n (ps_tree s) (fst x).
Proof.
  intros S Le H E. pose proof (low_session fuel nf cs T id ps id' s S Le H E) as S'. split.
  - intros m M Z. destruct (gi_find TOPdeglex n k K N _ _ _ S' m M Z) as (A & B & _). auto.
  - exact (gi_tails TOPdeglex n k K N _ _ _ S').
Qed.
End LowCall.
