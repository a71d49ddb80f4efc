(** The order, the coefficients and the tails of a basis, for all histories of an object. *)
From Coq Require Import ZArith List Bool Arith Lia Permutation Sorted.
From Verif Require Import Outcome MonomModel MonomSpec MonomProofs PolyModel PolySpec PolyProofs PolyRedProofs PolyNfProofs
  PolyTopProofs JanetModel JanetSpec JanetProofs JanetFindProofs CompletionProofs JanetPolyModel TQModel JanetPolySpec IdealProofs JanetPolyProofs
  TQProofs JanetPolyTop GrowthProofs JanetTermSpec JanetTermProofs JanetTermMain JanetTermTop ShapeSpec ShapeProofs.
Import ListNotations.
Local Open Scope Z_scope.

Section P.
Variables (t : pos_order) (o : base_order) (n : nat).
Hypothesis (Hn : (0 < n)%nat) (Ho : o <> OAlex).

(** What a property of mT says about an object. *)
Definition shp (Q : list entry -> Prop) (J : jpoly) : Prop := jone J = None -> Q (jt J).

Lemma out_shp Q J : out n Q (inr J) -> shp Q J.
Proof. unfold out, shp. intros [(w & E & _)|[_ X]] H; [congruence|exact X]. Qed.
Lemma start_jt J : snd (start J) = jt J.
Proof. unfold start, set_pos. destruct (jpos J <? q_pos (jq J)); reflexivity. Qed.

Lemma build_keeps G Q : keeps t o n G (fun k => block_round k false (-1)) Q -> forall J fuel J', jstate t o n G J ->
  shp Q J -> jp_build fuel false J = Ok J' -> shp Q J'.
Proof.
  intros K J fuel J' S H E. destruct (start_cases t o n G J S) as [(w & E1 & X)|(R & X & _)].
  - destruct (X fuel true) as [X1 _]. rewrite X1 in E. injection E as <-. exact H.
  - assert (On : jone J = None \/ jone J <> None) by (destruct (jone J); [right; discriminate|left; reflexivity]). destruct On as [On|On].
    + rewrite X in E. apply out_shp. refine (run_keeps t o n G Q _ block_run block_run_eq block_zero K fuel (start J) J' R _ E). rewrite start_jt. apply H. exact On.
    + unfold jp_build in E. destruct (jone J); [|congruence]. injection E as <-. exact H.
Qed.
Lemma tq_keeps G Q one : keeps t o n G (fun k => tq_round one k false (-1)) Q -> forall J fuel J', jstate t o n G J ->
  shp Q J -> jp_tq one fuel false J = Ok J' -> shp Q J'.
Proof.
  intros K J fuel J' S H E. destruct (start_cases t o n G J S) as [(w & E1 & X)|(R & _ & X)].
  - destruct (X fuel one) as [_ X1]. rewrite X1 in E. injection E as <-. exact H.
  - assert (On : jone J = None \/ jone J <> None) by (destruct (jone J); [right; discriminate|left; reflexivity]). destruct On as [On|On].
    + rewrite X in E. apply out_shp. refine (run_keeps t o n G Q _ (tq_run one) (tq_run_eq one) (tq_zero one) K fuel (start J) J' R _ E). rewrite start_jt. apply H. exact On.
    + unfold jp_tq in E. destruct (jone J); [|congruence]. injection E as <-. exact H.
Qed.
Lemma push_keeps Q J a J' : jp_push false J a = Ok J' -> shp Q J -> shp Q J'.
Proof.
  unfold jp_push, assert_. cbn [andb]. destruct (jone J) as [w|] eqn:Eo; [intros E H; injection E as <-; exact H|].
  destruct (is_zero a); [intros E H; injection E as <-; exact H|].
  destruct (p_lm false a) as [m| | | |]; cbn [bind]; try discriminate. destruct (p_copy false a) as [c| | | |]; cbn [bind]; try discriminate.
  destruct (jp_insert false (jq J) _) as [q| | | |]; cbn [bind]; try discriminate. intros E H. injection E as <-. intros _. cbn [jt]. apply H. exact Eo.
Qed.

Lemma history_keeps (Q : list entry -> Prop) F J : Q [] ->
  (forall G, keeps t o n G (fun k => block_round k false (-1)) Q) -> (forall G one, keeps t o n G (fun k => tq_round one k false (-1)) Q) ->
  jp_history false t o n F J -> shp Q J.
Proof.
  intros Q0 K1 K2. induction 1 as [|F J a J' _ IH Ra E|F J fuel J' H IH E|F J one fuel J' H IH E].
  - intros _. exact Q0.
  - eapply push_keeps; eassumption.
  - eapply build_keeps; [apply (K1 (among F))|apply (history_state t o n F J Hn Ho H)|exact IH|exact E].
  - eapply tq_keeps; [apply (K2 (among F) one)|apply (history_state t o n F J Hn Ho H)|exact IH|exact E].
Qed.

(** The three properties in terms of the basis. *)
Lemma ascending_T G J : jstate t o n G J -> shp (incr_T t o) J -> ascending o (basis J).
Proof.
  unfold jstate, shp, basis, ascending. destruct (jone J) as [w|]; [intros _ _; constructor; constructor|]. intros [_ D] H. specialize (H eq_refl).
  destruct D as [(_ & _ & ->)|(Ja & _ & _ & D)]; [constructor|].
  assert (X : forall e, In e (jt J) -> mono n (fst e) /\ pos (fst e) = -1 /\ lead (snd e) = vars (fst e)).
  { intros e Ie. assert (Gg := ti_good _ _ _ _ _ _ D). rewrite Forall_forall in Gg. destruct (Gg e Ie) as [[Ge _] (c & l & E)].
    destruct (goodz_mono t o n G (snd e) (fst e) Ge) as [M P]; [rewrite E; left; reflexivity|]. split; [exact M|]. split; [exact P|]. unfold lead. now rewrite E. }
  clear D. induction H as [|e l S IH F]; [constructor|]. cbn [map]. constructor; [apply IH; intros x Ix; apply X; right; exact Ix|].
  apply Forall_forall. intros p Ip. apply in_map_iff in Ip as (e' & <- & Ie'). rewrite Forall_forall in F. specialize (F e' Ie'). unfold elt in F.
  destruct (X e (or_introl eq_refl)) as (M1 & P1 & ->). destruct (X e' (or_intror Ie')) as (M2 & P2 & ->).
  apply (cmp1_spec t o) in F; [|eapply mono_size; eassumption]. unfold module_gt in F. rewrite P1, P2 in F. destruct t; [destruct F as [F|[_ F]]; [exact F|lia]|destruct F as [F|[_ F]]; [lia|exact F]].
Qed.

Lemma one_prim : primitive (one n).
Proof.
  intros d H. specialize (H (Mon (-1) (repeat 0%nat n))). unfold one in H. cbn [coef] in H. destruct (monom_eq_dec _ _) as [_|N]; [|congruence].
  change (1 + 0) with 1 in H. apply Z.divide_1_r in H. exact H.
Qed.
Lemma primitive_T G J : jstate t o n G J -> shp (Forall pr) J -> all_primitive (basis J).
Proof.
  unfold jstate, shp, basis. destruct (jone J) as [w|].
  - intros [[_ E] _] _ g [<-|[]]. rewrite E. exact one_prim.
  - intros _ H g Ig. apply in_map_iff in Ig as (e & <- & Ie). specialize (H eq_refl). rewrite Forall_forall in H. apply (H e Ie).
Qed.
Lemma T_primitive J : all_primitive (basis J) -> shp (Forall pr) J.
Proof.
  unfold shp, basis. destruct (jone J) as [w|]; [discriminate|]. intros H _. apply Forall_forall. intros e Ie. apply H. apply in_map. exact Ie.
Qed.

Lemma tails_T G J : jstate t o n G J -> shp (nf_T n) J -> tails_reduced n (basis J).
Proof.
  unfold jstate, shp, basis. destruct (jone J) as [w|].
  - intros [[_ E] _] _ g m c u [<-|[]] Im. rewrite E in Im. destruct Im.
  - intros [_ D] H g m c u Ig Im C. specialize (H eq_refl). destruct D as [(_ & _ & E)|(Ja & _ & _ & D)]; [rewrite E in Ig; destruct Ig|].
    apply in_map_iff in Ig as (e & <- & Ie). unfold nf_T in H. rewrite Forall_forall in H. rewrite (tinv_leads _ _ _ _ _ _ D) in C.
    apply (H e Ie m) with (v := u); [|exact C]. destruct (terms (snd e)) as [|x l]; [destruct Im|]. cbn [map tl] in *. apply (in_map fst) in Im. exact Im.
Qed.
Lemma T_tails G J : jstate t o n G J -> tails_reduced n (basis J) -> shp (nf_T n) J.
Proof.
  unfold jstate, shp, basis. destruct (jone J) as [w|]; [discriminate|]. intros [_ D] H _. destruct D as [(_ & _ & ->)|(Ja & _ & _ & D)]; [constructor|].
  apply Forall_forall. intros e Ie x Ix v C. unfold keys in C. rewrite <- (tinv_leads _ _ _ _ _ _ D) in C.
  assert (Ig := in_map snd _ _ Ie). unfold tails_reduced in H. destruct (terms (snd e)) as [|y l] eqn:Et; [destruct Ix|]. cbn [map tl] in Ix.
  apply in_map_iff in Ix as ([m c] & <- & Im). apply (H (snd e) m c v Ig); [rewrite Et; exact Im|exact C].
Qed.

Lemma c81_ascending F J : jp_history false t o n F J -> ascending o (basis J).
Proof.
  intro H. eapply ascending_T; [apply (history_state t o n F J Hn Ho H)|].
  apply (history_keeps (incr_T t o) F J); [constructor| | |exact H].
  - intros G fuel s r R E. destruct (block_round_shape t o n G Hn Ho fuel s r R E) as (A & B & _). auto.
  - intros G one fuel s r R E. destruct (tq_round_shape t o n G Hn Ho one fuel s r R E) as (A & B & _). auto.
Qed.

Lemma c81_primitive F J fuel J' : jp_history false t o n F J -> all_primitive (basis J) -> jp_build fuel false J = Ok J' -> all_primitive (basis J').
Proof.
  intros H P E. assert (S := proj1 (history_state t o n F J Hn Ho H)). assert (H' := hist_build _ _ _ _ _ _ _ _ H E).
  eapply primitive_T; [apply (history_state t o n F J' Hn Ho H')|]. eapply build_keeps; [|exact S|apply T_primitive; exact P|exact E].
  intros f s r R Er. destruct (block_round_shape t o n _ Hn Ho f s r R Er) as (A & _ & B & _). auto.
Qed.

Lemma c81_tq_tails F J one fuel J' : jp_history false t o n F J -> tails_reduced n (basis J) -> jp_tq one fuel false J = Ok J' -> tails_reduced n (basis J').
Proof.
  intros H P E. assert (S := proj1 (history_state t o n F J Hn Ho H)). assert (H' := hist_tq _ _ _ _ _ _ _ _ _ H E).
  eapply tails_T; [apply (history_state t o n F J' Hn Ho H')|]. eapply tq_keeps; [|exact S|eapply T_tails; [exact S|exact P]|exact E].
  intros f s r R Er. destruct (tq_round_shape t o n _ Hn Ho one f s r R Er) as (A & _ & B). auto.
Qed.
End P.

Lemma c81_deglex_tails t n F J : (0 < n)%nat -> jp_history false t ODegLex n F J -> tails_reduced n (basis J).
Proof.
  intros Hn H. assert (Ho : ODegLex <> OAlex) by discriminate. eapply (tails_T t ODegLex); [apply (history_state t ODegLex n F J Hn Ho H)|].
  apply (history_keeps t ODegLex n Hn Ho (nf_T n) F J); [constructor| | |exact H].
  - intros G fuel s r R E. destruct (block_round_shape t ODegLex n G Hn Ho fuel s r R E) as (A & _ & _ & B). auto.
  - intros G one fuel s r R E. destruct (tq_round_shape t ODegLex n G Hn Ho one fuel s r R E) as (A & _ & B). auto.
Qed.

(** push() leaves the basis as it is. *)
Lemma c81_push J a J' : jp_push false J a = Ok J' -> basis J' = basis J.
Proof.
  unfold jp_push, assert_, basis. cbn [andb]. destruct (jone J) as [w|] eqn:Eo; [intros E; injection E as <-; now rewrite Eo|].
  destruct (is_zero a); [intros E; injection E as <-; now rewrite Eo|].
  destruct (p_lm false a) as [m| | | |]; cbn [bind]; try discriminate. destruct (p_copy false a) as [c| | | |]; cbn [bind]; try discriminate.
  destruct (jp_insert false (jq J) _) as [q| | | |]; cbn [bind]; try discriminate. intros E. injection E as <-. reflexivity.
Qed.
