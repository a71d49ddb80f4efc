(** Termination of the completion algorithms for all histories of an object. *)
From Coq Require Import ZArith List Bool Arith Lia Permutation Sorted Relations Wellfounded.
From Verif Require Import Outcome MonomModel MonomSpec MonomProofs PolyModel PolySpec PolyProofs PolyRedProofs PolyNfProofs
  PolyTopProofs JanetModel JanetSpec JanetProofs JanetFindProofs JanetPolyModel TQModel JanetPolySpec IdealProofs JanetPolyProofs
  TQProofs JanetPolyTop MultisetProofs GrowthProofs JanetTermSpec JanetTermProofs JanetTermMain.
Import ListNotations.
Local Open Scope Z_scope.

Section P.
Variables (t : pos_order) (o : base_order) (n : nat) (G : list term -> Prop).
Hypothesis (Hn : (0 < n)%nat) (Ho : o <> OAlex).
Notation rinv := (rinv t o n G).

(** A call does nothing, or it runs the loop from start J. *)
Lemma start_cases J : jstate t o n G J ->
  (exists w, jone J = Some w /\ forall fuel one, jp_build fuel false J = Ok J /\ jp_tq one fuel false J = Ok J) \/
  (rinv (start J) /\ (forall fuel, jp_build fuel false J = block_run fuel (start J)) /\ forall one fuel, jp_tq one fuel false J = tq_run one fuel (start J)).
Proof.
  intro H. destruct (jone J) as [w|] eqn:E.
  - left. exists w. split; [reflexivity|]. intros fuel one. unfold jp_build, jp_tq. rewrite E. auto.
  - right. assert (H' := H). unfold jstate in H'. rewrite E in H'. destruct H' as [Q D].
    unfold jp_build, jp_tq, start, block_run, tq_run, set_pos. rewrite E. rewrite (q_pos_ring t o n G _ Q).
    destruct D as [(D1 & D2 & D3)|(Ja & D1 & D2 & D3)].
    + rewrite D1, D2. change (-2 <? -1) with true. cbn iota.
      cbn [jtrees jpos jq jt firstn length app repeat Z.add Z.to_nat Z.opp Z.pos_sub Pos.pred_double]. cbn [Nat.sub Pos.to_nat].
      change (repeat jempty (Z.to_nat (-1 + 2) - 0)) with [jempty]. rewrite D3.
      assert (Ti : tinv t o n G jempty []) by (split; [apply jinv_nil|reflexivity|constructor|constructor|constructor]).
      split; [exists jempty; auto|]. auto.
    + rewrite D2. change (-1 <? -1) with false. cbn iota. rewrite D1, D2. cbn [jtrees jq jt jpos]. split; [exists Ja; auto|]. auto.
Qed.

Lemma over_degree d s : rinv s -> ~ up_to d (leads s) -> exists e, In e (snd s) /\ (d < total (lead (snd e)))%nat.
Proof.
  intros (J & _ & H & _) N. unfold up_to in N. 
  destruct (Exists_dec (fun u => ~ (total u <= d)%nat) (leads s)) as [X|X].
  - intro u. destruct (le_dec (total u) d); [right; tauto|left; assumption].
  - apply Exists_exists in X as (u & Iu & Du). unfold leads in Iu. rewrite map_map in Iu. apply in_map_iff in Iu as (e & <- & Ie).
    exists e. split; [exact Ie|]. assert (Gg := ti_good _ _ _ _ _ _ H). rewrite Forall_forall in Gg. destruct (Gg e Ie) as [_ (c & l & Ee)].
    unfold lead. rewrite Ee. lia.
  - exfalso. apply N. apply Forall_Exists_neg in X. eapply Forall_impl; [|exact X]. cbv beta. intros u Hu. lia.
Qed.

Lemma acc_two s : (n <= 2)%nat -> Acc (bigger n (fun _ => True)) (leads s).
Proof.
  intro N. assert (A := grow_wf n (leads s) (conj Hn N)). apply Acc_clos_trans in A. induction A as [U _ IH].
  constructor. intros V [K _]. apply IH. exact K.
Qed.

Lemma two_ends J : jstate t o n G J -> (n <= 2)%nat ->
  ends (fun fuel => jp_build fuel false J) /\ forall one, ends (fun fuel => jp_tq one fuel false J).
Proof.
  intros H N. destruct (start_cases J H) as [(w & _ & X)|(R & X & Y)].
  - split; [|intro one]; exists 0%nat, J; intros fuel _; apply (X fuel); exact true.
  - split; [|intro one].
    + destruct (block_ends t o n G Hn Ho (fun _ => True) (start J) (fun _ => or_introl Logic.I) (acc_two _ N) R) as [E|(s' & _ & _ & B)]; [|tauto].
      eapply ends_ext; [exact X|exact E].
    + destruct (tq_ends t o n G Hn Ho (fun _ => True) one (start J) (fun _ => or_introl Logic.I) (acc_two _ N) R) as [E|(s' & _ & _ & B)]; [|tauto].
      eapply ends_ext; [exact (Y one)|exact E].
Qed.

Definition above (d : nat) (round : nat -> rstate -> outcome (rstate + jpoly)) (J : jpoly) : Prop :=
  exists s e, rounds round (start J) s /\ In e (snd s) /\ (d < total (lead (snd e)))%nat.

Lemma growth J d : jstate t o n G J ->
  (ends (fun fuel => jp_build fuel false J) \/ above d (fun fuel => block_round fuel false (-1)) J) /\
  forall one, ends (fun fuel => jp_tq one fuel false J) \/ above d (fun fuel => tq_round one fuel false (-1)) J.
Proof.
  intros H. destruct (start_cases J H) as [(w & _ & X)|(R & X & Y)].
  - split; [|intro one]; left; exists 0%nat, J; intros fuel _; apply (X fuel); exact true.
  - destruct (up_to_dec d (leads (start J))) as [U|U].
    2:{ destruct (over_degree d _ R U) as (e & Ie & De). split; [|intro one]; right; exists (start J), e; (split; [constructor|auto]). }
    assert (A := bigger_wf n d _ (rinv_mset t o n G _ R) U). split; [|intro one].
    + destruct (block_ends t o n G Hn Ho (up_to d) (start J) (up_to_dec d) A R) as [E|(s' & P & I & B)].
      * left. eapply ends_ext; [exact X|exact E].
      * right. destruct (over_degree d _ I B) as (e & Ie & De). exists s', e. auto.
    + destruct (tq_ends t o n G Hn Ho (up_to d) one (start J) (up_to_dec d) A R) as [E|(s' & P & I & B)].
      * left. eapply ends_ext; [exact (Y one)|exact E].
      * right. destruct (over_degree d _ I B) as (e & Ie & De). exists s', e. auto.
Qed.
End P.

Lemma c80_two t o n F J : (0 < n)%nat -> (n <= 2)%nat -> o <> OAlex -> jp_history false t o n F J ->
  ends (fun fuel => jp_build fuel false J) /\ forall one, ends (fun fuel => jp_tq one fuel false J).
Proof. intros Hn N Ho H. destruct (history_state t o n F J Hn Ho H) as (S & _). eapply two_ends; eassumption. Qed.

Lemma c80_growth t o n F J d : (0 < n)%nat -> o <> OAlex -> jp_history false t o n F J ->
  (ends (fun fuel => jp_build fuel false J) \/
   exists s e, rounds (fun fuel => block_round fuel false (-1)) (start J) s /\ In e (snd s) /\ (d < total (lead (snd e)))%nat) /\
  forall one, ends (fun fuel => jp_tq one fuel false J) \/
   exists s e, rounds (fun fuel => tq_round one fuel false (-1)) (start J) s /\ In e (snd s) /\ (d < total (lead (snd e)))%nat.
Proof. intros Hn Ho H. destruct (history_state t o n F J Hn Ho H) as (S & _). exact (growth t o n (among F) Hn Ho J d S). Qed.

Lemma c80_rounds fuel dbg mpos js q T :
  block_tq (S fuel) dbg mpos js q T =
    (do r <- block_round (S fuel) dbg mpos (js, q, T); match r with inl (js', q', T') => block_tq fuel dbg mpos js' q' T' | inr J => Ok J end) /\
  forall one, tq_loop one (S fuel) dbg mpos js q T =
    (do r <- tq_round one (S fuel) dbg mpos (js, q, T); match r with inl (js', q', T') => tq_loop one fuel dbg mpos js' q' T' | inr J => Ok J end).
Proof. split; [apply block_tq_round|intro one; apply tq_loop_round]. Qed.
