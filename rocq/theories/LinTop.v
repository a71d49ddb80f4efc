(** Linear systems: what completion computes, for all histories of an object. *)
From Coq Require Import ZArith QArith List Bool Arith Lia Permutation Sorted Setoid.
From Verif Require Import Outcome MonomModel MonomSpec MonomProofs PolyModel PolySpec PolyProofs PolyRedProofs PolyNfProofs
  PolyTopProofs CythonProofs JanetModel JanetSpec JanetProofs JanetFindProofs CompletionProofs JanetPolyModel TQModel JanetPolySpec IdealProofs JanetPolyProofs
  TQProofs JanetPolyTop JanetTermSpec JanetTermProofs JanetTermMain JanetTermTop ShapeProofs
  InvolutiveProofs InvolutiveTop NormalSpec NormalProofs NormalTop AncProofs AncTop LinSpec LinProofs LinMain LinEval.
From Verif Require Export LinGen.
Import ListNotations.
Local Open Scope Z_scope.

Section P.
Variables (t : pos_order) (o : base_order) (n : nat).
Hypothesis (Hn : (0 < n)%nat) (Ho : o <> OAlex).
Notation A := (fun _ : list term => True).

(* ------------------------------------------------------------------------------------------ *)
(** * Histories *)

Lemma start_lin F J : jp_history false t o n F J -> jone J = None -> fw (jq J) -> ft (jt J) -> linv t o n (start J).
Proof.
  intros H E Fq Ft. destruct (start_trees t o n Hn Ho F J H E) as (js & E1 & E2 & _ & E4). assert (S := state_of t o n Hn Ho F J H).
  destruct (start_cases t o n A J S) as [(w & X & _)|((Ja & Ej & Hi & Q) & _)]; [congruence|].
  assert (Et : jt (set_pos J) = jt J) by (unfold set_pos; destruct (jpos J <? q_pos (jq J)); reflexivity).
  unfold start in *. cbv zeta in *. rewrite E1, E2, Et in *. cbn [fst snd] in *. exists Ja. split; [exact Ej|]. split; [exact Hi|]. split; [exact Q|]. split; [exact Fq|].
  split; [exact Ft|]. cbn [fst snd]. subst js. eapply Inv_L; [symmetry; exact E4|]. exact (history_Inv t o n Hn Ho F J H E).
Qed.

Lemma run_lin (R : nat -> rstate -> outcome (rstate + jpoly)) (run : nat -> rstate -> outcome jpoly) :
  (forall fuel s, run (Datatypes.S fuel) s = do r <- R (Datatypes.S fuel) s; match r with inl s' => run fuel s' | inr J => Ok J end) ->
  (forall s J, run 0%nat s = Ok J -> R 0%nat s = Ok (inr J)) ->
  (forall fuel s r, linv t o n s -> R fuel s = Ok r -> lout t o n r) -> forall fuel s J, linv t o n s -> run fuel s = Ok J -> lout t o n (inr J).
Proof.
  intros Er E0 K. induction fuel as [|fuel IH]; intros s J H E.
  - apply E0 in E. apply (K _ _ _ H E).
  - rewrite Er in E. destruct (R (Datatypes.S fuel) s) as [r| | | |] eqn:Es; cbn [bind] in E; try discriminate.
    assert (X := K _ _ _ H Es). destruct r as [s'|J'].
    + apply (IH s' J X E).
    + injection E as <-. exact X.
Qed.

Lemma history_lin F J : jp_history false t o n F J -> Forall linear F -> jone J = None -> fw (jq J) /\ ft (jt J).
Proof.
  induction 1 as [|F J a J' H IH Ra E|F J fuel J' H IH E|F J one fuel J' H IH E]; intros LF On'.
  - split; constructor.
  - unfold jp_push, assert_ in E. cbn [andb] in E. destruct (jone J) as [w|] eqn:Eo; [injection E as <-; congruence|]. destruct (IH (Forall_inv_tail LF) eq_refl) as [I1 I2].
    destruct (is_zero a); [injection E as <-; auto|].
    bnd E. bnd E. bnd E. injection E as <-. cbn [jq jt]. split; [|exact I2]. apply jp_insert_perm in Ev1. rewrite copy_ok in Ev0. injection Ev0 as <-.
    eapply fw_perm; [apply Permutation_sym; exact Ev1|]. constructor; [cbn [wpol]; apply linear_flat; exact (Forall_inv LF)|exact I1].
  - destruct (jone J) as [w|] eqn:Eo; [unfold jp_build in E; rewrite Eo in E; injection E as <-; congruence|]. destruct (IH LF eq_refl) as [I1 I2].
    assert (L := start_lin F J H Eo I1 I2). destruct (start_cases t o n A J (state_of t o n Hn Ho F J H)) as [(w & E1 & X)|(_ & X & _)]; [congruence|]. rewrite X in E.
    assert (Y := run_lin _ block_run block_run_eq block_zero (block_round_flat t o n Hn Ho) fuel (start J) J' L E). cbn [lout] in Y.
    destruct Y as [Y|[Y1 Y2]]; [congruence|]. rewrite Y2. split; [constructor|exact Y1].
  - destruct (jone J) as [w|] eqn:Eo; [unfold jp_tq in E; rewrite Eo in E; injection E as <-; congruence|]. destruct (IH LF eq_refl) as [I1 I2].
    assert (L := start_lin F J H Eo I1 I2). destruct (start_cases t o n A J (state_of t o n Hn Ho F J H)) as [(w & E1 & X)|(_ & _ & X)]; [congruence|]. rewrite X in E.
    assert (Y := run_lin _ (tq_run one) (tq_run_eq one) (tq_zero one) (tq_round_flat t o n Hn Ho one) fuel (start J) J' L E). cbn [lout] in Y.
    destruct Y as [Y|[Y1 Y2]]; [congruence|]. rewrite Y2. split; [constructor|exact Y1].
Qed.

Lemma c92_basis F J g : jp_history false t o n F J -> Forall linear F -> In g (basis J) -> linear g.
Proof.
  intros H LF Ig. apply linear_flat. assert (S := state_of t o n Hn Ho F J H). unfold jstate, basis in *. destruct (jone J) as [w|] eqn:Eo.
  - destruct Ig as [<-|[]]. destruct S as ((_ & E) & _). rewrite E. unfold one, flat. cbn [map fst]. intros x [<-|[]]. cbn [vars].
    clear. induction n; cbn; lia.
  - destruct (history_lin F J H LF Eo) as [_ X]. apply in_map_iff in Ig as (e0 & <- & Ie). unfold ft in X. rewrite Forall_forall in X. exact (X e0 Ie).
Qed.

Lemma c92_ends F J : jp_history false t o n F J -> Forall linear F ->
  ends (fun fuel => jp_build fuel false J) /\ forall one, ends (fun fuel => jp_tq one fuel false J).
Proof.
  intros H LF. destruct (jone J) as [w|] eqn:Eo.
  { split; [|intro one0]; exists 0%nat, J; intros fuel _; [unfold jp_build|unfold jp_tq]; rewrite Eo; reflexivity. }
  destruct (history_lin F J H LF Eo) as [I1 I2]. assert (L := start_lin F J H Eo I1 I2).
  assert (No : forall s e0, linv t o n s -> In e0 (snd s) -> ~ (1 < total (lead (snd e0)))%nat).
  { intros s e0 (_ & _ & _ & _ & _ & Fs & _) Ie Lt. unfold ft in Fs. rewrite Forall_forall in Fs. assert (X := Fs e0 Ie). unfold lead in Lt.
    destruct (terms (snd e0)) as [|[m c] l]; cbn in Lt; [lia|]. assert (Y := X m (or_introl eq_refl)). lia. }
  destruct (c80_growth t o n F J 1 Hn Ho H) as [B T]. split; [|intro one0].
  - destruct B as [B|(s & e0 & R & Ie & Lt)]; [exact B|]. exfalso. refine (No s e0 _ Ie Lt). exact (rounds_flat t o n _ (block_round_flat t o n Hn Ho) _ _ R L).
  - destruct (T one0) as [B1|(s & e0 & R & Ie & Lt)]; [exact B1|]. exfalso. refine (No s e0 _ Ie Lt). exact (rounds_flat t o n _ (tq_round_flat t o n Hn Ho one0) _ _ R L).
Qed.

Lemma c92_local F J : jp_history false t o n F J -> Forall linear F -> jq J = [] -> passes_local_test t o n J.
Proof.
  intros H LF Eq g i u x Ig Hi Nm Iv Rx Ex. set (HB := basis_ok t o n Hn Ho F J H). set (ND := c39_distinct t o n F J Hn Ho H).
  rewrite (variable_eq n i _ _ Iv (variable_e n i Hi)) in *.
  assert (R := all_rs t o n Hn Ho (basis J) HB ND (fun b => c92_basis F J b H LF) (n - i) i eq_refl Hi g Ig).
  destruct (c40_nf t o n F J x Hn Ho H Rx) as (N & r & E & _). exists N, r. split; [apply E; lia|].
  apply (c82_zero t o n Hn Ho F J x N r H Rx (E N (le_n N))).
  destruct (rs_span t o n (basis J) HB ND _ R) as (k & p & Nk & Sp & Ep). exists k, p. split; [exact Nk|]. split; [exact Sp|].
  intro m. rewrite Ep, Ex. reflexivity.
Qed.
End P.
