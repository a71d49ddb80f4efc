(** The counters, for all histories of an object. *)
From Coq Require Import ZArith List Bool Arith Lia Permutation.
From Verif Require Import Outcome MonomModel MonomSpec PolyModel PolySpec JanetModel JanetPolyModel TQModel
  JanetPolySpec JanetPolyProofs TQProofs JanetPolyTop CyMonomModel CyJanetModel AncProofs AncTop CntModel CntSpec CntProofs CntBalance.
Import ListNotations.
Local Open Scope Z_scope.

Lemma kh_history t o n A F s : k_history t o n A F s -> jp_history false t o n F (fst s).
Proof.
  induction 1 as [|F s a s' H IH R E|F s x fuel s' H IH Ax E].
  - constructor.
  - unfold k_push in E. bnd E. injection E as <-. cbn [fst]. eapply hist_push; eassumption.
  - apply (f_equal forget) in E. rewrite k_run_same in E. destruct s' as [J' c']. cbn [forget bind fst] in *.
    destruct x; cbn [run_algorithm] in E; [eapply hist_build; eassumption|eapply hist_tq; eassumption..].
Qed.

Lemma kh_zero t o n A F s : k_history t o n A F s -> ~ A ATQ1 -> n_zero (snd s) = 0%nat.
Proof.
  intros H N. induction H as [|F s a s' H IH R E|F s x fuel s' H IH Ax E]; [reflexivity|unfold k_push in E; bnd E; injection E as <-; exact IH|].
  apply k_run_st in E. destruct x; cbn [zeros_of] in E; try contradiction; destruct E as (_ & Z & _); rewrite Z; auto.
Qed.
Lemma kh_equal t o n A F s : k_history t o n A F s -> ~ A ATQ1 -> ~ A ATQ -> n_equal (snd s) = 0%nat.
Proof.
  intros H N N'. induction H as [|F s a s' H IH R E|F s x fuel s' H IH Ax E]; [reflexivity|unfold k_push in E; bnd E; injection E as <-; exact IH|].
  apply k_run_st in E. destruct x; cbn [zeros_of equals_of] in E; try contradiction. destruct E as (_ & _ & Z & _). rewrite Z; auto.
Qed.
Lemma k_run_more x fuel dbg s s' : k_run x fuel dbg s = Ok s' -> no_less (snd s) (snd s').
Proof. intro E. apply k_run_st in E. apply E. Qed.

Section P.
Variables (t : pos_order) (o : base_order) (n : nat).
Hypothesis Hn : (0 < n)%nat.
Hypothesis Ho : o <> OAlex.

Definition lossless (x : algorithm) : bool := match x with ATQ1 => true | _ => false end.
Lemma k_run_gives x fuel s s' js : jone (fst s) = None -> k_run x fuel false s = Ok s' ->
  jtrees (set_pos (fst s)) = Some js -> jq (set_pos (fst s)) = jq (fst s) ->
  kgives (lossless x) js (length (jt (set_pos (fst s)))) (jq (fst s)) (snd s) s'.
Proof.
  intros E0 E E1 E2. destruct x; cbn [k_run lossless] in *; unfold k_build, k_tq in E; rewrite E0 in E; cbv zeta in E; rewrite E1, E2 in E;
    [eapply k_block_gives; exact E|eapply k_tq_gives; exact E..].
Qed.
Lemma set_pos_t J : jt (set_pos J) = jt J.
Proof. unfold set_pos. destruct (jpos J <? q_pos (jq J)); reflexivity. Qed.

Lemma nonzero_cons a F : nonzero (a :: F) = match terms a with [] => nonzero F | _ => S (nonzero F) end.
Proof. unfold nonzero. cbn [filter]. destruct (terms a); reflexivity. Qed.

(** The balance. *)
Definition balanced (A : algorithm -> Prop) (F : list poly) (s : jpoly * counts) : Prop :=
  nob (jq (fst s)) /\ (crits (snd s) <= B (trees (fst s)))%nat /\ (n_equal (snd s) <= nonzero F + B (trees (fst s)))%nat /\
  exists lost : nat, ((forall x, A x -> x = ATQ1) -> lost = 0%nat) /\
    (nonzero F + B (trees (fst s)) = length (jt (fst s)) + length (jq (fst s)) + gone (snd s) + lost)%nat.
Lemma kh_balance A F s : k_history t o n A F s -> jone (fst s) = None -> balanced A F s.
Proof.
  induction 1 as [|F s a s' H IH R E|F s x fuel s' H IH Ax E]; intro O.
  - split; [intros u []|]. split; [cbn; lia|]. split; [cbn; lia|]. exists 0%nat. split; [auto|reflexivity].
  - assert (Hj := kh_history _ _ _ _ _ _ H). unfold k_push in E. bnd E. injection E as <-. cbn [fst snd] in *. unfold jp_push, assert_ in Ev. cbn [andb] in Ev.
    destruct (jone (fst s)) as [w|] eqn:Eo; [injection Ev as <-; congruence|]. destruct (IH eq_refl) as (N & C & Me & lost & Zl & El). unfold balanced. rewrite nonzero_cons. unfold is_zero in Ev.
    destruct (terms a) as [|x l] eqn:Ea.
    + injection Ev as <-. split; [exact N|]. split; [exact C|]. split; [exact Me|]. exists lost. split; [exact Zl|exact El].
    + bnd Ev. bnd Ev. bnd Ev. injection Ev as <-. apply jp_insert_perm in Ev2. cbn [fst snd jq jt]. unfold trees in *. cbn [jtrees].
      split; [|split; [exact C|split; [cbn [fst snd] in Me; lia|]]].
      * intros u Iu. eapply Permutation_in in Iu; [|exact Ev2]. destruct Iu as [<-|Iu]; [eapply bc_false; reflexivity|apply N; exact Iu].
      * exists lost. split; [exact Zl|]. apply Permutation_length in Ev2. cbn [length] in *. cbn [fst snd] in El. lia.
  - assert (Hj := kh_history _ _ _ _ _ _ H). assert (Hj' := kh_history _ _ _ _ _ _ (kh_run _ _ _ _ _ _ _ _ _ H Ax E)).
    destruct (jone (fst s)) as [w|] eqn:Eo.
    { exfalso. assert (X : s' = s) by (destruct x; cbn [k_run] in E; unfold k_build, k_tq in E; rewrite Eo in E; congruence). subst s'. congruence. }
    destruct (IH eq_refl) as (N & C & Me & lost & Zl & El). destruct (start_trees t o n Hn Ho F _ Hj Eo) as (js & E1 & E2 & E3 & E4).
    assert (K := k_run_gives x fuel s s' js Eo E E1 E2). rewrite set_pos_t in K. destruct (K O) as (js' & Et & KK). destruct (KK E3) as [_ X].
    assert (So := any_sound t o n Hn Ho F _ Hj' O). unfold balanced, trees in *. rewrite Et in *. destruct (X So) as [_ Y]. destruct (Y N) as (N' & C' & Me' & l' & Zl' & El').
    unfold B in *. rewrite E4 in C', Me', El'. split; [exact N'|]. split; [lia|]. split; [apply Me'; lia|]. exists (lost + l')%nat. split; [|lia].
    intro All. rewrite (Zl All), Zl'; [reflexivity|]. rewrite (All x Ax). reflexivity.
Qed.

(** The elements as they are shown have the flags of the trees. *)
Lemma wraps_of_map js : forall l ws, wraps_of js l = Ok ws -> map (fun e => get_wrap js (fst e)) l = map (fun w => Some (wwrap w)) ws.
Proof.
  induction l as [|e l IH]; intros ws E; cbn [wraps_of] in E; [injection E as <-; reflexivity|]. destruct (get_wrap js (fst e)) as [u|] eqn:Eu; [|discriminate]. bnd E. injection E as <-.
  cbn [map wwrap]. rewrite Eu. f_equal. apply IH. reflexivity.
Qed.
Lemma built_trees F J ws : jp_history false t o n F J -> cj_iter J = Ok (Ret ws) -> jone J = None -> built ws = B (trees J) /\ length ws = length (jt J).
Proof.
  intros H HI Eo. destruct (iter_cases t o n Hn Ho F J ws H HI) as [[X _]|[_ E]]; [contradiction|]. assert (M := wraps_of_map _ _ _ E).
  assert (Le : length ws = length (jt J)) by (apply (f_equal (@length _)) in M; rewrite !map_length in M; auto). split; [|exact Le].
  assert (P : Permutation (map wwrap ws) (L (trees J))).
  { unfold trees in *. destruct (any_trees t o n Hn Ho F J H Eo) as [(D & _ & D')|(Ja & D1 & _ & T)].
    - rewrite D' in Le. destruct ws; [rewrite D; constructor|discriminate].
    - rewrite D1 in *. apply NoDup_Permutation_bis.
      + assert (X : map wlm (map wwrap ws) = map fst (jt J)).
        { clear E HI Le. assert (All : forall e, In e (jt J) -> exists u, get_wrap [Ja] (fst e) = Some u /\ wlm u = fst e).
          { intros e Ie. destruct (get_wrap_ok t o n _ Ja (jt J) e T Ie) as (u & Eu & _ & Em). exists u. auto. }
          revert ws M All. generalize (jt J). intro l. induction l as [|e l IH]; intros [|w ws] M All; cbn [map] in *; try discriminate; [reflexivity|]. injection M as M1 M2.
          destruct (All e (or_introl eq_refl)) as (u & Eu & Em). rewrite M1 in Eu. injection Eu as <-. f_equal; [exact Em|]. apply IH; [exact M2|]. intros e' Ie. apply All. right. exact Ie. }
        apply (NoDup_map_inv wlm). rewrite X. apply (tinv_nd t o n _ Ja (jt J) T).
      + rewrite map_length, Le. unfold L. cbn [map concat]. rewrite app_nil_r. assert (X := Permutation_length (ti_perm _ _ _ _ _ _ T)). rewrite !map_length in X. lia.
      + intros x Ix. apply in_map_iff in Ix as (w & <- & Iw). destruct (elem_wrap t o n Hn Ho F J ws H HI w Iw) as (_ & I & _). unfold trees in I. rewrite D1 in I. exact I. }
  unfold B. transitivity (bf (map wwrap ws)).
  - clear. unfold built, bf. induction ws as [|w ws IH]; cbn [map fold_right]; [reflexivity|]. rewrite IH. reflexivity.
  - clear - P. induction P; cbn [bf fold_right] in *; unfold bf in *; cbn [fold_right]; lia.
Qed.

Theorem c88_balance F s ws : k_history t o n (eq ATQ1) F s -> jone (fst s) = None -> cj_iter (fst s) = Ok (Ret ws) ->
  (nonzero F + built ws = length ws + length (jq (fst s)) + n_critI (snd s) + n_critII (snd s) + n_zero (snd s))%nat.
Proof.
  intros H O I. destruct (kh_balance _ _ _ H O) as (_ & _ & _ & lost & Zl & El). destruct (built_trees F _ ws (kh_history _ _ _ _ _ _ H) I O) as [Eb Le].
  rewrite Zl in El by (intros; congruence). unfold gone, crits in El. lia.
Qed.
Theorem c88_bound A F s ws : k_history t o n A F s -> jone (fst s) = None -> cj_iter (fst s) = Ok (Ret ws) ->
  (length ws + length (jq (fst s)) + n_critI (snd s) + n_critII (snd s) + n_zero (snd s) <= nonzero F + built ws)%nat /\
  (n_critI (snd s) + n_critII (snd s) <= built ws)%nat.
Proof.
  intros H O I. destruct (kh_balance _ _ _ H O) as (_ & C & _ & lost & Zl & El). destruct (built_trees F _ ws (kh_history _ _ _ _ _ _ H) I O) as [Eb Le].
  unfold gone, crits in *. lia.
Qed.

(** maxEqualLm() *)
Theorem c88_equal_most A F s ws : k_history t o n A F s -> jone (fst s) = None -> cj_iter (fst s) = Ok (Ret ws) -> (n_equal (snd s) <= nonzero F + built ws)%nat.
Proof.
  intros H O I. destruct (kh_balance _ _ _ H O) as (_ & _ & Me & _). destruct (built_trees F _ ws (kh_history _ _ _ _ _ _ H) I O) as [Eb Le]. lia.
Qed.
End P.

Lemma k_walk_st_any fuel dbg mpos dg cnt js q d w k c r : k_walk cnt fuel dbg mpos dg js q d w k c = Ok r -> (n_equal c <= n_equal (snd r))%nat.
Proof. intro E. apply k_walk_st in E. apply E. Qed.
Lemma k_tq_some one dbg mpos : forall fuel js q T c s, k_tq_loop one fuel dbg mpos js q T c = Ok s -> jone (fst s) = None -> jt (fst s) = T \/ (1 <= n_equal (snd s))%nat.
Proof.
  induction fuel as [|fuel IH]; intros js q T c s E O; destruct q as [|u q]; cbn [k_tq_loop] in E; try discriminate.
  1,2: injection E as <-; left; reflexivity.
  cbv zeta in E. bnd E. bnd E. destruct v0 as [[[q1 tmp]|] c1].
  2:{ unfold set_one in E. bnd E. injection E as <-. bnd Ev1. bnd Ev1. injection Ev1 as <-. discriminate O. }
  apply assert_inv in E. destruct tmp as [|w0 tmp]; [eapply IH; eassumption|].
  right. bnd E. bnd E. destruct v1 as [eqs rest]. bnd E. bnd E. destruct (swap_min (fst v1) (fst v2)) as [w eqs2].
  assert (M : (1 <= n_equal (max_equal (S (length eqs)) (snd v2)))%nat) by (unfold max_equal; destruct (n_equal (snd v2) <? S (length eqs))%nat eqn:X; cbn [n_equal]; [lia|apply Nat.ltb_ge in X; lia]).
  set (c3 := max_equal (S (length eqs)) (snd v2)) in *. clearbody c3.
  destruct (one && negb (length eqs2 =? 0)%nat).
  - bnd E. bnd E. bnd E. apply assert_inv in E. apply k_tq_loop_st in E. apply k_red_eq_st in Ev5. destruct E as [E _], Ev5 as [Ev5 _]. unfold no_less in *. lia.
  - apply assert_inv in E. bnd E. destruct v3 as [js2 w']. bnd E. destruct v3 as [[[js3 q3] t3] c4]. bnd E. apply assert_inv in E. apply k_tq_loop_st in E. destruct E as [E _]. unfold no_less in E.
    assert (n_equal c3 <= n_equal c4)%nat by (destruct T; [injection Ev6 as <- <- <- <-; lia|apply k_walk_st_any in Ev6; exact Ev6]). lia.
Qed.


Theorem c88_equal_least t o n A F s : k_history t o n A F s -> ~ A ABuild -> jone (fst s) = None -> basis (fst s) <> [] -> (1 <= n_equal (snd s))%nat.
Proof.
  intros H NB. induction H as [|F s a s' H IH R E|F s x fuel s' H IH Ax E]; intros O Ne.
  - contradiction Ne. reflexivity.
  - unfold k_push in E. bnd E. injection E as <-. cbn [fst snd] in *. unfold jp_push, assert_ in Ev. cbn [andb] in Ev. destruct (jone (fst s)) as [w|] eqn:Eo; [injection Ev as <-; congruence|].
    apply IH; [reflexivity|]. intro B0. apply Ne. revert B0. unfold basis. rewrite O, Eo. destruct (is_zero a); [injection Ev as <-; auto|]. bnd Ev. bnd Ev. bnd Ev. injection Ev as <-. auto.
  - assert (Mo := k_run_more _ _ _ _ _ E). unfold no_less in Mo.
    assert (X : x = ATQ \/ x = ATQ1) by (destruct x; auto; contradiction).
    destruct (jone (fst s)) as [w|] eqn:Eo.
    { exfalso. assert (Y : s' = s) by (destruct x; cbn [k_run] in E; unfold k_build, k_tq in E; rewrite Eo in E; congruence). subst s'. congruence. }
    assert (Y : jt (fst s') = jt (fst s) \/ (1 <= n_equal (snd s'))%nat).
    { assert (E' : exists one, k_tq one fuel false s = Ok s') by (destruct X as [-> | ->]; eexists; exact E). destruct E' as [one E']. unfold k_tq in E'. rewrite Eo in E'. cbv zeta in E'.
      destruct (jtrees (set_pos (fst s))) as [js|]; [rewrite <- (set_pos_t (fst s)); eapply k_tq_some; eassumption|].
      destruct (jq (set_pos (fst s))); [|discriminate]. injection E' as <-. left. apply set_pos_t. }
    destruct Y as [Y|Y]; [|exact Y]. assert (1 <= n_equal (snd s))%nat; [|lia]. apply IH; [reflexivity|]. revert Ne. unfold basis. rewrite O, Eo, Y. auto.
Qed.
