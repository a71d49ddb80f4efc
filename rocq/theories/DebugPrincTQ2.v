(** One polynomial pushed and algorithmTQ2 called: the assertions of a debug build hold. *)
From Coq Require Import ZArith List Bool Arith Lia Permutation Sorted.
From Verif Require Import Outcome MonomModel MonomSpec MonomProofs PolyModel PolySpec PolyProofs PolyNfProofs
  JanetModel JanetSpec JanetProofs JanetFindProofs CompletionProofs JanetPolyModel TQModel JanetPolySpec JanetPolyProofs
  TQProofs JanetPolyTop JanetTermSpec JanetTermMain JanetTermTop ShapeProofs InvolutiveProofs InvolutiveTop NormalSpec NormalProofs NormalTop AncProofs AncTop
  LinProofs LinTop LinSol PrincSpec PrincProofs PrincTop PrincTQ2 PrincExamples DebugProofs DebugTQ DebugPrinc.
Import ListNotations.
Local Open Scope Z_scope.

Section P.
Variables (t : pos_order) (o : base_order) (n : nat).
Hypothesis (Hn : (0 < n)%nat) (Ho : o <> OAlex).
Notation A := (fun _ : list term => True).
Notation tinv := (JanetPolyProofs.tinv t o n A).
Notation okq := (JanetPolyProofs.okq t o n A).

Lemma dtq2 J u fuel : tinv J [] -> okq u -> (length (terms (wpol u)) < fuel)%nat -> exists J2, tq2_loop fuel true (-1) 0 [J] [u] [] = Ok J2.
Proof.
  intros H Hu L. assert (G := proj1 Hu). destruct (plm_mono t o n A u G) as [Mu Pu].
  assert (Nz : is_zero (wpol u) = false) by (unfold is_zero; destruct G as [_ N]; destruct (terms (wpol u)); congruence).
  assert (Ew : WP (wwrap u) (wpol u) = u) by (destruct u; reflexivity).
  destruct fuel as [|fuel]; [lia|]. cbn [tq2_loop]. rewrite (lm_plm t o n A true u G). cbn [bind].
  cbn [take_tq atts flat_map]. rewrite (lm_plm t o n A true u G). cbn [bind]. rewrite Nat.leb_refl, (dhead t o n Hn J _ (Datatypes.S fuel) H G). cbn [bind]. rewrite Nz.
  rewrite (lm_plm t o n A true u G). cbn [bind]. destruct (deg (plm u) =? 0)%nat eqn:Ed; [cbn [bind]; eexists; reflexivity|].
  assert (En : exists J2, enter_w true [J] u = Ok ([J2], update (wwrap u) (plm u))).
  { destruct (dinsert t o n Hn J u H Hu Ed) as [J' Ei]. destruct (update_ok t o n A u (plm u) Hu Mu Pu) as (Ew' & _ & _). exists J'.
    unfold enter_w. rewrite (lm_plm t o n A true u G). cbn [bind]. rewrite Ew', Pu. unfold tree_at. change (-1 <? -1) with false.
    cbn [Z.add Z.to_nat Z.pos_sub nth_error bind firstn skipn app]. rewrite Ei. reflexivity. }
  destruct En as [J2 En]. assert (X := dtail t o n Hn J _ (Datatypes.S fuel) H G ltac:(lia)).
  rewrite X. cbn [bind fst snd Nat.add].
  rewrite Nat.eqb_refl. cbn [bind]. rewrite Ew, dins1 by exact Nz. cbn [bind take_tq assertSort sorted_from]. unfold assert_. cbn [andb negb].
  rewrite (lm_plm t o n A true u G). cbn [bind same_deg swap_min app assertSort negb]. unfold tail_pp. rewrite X. cbn [bind fst snd]. rewrite Nat.eqb_refl. cbn [bind]. rewrite Ew, En. cbn [bind].
  rewrite Nat.ltb_irrefl. cbn [bind]. cbn. destruct fuel; eexists; reflexivity.
Qed.

Lemma debug_one_tq2 f J : jp_history true t o n [f] J -> terms f <> [] ->
  exists N J', forall fuel, (N <= fuel)%nat -> jp_tq2 fuel true J = Ok J' /\ jp_tq2 fuel false J = Ok J'.
Proof.
  intros Hd Nz. assert (H := d_history _ _ _ _ _ Hd). destruct (c94_tq2_ends t o n Hn Ho f J H Nz) as (N2 & J2 & Rr).
  assert (S := history_one t o n Hn Ho [f] J f H eq_refl Nz).
  assert (K : exists N, forall fuel, (N <= fuel)%nat -> exists J', jp_tq2 fuel true J = Ok J').
  { assert (St := state_of t o n Hn Ho [f] J H). unfold jp_tq2. destruct (jone J) as [w|] eqn:Eo; [exists 0%nat; eauto|].
    unfold jstate in St. rewrite Eo in St. destruct St as [Q D]. unfold set_pos. rewrite (q_pos_ring t o n A _ Q).
    assert (K : forall Ja, tinv Ja (jt J) -> exists N, forall fuel, (N <= fuel)%nat -> exists J', tq2_loop fuel true (-1) 0 [Ja] (jq J) (map Att (jt J)) = Ok J').
    { intros Ja Ti. destruct S as [(_ & T0 & u & Eq & Eu)|[(_ & Eq & e & T1 & Pe)|((w & C) & _)]]; [| |congruence].
      - rewrite T0, Eq in *. cbn [map]. exists (Datatypes.S (length (terms (wpol u)))). intros fuel L. apply (dtq2 Ja u fuel Ti (Forall_inv Q)). lia.
      - rewrite Eq. exists 0%nat. intros fuel _. destruct fuel; cbn [tq2_loop]; eauto. }
    destruct D as [(D1 & D2 & D3)|(Ja & D1 & D2 & D3)].
    - rewrite D1, D2. change (-2 <? -1) with true. cbn iota.
      cbn [jtrees jpos jq jt firstn length app repeat Z.add Z.to_nat Z.opp Z.pos_sub Pos.pred_double]. cbn [Nat.sub Pos.to_nat].
      change (repeat jempty (Z.to_nat (-1 + 2) - 0)) with [jempty]. apply K. rewrite D3. split; [apply jinv_nil|reflexivity|constructor|constructor|constructor].
    - rewrite D2, D1. change (-1 <? -1) with false. cbn iota. rewrite D1. rewrite D2. apply K. exact D3. }
  destruct K as [N1 K]. exists (N1 + N2)%nat, J2. intros fuel L. assert (Y := Rr fuel ltac:(lia)). split; [|exact Y].
  destruct (K fuel ltac:(lia)) as [J' E]. assert (Z := d_tq2 _ _ _ E). congruence.
Qed.

(** All of it, from the constructor on. *)
Lemma debug_single f : ring_input t o n f -> terms f <> [] ->
  exists J, jp_push true jp_empty f = Ok J /\
  (exists N J', (forall fuel, (N <= fuel)%nat -> jp_build fuel true J = Ok J' /\ jp_build fuel false J = Ok J') /\ jq J' = []) /\
  (forall one, exists N J', (forall fuel, (N <= fuel)%nat -> jp_tq one fuel true J = Ok J' /\ jp_tq one fuel false J = Ok J') /\ jq J' = []) /\
  exists N J', forall fuel, (N <= fuel)%nat -> jp_tq2 fuel true J = Ok J' /\ jp_tq2 fuel false J = Ok J'.
Proof.
  intros R Nz. destruct (debug_push t o n f R) as (J & E & H). exists J. split; [exact E|].
  destruct (debug_one t o n Hn Ho f J H Nz) as [X Y]. split; [exact X|]. split; [exact Y|]. exact (debug_one_tq2 f J H Nz).
Qed.
End P.
