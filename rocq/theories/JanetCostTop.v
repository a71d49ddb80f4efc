(** C95 in terms of histories. *)
From Coq Require Import ZArith List Bool Arith Lia Permutation.
From Verif Require Import Outcome MonomModel MonomSpec MonomProofs PolyModel PolySpec JanetModel JanetSpec JanetProofs JanetFindProofs CompletionModel JanetTopProofs
  GBModel GBSpec GBProofs JanetPolyModel TQModel JanetPolySpec JanetPolyProofs JanetPolyTop NormalTop JanetCostModel JanetCostProofs.
Import ListNotations.
Local Open Scope nat_scope.

Lemma find_both dbg n t m r : 0 < n -> length (vars m) = n -> wf n 0 t -> find dbg t m = Ok r ->
  exists c, find_c dbg t m = Ok (r, c) /\ visited c <= total (vars m) + n /\ checked_elems c <= n.
Proof.
  intros Hn Lm W E. rewrite find_same in E. destruct (find_c dbg t m) as [[w c]| | | |] eqn:Ec; cbn [bind] in E; try discriminate. injection E as <-.
  exists c. split; [reflexivity|]. eapply find_cost; eassumption.
Qed.

Lemma c95_find dbg n p l m : 0 < n -> Forall (fun m => length (vars m) = n /\ pos m = p) l -> NoDup (map vars l) ->
  length (vars m) = n -> (dbg = true -> p = (-1)%Z \/ pos m = p) ->
  exists J r c, mj_push_all false jempty l = Ok J /\ find dbg (jroot J) m = Ok r /\ find_c dbg (jroot J) m = Ok (r, c) /\
    visited c <= total (vars m) + n /\ checked_elems c <= n.
Proof.
  intros Hn L ND Lm D. destruct (c19_find dbg n p l m Hn L ND Lm D) as (J & r & E & Ef & _).
  destruct (push_all_spec false n p l Hn) as (J' & E' & T & _); [eapply Forall_impl; [|exact L]; intros a H; apply H|exact ND|discriminate|].
  rewrite E in E'. injection E' as <-. destruct (find_both dbg n (jroot J) m r Hn Lm) as (c & Ec & Hc); [apply T|exact Ef|]. exists J, r, c. auto.
Qed.
Lemma c95_nodes n l J : 0 < n -> Forall (fun m => length (vars m) = n) l -> NoDup (map vars l) -> mj_push_all false jempty l = Ok J ->
  length l <= nodes (jroot J) <= n * length l.
Proof.
  intros Hn L ND E. destruct (push_all_spec false n (-1)%Z l Hn L ND) as (J' & E' & T & P & _); [discriminate|]. rewrite E in E'. injection E' as <-.
  apply Permutation_length in P. rewrite map_length in P. rewrite <- P. split; [apply nodes_elems|].
  assert (X := nodes_bound n (jroot J) 0). rewrite Nat.sub_0_r in X. apply X, T.
Qed.
Lemma forest_same dbg m : forall f, forest_find dbg f m = do x <- forest_find_c dbg f m; Ok (fst x).
Proof.
  induction f as [|J f IH]; [reflexivity|]. cbn [forest_find forest_find_c]. rewrite find_same. unfold add_cost. destruct (find_c dbg (jroot J) m) as [[r c]| | | |]; cbn [bind]; try reflexivity.
  cbn [fst snd]. destruct r as [u|].
  - destruct (nmd_from dbg u 0 (vars m)) as [b| | | |]; cbn [bind]; try reflexivity. destruct b; [reflexivity|]. rewrite IH. destruct (forest_find_c dbg f m); reflexivity.
  - rewrite IH. destruct (forest_find_c dbg f m); reflexivity.
Qed.
Lemma forest_cost dbg n m : 0 < n -> length (vars m) = n -> forall f w c, Forall (fun J => wf n 0 (jroot J)) f -> forest_find_c dbg f m = Ok (w, c) ->
  visited c <= length f * (total (vars m) + n) /\ checked_elems c <= length f * n.
Proof.
  intros Hn Lm. induction f as [|J f IH]; intros w c W E; cbn [forest_find_c] in E; [injection E as <- <-; cbn; lia|].
  destruct (find_c dbg (jroot J) m) as [[r c1]| | | |] eqn:E1; cbn [bind fst snd] in E; try discriminate.
  assert (B := find_cost dbg n (jroot J) m r c1 Hn Lm (Forall_inv W) E1). unfold add_cost in E.
  match type of E with bind ?q _ = _ => destruct q as [[w2 c2]| | | |] eqn:E2; cbn [bind fst snd] in E; try discriminate end. injection E as <- <-. cbn [visited checked_elems length].
  assert (C : visited c2 <= length f * (total (vars m) + n) /\ checked_elems c2 <= length f * n).
  { destruct r as [u|]; [|exact (IH _ _ (Forall_inv_tail W) E2)]. destruct (nmd_from dbg u 0 (vars m)) as [b| | | |]; cbn [bind] in E2; try discriminate.
    destruct b; [injection E2 as <- <-; cbn; lia|exact (IH _ _ (Forall_inv_tail W) E2)]. }
  lia.
Qed.
Lemma c95_gb dbg n h g m : 0 < n -> history n h -> (dbg = true -> Forall (fun e => pos (fst e) = (-1)%Z) h) ->
  gb_insert_all dbg gb_new h = Ok g -> length (vars m) = n ->
  exists r c, gb_find dbg g m = Ok r /\ forest_find_c dbg (gforest g) m = Ok (r, c) /\
    visited c <= length (gforest g) * (total (vars m) + n) /\ checked_elems c <= length (gforest g) * n.
Proof.
  intros Hn H Ps E Lm. destruct (gb_find_top dbg n h g m Hn H Ps E Lm) as (r & Er & _). unfold gb_find in Er. assert (Er' := Er). rewrite forest_same in Er'.
  destruct (forest_find_c dbg (gforest g) m) as [[w c]| | | |] eqn:Ec; cbn [bind] in Er'; try discriminate. injection Er' as ->. exists r, c. split; [exact Er|]. split; [reflexivity|].
  apply (forest_cost dbg n m Hn Lm (gforest g) r c); [|exact Ec].
  destruct (gb_insert_all_ok dbg n Hn h [] gb_new (gb_new_ok n) H Ps) as (g' & E' & _ & [L T O]); [eauto|]. rewrite E in E'. injection E' as <-.
  apply Forall_forall. intros J I. apply In_nth_error in I as (d & I). apply (to_j _ _ _ _ (T d J I)).
Qed.

Section B.
Variable (t : pos_order) (o : base_order) (n : nat).
Hypothesis (Hn : 0 < n) (Ho : o <> OAlex).
Lemma c95_basis F J js Ja m : jp_history false t o n F J -> jone J = None -> jtrees J = Some js -> In Ja js -> length (vars m) = n ->
  nodes (jroot Ja) <= n * length (basis J) /\
  exists r c, find false (jroot Ja) m = Ok r /\ find_c false (jroot Ja) m = Ok (r, c) /\ visited c <= total (vars m) + n /\ checked_elems c <= n.
Proof.
  intros H Eo Et I Lm. assert (S := state_of t o n Hn Ho F J H). unfold jstate in S. rewrite Eo in S. destruct S as [_ [(C & _)|(J1 & D1 & _ & D3)]]; [congruence|].
  rewrite Et in D1. injection D1 as ->. destruct I as [<-|[]]. assert (Ji := ti_inv _ _ _ _ _ _ D3). split.
  - assert (X := nodes_bound n (jroot J1) 0 (ji_wf _ _ Ji)). rewrite Nat.sub_0_r in X. unfold basis. rewrite Eo, map_length.
    assert (P := Permutation_length (ti_perm _ _ _ _ _ _ D3)). rewrite !map_length in P. rewrite <- P. exact X.
  - destruct (find_janet false n (jroot J1) m Ji Hn Lm) as (r & Er & _); [apply Forall_forall; intros w _ C; discriminate|].
    destruct (find_both false n (jroot J1) m r Hn Lm (ji_wf _ _ Ji) Er) as (c & Ec & Hc). exists r, c. auto.
Qed.
End B.

(** A search in a forest that finds nothing costs what the searches in its trees cost. *)
Lemma c95_forest_sum dbg f m : forall c, forest_find_c dbg f m = Ok (None, c) ->
  exists cs, Forall2 (fun J k => exists r, find_c dbg (jroot J) m = Ok (r, k)) f cs /\
    visited c = list_sum (map visited cs) /\ checked_elems c = list_sum (map checked_elems cs).
Proof.
  induction f as [|J f IH]; intros c E; cbn [forest_find_c] in E.
  - injection E as <-. exists []. repeat split. constructor.
  - destruct (find_c dbg (jroot J) m) as [[r k]| | | |] eqn:Er; cbn [bind] in E; try discriminate. cbn [fst snd] in E.
    assert (X : exists c', forest_find_c dbg f m = Ok (None, c') /\ c = Cost (visited k + visited c') (checked_elems k + checked_elems c')).
    { unfold add_cost in E. destruct r as [u|].
      - destruct (nmd_from dbg u 0 (vars m)) as [[|]| | | |]; cbn [bind] in E; try discriminate. destruct (forest_find_c dbg f m) as [[r' c']| | | |]; cbn [bind fst snd] in E; try discriminate. injection E as -> <-. eauto.
      - destruct (forest_find_c dbg f m) as [[r' c']| | | |]; cbn [bind fst snd] in E; try discriminate. injection E as -> <-. eauto. }
    destruct X as (c' & E' & ->). destruct (IH c' E') as (cs & F & V & K). exists (k :: cs). split; [constructor; eauto|]. cbn. rewrite V, K. auto.
Qed.
