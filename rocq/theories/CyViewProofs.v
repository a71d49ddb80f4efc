(** Proofs for C87. *)
From Coq Require Import ZArith List Bool Arith Lia Permutation.
From Verif Require Import Outcome MonomModel JanetModel PolyModel JanetPolyModel TQModel AncProofs ModSpec ModProofs OwnModel OwnSpec OwnProofs CyViewModel CyViewSpec.
Import ListNotations.
Local Open Scope Z_scope.

Lemma deref_inv A s l (k : outcome A) r : deref s l k = Ok r -> k = Ok r.
Proof. unfold deref. destruct (forallb (is_live s) l); [auto|discriminate]. Qed.
Lemma sort_inv A dbg s l (k : outcome A) r : o_assert_sort dbg s l k = Ok r -> k = Ok r.
Proof. unfold o_assert_sort. destruct dbg; [|auto]. intro E. apply deref_inv in E. now apply assert_inv in E. Qed.
Ltac bn E := match type of E with
  | bind _ _ = Ok _ => bnd E
  | deref _ _ _ = Ok _ => apply deref_inv in E
  | assert_ _ _ _ = Ok _ => apply assert_inv in E
  | o_assert_sort _ _ _ _ = Ok _ => apply sort_inv in E
  end.

(* ------------------------------------------------------------------------------------------ *)
(** * Addresses only grow *)
Lemma del_next i s s' : h_del i s = Ok s' -> next s' = next s.
Proof. unfold h_del. destruct (is_live s i); [|discriminate]. intros [= <-]. reflexivity. Qed.
Lemma del_all_next l : forall s s', h_del_all l s = Ok s' -> next s' = next s.
Proof. induction l as [|i l IH]; intros s s' E; cbn [h_del_all] in E; [now injection E as <-|]. bn E. apply IH in E. apply del_next in Ev. congruence. Qed.
Lemma take_block_next fuel dbg find tid dg : forall q tmp s b q1 tmp1 s1, o_take_block fuel dbg find tid dg q tmp s = Ok (b, q1, tmp1, s1) -> next s1 = next s.
Proof.
  induction q as [|u q IH]; intros tmp s b q1 tmp1 s1 E; cbn [o_take_block] in E; [now injection E as <- <- <- <-|].
  bn E. bn E. destruct (deg v <=? dg)%nat; [|now injection E as <- <- <- <-]. bn E. bn E. destruct (is_zero (fst v0)).
  { bn E. apply IH in E. apply del_next in Ev1. congruence. }
  bn E. destruct (deg v1 =? 0)%nat; [now injection E as <- <- <- <-|]. bn E. destruct v2 as [p2 c]. bn E. bn E. now apply IH in E.
Qed.
Lemma red_by_next dbg a : forall l tmp s tmp1 s1, o_red_by dbg a l tmp s = Ok (tmp1, s1) -> next s1 = next s.
Proof.
  induction l as [|u l IH]; intros tmp s tmp1 s1 E; cbn [o_red_by] in E; [now injection E as <- <-|].
  bn E. bn E. destruct (is_zero v); bn E; apply IH in E; [apply del_next in Ev0; congruence|exact E].
Qed.
Lemma block_loop_next dbg : forall fuel tmp q s tmp1 q1 d s1, o_block_loop fuel dbg tmp q s = Ok (tmp1, q1, d, s1) -> next s1 = next s.
Proof.
  induction fuel as [|fuel IH]; intros [|u tmp] q s tmp1 q1 d s1 E; cbn [o_block_loop] in E; try discriminate; try (unfold null_head in E; destruct dbg; discriminate).
  bn E. bn E. bn E. destruct v0 as [blk rest]. bn E. bn E. bn E. destruct v0 as [t' [|w0 t2]]; [now injection E as <- <- <- <-|].
  bn E. destruct (o_min_norm w0 [] t2) as [w others]. bn E. bn E. bn E. apply IH in E. destruct v1 as [a b]. apply red_by_next in Ev3. cbn [snd] in E. congruence.
Qed.
Lemma new_next s : next (snd (h_new s)) = S (next s). Proof. reflexivity. Qed.
Lemma prolong_next dbg mpos tid i p : forall c k js w q s js1 q1 s1, o_prolong dbg mpos c k js tid i w p q s = Ok (js1, q1, s1) -> (next s <= next s1)%nat.
Proof.
  induction c as [|c IH]; intros k js w q s js1 q1 s1 E; cbn [o_prolong] in E; [injection E as <- <- <-; lia|].
  bn E. bn E. bn E. destruct (v && negb v0); [|now apply IH in E]. bn E. bn E.
  destruct (match v1 with Some d => _ | None => false end); [bn E; now apply IH in E|].
  bn E. destruct v2 as [x w']. bn E. cbn [h_new] in E. bn E. apply IH in E. cbn [next] in E. lia.
Qed.
Lemma prolong_if_next dbg mpos dg js tid e q s js1 q1 s1 : o_prolong_if dbg mpos dg js tid e q s = Ok (js1, q1, s1) -> (next s <= next s1)%nat.
Proof.
  unfold o_prolong_if. intro E. bn E. destruct (deg (fst (snd e)) <=? dg)%nat; [|injection E as <- <- <-; lia].
  destruct (get_wrap js (fst (snd e))); [|discriminate]. eapply prolong_next. exact E.
Qed.

(* ------------------------------------------------------------------------------------------ *)
(** * Elements stay elements, with their leading monomials *)
Definition keys (l : list owe) : list (nat * monom) := map (fun x => (fst x, fst (snd x))) l.
Lemma keys_app l l' : keys (l ++ l') = keys l ++ keys l'. Proof. apply map_app. Qed.
Lemma keys_in l i m : In (i, m) (keys l) <-> exists p, In (i, (m, p)) l.
Proof.
  unfold keys. rewrite in_map_iff. split.
  - intros ((j & m' & p) & E & H). cbn in E. injection E as -> ->. now exists p.
  - intros (p & H). now exists (i, (m, p)).
Qed.
Lemma tail_reduce_key fuel dbg s mpos js tid others e e' : o_tail_reduce fuel dbg s mpos js tid others e = Ok e' -> (fst e', fst (snd e')) = (fst e, fst (snd e)).
Proof.
  unfold o_tail_reduce, tail_reduce. intro E. bn E. bn E. injection E as <-. bn Ev. destruct v0. bn Ev. injection Ev as <-. reflexivity.
Qed.
Ltac pairs := repeat match goal with x : (_ * _)%type |- _ => destruct x end.
Lemma merge_keys fuel dbg mpos dg tid : forall c js q s d j k js1 q1 s1 T1, o_merge_loop c fuel dbg mpos dg js tid q s d j k = Ok (js1, q1, s1, T1) ->
  incl (keys d ++ keys j ++ keys k) (keys T1) /\ (next s <= next s1)%nat.
Proof.
  induction c as [|c IH]; intros js q s d j k js1 q1 s1 T1 E.
  { cbn [o_merge_loop] in E. destruct j, k; try discriminate. injection E as <- <- <- <-. cbn. rewrite !app_nil_r. split; [apply incl_refl|lia]. }
  cbn [o_merge_loop] in E. cbv zeta in E.
  assert (PT : forall e j' k', incl (keys j ++ keys k) ((fst e, fst (snd e)) :: keys j' ++ keys k') ->
    (do b <- (if dbg then deref s (fst e :: tid) (p_isNf (find_poly dbg mpos (Some js) (vals (d ++ j ++ k))) (snd (snd e))) else Ok true);
     assert_ dbg b (do r <- o_prolong_if dbg mpos dg js tid e q s;
        let '(js', q', s') := r in o_merge_loop c fuel dbg mpos dg js' tid q' s' (d ++ [e]) j' k')) = Ok (js1, q1, s1, T1) ->
    incl (keys d ++ keys j ++ keys k) (keys T1) /\ (next s <= next s1)%nat).
  { intros e j' k' I X. bn X. bn X. bn X. destruct v0 as [[js2 q2] s2]. apply prolong_if_next in Ev0. apply IH in X. destruct X as (X & Y). split; [|lia].
    rewrite keys_app in X. intros z Hz. apply X. rewrite !in_app_iff in *. destruct Hz as [Hz|Hz]; [auto|].
    assert (Hz' : In z (keys j ++ keys k)) by (rewrite in_app_iff; exact Hz).
    apply I in Hz'. cbn [keys map In] in *. rewrite in_app_iff in Hz'. tauto. }
  assert (RD : forall e k', incl (keys k) ((fst e, fst (snd e)) :: keys k') ->
    (do e' <- o_tail_reduce fuel dbg s mpos js tid (vals (d ++ j ++ k')) e;
     do r <- o_prolong_if dbg mpos dg js tid e' q s;
     let '(js', q', s') := r in o_merge_loop c fuel dbg mpos dg js' tid q' s' (d ++ [e']) j k') = Ok (js1, q1, s1, T1) ->
    incl (keys d ++ keys j ++ keys k) (keys T1) /\ (next s <= next s1)%nat).
  { intros e k' I X. bn X. bn X. destruct v0 as [[js2 q2] s2]. apply prolong_if_next in Ev0. apply tail_reduce_key in Ev. apply IH in X. destruct X as (X & Y). split; [|lia].
    rewrite keys_app in X. intros z Hz. apply X. rewrite !in_app_iff in *. destruct Hz as [Hz|[Hz|Hz]]; [auto|auto|].
    apply I in Hz. rewrite <- Ev in Hz. cbn [keys map In] in *. tauto. }
  destruct j as [|e j], k as [|e' k].
  - injection E as <- <- <- <-. cbn. rewrite !app_nil_r. split; [apply incl_refl|lia].
  - revert E. apply RD. cbn. apply incl_refl.
  - revert E. apply (PT e j []). cbn. apply incl_refl.
  - bn E. bn E. destruct (v <? 0); [revert E; apply (PT e j (e' :: k)); cbn; apply incl_refl|revert E; apply RD; cbn; apply incl_refl].
Qed.
Lemma set_one_new dbg t o n mpos tmp q T s K : o_set_one dbg t o n mpos tmp q T s = Ok K -> opos K = mpos /\ exists w, oone K = Some (next s, w).
Proof.
  unfold o_set_one. intro E. bn E. bn E. bn E. bn E. bn E. apply del_all_next in Ev. apply del_all_next in Ev0. apply del_all_next in Ev1.
  cbn [h_new] in E. injection E as <-. cbn. split; [reflexivity|]. rewrite Ev1, Ev0, Ev. eexists. reflexivity.
Qed.
(** What build does with the elements it finds. *)
Definition kept (T : list owe) (nx : nat) (K : ojp) : Prop :=
  match oone K with Some w => (nx <= fst w)%nat | None => incl (keys T) (keys (ot K)) /\ otrees K <> None end.
Lemma block_tq_keeps dbg mpos : forall fuel js tid q T s K, o_block_tq fuel dbg mpos js tid q T s = Ok K -> opos K = mpos /\ kept T (next s) K.
Proof.
  induction fuel as [|fuel IH]; intros js tid [|u q] T s K E; cbn [o_block_tq] in E; try discriminate;
    [injection E as <-; split; [reflexivity|split; [apply incl_refl|discriminate]]|injection E as <-; split; [reflexivity|split; [apply incl_refl|discriminate]]|].
  bn E. bn E. bn E. destruct v0 as [[[b q1] tmp] s1]. apply take_block_next in Ev0. destruct b.
  { apply set_one_new in E. destruct E as (E1 & w & E2). split; [exact E1|]. unfold kept. rewrite E2. cbn [fst]. lia. }
  bn E. bn E. destruct tmp as [|w0 tmp]; [apply IH in E; rewrite <- Ev0; exact E|].
  bn E. destruct v0 as [[[tmp2 q2] dg] s2]. apply block_loop_next in Ev1. bn E. destruct v0 as [[js2 tid2] new]. bn E. destruct v0 as [[[js3 q3] s3] T3].
  apply merge_keys in Ev3. destruct Ev3 as (X & Y). bn E. bn E. apply IH in E. destruct E as (E1 & E2). split; [exact E1|].
  unfold kept in *. destruct (oone K) as [w|]; [lia|]. split; [|apply E2]. intros z Hz. apply E2, X. rewrite !in_app_iff. auto.
Qed.
Lemma build_keeps fuel dbg K K' : o_build fuel dbg K = Ok K' -> oone K = None ->
  (opos K <= opos K') /\ (opos K < opos K' \/ opos K' = opos K) /\
  match oone K' with
  | Some w => (next (oheap K) <= fst w)%nat
  | None => incl (keys (ot K)) (keys (ot K')) /\ (otrees K' = None <-> otrees K = None /\ opos K' = opos K)
  end.
Proof.
  unfold o_build. intros E E1. rewrite E1 in E. bn E. unfold o_set_pos in Ev. bn Ev.
  destruct (opos K <? q_pos (vals (oq K))) eqn:C; injection Ev as <-; cbn [otrees opos oq ot oheap] in E.
  - apply Z.ltb_lt in C. apply block_tq_keeps in E. destruct E as (E & X). unfold kept in X. split; [lia|]. split; [lia|].
    destruct (oone K'); [exact X|]. split; [apply X|]. split; [intro Y; now apply X in Y|intros (_ & Y); lia].
  - destruct (otrees K) as [js|] eqn:T1.
    + apply block_tq_keeps in E. destruct E as (E & X). unfold kept in X. split; [lia|]. split; [lia|].
      destruct (oone K'); [exact X|]. split; [apply X|]. split; [intro Y; now apply X in Y|intros (Y & _); discriminate].
    + destruct (oq K); [|discriminate]. injection E as <-. rewrite E1, T1. split; [lia|]. split; [lia|]. split; [apply incl_refl|]. tauto.
Qed.
Lemma build_one fuel dbg K w : oone K = Some w -> o_build fuel dbg K = Ok K.
Proof. intro E. unfold o_build. now rewrite E. Qed.
Lemma push_keeps dbg K a K' : o_push dbg K a = Ok K' -> oone K' = oone K /\ opos K' = opos K /\ ot K' = ot K /\ otrees K' = otrees K /\ (oone K <> None -> K' = K).
Proof.
  unfold o_push. intro E. bn E. bn E. destruct (oone K) as [w|] eqn:E1; [injection E as <-; auto|].
  destruct (is_zero a); [injection E as <-; auto|]. bn E. bn E. cbn [h_new] in E. bn E. injection E as <-. cbn. repeat split; auto. congruence.
Qed.

(* ------------------------------------------------------------------------------------------ *)
(** * Histories *)
Lemma own_any dbg s0 K : good_heap s0 -> own_history dbg s0 K -> exists F, any_history dbg (fun _ => True) F (forget K).
Proof.
  intros G. induction 1 as [|K a K' H IH E|K fuel K' H IH E|K one fuel K' H IH E].
  - exists []. constructor.
  - destruct IH as (F & IH). exists (a :: F). eapply ah_push; [exact IH|exact Logic.I|]. rewrite <- (proj1 (own_same _ _ _ G H) a), E. reflexivity.
  - destruct IH as (F & IH). exists F. eapply (ah_build _ _ _ _ fuel); [exact IH|]. rewrite <- (proj1 (proj2 (own_same _ _ _ G H)) fuel), E. reflexivity.
  - destruct IH as (F & IH). exists F. eapply (ah_tq _ _ _ _ one fuel); [exact IH|]. rewrite <- (proj2 (proj2 (own_same _ _ _ G H)) one fuel), E. reflexivity.
Qed.
Lemma own_none_ot dbg s0 K w : good_heap s0 -> own_history dbg s0 K -> oone K = Some w -> ot K = [].
Proof. intros G H E. destruct (history_inv _ _ _ G H) as (_ & _ & [X|X]); [congruence|apply X]. Qed.
Lemma own_ids dbg s0 K i : good_heap s0 -> own_history dbg s0 K -> In i (owned K) -> is_live (oheap K) i = true /\ ~ In i (live s0) /\ (i < next (oheap K))%nat.
Proof.
  intros G H I. destruct (history_inv _ _ _ G H) as (X & _). specialize (X i).
  assert (C : (0 < count_occ Nat.eq_dec (owned K) i)%nat) by (now apply (count_occ_In Nat.eq_dec) in I).
  rewrite count_occ_app in X. split; [|split].
  - apply (has_live _ (owned K ++ live s0)); [apply (history_inv _ _ _ G H)|apply in_or_app; auto].
  - intro Y. apply (count_occ_In Nat.eq_dec) in Y. lia.
  - lia.
Qed.
Lemma own_dead dbg s0 K i : good_heap s0 -> own_history dbg s0 K -> ~ In i (owned K) -> ~ In i (live s0) -> is_live (oheap K) i = false.
Proof.
  intros G H A B. destruct (is_live (oheap K) i) eqn:E; [|reflexivity]. exfalso. unfold is_live in E. apply existsb_exists in E. destruct E as (j & E & Ej).
  apply Nat.eqb_eq in Ej. subst j. eapply Permutation_in in E; [|apply (own_live _ _ _ G H)]. apply in_app_iff in E. tauto.
Qed.
Lemma own_look dbg s0 K i m p : good_heap s0 -> own_history dbg s0 K -> oone K = None -> In (i, (m, p)) (ot K) -> look K i = Ok (m, p).
Proof.
  intros G H E I. unfold look.
  assert (Io : In i (owned K)) by (unfold owned; rewrite !in_app_iff; right; right; apply in_map_iff; exists (i, (m, p)); auto).
  rewrite (proj1 (own_ids _ _ _ _ G H Io)). unfold at_address. rewrite E.
  assert (ND : NoDup (ids (ot K))).
  { apply (NoDup_count_occ Nat.eq_dec). intro x. destruct (history_inv _ _ _ G H) as (X & _). specialize (X x). unfold owned in X.
    rewrite !count_occ_app in X. lia. }
  assert (F : List.find (fun x => Nat.eqb (fst x) i) (ot K) = Some (i, (m, p))).
  { clear - ND I. induction (ot K) as [|x l IH]; [destruct I|]. cbn [ids map] in ND. apply NoDup_cons_iff in ND. cbn [List.find]. destruct I as [->|I].
    - cbn [fst]. now rewrite Nat.eqb_refl.
    - destruct (Nat.eqb_spec (fst x) i) as [Ex|Ex]; [|now apply IH]. exfalso. apply ND. rewrite Ex. apply in_map_iff. exists (i, (m, p)). auto. }
  rewrite F. reflexivity.
Qed.

(* ------------------------------------------------------------------------------------------ *)
(** * Programs *)
Definition vgood (dbg : bool) (s0 : heap) (S : vst) : Prop :=
  if valive S then own_history dbg s0 (vobj S) /\
    match varr S with
    | Some a => (a < vnext S)%nat /\ oone (vobj S) = None /\ otrees (vobj S) <> None
    | None => oone (vobj S) <> None \/ otrees (vobj S) = None
    end
  else varr S = None /\ Permutation (live (oheap (vobj S))) (live s0).

(** The elements that views can be made of. *)
Definition handed (K : ojp) : list nat := match oone K with Some w => [fst w] | None => [] end ++ ids (ot K).
Lemma handed_owned K : incl (handed K) (owned K).
Proof. unfold handed, owned. intros i. rewrite !in_app_iff. tauto. Qed.
Lemma step_cases fuel dbg S c S' a : v_step fuel dbg S c = Ok (S', a) ->
  S' = S \/ valive S = true /\
  ((exists p O', c = VPush p /\ o_push dbg (vobj S) p = Ok O' /\ S' = VS O' true (varr S) (vnext S) (views S)) \/
   (exists O', c = VBuild /\ o_build fuel dbg (vobj S) = Ok O' /\ vobj S' = O' /\ valive S' = true /\ views S' = views S /\
      ((opos (vobj S) < opos O' /\ vnext S' = Datatypes.S (vnext S) /\ varr S' = (match oone O' with Some _ => None | None => Some (vnext S) end)) \/
       (opos O' <= opos (vobj S) /\ vnext S' = vnext S /\ varr S' = (match oone O' with Some _ => None | None => varr S end)))) \/
   (exists l, (forall v, In v l -> match v with
                 | VWrap i => In i (handed (vobj S))
                 | VTree b p => varr S = Some b /\ -1 <= p <= opos (vobj S)
                 end) /\ S' = VS (vobj S) true (varr S) (vnext S) (views S ++ l)) \/
   (exists s, c = VDel /\ o_destroy (vobj S) = Ok s /\ oheap (vobj S') = s /\ valive S' = false /\ varr S' = None /\ vnext S' = vnext S /\ views S' = views S /\
      opos (vobj S') = opos (vobj S))).
Proof.
  intro E. destruct c; cbn [v_step] in E.
  - destruct (valive S) eqn:A; cbn [negb] in E; [|left; congruence]. bn E. destruct v; [|left; congruence]. bn E. injection E as <- _. right. split; [reflexivity|].
    left. eauto.
  - destruct (valive S) eqn:A; cbn [negb] in E; [|left; congruence]. bn E. injection E as <- _. right. split; [reflexivity|]. right. left.
    unfold v_build in Ev. bn Ev. exists v0. destruct (opos (vobj S) <? opos v0) eqn:C; injection Ev as <-; cbn; (repeat (split; [reflexivity|])).
    + left. apply Z.ltb_lt in C. auto.
    + right. apply Z.ltb_ge in C. auto.
  - destruct (valive S) eqn:A; cbn [negb] in E; [|left; congruence]. injection E as <- _. right. split; [reflexivity|]. right. right. left.
    exists (map (fun x => VWrap (fst x)) (ot (vobj S))). split; [|reflexivity]. intros v Hv. apply in_map_iff in Hv. destruct Hv as (x & <- & Hx).
    unfold handed. rewrite in_app_iff. right. apply in_map. exact Hx.
  - destruct (valive S) eqn:A; cbn [negb] in E; [|left; congruence]. bn E. injection E as <- _. right. split; [reflexivity|]. right. right. left.
    exists (match v with Some i => [VWrap i] | None => [] end). split; [|reflexivity]. intros x Hx. destruct v as [i|]; [|destruct Hx]. destruct Hx as [<-|[]].
    unfold v_find in Ev. unfold handed. destruct (oone (vobj S)) as [w|].
    + injection Ev as <-. left. reflexivity.
    + bn Ev. bn Ev. destruct v as [u|]; [|discriminate]. destruct (List.find _ (ot (vobj S))) as [x|] eqn:F; [|discriminate]. injection Ev as <-.
      apply find_some in F. rewrite in_app_iff. right. apply in_map, F.
  - destruct (valive S) eqn:A; cbn [negb] in E; [|left; congruence]. unfold v_janet in E.
    destruct ((-1 <=? p) && (p <=? opos (vobj S))) eqn:C; [|left; congruence]. apply andb_prop in C. destruct C as (C1 & C2). apply Z.leb_le in C1. apply Z.leb_le in C2.
    destruct (varr S) as [b|] eqn:R; [|destruct dbg; discriminate]. injection E as <- _. right. split; [reflexivity|]. right. right. left.
    exists [VTree b p]. split; [|reflexivity]. intros x [<-|[]]. auto.
  - destruct (valive S) eqn:A; cbn [negb] in E; [|left; congruence]. bn E. injection E as <- _. right. split; [reflexivity|]. right. right. right.
    exists v. cbn. repeat (split; [reflexivity || assumption|]). reflexivity.
  - left. destruct (nth_error (views S) k) as [[i|b p]|]; [bn E| |]; congruence.
  - left. destruct (nth_error (views S) k) as [[i|b p]|]; [bn E| |]; congruence.
  - left. destruct (nth_error (views S) k) as [[i|b p]|]; [congruence| |congruence]. destruct (varr S); [|discriminate]. destruct (Nat.eqb b n); [|discriminate]. bn E. congruence.
Qed.

Lemma vgood_new dbg s0 : vgood dbg s0 (v_new s0).
Proof. split; [constructor|]. right. reflexivity. Qed.
Lemma vgood_step fuel dbg s0 S c S' a : good_heap s0 -> vgood dbg s0 S -> v_step fuel dbg S c = Ok (S', a) -> vgood dbg s0 S'.
Proof.
  intros G H E. destruct (step_cases _ _ _ _ _ _ E) as [->|(A & [(p & K & _ & E1 & ->)|[(K & _ & E1 & E2 & E3 & _ & E4)|[(l & _ & ->)|(s & _ & E1 & E2 & E3 & E4 & _)]]])]; [exact H| | | |].
  - unfold vgood in *. rewrite A in H. cbn. destruct H as (H & X). split; [eapply oh_push; eassumption|].
    destruct (push_keeps _ _ _ _ E1) as (Y1 & _ & _ & Y2 & _). rewrite Y1, Y2. exact X.
  - unfold vgood in *. rewrite A in H. rewrite E3, E2. destruct H as (H & X). split; [eapply oh_build; eassumption|].
    destruct (oone (vobj S)) as [w|] eqn:O.
    + rewrite (build_one _ _ _ _ O) in E1. injection E1 as <-. destruct E4 as [(E4 & _)|(_ & _ & E4)]; [lia|]. rewrite O in *. rewrite E4. left. discriminate.
    + destruct (build_keeps _ _ _ _ E1 O) as (Y1 & Y2 & Y3). destruct (oone K) as [w|] eqn:O'.
      { destruct E4 as [(_ & _ & ->)|(_ & _ & ->)]; left; discriminate. }
      destruct E4 as [(Z1 & Z2 & ->)|(Z1 & Z2 & ->)].
      * rewrite Z2. split; [lia|]. split; [reflexivity|]. intro Y. apply Y3 in Y. lia.
      * rewrite Z2. destruct (varr S) as [b|].
        -- split; [apply X|]. split; [reflexivity|]. intro Y. apply Y3 in Y. destruct X as (_ & _ & X). now apply X.
        -- right. apply Y3. split; [|lia]. destruct X as [X|X]; [congruence|exact X].
  - unfold vgood in *. rewrite A in H. exact H.
  - unfold vgood in *. rewrite A in H. rewrite E3, E4. split; [reflexivity|]. rewrite E2.
    destruct (own_destroy _ _ _ G (proj1 H)) as (s' & X1 & X2). rewrite E1 in X1. injection X1 as ->. exact X2.
Qed.

(** The view of an element, and of the element 1. *)
Definition elem_ok (s0 : heap) (i : nat) (m : monom) (S : vst) : Prop :=
  ~ In i (live s0) /\
  if valive S then (i < next (oheap (vobj S)))%nat /\
    match oone (vobj S) with Some w => fst w <> i | None => In (i, m) (keys (ot (vobj S))) end
  else True.
Definition unit_ok (s0 : heap) (i : nat) (m : monom) (S : vst) : Prop :=
  ~ In i (live s0) /\ if valive S then exists w, oone (vobj S) = Some (i, w) /\ wlm (wwrap w) = m else True.
Definition tree_ok (b : nat) (p q : Z) (S : vst) : Prop :=
  -1 <= p <= q /\ q <= opos (vobj S) /\ (b < vnext S)%nat /\ (varr S = Some b <-> valive S = true /\ oone (vobj S) = None /\ opos (vobj S) = q).

Lemma owned_bound dbg s0 K i : good_heap s0 -> own_history dbg s0 K -> In i (owned K) -> (i < next (oheap K))%nat.
Proof. intros G H I. apply (own_ids _ _ _ _ G H I). Qed.
Lemma keys_owned K i m : In (i, m) (keys (ot K)) -> In i (owned K).
Proof. intro H. apply keys_in in H. destruct H as (p & H). unfold owned. rewrite !in_app_iff. right. right. apply in_map_iff. now exists (i, (m, p)). Qed.

Lemma push_next dbg K a K' : o_push dbg K a = Ok K' -> (next (oheap K) <= next (oheap K'))%nat.
Proof.
  unfold o_push. intro E. bn E. bn E. destruct (oone K) as [w|] eqn:E1; [injection E as <-; auto|].
  destruct (is_zero a); [injection E as <-; auto|]. bn E. bn E. cbn [h_new] in E. bn E. injection E as <-. cbn. lia.
Qed.

Lemma elem_step fuel dbg s0 i m S c S' a : good_heap s0 -> vgood dbg s0 S -> elem_ok s0 i m S -> v_step fuel dbg S c = Ok (S', a) -> elem_ok s0 i m S'.
Proof.
  intros G V (N & H) E. split; [exact N|]. assert (V' := vgood_step _ _ _ _ _ _ _ G V E).
  destruct (step_cases _ _ _ _ _ _ E) as [->|(A & [(p & K & _ & E1 & ->)|[(K & _ & E1 & E2 & E3 & _ & _)|[(l & _ & ->)|(s & _ & E1 & E2 & E3 & _)]]])]; [exact H| | | |].
  - rewrite A in H. cbn. destruct (push_keeps _ _ _ _ E1) as (Y1 & _ & Y2 & _). assert (X := push_next _ _ _ _ E1). rewrite Y1, Y2. split; [lia|apply H].
  - rewrite A in H. rewrite E3, E2. unfold vgood in V, V'. rewrite A in V. rewrite E3, E2 in V'.
    destruct (oone (vobj S)) as [w|] eqn:O.
    { rewrite (build_one _ _ _ _ O) in E1. injection E1 as <-. rewrite O. exact H. }
    destruct (build_keeps _ _ _ _ E1 O) as (Y1 & Y2 & Y3). destruct (oone K) as [w|] eqn:O'.
    + assert (X : (fst w < next (oheap K))%nat). { apply (owned_bound _ _ _ _ G (proj1 V')). unfold owned. rewrite O'. left. reflexivity. } split; lia.
    + assert (X : In (i, m) (keys (ot K))) by (apply Y3, H). split; [|exact X]. apply (owned_bound _ _ _ _ G (proj1 V')). now apply (keys_owned _ _ m).
  - rewrite A in H. exact H.
  - rewrite E3. exact Logic.I.
Qed.
Lemma unit_step fuel dbg s0 i m S c S' a : unit_ok s0 i m S -> v_step fuel dbg S c = Ok (S', a) -> unit_ok s0 i m S'.
Proof.
  intros (N & H) E. split; [exact N|].
  destruct (step_cases _ _ _ _ _ _ E) as [->|(A & [(p & K & _ & E1 & ->)|[(K & _ & E1 & E2 & E3 & _ & _)|[(l & _ & ->)|(s & _ & E1 & E2 & E3 & _)]]])]; [exact H| | | |].
  - rewrite A in H. destruct H as (w & H & Hm). cbn. destruct (push_keeps _ _ _ _ E1) as (Y1 & _). rewrite Y1. eauto.
  - rewrite A in H. destruct H as (w & H & Hm). rewrite E3, E2. rewrite (build_one _ _ _ _ H) in E1. injection E1 as <-. eauto.
  - rewrite A in H. exact H.
  - rewrite E3. exact Logic.I.
Qed.
Lemma tree_step fuel dbg b p q S c S' a : tree_ok b p q S -> v_step fuel dbg S c = Ok (S', a) -> tree_ok b p q S'.
Proof.
  intros (P & Q & B & H) E. split; [exact P|].
  destruct (step_cases _ _ _ _ _ _ E) as [->|(A & [(f & K & _ & E1 & ->)|[(K & _ & E1 & E2 & E3 & _ & E4)|[(l & _ & ->)|(s & _ & E1 & E2 & E3 & E4 & E5 & _ & E6)]]])]; [auto| | | |].
  - cbn. destruct (push_keeps _ _ _ _ E1) as (Y1 & Y2 & _). rewrite Y1, Y2. rewrite A in H. auto.
  - rewrite E3, E2. rewrite A in H. destruct (oone (vobj S)) as [w|] eqn:O.
    + rewrite (build_one _ _ _ _ O) in E1. injection E1 as <-. rewrite O in *. destruct E4 as [(E4 & _)|(_ & E4 & E5)]; [lia|]. rewrite E4, E5.
      split; [exact Q|]. split; [exact B|]. split; [discriminate|]. intros (_ & Y & _). discriminate.
    + destruct (build_keeps _ _ _ _ E1 O) as (Y1 & Y2 & _). split; [lia|]. destruct (oone K) as [w|].
      * split; [destruct E4 as [(_ & -> & _)|(_ & -> & _)]; lia|]. destruct E4 as [(_ & _ & ->)|(_ & _ & ->)]; (split; [discriminate|]); intros (_ & Y & _); discriminate.
      * destruct E4 as [(Z1 & Z2 & ->)|(Z1 & Z2 & ->)]; rewrite Z2; (split; [lia|]).
        -- split; [intro Y; injection Y as Y; lia|intros (_ & _ & Y); lia].
        -- replace (opos K) with (opos (vobj S)) by lia. tauto.
  - rewrite A in H. cbn. auto.
  - rewrite E3, E4, E5, E6. split; [exact Q|]. split; [exact B|]. split; [discriminate|]. intros (Y & _). discriminate.
Qed.
Lemma views_step fuel dbg S c S' a : v_step fuel dbg S c = Ok (S', a) -> exists l, views S' = views S ++ l.
Proof.
  intros E. destruct (step_cases _ _ _ _ _ _ E) as [->|(A & [(f & K & _ & E1 & ->)|[(K & _ & E1 & E2 & E3 & E4 & _)|[(l & _ & ->)|(s & _ & E1 & E2 & E3 & E4 & E5 & E6 & _)]]])];
    [exists []; now rewrite app_nil_r|exists []; now rewrite app_nil_r|exists []; rewrite app_nil_r; exact E4|exists l; reflexivity|exists []; rewrite app_nil_r; exact E6].
Qed.

Lemma run_keeps fuel dbg (P : vst -> Prop) : (forall S c S' a, P S -> v_step fuel dbg S c = Ok (S', a) -> P S') ->
  forall l S S' a, P S -> v_run fuel dbg S l = Ok (S', a) -> P S'.
Proof.
  intro X. induction l as [|c l IH]; intros S S' a H E; cbn [v_run] in E; [now injection E as <- _|].
  bn E. bn E. destruct v as [S1 a1]. destruct v0 as [S2 a2]. cbn [fst] in *. injection E as <- _. eapply IH; [|exact Ev0]. eapply X; eassumption.
Qed.
Lemma run_views fuel dbg k v l S S' a : nth_error (views S) k = Some v -> v_run fuel dbg S l = Ok (S', a) -> nth_error (views S') k = Some v.
Proof.
  intros H E. refine (run_keeps fuel dbg (fun S => nth_error (views S) k = Some v) _ l S S' a H E). clear.
  intros S c S' a H E. destruct (views_step _ _ _ _ _ _ E) as (l & ->). rewrite nth_error_app1; [exact H|]. apply nth_error_Some. congruence.
Qed.
Lemma run_good fuel dbg s0 l S a : good_heap s0 -> v_run fuel dbg (v_new s0) l = Ok (S, a) -> vgood dbg s0 S.
Proof.
  intros G E. refine (run_keeps fuel dbg (vgood dbg s0) _ l _ S a (vgood_new _ _) E). intros. eapply vgood_step; eassumption.
Qed.

Lemma dead_look K i s0 : Permutation (live (oheap K)) (live s0) -> ~ In i (live s0) -> look K i = Undef.
Proof.
  intros P N. unfold look. destruct (is_live (oheap K) i) eqn:E; [|reflexivity]. exfalso. apply N. eapply Permutation_in; [exact P|].
  unfold is_live in E. apply existsb_exists in E. destruct E as (j & E & Ej). apply Nat.eqb_eq in Ej. now subst j.
Qed.
Lemma elem_look dbg s0 S i m : good_heap s0 -> vgood dbg s0 S -> elem_ok s0 i m S ->
  if valive S && Bool.eqb false (v_isOne S) then exists p, look (vobj S) i = Ok (m, p) else look (vobj S) i = Undef.
Proof.
  intros G V (N & H). unfold vgood, v_isOne in *. destruct (valive S); cbn [andb]; [|now apply (dead_look _ _ s0)].
  destruct V as (V & _). destruct (oone (vobj S)) as [w|] eqn:O; cbn [Bool.eqb].
  - unfold look. rewrite (own_dead dbg s0); [reflexivity|exact G|exact V| |exact N]. unfold owned. rewrite O, (own_none_ot _ _ _ _ G V O).
    destruct (history_inv _ _ _ G V) as (_ & _ & [X|(X & _)]); [congruence|]. rewrite X. cbn. intros [Y|[]]. now apply (proj2 H).
  - destruct H as (_ & H). apply keys_in in H. destruct H as (p & H). exists p. now apply (own_look dbg s0).
Qed.
Lemma unit_look dbg s0 S i m : good_heap s0 -> vgood dbg s0 S -> unit_ok s0 i m S ->
  if valive S && Bool.eqb true (v_isOne S) then exists p, look (vobj S) i = Ok (m, p) else look (vobj S) i = Undef.
Proof.
  intros G V (N & H). unfold vgood, v_isOne in *. destruct (valive S); cbn [andb]; [|now apply (dead_look _ _ s0)].
  destruct V as (V & _). destruct H as (w & O & Hm). rewrite O. cbn [Bool.eqb]. unfold look, at_address. rewrite O.
  rewrite (proj1 (own_ids dbg s0 (vobj S) i G V ltac:(unfold owned; rewrite O; left; reflexivity))). rewrite Nat.eqb_refl, Hm. eauto.
Qed.

Theorem view_elements fuel dbg s0 l1 S1 a1 c S a l2 S2 a2 k i :
  good_heap s0 -> v_run fuel dbg (v_new s0) l1 = Ok (S1, a1) -> v_step fuel dbg S1 c = Ok (S, a) -> v_run fuel dbg S l2 = Ok (S2, a2) ->
  (length (views S1) <= k)%nat -> nth_error (views S) k = Some (VWrap i) ->
  exists m, v_step fuel dbg S (VLm k) = Ok (S, AMonom m) /\
    if valive S2 && Bool.eqb (v_isOne S) (v_isOne S2)
    then v_step fuel dbg S2 (VLm k) = Ok (S2, AMonom m) /\ exists p, v_step fuel dbg S2 (VPoly k) = Ok (S2, APoly p)
    else v_step fuel dbg S2 (VLm k) = Undef /\ v_step fuel dbg S2 (VPoly k) = Undef.
Proof.
  intros G R1 E R2 L NV. assert (V1 := run_good _ _ _ _ _ _ G R1). assert (V := vgood_step _ _ _ _ _ _ _ G V1 E).
  assert (V2 : vgood dbg s0 S2) by (refine (run_keeps fuel dbg (vgood dbg s0) _ l2 _ S2 a2 V R2); intros; eapply vgood_step; eassumption).
  assert (NV2 := run_views _ _ _ _ _ _ _ _ NV R2).
  assert (X : valive S = true /\ vobj S = vobj S1 /\ In i (handed (vobj S1))).
  { destruct (step_cases _ _ _ _ _ _ E) as [->|(A & [(f & K & _ & E1 & ->)|[(K & _ & E1 & E2 & E3 & E4 & _)|[(l & Hl & ->)|(s & _ & E1 & E2 & E3 & E4 & E5 & E6 & _)]]])].
    - exfalso. apply nth_error_None in L. congruence.
    - exfalso. apply nth_error_None in L. cbn in NV. congruence.
    - exfalso. apply nth_error_None in L. rewrite E4 in NV. congruence.
    - split; [reflexivity|]. split; [reflexivity|]. cbn [views] in NV. rewrite nth_error_app2 in NV by exact L. apply nth_error_In in NV. now apply Hl in NV.
    - exfalso. apply nth_error_None in L. rewrite E6 in NV. congruence. }
  destruct X as (A & Eo & I). rewrite <- Eo in I. assert (V0 := V). unfold vgood in V0. rewrite A in V0. destruct V0 as (HO & _).
  destruct (own_ids _ _ _ _ G HO (handed_owned _ _ I)) as (I1 & I2 & I3).
  assert (LK : forall S' e, nth_error (views S') k = Some (VWrap i) -> look (vobj S') i = Ok e ->
    v_step fuel dbg S' (VLm k) = Ok (S', AMonom (fst e)) /\ v_step fuel dbg S' (VPoly k) = Ok (S', APoly (snd e))).
  { intros S' e Y1 Y2. cbn [v_step]. rewrite Y1, Y2. auto. }
  assert (LU : nth_error (views S2) k = Some (VWrap i) -> look (vobj S2) i = Undef ->
    v_step fuel dbg S2 (VLm k) = Undef /\ v_step fuel dbg S2 (VPoly k) = Undef).
  { intros Y1 Y2. cbn [v_step]. rewrite Y1, Y2. auto. }
  destruct (oone (vobj S)) as [[j w]|] eqn:O.
  - assert (j = i).
    { unfold handed in I. rewrite O, (own_none_ot _ _ _ _ G HO O) in I. destruct I as [I|[]]. exact I. }
    subst j. assert (U : unit_ok s0 i (wlm (wwrap w)) S) by (split; [exact I2|]; rewrite A; eauto).
    assert (U2 : unit_ok s0 i (wlm (wwrap w)) S2) by (refine (run_keeps fuel dbg (unit_ok s0 i _) _ l2 _ S2 a2 U R2); intros; eapply unit_step; eassumption).
    assert (B : v_isOne S = true) by (unfold v_isOne; now rewrite O). exists (wlm (wwrap w)).
    assert (Y := unit_look _ _ _ _ _ G V U). rewrite A, B in Y. cbn in Y. destruct Y as (p & Y). split; [apply (LK S _ NV Y)|].
    assert (Y2 := unit_look _ _ _ _ _ G V2 U2). rewrite B. destruct (valive S2 && Bool.eqb true (v_isOne S2)); [|now apply LU].
    destruct Y2 as (p2 & Y2). destruct (LK _ _ NV2 Y2). eauto.
  - assert (J : exists m, In (i, m) (keys (ot (vobj S)))).
    { unfold handed in I. rewrite O in I. cbn [app] in I. apply in_map_iff in I. destruct I as ((j & m & p) & <- & I). exists m. apply keys_in. exists p. exact I. }
    destruct J as (m & J).
    assert (U : elem_ok s0 i m S) by (split; [exact I2|]; rewrite A, O; auto).
    assert (U2 : elem_ok s0 i m S2 /\ vgood dbg s0 S2).
    { refine (run_keeps fuel dbg (fun S => elem_ok s0 i m S /\ vgood dbg s0 S) _ l2 _ S2 a2 (conj U V) R2). intros S3 c3 S4 a4 (P1 & P2) P3.
      split; [eapply elem_step; eassumption|eapply vgood_step; eassumption]. }
    destruct U2 as (U2 & _).
    assert (B : v_isOne S = false) by (unfold v_isOne; now rewrite O). exists m.
    assert (Y := elem_look _ _ _ _ _ G V U). rewrite A, B in Y. cbn in Y. destruct Y as (p & Y). split; [apply (LK S _ NV Y)|].
    assert (Y2 := elem_look _ _ _ _ _ G V2 U2). rewrite B. destruct (valive S2 && Bool.eqb false (v_isOne S2)); [|now apply LU].
    destruct Y2 as (p2 & Y2). destruct (LK _ _ NV2 Y2). eauto.
Qed.

Theorem view_trees fuel dbg s0 l1 S1 a1 p S a l2 S2 a2 :
  good_heap s0 -> v_run fuel dbg (v_new s0) l1 = Ok (S1, a1) -> v_step fuel dbg S1 (VJanet p) = Ok (S, a) -> a <> ARaise -> v_run fuel dbg S l2 = Ok (S2, a2) ->
  if valive S2 && negb (v_isOne S2) && (v_maxPos S2 =? v_maxPos S)
  then exists n, v_step fuel dbg S2 (VSize (length (views S1))) = Ok (S2, ASize n)
  else v_step fuel dbg S2 (VSize (length (views S1))) = Undef.
Proof.
  intros G R1 E NA R2. assert (V1 := run_good _ _ _ _ _ _ G R1). assert (V := vgood_step _ _ _ _ _ _ _ G V1 E).
  assert (V2 : vgood dbg s0 S2) by (refine (run_keeps fuel dbg (vgood dbg s0) _ l2 _ S2 a2 V R2); intros; eapply vgood_step; eassumption).
  cbn [v_step] in E. destruct (valive S1) eqn:A; cbn [negb] in E; [|injection E as _ <-; congruence]. unfold v_janet in E.
  destruct ((-1 <=? p) && (p <=? opos (vobj S1))) eqn:C; [|injection E as _ <-; congruence]. apply andb_prop in C. destruct C as (C1 & C2). apply Z.leb_le in C1. apply Z.leb_le in C2.
  destruct (varr S1) as [b|] eqn:R; [|destruct dbg; discriminate]. injection E as <- _.
  unfold vgood in V1. rewrite A, R in V1. destruct V1 as (H1 & B1 & O1 & T1).
  set (S := VS (vobj S1) true (Some b) (vnext S1) (views S1 ++ [VTree b p])) in *.
  assert (U : tree_ok b p (opos (vobj S1)) S). { split; [lia|]. split; [cbn; lia|]. split; [exact B1|]. cbn. tauto. }
  assert (U2 : tree_ok b p (opos (vobj S1)) S2) by (refine (run_keeps fuel dbg (tree_ok b p _) _ l2 _ S2 a2 U R2); intros; eapply tree_step; eassumption).
  assert (NV : nth_error (views S2) (length (views S1)) = Some (VTree b p)).
  { eapply run_views; [|exact R2]. cbn. rewrite nth_error_app2, Nat.sub_diag by lia. reflexivity. }
  destruct U2 as (P1 & P2 & P3 & P4). cbn [v_step]. rewrite NV. unfold v_maxPos, v_isOne. cbn [vobj S].
  destruct (valive S2 && negb (match oone (vobj S2) with Some _ => true | None => false end) && (opos (vobj S2) =? opos (vobj S1))) eqn:D.
  - apply andb_prop in D. destruct D as (D & D3). apply andb_prop in D. destruct D as (D1 & D2). apply Z.eqb_eq in D3.
    assert (O2 : oone (vobj S2) = None) by (destruct (oone (vobj S2)); [discriminate|reflexivity]).
    assert (R3 : varr S2 = Some b) by (apply P4; auto). rewrite R3, Nat.eqb_refl.
    unfold vgood in V2. rewrite D1, R3 in V2. destruct V2 as (H2 & _ & _ & T2). destruct (own_any _ _ _ G H2) as (F & AH).
    destruct (otrees (vobj S2)) as [js|] eqn:T; [|congruence].
    destruct (tree_of dbg _ F (forget (vobj S2)) js p AH) as (t & Ht); [exact T|cbn; now rewrite O2|cbn; lia|]. rewrite Ht. cbn. eauto.
  - destruct (varr S2) as [b2|] eqn:R3; [|reflexivity]. destruct (Nat.eqb_spec b b2) as [<-|N]; [|reflexivity]. exfalso.
    destruct (proj1 P4 eq_refl) as (Q1 & Q2 & Q3). rewrite Q1, Q2, Q3, Z.eqb_refl in D. discriminate.
Qed.
