(** Ancestors and flags of the elements, for all histories of an object. *)
From Coq Require Import ZArith List Bool Arith Lia Permutation.
From Verif Require Import Outcome MonomModel MonomSpec MonomProofs PolyModel PolySpec PolyProofs JanetModel JanetSpec JanetProofs JanetFindProofs JanetPolyModel TQModel
  JanetPolySpec JanetPolyProofs TQProofs JanetPolyTop JanetTermSpec JanetTermMain InvolutiveTop CyMonomModel CyJanetModel AncProofs.
Import ListNotations.
Local Open Scope Z_scope.

Definition trees (J : jpoly) : list janet := match jtrees J with Some js => js | None => [] end.

Section P.
Variables (t : pos_order) (o : base_order) (n : nat).
Hypothesis Hn : (0 < n)%nat.
Hypothesis Ho : o <> OAlex.
Notation A := (fun _ : list term => True).

Lemma any_state F J : jp_history false t o n F J -> jstate t o n A J.
Proof. intro H. destruct (history_state t o n F J Hn Ho H) as (S & _). eapply jstate_G; [|exact S]. intros; exact Logic.I. Qed.
Lemma any_trees F J : jp_history false t o n F J -> jone J = None ->
  (jtrees J = None /\ jpos J = -2 /\ jt J = []) \/ exists Ja, jtrees J = Some [Ja] /\ jpos J = -1 /\ tinv t o n A Ja (jt J).
Proof. intros H E. assert (S := any_state F J H). unfold jstate in S. rewrite E in S. apply S. Qed.

Lemma apart_nd l : (forall m, In m l -> length (vars m) = n) -> NoDup l -> apart l.
Proof.
  induction l as [|m l IH]; intros Ln N; cbn [apart]; [exact Logic.I|]. apply NoDup_cons_iff in N as [N1 N2]. split; [|apply IH; [intros; apply Ln; right; assumption|exact N2]].
  apply Forall_forall. intros k Ik. destruct (same_key m k) eqn:E; [|reflexivity]. exfalso. apply (same_key_spec) in E; [|rewrite (Ln m), (Ln k); [reflexivity|right; exact Ik|left; reflexivity]].
  subst k. exact (N1 Ik).
Qed.
Lemma tinv_sound Ja T : tinv t o n A Ja T -> sound [Ja].
Proof.
  intro H. unfold sound, L. cbn [map concat sz]. rewrite app_nil_r, Nat.add_0_r. split; [apply (ti_size _ _ _ _ _ _ H)|]. apply apart_nd.
  - intros m Im. eapply Permutation_in in Im; [|apply (ti_perm _ _ _ _ _ _ H)]. apply in_map_iff in Im as (e & <- & Ie). apply (tinv_len t o n A Ja T e H Ie).
  - eapply Permutation_NoDup; [apply Permutation_sym, (ti_perm _ _ _ _ _ _ H)|apply (tinv_nd t o n A Ja T H)].
Qed.
Lemma any_sound F J : jp_history false t o n F J -> jone J = None -> sound (trees J).
Proof.
  intros H E. unfold trees. destruct (any_trees F J H E) as [(-> & _)|(Ja & -> & _ & T)]; [|eapply tinv_sound; exact T]. split; [reflexivity|exact Logic.I].
Qed.

Lemma start_trees F J : jp_history false t o n F J -> jone J = None ->
  exists js, jtrees (set_pos J) = Some js /\ jq (set_pos J) = jq J /\ small js /\ L js = L (trees J).
Proof.
  intros H E. assert (S := any_state F J H). unfold jstate in S. rewrite E in S. destruct S as [Q D]. unfold set_pos. rewrite (q_pos_ring t o n A _ Q). unfold trees.
  destruct D as [(D1 & D2 & D3)|(Ja & D1 & D2 & D3)].
  - rewrite D1, D2. change (-2 <? -1) with true. cbn iota. exists [jempty]. split; [reflexivity|]. split; [reflexivity|]. split; [unfold small; cbn; lia|reflexivity].
  - rewrite D2, D1. change (-1 <? -1) with false. cbn iota. exists [Ja]. rewrite D1. split; [reflexivity|]. split; [reflexivity|]. split; [|reflexivity].
    destruct (tinv_sound Ja _ D3) as [X _]. unfold small. lia.
Qed.

Lemma Inv_L js js' q : L js = L js' -> Inv js q -> Inv js' q.
Proof. unfold Inv. intros ->. auto. Qed.

Lemma history_Inv F J : jp_history false t o n F J -> jone J = None -> Inv (trees J) (jq J).
Proof.
  assert (Call : forall F J J' js, jp_history false t o n F J -> (jone J = None -> Inv (trees J) (jq J)) -> jone J = None -> jp_history false t o n F J' -> jone J' = None ->
    small js -> L js = L (trees J) -> gives js (jq J) J' -> Inv (trees J') (jq J')).
  { intros F0 J0 J' js H IH E0 H' E' Sm El Gv. destruct (Gv E') as (js' & Et & K). destruct (K Sm) as [_ X]. assert (So := any_sound F0 J' H' E'). unfold trees in *. rewrite Et in *.
    destruct (X So) as [_ Y]. apply Y. eapply Inv_L; [symmetry; exact El|]. apply IH. exact E0. }
  induction 1 as [|F J a J' H IH Ra E|F J fuel J' H IH E|F J one fuel J' H IH E]; intro E'.
  - split; intros x [].
  - unfold jp_push, assert_ in E. cbn [andb] in E. destruct (jone J) as [w|] eqn:Eo; [injection E as <-; congruence|]. specialize (IH eq_refl).
    destruct (is_zero a); [injection E as <-; exact IH|]. bnd E. bnd E. bnd E. injection E as <-. unfold trees. cbn [jtrees jq].
    apply jp_insert_perm in Ev1. eapply Inv_sub; [apply wsub_perm; exact Ev1|]. apply Inv_more; [exact IH|]. apply fine_new.
  - assert (H' := hist_build _ _ _ _ _ _ _ _ H E). destruct (jone J) as [w|] eqn:Eo.
    { unfold jp_build in E. rewrite Eo in E. injection E as <-. congruence. }
    destruct (start_trees F J H Eo) as (js & E1 & E2 & E3 & E4). unfold jp_build in E. rewrite Eo in E. cbv zeta in E. rewrite E1, E2 in E. apply block_tq_gives in E.
    eapply (Call F J J' js); eauto.
  - assert (H' := hist_tq _ _ _ _ _ _ _ _ _ H E). destruct (jone J) as [w|] eqn:Eo.
    { unfold jp_tq in E. rewrite Eo in E. injection E as <-. congruence. }
    destruct (start_trees F J H Eo) as (js & E1 & E2 & E3 & E4). unfold jp_tq in E. rewrite Eo in E. cbv zeta in E. rewrite E1, E2 in E. apply tq_loop_gives in E.
    eapply (Call F J J' js); eauto.
Qed.

(* ------------------------------------------------------------------------------------------ *)
(** * The elements as they are shown *)

Lemma wraps_of_in js : forall l ws, wraps_of js l = Ok ws -> (forall w, In w ws -> exists e, In e l /\ wpol w = snd e /\ get_wrap js (fst e) = Some (wwrap w)) /\
  forall e, In e l -> exists w, In w ws /\ wpol w = snd e /\ get_wrap js (fst e) = Some (wwrap w).
Proof.
  induction l as [|e l IH]; intros ws E; cbn [wraps_of] in E; [injection E as <-; split; intros x []|].
  destruct (get_wrap js (fst e)) as [u|] eqn:Eu; [|discriminate]. bnd E. injection E as <-. destruct (IH v eq_refl) as [I1 I2]. split.
  - intros w [<-|Iw]; [exists e; cbn [wpol wwrap]; auto using in_eq|]. destruct (I1 w Iw) as (e' & Ie & X). exists e'. split; [right; exact Ie|exact X].
  - intros e' [<-|Ie]; [exists (WP u (snd e)); cbn [wpol wwrap]; auto using in_eq|]. destruct (I2 e' Ie) as (w & Iw & X). exists w. split; [right; exact Iw|exact X].
Qed.

Section B.
Variables (F : list poly) (J : jpoly) (ws : list wpoly).
Hypothesis HH : jp_history false t o n F J.
Hypothesis HI : cj_iter J = Ok (Ret ws).

Lemma iter_cases : (jone J <> None /\ ws = []) \/ (jone J = None /\ wraps_of (trees J) (jt J) = Ok ws).
Proof.
  assert (X : wraps_of (trees J) (jt J) = Ok ws).
  { unfold cj_iter, lift in HI. fold (trees J) in HI. destruct (wraps_of (trees J) (jt J)) as [v| | | |]; cbn [bind] in HI; try discriminate. injection HI as ->. reflexivity. }
  assert (S := any_state F J HH). unfold jstate in S. destruct (jone J); [|right; auto]. left. split; [discriminate|]. destruct S as (_ & _ & Et & _). rewrite Et in X. injection X as <-. reflexivity.
Qed.
Lemma elem_wrap w : In w ws -> jone J = None /\ In (wwrap w) (L (trees J)) /\ wlm (wwrap w) = Mon (-1) (lead (wpol w)) /\ length (lead (wpol w)) = n /\ In (wpol w) (basis J).
Proof.
  intro Iw. destruct iter_cases as [[_ ->]|[Eo E]]; [destruct Iw|]. split; [exact Eo|]. destruct (wraps_of_in _ _ _ E) as [I1 _]. destruct (I1 w Iw) as (e & Ie & E1 & E2).
  split; [eapply get_wrap_in; exact E2|]. unfold trees in E2. destruct (any_trees F J HH Eo) as [(_ & _ & D)|(Ja & D1 & _ & T)]; [rewrite D in Ie; destruct Ie|].
  rewrite D1 in E2. destruct (get_wrap_ok t o n A Ja (jt J) e T Ie) as (u & Eu & _ & Em). rewrite E2 in Eu. injection Eu as <-.
  assert (Gg := ti_good _ _ _ _ _ _ T). rewrite Forall_forall in Gg. destruct (Gg e Ie) as [_ (c & l & Hd)]. destruct (tinv_len t o n A Ja _ e T Ie) as [Ln Ps].
  assert (El : lead (wpol w) = vars (fst e)) by (rewrite E1; unfold lead; rewrite Hd; reflexivity).
  split; [rewrite Em, El; destruct (fst e); cbn in *; congruence|]. split; [congruence|]. unfold basis. rewrite Eo, E1. apply in_map. exact Ie.
Qed.
Lemma wrap_elem x : jone J = None -> In x (L (trees J)) -> exists w, In w ws /\ wwrap w = x.
Proof.
  intros Eo Ix. destruct iter_cases as [[X _]|[_ E]]; [contradiction|]. destruct (wraps_of_in _ _ _ E) as [_ I2]. unfold trees in *.
  destruct (any_trees F J HH Eo) as [(D & _ & _)|(Ja & D1 & _ & T)]; [rewrite D in Ix; destruct Ix|]. rewrite D1 in *. unfold L in Ix. cbn [map concat] in Ix. rewrite app_nil_r in Ix.
  assert (X : In (wlm x) (map fst (jt J))) by (eapply Permutation_in; [apply (ti_perm _ _ _ _ _ _ T)|apply in_map; exact Ix]).
  apply in_map_iff in X as (e & Ee & Ie). destruct (I2 e Ie) as (w & Iw & _ & Ew). exists w. split; [exact Iw|].
  destruct (get_wrap_ok t o n A Ja (jt J) e T Ie) as (u & Eu & Iu & Em). rewrite Ew in Eu. injection Eu as <-.
  apply (tinv_key t o n A Ja (jt J) _ x T Iu Ix). rewrite Em, Ee. apply key_refl.
Qed.

Lemma elem_fine w : In w ws -> above (wwrap w) /\ flags (wwrap w) /\ rooted (L (trees J)) (wwrap w).
Proof. intro Iw. destruct (elem_wrap w Iw) as (Eo & I & _). destruct (history_Inv F J HH Eo) as [H _]. apply H. exact I. Qed.

Lemma total_le : forall a b, length a = length b -> (forall i, (expo a i <= expo b i)%nat) -> (degv a <= degv b)%nat /\ (degv a = degv b -> a = b).
Proof.
  unfold expo. induction a as [|x a IH]; intros [|y b] E H; cbn [degv fold_right]; try discriminate; [auto|]. assert (H0 := H 0%nat). cbn in H0.
  destruct (IH b) as [I1 I2]; [cbn in E; congruence|intro i; apply (H (S i))|]. fold (degv a) (degv b). unfold degv in *. split; [lia|]. intro Y. rewrite I2 by lia. f_equal. lia.
Qed.
Lemma c84_isGB w : In w ws -> (cw_isGB w = true <-> cw_ansector w = cw_lm w).
Proof.
  intro Iw. destruct (elem_fine w Iw) as ((A1 & A2 & A3) & _ & _). unfold cw_isGB, cw_ansector, cw_lm. rewrite Nat.eqb_eq. split; [|intros ->; reflexivity].
  intro E. destruct (total_le _ _ A2 A3) as [_ X]. specialize (X E). destruct (wanc (wwrap w)), (wlm (wwrap w)). cbn in *. congruence.
Qed.
Lemma c84_ancestor w : In w ws -> divides n (vars (cw_ansector w)) (vars (cw_lm w)) /\
  exists a, In a ws /\ cw_isGB a = true /\ cw_lm a = cw_ansector w /\ lead (cw_poly a) = vars (cw_ansector w).
Proof.
  intro Iw. destruct (elem_fine w Iw) as ((A1 & A2 & A3) & _ & x & Ix & E1 & E2). split; [intros i _; apply A3|].
  destruct (elem_wrap w Iw) as (Eo & _). destruct (wrap_elem x Eo Ix) as (a & Ia & <-). exists a. split; [exact Ia|].
  destruct (elem_wrap a Ia) as (_ & _ & El & _ & _). unfold cw_lm, cw_ansector, cw_poly. split; [|split; [exact E1|]].
  - unfold cw_isGB. rewrite E2, E1. apply Nat.eqb_refl.
  - rewrite E1 in El. rewrite El. reflexivity.
Qed.
Lemma c84_generators m : jone J = None -> (exists g, In g (basis J) /\ divides n (lead g) m) <->
  (exists w, In w ws /\ cw_isGB w = true /\ divides n (lead (cw_poly w)) m).
Proof.
  intro Eo. split.
  - intros (g & Ig & D). destruct iter_cases as [[X _]|[_ E]]; [contradiction|]. destruct (wraps_of_in _ _ _ E) as [_ I2]. unfold basis in Ig. rewrite Eo in Ig.
    apply in_map_iff in Ig as (e & <- & Ie). destruct (I2 e Ie) as (w & Iw & Ew & _). destruct (c84_ancestor w Iw) as (D1 & a & Ia & Ga & _ & La). exists a. split; [exact Ia|]. split; [exact Ga|].
    destruct (elem_wrap w Iw) as (_ & _ & El & _ & _). unfold cw_lm in D1. rewrite El in D1. cbn [vars] in D1. rewrite La. rewrite Ew in D1. intros i Hi. assert (X := D i Hi). assert (Y := D1 i Hi). lia.
  - intros (w & Iw & _ & D). destruct (elem_wrap w Iw) as (_ & _ & _ & _ & Ib). exists (wpol w). auto.
Qed.
Lemma c84_build w v : In w ws -> cw_build false w v = Ok (Ret true) -> cw_NM false w v = Ok (Ret true).
Proof.
  intros Iw. destruct (elem_fine w Iw) as (_ & Fl & _). unfold cw_build, cw_NM, cw_flag, to_cint. destruct (in_int v); [|discriminate].
  destruct (v <? 0) eqn:S; [discriminate|]. unfold lift, get_flag. specialize (Fl (Z.to_nat v)).
  destruct (elem_wrap w Iw) as (Eo & I & El & Ln & _). unfold trees in I. destruct (any_trees F J HH Eo) as [(D & _ & _)|(Ja & D1 & _ & T)]; [rewrite D in I; destruct I|].
  rewrite D1 in I. unfold L in I. cbn [map concat] in I. rewrite app_nil_r in I. assert (O := ji_ok _ _ (ti_inv _ _ _ _ _ _ T)). rewrite Forall_forall in O. destruct (O _ I) as (_ & L2 & _ & L4).
  destruct (nth_error (wbuild (wwrap w)) (Z.to_nat v)) as [b|] eqn:Eb; [|discriminate]. cbn [bind]. intro X. assert (Xb : b = true) by congruence. subst b. clear X.
  assert (Lv : (Z.to_nat v < n)%nat) by (rewrite <- L4; apply nth_error_Some; congruence).
  destruct (nth_error (wnm (wwrap w)) (Z.to_nat v)) as [b|] eqn:En; [|apply nth_error_None in En; lia].
  rewrite (nth_error_nth _ _ _ Eb) in Fl. specialize (Fl eq_refl). rewrite (nth_error_nth _ _ _ En) in Fl. rewrite Fl. reflexivity.
Qed.
Lemma c84_leading f : jone J = None -> jq J = [] -> passes_local_test t o n J -> ring_input t o n f -> terms f <> [] -> rational_member n (among F) (terms f) ->
  exists w, In w ws /\ cw_isGB w = true /\ divides n (lead (cw_poly w)) (lead f).
Proof.
  intros Eo Q Lt Rf Nf M. apply c84_generators; [exact Eo|]. destruct (c46_leading t o n Hn Ho F J f HH Q Lt Rf Nf M) as (g & Ig & _ & D & _). exists g. split; [exact Ig|exact D].
Qed.
End B.
End P.
