(** The counters of algorithmTQ2. *)
From Coq Require Import ZArith List Bool Arith Lia Permutation.
From Verif Require Import Outcome MonomModel MonomSpec JanetModel PolyModel PolySpec JanetPolyModel TQModel JanetPolySpec JanetPolyProofs AncProofs
  CntModel Cnt2Model CntSpec CntProofs CntBalance CntTop CntRed.
Import ListNotations.
Local Open Scope Z_scope.

(* ---------------------------------------------------------------- the same results *)

Lemma k_take2_same fuel dbg find dg : forall q tmp c, forget (k_take2 fuel dbg find dg q tmp c) = take_tq true fuel dbg find dg q tmp.
Proof.
  induction q as [|u q IH]; intros tmp c; cbn [k_take2 take_tq]; [reflexivity|]. fb. destruct (deg a <=? dg)%nat; [|reflexivity]. fb. destruct a0 as [p k].
  destruct (is_zero p); [apply IH|]. fb. destruct (deg a0 =? 0)%nat; [reflexivity|]. fb. fb. fb. apply IH.
Qed.
Lemma k_prolong_det_same dbg mpos p : forall cnt k js w q c, forget (k_prolong_det dbg mpos cnt k js w p q c) = prolong_det dbg mpos cnt k js w p q.
Proof.
  induction cnt as [|cnt IH]; intros k js w q c; cbn [k_prolong_det prolong_det]; [reflexivity|]. fb. fb. destruct (a && negb a0); [|apply IH]. cbv zeta. fb.
  destruct a1 as [d|].
  - destruct (deg (wanc w) + deg (wanc d) <=? deg (mul_var k (wlm w)))%nat; cbn [orb].
    + fb. apply IH.
    + destruct (lcm_deg (wanc w) (wanc d) <? deg (mul_var k (wlm w)))%nat; [fb; apply IH|]. fb. destruct a1 as [v w']. fb. fb. apply IH.
  - fb. destruct a1 as [v w']. fb. fb. apply IH.
Qed.
Lemma k_item_step_same fuel dbg mpos dg js q others x c : forget (k_item_step fuel dbg mpos dg js q others x c) = item_step fuel dbg mpos dg js q others x.
Proof.
  destruct x as [e|w]; cbn [k_item_step item_step].
  - eapply forget_bind2; [apply k_tail_reduce_same|]. intros e' c1. cbn [fst snd]. eapply forget_bind2; [apply k_prolong_if_same|]. reflexivity.
  - eapply forget_bind2; [apply k_tail_pp_same|]. intros p c1. cbn [fst snd]. destruct (deg (wlm (wwrap w)) <=? dg)%nat; [|reflexivity]. eapply forget_bind2; [apply k_prolong_det_same|]. reflexivity.
Qed.
Lemma k_walk2_same fuel dbg mpos dg : forall cnt js q d w k c, forget (k_walk2 cnt fuel dbg mpos dg js q d w k c) = walk2 cnt fuel dbg mpos dg js q d w k.
Proof.
  induction cnt as [|cnt IH]; intros js q d w k c; cbn [k_walk2 walk2]; [destruct w, k; reflexivity|]. cbv zeta.
  destruct w as [e|], k as [|x k]; [|fb; destruct (a <? 0)|reflexivity|]; (eapply forget_bind2; [apply k_item_step_same|]); intros [[js' q'] x'] c'; apply IH.
Qed.
Lemma k_tq2_loop_same dbg mpos : forall fuel pref js q T c, forget (k_tq2_loop fuel dbg mpos pref js q T c) = tq2_loop fuel dbg mpos pref js q T.
Proof.
  induction fuel as [|fuel IH]; intros pref js [|u q] T c; cbn [k_tq2_loop tq2_loop]; try reflexivity. cbv zeta. fb. eapply forget_bind2; [apply k_take2_same|]. intros r c1.
  destruct r as [[q1 [|w0 tmp]]|]; [| |fb; reflexivity]; apply forget_assert; [apply IH|]. fb. fb. destruct a1 as [eqs rest]. destruct (swap_min w0 eqs) as [w1 eqs2].
  apply forget_assert. eapply forget_bind2; [apply k_tail_pp_same|]. intros p c2. fb. destruct a1 as [js2 w'].
  eapply forget_bind2; [|intros [[js3 q3] t3] c3; fb; apply forget_assert, IH].
  destruct (deg a <? if (pref =? 0)%nat then deg a else pref)%nat.
  - fb. destruct (get_wrap js2 (wlm w')); reflexivity.
  - destruct T; [reflexivity|]. apply k_walk2_same.
Qed.
Theorem k_tq2_same fuel dbg s : forget (k_tq2 fuel dbg s) = jp_tq2 fuel dbg (fst s).
Proof.
  unfold k_tq2, jp_tq2. destruct (jone (fst s)); [reflexivity|]. cbv zeta. destruct (jtrees (set_pos (fst s))); [apply k_tq2_loop_same|]. destruct (jq (set_pos (fst s))); reflexivity.
Qed.

(* ---------------------------------------------------------------- what the steps count *)

Lemma k_take2_st fuel dbg find dg : forall q tmp c r, k_take2 fuel dbg find dg q tmp c = Ok r -> step_of true false false c (snd r).
Proof.
  induction q as [|u q IH]; intros tmp c r E; cbn [k_take2] in E; [injection E as <-; apply st_refl|]. bnd E. destruct (deg v <=? dg)%nat; [|injection E as <-; apply st_refl].
  bnd E. destruct v0 as [p k]. destruct (is_zero p); [eapply st_trans; [|eapply IH; exact E]; apply st_zero|]. bnd E. destruct (deg v0 =? 0)%nat; [injection E as <-; apply st_refl|].
  bnd E. bnd E. bnd E. eapply st_trans; [|eapply IH; exact E]. apply st_redif.
Qed.
Lemma k_prolong_det_st dbg mpos p : forall cnt k js w q c r, k_prolong_det dbg mpos cnt k js w p q c = Ok r -> step_of false false true c (snd r) /\ (length q <= length (snd (fst r)))%nat.
Proof.
  induction cnt as [|cnt IH]; intros k js w q c r E; cbn [k_prolong_det] in E; [injection E as <-; split; [apply st_refl|cbn; lia]|]. bnd E. bnd E.
  destruct (v && negb v0); [|eapply IH; exact E]. cbv zeta in E. bnd E.
  match type of E with (if ?b then _ else _) = _ => destruct b end; [bnd E; apply IH in E as [E L]; split; [eapply st_trans; [apply st_I|exact E]|exact L]|].
  match type of E with (if ?b then _ else _) = _ => destruct b end; [bnd E; apply IH in E as [E L]; split; [eapply st_trans; [apply st_II|exact E]|exact L]|].
  bnd E. destruct v2 as [nw w']. bnd E. bnd E. apply jp_insert_perm, Permutation_length in Ev4. cbn [length] in Ev4. apply IH in E as [E L]. split; [exact E|lia].
Qed.
Lemma k_prolong_len dbg mpos p : forall cnt k js w q c r, k_prolong dbg mpos cnt k js w p q c = Ok r -> (length q <= length (snd (fst r)))%nat.
Proof.
  induction cnt as [|cnt IH]; intros k js w q c r E; cbn [k_prolong] in E; [injection E as <-; cbn; lia|]. bnd E. bnd E.
  destruct (v && negb v0); [|eapply IH; exact E]. cbv zeta in E. bnd E.
  match type of E with (if ?b then _ else _) = _ => destruct b end; [bnd E; apply IH in E; exact E|].
  match type of E with (if ?b then _ else _) = _ => destruct b end; [bnd E; apply IH in E; exact E|].
  bnd E. destruct v2 as [nw w']. bnd E. bnd E. apply jp_insert_perm, Permutation_length in Ev4. cbn [length] in Ev4. apply IH in E. lia.
Qed.
Lemma k_prolong_if_len dbg mpos dg js e q c r : k_prolong_if dbg mpos dg js e q c = Ok r -> (length q <= length (snd (fst r)))%nat.
Proof.
  unfold k_prolong_if. destruct (deg (fst e) <=? dg)%nat; [|intro E; injection E as <-; cbn; lia]. destruct (get_wrap js (fst e)); [|discriminate]. apply k_prolong_len.
Qed.
Lemma k_item_step_st fuel dbg mpos dg js q others x c js' q' x' c' : k_item_step fuel dbg mpos dg js q others x c = Ok (js', q', x', c') -> step_of false false true c c' /\ (length q <= length q')%nat.
Proof.
  destruct x as [e|w]; cbn [k_item_step]; intro E.
  - bnd E. bnd E. injection E as <- <- <- <-. split; [eapply st_trans; [apply st_more; eapply k_tail_reduce_st; eassumption|eapply k_prolong_if_st; eassumption]|eapply k_prolong_if_len; eassumption].
  - bnd E. destruct (deg (wlm (wwrap w)) <=? dg)%nat.
    + bnd E. injection E as <- <- <- <-. apply k_prolong_det_st in Ev0 as [S L]. split; [eapply st_trans; [apply st_more; eapply k_tail_pp_st; eassumption|exact S]|exact L].
    + injection E as <- <- <- <-. split; [apply st_more; eapply k_tail_pp_st; eassumption|lia].
Qed.
Definition one_of (w : option entry) : nat := match w with Some _ => 1 | None => 0 end.
Lemma k_walk2_st fuel dbg mpos dg : forall cnt js q d w k c js' q' T' c', k_walk2 cnt fuel dbg mpos dg js q d w k c = Ok (js', q', T', c') ->
  step_of false false true c c' /\ (length q <= length q')%nat /\ length T' = (length d + one_of w + length k)%nat.
Proof.
  induction cnt as [|cnt IH]; intros js q d w k c js' q' T' c' E; cbn [k_walk2] in E.
  { destruct w; [discriminate|destruct k; [|discriminate]]. injection E as <- <- <- <-. split; [apply st_refl|]. cbn. lia. }
  cbv zeta in E.
  assert (Redu : forall x w' k', (do r <- k_item_step fuel dbg mpos dg js q (atts d ++ match w' with Some e => [e] | None => [] end ++ atts k') x c;
      let '(js', q', x', c') := r in k_walk2 cnt fuel dbg mpos dg js' q' (d ++ [x']) w' k' c') = Ok (js', q', T', c') ->
      step_of false false true c c' /\ (length q <= length q')%nat /\ length T' = (S (length d) + one_of w' + length k')%nat).
  { intros x w' k' X. bnd X. destruct v as [[[ja qa] xa] ca]. apply k_item_step_st in Ev as [S1 L1]. apply IH in X as (S2 & L2 & L3). rewrite app_length in L3. cbn [length] in L3.
    split; [eapply st_trans; eassumption|]. split; [lia|]. rewrite L3. lia. }
  destruct w as [e|], k as [|x k]; cbn [one_of length].
  - apply (Redu (Att e) None []) in E as (S1 & L1 & L2). split; [exact S1|]. split; [exact L1|]. cbn in L2. lia.
  - bnd E. destruct (v <? 0); [apply (Redu (Att e) None (x :: k)) in E as (S1 & L1 & L2)|apply (Redu x (Some e) k) in E as (S1 & L1 & L2)]; (split; [exact S1|]); (split; [exact L1|]); cbn in L2; lia.
  - injection E as <- <- <- <-. split; [apply st_refl|]. lia.
  - apply (Redu x None k) in E as (S1 & L1 & L2). split; [exact S1|]. split; [exact L1|]. cbn in L2. lia.
Qed.
Lemma k_take2_len fuel dbg find dg : forall q tmp c q1 tmp1 c1, k_take2 fuel dbg find dg q tmp c = Ok (Some (q1, tmp1), c1) ->
  (length q + length tmp + n_zero c = length q1 + length tmp1 + n_zero c1)%nat.
Proof.
  induction q as [|u q IH]; intros tmp c q1 tmp1 c1 E; cbn [k_take2] in E; [injection E as <- <- <-; lia|]. bnd E. destruct (deg v <=? dg)%nat; [|injection E as <- <- <-; lia].
  bnd E. destruct v0 as [p k]. cbn [length]. destruct (is_zero p); [apply IH in E; cbn [inc_zero n_zero] in E; lia|]. bnd E. destruct (deg v0 =? 0)%nat; [discriminate|].
  bnd E. bnd E. bnd E. apply jp_insert_perm, Permutation_length in Ev4. cbn [length] in Ev4. apply IH in E.
  assert (n_zero (if (k + snd v1 =? 0)%nat then c else add_red (k + snd v1) c) = n_zero c) by (destruct (k + snd v1 =? 0)%nat; reflexivity). lia.
Qed.
Lemma back_len js : forall T q q', back js T q = Ok q' -> length q' = (length T + length q)%nat.
Proof. induction T as [|x T IH]; intros q q' E; cbn [back] in E; [injection E as <-; reflexivity|]. bnd E. apply IH in E. cbn [length] in *. lia. Qed.

(** One call: counters grow, maxEqualLm() stays, and no element is lost. *)
Lemma k_tq2_loop_st dbg mpos : forall fuel pref js q T c J c', k_tq2_loop fuel dbg mpos pref js q T c = Ok (J, c') ->
  step_of true false true c c' /\ (j2one J = None -> (length T + length q + n_zero c <= length (j2t J) + n_zero c')%nat).
Proof.
  induction fuel as [|fuel IH]; intros pref js [|u q] T c J c' E; cbn [k_tq2_loop] in E; try discriminate.
  1,2: injection E as <- <-; split; [apply st_refl|cbn; lia].
  cbv zeta in E. bnd E. bnd E. destruct v0 as [[[q1 tmp]|] c1]; assert (S1 := k_take2_st _ _ _ _ _ _ _ _ Ev0); cbn [snd] in S1; apply (st_more _ _ true) in S1.
  2:{ bnd E. injection E as <- <-. split; [exact S1|]. unfold set_one in Ev1. bnd Ev1. bnd Ev1. injection Ev1 as <-. discriminate. }
  apply assert_inv in E. apply k_take2_len in Ev0 as L1. cbn [length] in L1. destruct tmp as [|w0 tmp].
  { apply IH in E as [S2 L2]. split; [eapply st_trans; eassumption|]. intro O. specialize (L2 O). cbn [length] in *. lia. }
  bnd E. bnd E. destruct v1 as [eqs rest]. apply same_deg_app in Ev2. subst tmp. assert (Sm := swap_min_perm eqs w0). destruct (swap_min w0 eqs) as [w1 eqs2]. apply Permutation_length in Sm. apply assert_inv in E.
  bnd E. destruct v1 as [p c2]. apply k_tail_pp_st in Ev2. cbn [snd] in Ev2. bnd E. destruct v1 as [js2 w']. bnd E. destruct v1 as [[[js3 q3] t3] c3]. bnd E. apply assert_inv in E. apply IH in E as [S5 L5].
  assert (X : step_of true false true c2 c3 /\ (S (length T) + length ((eqs2 ++ rest) ++ q1) <= length t3 + length q3)%nat).
  { destruct (deg v <? if (pref =? 0)%nat then deg v else pref)%nat.
    - bnd Ev4. destruct (get_wrap js2 (wlm w')); [|discriminate]. injection Ev4 as <- <- <- <-. split; [apply st_refl|]. apply back_len in Ev6. cbn [length]. lia.
    - destruct T as [|x T]; [injection Ev4 as <- <- <- <-; split; [apply st_refl|cbn [length]; lia]|].
      apply k_walk2_st in Ev4 as (S4 & L4 & L4'). cbn [one_of] in L4'. split; [apply st_weak; exact S4|]. cbn [length] in *. lia. }
  destruct X as [S4 L4]. split.
  - eapply st_trans; [exact S1|]. eapply st_trans; [apply st_weak, st_more; exact Ev2|]. eapply st_trans; eassumption.
  - intro O. specialize (L5 O). destruct (st_gone _ _ _ Ev2) as [_ Z2]. assert (Z4 : (n_zero c2 <= n_zero c3)%nat) by apply S4. cbn [length] in *. rewrite !app_length in *. lia.
Qed.
Theorem k_tq2_st fuel dbg s J c' : k_tq2 fuel dbg s = Ok (J, c') -> no_less (snd s) c' /\ n_equal c' = n_equal (snd s).
Proof.
  unfold k_tq2. destruct (jone (fst s)); [intro E; injection E as _ <-; split; [apply nl_refl|reflexivity]|]. cbv zeta. intro E. destruct (jtrees (set_pos (fst s))).
  - apply k_tq2_loop_st in E as [S _]. split; apply S. reflexivity.
  - destruct (jq (set_pos (fst s))); [|discriminate]. injection E as _ <-. split; [apply nl_refl|reflexivity].
Qed.
Lemma set_pos_q J : jq (set_pos J) = jq J.
Proof. unfold set_pos. destruct (_ <? _); reflexivity. Qed.
Lemma k_tq2_len fuel dbg s J c' : k_tq2 fuel dbg s = Ok (J, c') -> j2one J = None ->
  jone (fst s) = None /\ (length (jt (fst s)) + length (jq (fst s)) + n_zero (snd s) <= length (j2t J) + n_zero c')%nat.
Proof.
  unfold k_tq2. intros E O. destruct (jone (fst s)) eqn:Eo; [injection E as <- _; discriminate O|]. split; [reflexivity|]. cbv zeta in E. rewrite set_pos_t, set_pos_q in E. destruct (jtrees (set_pos (fst s))).
  - apply k_tq2_loop_st in E as [_ L]. specialize (L O). rewrite map_length in L. exact L.
  - destruct (jq (fst s)); [|discriminate]. injection E as <- <-. cbn [j2t]. rewrite map_length. cbn [length]. lia.
Qed.
Theorem c88_tq2_lost t o n F s fuel J c' : (0 < n)%nat -> o <> OAlex -> k_history t o n (eq ATQ1) F s -> k_tq2 fuel false s = Ok (J, c') -> j2one J = None ->
  (nonzero F <= length (j2t J) + n_zero c')%nat.
Proof.
  intros Hn Ho H E O. apply k_tq2_len in E as [O1 L]; [|exact O]. destruct (kh_balance t o n Hn Ho _ _ _ H O1) as (_ & C & _ & lost & Zl & El). rewrite Zl in El by (intros; congruence). unfold gone, crits in *. lia.
Qed.

(* ---------------------------------------------------------------- reduction() *)
Section P.
Variable M : list term -> Prop.
Hypothesis Mv : forall k l, M l -> M (map (fun x => (mul_var k (fst x), snd x)) l).
Notation MW := (Forall (fun u => M (terms (wpol u)))).
Notation MI := (Forall (fun x => M (terms (item_poly x)))).

Lemma k_take2_M fuel dbg find dg : forall q tmp c q1 tmp1 c1, MW q -> MW tmp -> k_take2 fuel dbg find dg q tmp c = Ok (Some (q1, tmp1), c1) -> n_red c1 = 0%nat -> MW q1 /\ MW tmp1.
Proof.
  induction q as [|u q IH]; intros tmp c q1 tmp1 c1 Q Tm E Z; cbn [k_take2] in E; [injection E as <- <- _; auto|]. bnd E. destruct (deg v <=? dg)%nat; [|injection E as <- <- _; auto].
  bnd E. destruct v0 as [p k]. assert (Q' := Forall_inv_tail Q). destruct (is_zero p); [eapply IH; [exact Q'|exact Tm|exact E|exact Z]|]. bnd E. destruct (deg v0 =? 0)%nat; [discriminate|].
  bnd E. bnd E. bnd E. assert (Z0 : (k + snd v1 = 0)%nat).
  { assert (S := k_take2_st _ _ _ _ _ _ _ _ E). destruct S as [S _]. apply nl0 in S; [|exact Z]. apply red0 in S. apply S. }
  destruct v1 as [p2 k2]. cbn [fst snd] in *. assert (k = 0%nat) by lia. assert (k2 = 0%nat) by lia. subst k k2. cbn in Ev3. injection Ev3 as <-. apply nf_loop_0 in Ev0 as [_ Ep]. specialize (Ep eq_refl). subst p.
  apply nfTail_0 in Ev2. apply jp_insert_perm in Ev4. eapply IH; [exact Q'| |exact E|exact Z]. eapply Permutation_Forall; [apply Permutation_sym; exact Ev4|]. constructor; [cbn [wpol]; rewrite Ev2; exact (Forall_inv Q)|exact Tm].
Qed.
Lemma k_tail_pp_M fuel dbg find p c r : M (terms p) -> k_tail_pp fuel dbg find p c = Ok r -> n_red (snd r) = 0%nat -> M (terms (fst r)).
Proof.
  intros Mp E Z. unfold k_tail_pp in E. bnd E. bnd E. injection E as <-. cbn [fst snd] in *. apply red0 in Z as [Z _]. destruct v as [p1 k]. cbn [fst snd] in *. subst k. cbn in Ev0. injection Ev0 as <-.
  apply nfTail_0 in Ev. rewrite Ev. exact Mp.
Qed.
Lemma k_prolong_det_M dbg mpos p : M (terms p) -> forall cnt k js w q c r, MW q -> k_prolong_det dbg mpos cnt k js w p q c = Ok r -> MW (snd (fst r)).
Proof.
  intro Mp. induction cnt as [|cnt IH]; intros k js w q c r Q E; cbn [k_prolong_det] in E; [injection E as <-; exact Q|]. bnd E. bnd E. destruct (v && negb v0); [|eapply IH; eassumption].
  cbv zeta in E. bnd E.
  match type of E with (if ?b then _ else _) = _ => destruct b end; [bnd E; eapply IH; eassumption|].
  match type of E with (if ?b then _ else _) = _ => destruct b end; [bnd E; eapply IH; eassumption|].
  bnd E. destruct v2 as [nw w']. bnd E. bnd E. apply jp_insert_perm in Ev4. apply mul_var_terms in Ev3. eapply IH; [|exact E].
  eapply Permutation_Forall; [apply Permutation_sym; exact Ev4|]. constructor; [|exact Q]. cbn [wpol]. rewrite Ev3. apply Mv. exact Mp.
Qed.
Lemma k_item_step_M fuel dbg mpos dg js q others x c js' q' x' c' : M (terms (item_poly x)) -> MW q -> k_item_step fuel dbg mpos dg js q others x c = Ok (js', q', x', c') -> n_red c' = 0%nat ->
  MW q' /\ M (terms (item_poly x')).
Proof.
  intros Mx Q E Z. destruct x as [e|w]; cbn [k_item_step item_poly] in *.
  - bnd E. bnd E. injection E as <- <- <- <-. cbn [item_poly]. assert (S := k_prolong_if_st _ _ _ _ _ _ _ _ Ev0). destruct S as [S _]. apply nl0 in S; [|exact Z].
    assert (M1 := k_tail_reduce_M M _ _ _ _ _ _ _ _ Mx Ev S). split; [|exact M1]. eapply (k_prolong_if_M M Mv); eassumption.
  - bnd E. destruct (deg (wlm (wwrap w)) <=? dg)%nat.
    + bnd E. injection E as <- <- <- <-. cbn [item_poly wpol]. assert (S := proj1 (k_prolong_det_st _ _ _ _ _ _ _ _ _ _ Ev0)). destruct S as [S _]. apply nl0 in S; [|exact Z].
      assert (M1 := k_tail_pp_M _ _ _ _ _ _ Mx Ev S). split; [|exact M1]. eapply k_prolong_det_M; eassumption.
    + injection E as <- <- <- <-. cbn [item_poly wpol]. split; [exact Q|]. exact (k_tail_pp_M _ _ _ _ _ _ Mx Ev Z).
Qed.
Definition mo2 (w : option entry) : Prop := match w with Some e => M (terms (snd e)) | None => True end.
Lemma k_walk2_M fuel dbg mpos dg : forall cnt js q d w k c js' q' T' c', MW q -> MI d -> mo2 w -> MI k -> k_walk2 cnt fuel dbg mpos dg js q d w k c = Ok (js', q', T', c') -> n_red c' = 0%nat -> MW q' /\ MI T'.
Proof.
  induction cnt as [|cnt IH]; intros js q d w k c js' q' T' c' Q D W K E Z; cbn [k_walk2] in E.
  { destruct w; [discriminate|destruct k; [|discriminate]]. injection E as <- <- <- <-. auto. }
  cbv zeta in E.
  assert (Redu : forall x w' k', M (terms (item_poly x)) -> mo2 w' -> MI k' ->
    (do r <- k_item_step fuel dbg mpos dg js q (atts d ++ match w' with Some e => [e] | None => [] end ++ atts k') x c;
      let '(js', q', x', c') := r in k_walk2 cnt fuel dbg mpos dg js' q' (d ++ [x']) w' k' c') = Ok (js', q', T', c') -> MW q' /\ MI T').
  { intros x w' k' Mx W' K' X. bnd X. destruct v as [[[ja qa] xa] ca]. assert (S1 := proj1 (k_walk2_st _ _ _ _ _ _ _ _ _ _ _ _ _ _ _ X)). destruct S1 as [S1 _]. apply nl0 in S1; [|exact Z].
    destruct (k_item_step_M _ _ _ _ _ _ _ _ _ _ _ _ _ Mx Q Ev S1) as [M1 M2]. eapply IH; [exact M1|apply Forall_snoc; [exact D|exact M2]|exact W'|exact K'|exact X|exact Z]. }
  destruct w as [e|], k as [|x k].
  - eapply (Redu (Att e) None); [exact W|exact Logic.I|constructor|exact E].
  - bnd E. destruct (v <? 0); [eapply (Redu (Att e) None); [exact W|exact Logic.I|exact K|exact E]|eapply (Redu x (Some e)); [exact (Forall_inv K)|exact W|exact (Forall_inv_tail K)|exact E]].
  - injection E as <- <- <- <-. auto.
  - eapply (Redu x None); [exact (Forall_inv K)|exact Logic.I|exact (Forall_inv_tail K)|exact E].
Qed.
Lemma back_M js : forall T q q', MI T -> MW q -> back js T q = Ok q' -> MW q'.
Proof.
  induction T as [|x T IH]; intros q q' K Q E; cbn [back] in E; [injection E as <-; exact Q|]. bnd E. eapply IH; [exact (Forall_inv_tail K)| |exact E]. constructor; [|exact Q].
  assert (X := Forall_inv K). destruct x as [e|w]; cbn [back_item item_poly] in *; [destruct (get_wrap js (fst e)); [|discriminate]|]; injection Ev as <-; exact X.
Qed.
Lemma k_tq2_M dbg mpos : forall fuel pref js q T c J c', MW q -> MI T -> k_tq2_loop fuel dbg mpos pref js q T c = Ok (J, c') -> n_red c' = 0%nat -> j2one J = None -> MI (j2t J).
Proof.
  induction fuel as [|fuel IH]; intros pref js q T c J c' Q K E Z O; destruct q as [|u q]; cbn [k_tq2_loop] in E; try discriminate.
  1,2: injection E as <- _; exact K.
  cbv zeta in E. bnd E. bnd E. destruct v0 as [[[q1 tmp]|] c1].
  2:{ bnd E. injection E as <- _. unfold set_one in Ev1. bnd Ev1. bnd Ev1. injection Ev1 as <-. discriminate. }
  apply assert_inv in E. destruct tmp as [|w0 tmp].
  { assert (S := proj1 (k_tq2_loop_st _ _ _ _ _ _ _ _ _ _ E)). destruct S as [S _]. apply nl0 in S; [|exact Z]. apply k_take2_M in Ev0 as [A _]; [|exact Q|constructor|exact S]. eapply IH; eassumption. }
  bnd E. bnd E. destruct v1 as [eqs rest]. apply same_deg_app in Ev2. subst tmp. assert (Sm := swap_min_perm eqs w0). destruct (swap_min w0 eqs) as [w1 eqs2]. apply assert_inv in E.
  bnd E. destruct v1 as [p c2]. bnd E. destruct v1 as [js2 w']. bnd E. destruct v1 as [[[js3 q3] t3] c3]. bnd E. apply assert_inv in E.
  assert (S := proj1 (k_tq2_loop_st _ _ _ _ _ _ _ _ _ _ E)). destruct S as [S _]. apply nl0 in S; [|exact Z].
  assert (S2 : n_red c2 = 0%nat).
  { destruct (deg v <? if (pref =? 0)%nat then deg v else pref)%nat.
    - bnd Ev4. destruct (get_wrap js2 (wlm w')); [|discriminate]. injection Ev4 as _ _ _ <-. exact S.
    - destruct T as [|x T]; [injection Ev4 as _ _ _ <-; exact S|]. apply k_walk2_st in Ev4 as [[Y _] _]. eapply nl0; [exact Y|exact S]. }
  assert (S1 : n_red c1 = 0%nat) by (assert (Y := k_tail_pp_st _ _ _ _ _ _ Ev2); destruct Y as [Y _]; eapply nl0; [exact Y|exact S2]).
  apply k_take2_M in Ev0 as [A B]; [|exact Q|constructor|exact S1].
  assert (B' : MW (w1 :: eqs2 ++ rest)).
  { change (w1 :: eqs2 ++ rest) with ((w1 :: eqs2) ++ rest). apply Forall_app. change (w0 :: eqs ++ rest) with ((w0 :: eqs) ++ rest) in B. apply Forall_app in B as [B1 B2]. split; [|exact B2].
    eapply Permutation_Forall; [apply Permutation_sym; exact Sm|exact B1]. }
  assert (Q2 : MW ((eqs2 ++ rest) ++ q1)) by (apply Forall_app; split; [exact (Forall_inv_tail B')|exact A]).
  assert (Mp := k_tail_pp_M _ _ _ _ _ _ (Forall_inv B') Ev2 S2). cbn [fst] in Mp.
  assert (X : MW q3 /\ MI t3).
  { destruct (deg v <? if (pref =? 0)%nat then deg v else pref)%nat.
    - bnd Ev4. destruct (get_wrap js2 (wlm w')); [|discriminate]. injection Ev4 as <- <- <- <-. split; [eapply back_M; eassumption|]. constructor; [exact Mp|constructor].
    - destruct T as [|x T]; [injection Ev4 as <- <- <- <-; split; [exact Q2|constructor; [exact Mp|constructor]]|].
      eapply k_walk2_M; [| | | |exact Ev4|exact S]; [exact Q2|constructor|exact Mp|exact K]. }
  destruct X as [X1 X2]. eapply IH; eassumption.
Qed.
End P.

(** With pushes only before the call *)
Theorem c88_tq2_reduction t o n F s fuel J c' : k_history t o n (fun _ => False) F s -> k_tq2 fuel false s = Ok (J, c') -> n_red c' = 0%nat -> j2one J = None ->
  forall x, In x (j2t J) -> exists f, In f F /\ monomial_multiple n f (item_poly x).
Proof.
  intros H E Z O x Ix.
  assert (G : jone (fst s) = None /\ jt (fst s) = [] /\ Forall (fun u => mult t o n F (terms (wpol u))) (jq (fst s))).
  { clear J c' E Z O x Ix. induction H as [|F s a s' H IH R E|F s y fu s' H IH Ax E]; [split; [reflexivity|split; [reflexivity|constructor]]| |contradiction].
    destruct IH as (O1 & T1 & I1). unfold k_push in E. bnd E. injection E as <-. cbn [fst snd] in *. unfold jp_push, assert_ in Ev. cbn [andb] in Ev. rewrite O1 in Ev.
    assert (J1 : Forall (fun u => mult t o n (a :: F) (terms (wpol u))) (jq (fst s))) by (eapply Forall_impl; [|exact I1]; intros; apply mult_more; assumption).
    destruct (is_zero a); [injection Ev as <-; auto|]. bnd Ev. bnd Ev. bnd Ev. injection Ev as <-. cbn [jq jt jone]. split; [reflexivity|]. split; [exact T1|]. apply jp_insert_perm in Ev2.
    eapply Permutation_Forall; [apply Permutation_sym; exact Ev2|]. constructor; [|exact J1]. cbn [wpol]. unfold p_copy, checked in Ev1. rewrite map_id in Ev1.
    assert (X : terms v1 = terms a) by (match type of Ev1 with (if ?b then _ else _) = _ => destruct b; [|try discriminate] | _ => idtac end; try (apply assert_inv in Ev1); injection Ev1 as <-; reflexivity).
    rewrite X. apply mult_new. exact R. }
  destruct G as (O1 & T1 & Q1). unfold k_tq2 in E. rewrite O1 in E. cbv zeta in E. rewrite set_pos_t, set_pos_q, T1 in E. cbn [map] in E.
  assert (Y : Forall (fun x => mult t o n F (terms (item_poly x))) (j2t J)).
  { destruct (jtrees (set_pos (fst s))).
    - eapply k_tq2_M; [intros k l0; apply mult_var|exact Q1|constructor|exact E|exact Z|exact O].
    - destruct (jq (fst s)); [|discriminate]. injection E as <- _. constructor. }
  rewrite Forall_forall in Y. destruct (Y x Ix) as (f & e & If & _ & Le & Et). exists f. split; [exact If|]. exists e. auto.
Qed.

(* ---------------------------------------------------------------- in terms of the basis *)
Theorem c88_tq2_elements t o n F s fuel J c' : (0 < n)%nat -> o <> OAlex -> k_history t o n (eq ATQ1) F s -> k_tq2 fuel false s = Ok (J, c') -> j2one J = None ->
  (nonzero F <= length (basis2 J) + n_zero c')%nat.
Proof. intros Hn Ho H E O. unfold basis2. rewrite O, map_length. eapply c88_tq2_lost; eassumption. Qed.
Theorem c88_tq2_red t o n F s fuel J c' : k_history t o n (fun _ => False) F s -> k_tq2 fuel false s = Ok (J, c') -> n_red c' = 0%nat -> j2one J = None ->
  forall p, In p (basis2 J) -> exists f, In f F /\ monomial_multiple n f p.
Proof. intros H E Z O p Ip. unfold basis2 in Ip. rewrite O in Ip. apply in_map_iff in Ip as (x & <- & Ix). eapply c88_tq2_reduction; eassumption. Qed.
Theorem c88_tq2_same fuel dbg s : forget (k_tq2 fuel dbg s) = jp_tq2 fuel dbg (fst s).
Proof. apply k_tq2_same. Qed.
