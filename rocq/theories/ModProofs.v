(** Positions and trees of JanetPolyInt, for polynomials with any positions; linear functionals that vanish on a module. *)
From Coq Require Import ZArith List Bool Arith Lia Permutation.
From Verif Require Import Outcome MonomModel MonomSpec PolyModel PolySpec PolyProofs IdealProofs JanetModel JanetPolyModel JanetPolySpec TQModel AncProofs ModSpec.
Import ListNotations.
Local Open Scope Z_scope.

(* ------------------------------------------------------------------------------------------ *)
(** * The number of trees *)

Lemma tree_at_len dbg js p J : tree_at dbg js p = Ok J -> (Z.to_nat (p + 1) < length js)%nat.
Proof.
  unfold tree_at, oob. destruct (p <? -1); [destruct dbg; discriminate|]. destruct (nth_error js (Z.to_nat (p + 1))) eqn:E; [|destruct dbg; discriminate].
  intros _. apply nth_error_Some. congruence.
Qed.
Lemma put_len (js : list janet) k J : (k < length js)%nat -> length (firstn k js ++ J :: skipn (S k) js) = length js.
Proof. intro H. rewrite app_length, firstn_length. cbn [length]. rewrite skipn_length. lia. Qed.
Lemma enter_len dbg : forall l js js' new, enter dbg js l = Ok (js', new) -> length js' = length js.
Proof.
  induction l as [|u l IH]; intros js js' new E; cbn [enter] in E; [congruence|]. bnd E. bnd E. bnd E. apply tree_at_len in Ev1. bnd E. bnd E.
  injection E as <- _. destruct v3 as [a b]. apply IH in Ev3. cbn [fst]. rewrite Ev3. apply put_len. exact Ev1.
Qed.
Lemma enter_w_len dbg js u js' w : enter_w dbg js u = Ok (js', w) -> length js' = length js.
Proof. unfold enter_w. intro E. bnd E. bnd E. apply tree_at_len in Ev0. bnd E. injection E as <- _. apply put_len. exact Ev0. Qed.
Lemma upd_len f m js : length (upd_trees f m js) = length js.
Proof. unfold upd_trees. apply map_length. Qed.
Lemma prolong_len dbg mpos : forall cnt k js w p q js' q', jp_prolong dbg mpos cnt k js w p q = Ok (js', q') -> length js' = length js.
Proof.
  induction cnt as [|cnt IH]; intros k js w p q js' q' E; cbn [jp_prolong] in E; [congruence|]. bnd E. bnd E. destruct (v && negb v0); [|eapply IH; exact E].
  bnd E. destruct (match v1 with Some d => _ | None => false end).
  - bnd E. apply IH in E. rewrite upd_len in E. exact E.
  - bnd E. destruct v2 as [a b]. bnd E. bnd E. apply IH in E. rewrite upd_len in E. exact E.
Qed.
Lemma prolong_if_len dbg mpos dg js e q r : prolong_if dbg mpos dg js e q = Ok r -> length (fst r) = length js.
Proof.
  unfold prolong_if, prolong_entry. destruct (deg (fst e) <=? dg)%nat; [|intro E; injection E as <-; reflexivity].
  destruct (get_wrap js (fst e)); [|discriminate]. destruct r as [a b]. intro E. eapply prolong_len. exact E.
Qed.
Lemma merge_len fuel dbg mpos dg : forall cnt js q d j k js' q' t', merge_loop cnt fuel dbg mpos dg js q d j k = Ok (js', q', t') -> length js' = length js.
Proof.
  induction cnt as [|cnt IH]; intros js q d j k js' q' t' E; cbn [merge_loop] in E; [destruct j, k; congruence|].
  destruct j as [|e j], k as [|e' k]; [congruence| | |].
  - bnd E. bnd E. apply prolong_if_len in Ev0. apply IH in E. congruence.
  - bnd E. apply assert_inv in E. bnd E. apply prolong_if_len in Ev0. apply IH in E. congruence.
  - bnd E. destruct (v <? 0).
    + bnd E. apply assert_inv in E. bnd E. apply prolong_if_len in Ev1. apply IH in E. congruence.
    + bnd E. bnd E. apply prolong_if_len in Ev1. apply IH in E. congruence.
Qed.
Lemma walk_len fuel dbg mpos dg : forall cnt js q d w k js' q' t', walk cnt fuel dbg mpos dg js q d w k = Ok (js', q', t') -> length js' = length js.
Proof.
  induction cnt as [|cnt IH]; intros js q d w k js' q' t' E; cbn [walk] in E; [destruct w, k; congruence|].
  destruct w as [e|], k as [|e' k]; [| | congruence|].
  - bnd E. bnd E. apply prolong_if_len in Ev0. apply IH in E. congruence.
  - bnd E. destruct (v <? 0); bnd E; bnd E; apply prolong_if_len in Ev1; apply IH in E; congruence.
  - bnd E. bnd E. apply prolong_if_len in Ev0. apply IH in E. congruence.
Qed.

(* ------------------------------------------------------------------------------------------ *)
(** * What a call leaves behind *)

Definition after (mpos : Z) (J : jpoly) : Prop :=
  jpos J = mpos /\ jq J = [] /\ (jone J = None -> exists js, jtrees J = Some js /\ Z.of_nat (length js) = mpos + 2).
Lemma set_one_after dbg t o n mpos J : set_one dbg t o n mpos = Ok J -> after mpos J.
Proof. unfold set_one. intro E. bnd E. bnd E. injection E as <-. split; [reflexivity|]. split; [reflexivity|]. cbn. discriminate. Qed.
Lemma block_after dbg mpos : forall fuel js q t J, Z.of_nat (length js) = mpos + 2 -> block_tq fuel dbg mpos js q t = Ok J -> after mpos J.
Proof.
  induction fuel as [|fuel IH]; intros js q t J L E; cbn [block_tq] in E; destruct q as [|u q]; try discriminate.
  1,2: injection E as <-; split; [reflexivity|]; split; [reflexivity|]; intros _; exists js; split; [reflexivity|exact L].
  bnd E. bnd E. destruct v0 as [[q1 tmp]|]; [|eapply set_one_after; exact E]. apply assert_inv in E. destruct tmp as [|x tmp]; [eapply IH; eassumption|].
  bnd E. destruct v0 as [[tmp2 q2] dg]. bnd E. destruct v0 as [js2 new]. bnd E. destruct v0 as [[js3 q3] t3]. bnd E. apply assert_inv in E.
  apply enter_len in Ev2. apply merge_len in Ev3. eapply IH; [|exact E]. congruence.
Qed.
Lemma tq_after one dbg mpos : forall fuel js q t J, Z.of_nat (length js) = mpos + 2 -> tq_loop one fuel dbg mpos js q t = Ok J -> after mpos J.
Proof.
  induction fuel as [|fuel IH]; intros js q t J L E; cbn [tq_loop] in E; destruct q as [|u q]; try discriminate.
  1,2: injection E as <-; split; [reflexivity|]; split; [reflexivity|]; intros _; exists js; split; [reflexivity|exact L].
  bnd E. bnd E. destruct v0 as [[q1 tmp]|]; [|eapply set_one_after; exact E]. apply assert_inv in E. destruct tmp as [|w0 tmp0]; [eapply IH; eassumption|].
  bnd E. bnd E. destruct v1 as [eqs rest]. bnd E. bnd E. destruct (swap_min v1 v2) as [w eqs2]. destruct (one && negb (length eqs2 =? 0)%nat).
  - bnd E. bnd E. bnd E. apply assert_inv in E. eapply IH; eassumption.
  - apply assert_inv in E. bnd E. destruct v3 as [js2 w']. bnd E. destruct v3 as [[js3 q3] t3]. bnd E. apply assert_inv in E. apply enter_w_len in Ev5.
    eapply IH; [|exact E]. destruct t as [|e t]; [injection Ev6 as <- _ _; congruence|apply walk_len in Ev6; congruence].
Qed.

(* ------------------------------------------------------------------------------------------ *)
(** * The largest position *)

Lemma fold_max {A} (g : A -> Z) l : forall s, let r := fold_left (fun r x => if r <? g x then g x else r) l s in
  s <= r /\ (forall x, In x l -> g x <= r) /\ (r = s \/ exists x, In x l /\ g x = r).
Proof.
  induction l as [|x l IH]; intro s; cbn [fold_left]; cbv zeta; [split; [lia|]; split; [intros ? []|left; reflexivity]|].
  destruct (IH (if s <? g x then g x else s)) as (A1 & A2 & A3). destruct (Z.ltb_spec s (g x)).
  - split; [lia|]. split; [intros y [<- | Y]; [exact A1|apply A2; exact Y]|]. right. destruct A3 as [A3|(y & Y & A3)]; [exists x; split; [left; reflexivity|congruence]|exists y; split; [right; exact Y|exact A3]].
  - split; [exact A1|]. split; [intros y [<- | Y]; [lia|apply A2; exact Y]|]. destruct A3 as [A3|(y & Y & A3)]; [left; exact A3|right; exists y; split; [right; exact Y|exact A3]].
Qed.
Lemma maxPos_spec p : -1 <= p_maxPos p /\ (forall x, In x (terms p) -> pos (fst x) <= p_maxPos p) /\ (p_maxPos p = -1 \/ exists x, In x (terms p) /\ pos (fst x) = p_maxPos p).
Proof. exact (fold_max (fun x : monom * Z => pos (fst x)) (terms p) (-1)). Qed.
Lemma q_pos_spec q : -1 <= q_pos q /\ (forall u, In u q -> p_maxPos (wpol u) <= q_pos q) /\ (q_pos q = -1 \/ exists u, In u q /\ p_maxPos (wpol u) = q_pos q).
Proof. exact (fold_max (fun u => p_maxPos (wpol u)) q (-1)). Qed.
Lemma q_pos_cons q q' w : Permutation q' (w :: q) -> q_pos q' = Z.max (p_maxPos (wpol w)) (q_pos q).
Proof.
  intro P. destruct (q_pos_spec q) as (A1 & A2 & A3), (q_pos_spec q') as (B1 & B2 & B3), (maxPos_spec (wpol w)) as (C1 & _).
  assert (X : p_maxPos (wpol w) <= q_pos q') by (apply B2; eapply Permutation_in; [apply Permutation_sym; exact P|left; reflexivity]).
  assert (Y : q_pos q <= q_pos q').
  { destruct A3 as [->|(u & U & <-)]; [exact B1|]. apply B2. eapply Permutation_in; [apply Permutation_sym; exact P|right; exact U]. }
  destruct B3 as [B3|(u & U & B3)]; [lia|]. apply (Permutation_in _ P) in U. destruct U as [<- | U]; [lia|]. specialize (A2 u U). lia.
Qed.

(** The largest position of the polynomials of F *)
Definition fpos (F : list poly) : Z := fold_right (fun f r => Z.max (p_maxPos f) r) (-1) F.
Lemma fpos_spec F : largest_position F (fpos F).
Proof.
  induction F as [|f F (A1 & A2 & A3)]; cbn [fpos fold_right]; [split; [lia|]; split; [intros ? ? []|left; reflexivity]|]. fold (fpos F).
  destruct (maxPos_spec f) as (B1 & B2 & B3). split; [lia|]. split.
  - intros g x [<- | G] X; [specialize (B2 x X); lia|]. specialize (A2 g x G X). lia.
  - destruct (Z.max_spec (p_maxPos f) (fpos F)) as [[_ ->] | [_ ->]].
    + destruct A3 as [A3|(g & x & G & X & A3)]; [left; exact A3|right; exists g, x; split; [right; exact G|auto]].
    + destruct B3 as [B3|(x & X & B3)]; [left; exact B3|right; exists f, x; split; [left; reflexivity|auto]].
Qed.
Lemma largest_unique F a b : largest_position F a -> largest_position F b -> a = b.
Proof.
  intros (A1 & A2 & A3) (B1 & B2 & B3). destruct A3 as [->|(f & x & Hf & X & <-)], B3 as [->|(g & y & G & Y & <-)]; try lia.
  - specialize (A2 g y G Y). lia.
  - specialize (B2 f x Hf X). lia.
  - specialize (A2 g y G Y). specialize (B2 f x Hf X). lia.
Qed.

(** The invariant of an object whose basis is not 1 *)
Definition pinv (F : list poly) (J : jpoly) : Prop :=
  jone J = None -> Z.max (jpos J) (q_pos (jq J)) = fpos F /\
    ((jtrees J = None /\ jpos J = -2 /\ jt J = []) \/ exists js, jtrees J = Some js /\ Z.of_nat (length js) = jpos J + 2 /\ -1 <= jpos J).

Lemma maxPos_zero a : is_zero a = true -> p_maxPos a = -1.
Proof. unfold is_zero, p_maxPos. destruct (terms a); [reflexivity|discriminate]. Qed.
Lemma copy_pos dbg a c : p_copy dbg a = Ok c -> p_maxPos c = p_maxPos a.
Proof. unfold p_copy, checked. intro E. apply assert_inv in E. injection E as <-. unfold p_maxPos. cbn [with_terms terms]. rewrite map_id. reflexivity. Qed.
Lemma push_pinv dbg F J a J' : pinv F J -> jp_push dbg J a = Ok J' -> pinv (a :: F) J'.
Proof.
  intros I E. unfold jp_push in E. apply assert_inv in E. destruct (jone J) eqn:E1; [injection E as <-; intro X; congruence|]. destruct (I E1) as [I1 I2].
  cbn [pinv fpos fold_right]. unfold pinv. cbn [fpos fold_right]. fold (fpos F). destruct (is_zero a) eqn:Z.
  - injection E as <-. intros _. rewrite (maxPos_zero a Z). assert (X := proj1 (fpos_spec F)). split; [lia|exact I2].
  - bnd E. bnd E. bnd E. injection E as <-. intros _. cbn [jpos jq jtrees jt]. apply jp_insert_perm, q_pos_cons in Ev1. cbn [wpol] in Ev1. rewrite (copy_pos _ _ _ Ev0) in Ev1.
    split; [lia|exact I2].
Qed.
Lemma set_pos_pinv F J : pinv F J -> jone J = None -> let J' := set_pos J in
  jpos J' = fpos F /\ jone J' = None /\ exists js, jtrees J' = Some js /\ Z.of_nat (length js) = jpos J' + 2.
Proof.
  intros I E. destruct (I E) as [I1 I2]. cbv zeta. unfold set_pos. destruct (q_pos_spec (jq J)) as (A1 & _). destruct (Z.ltb_spec (jpos J) (q_pos (jq J))).
  - cbn [jpos jone jtrees]. split; [lia|]. split; [exact E|]. eexists. split; [reflexivity|]. rewrite app_length, repeat_length.
    destruct I2 as [(-> & P & _)|(js & -> & L & P)]; [cbn [length]; lia|]. rewrite firstn_length. lia.
  - split; [lia|]. split; [exact E|]. destruct I2 as [(X & Y & _)|(js & X & L & _)]; [lia|]. exists js. auto.
Qed.
Lemma call_pinv F J J' : pinv F J -> jone J = None -> after (jpos (set_pos J)) J' -> jpos J' = fpos F /\ pinv F J'.
Proof.
  intros I E (A1 & A2 & A3). destruct (set_pos_pinv F J I E) as (B1 & _ & _). split; [congruence|]. intro O. rewrite A2. destruct (A3 O) as (js & T & L).
  assert (X := proj1 (fpos_spec F)). cbn [q_pos fold_left]. split; [change (q_pos []) with (-1); lia|]. right. exists js. split; [exact T|]. split; [congruence|lia].
Qed.
Lemma build_pinv fuel dbg F J J' : pinv F J -> jp_build fuel dbg J = Ok J' -> pinv F J' /\ (jone J = None -> jpos J' = fpos F).
Proof.
  intros I E. unfold jp_build in E. destruct (jone J) eqn:E1; [injection E as <-; split; [exact I|discriminate]|]. destruct (set_pos_pinv F J I E1) as (B1 & B2 & js & B3 & B4).
  rewrite B3 in E. apply block_after in E; [|exact B4]. destruct (call_pinv F J J' I E1 E). split; [assumption|intros _; assumption].
Qed.
Lemma tq_pinv one fuel dbg F J J' : pinv F J -> jp_tq one fuel dbg J = Ok J' -> pinv F J' /\ (jone J = None -> jpos J' = fpos F).
Proof.
  intros I E. unfold jp_tq in E. destruct (jone J) eqn:E1; [injection E as <-; split; [exact I|discriminate]|]. destruct (set_pos_pinv F J I E1) as (B1 & B2 & js & B3 & B4).
  rewrite B3 in E. apply tq_after in E; [|exact B4]. destruct (call_pinv F J J' I E1 E). split; [assumption|intros _; assumption].
Qed.
Lemma history_pinv dbg P F J : any_history dbg P F J -> pinv F J.
Proof.
  induction 1; [|eapply push_pinv; eassumption|eapply (proj1 (build_pinv _ _ _ _ _ IHany_history H0))|eapply (proj1 (tq_pinv _ _ _ _ _ _ IHany_history H0))].
  intros _. cbn. split; [reflexivity|]. left. auto.
Qed.
Lemma built_position dbg P F J fuel J' : any_history dbg P F J -> jone J = None -> jp_build fuel dbg J = Ok J' \/ (exists one, jp_tq one fuel dbg J = Ok J') ->
  largest_position F (jpos J').
Proof.
  intros H O [E|(one & E)]; apply history_pinv in H; [apply (build_pinv fuel dbg F J J' H) in E|apply (tq_pinv one fuel dbg F J J' H) in E]; destruct E as [_ E]; rewrite (E O); apply fpos_spec.
Qed.
Lemma tree_of dbg P F J js m : any_history dbg P F J -> jtrees J = Some js -> jone J = None -> -1 <= m <= jpos J -> exists T, tree_at dbg js m = Ok T.
Proof.
  intros H T O M. destruct (history_pinv _ _ _ _ H O) as [_ [(X & _)|(js' & X & L & _)]]; [congruence|]. assert (js' = js) by congruence. subst js'.
  unfold tree_at. destruct (Z.ltb_spec m (-1)); [lia|]. destruct (nth_error js (Z.to_nat (m + 1))) eqn:E; [eauto|]. apply nth_error_None in E. lia.
Qed.

(* ------------------------------------------------------------------------------------------ *)
(** * Linear functionals *)

(** f is multiplied with a factor that depends on the multiplier only *)
Definition scales (n : nat) (f : monom -> Z) : Prop := forall u, length u = n -> exists k, forall m, f (mprod (Mon (-1) u) m) = k * f m.
Lemma shift_sum f u k l : (forall m, f (mprod (Mon (-1) u) m) = k * f m) -> sumc f (shift u l) = k * sumc f l.
Proof. intro H. unfold shift. induction l as [|[m c] l IH]; cbn [map sumc fst snd]; [lia|]. rewrite H, IH. lia. Qed.
Lemma sum_scaled f k p q : (forall m, coef q m = k * coef p m) -> sumc f q = k * sumc f p.
Proof.
  intro H. rewrite <- sumc_scale. apply sumc_coef. intro m. rewrite H. unfold scale. rewrite !coef_sumc. symmetry. exact (sumc_scale (ind m) k p).
Qed.
Lemma combination_vanishes n f (G : list term -> Prop) p : scales n f -> (forall g, G g -> sumc f g = 0) -> combination n G p -> sumc f p = 0.
Proof.
  intros S V H. induction H as [p Z|p q u g c H IH Hg L E].
  - rewrite (sumc_coef f p []); [reflexivity|exact Z].
  - destruct (S u L) as [k K]. rewrite (sumc_coef f p (q ++ scale c (shift u g))).
    + rewrite sumc_app, IH, sumc_scale, (shift_sum f u k) by exact K. rewrite (V g Hg). lia.
    + intro m. rewrite E, !coef_sumc, sumc_app, sumc_scale. reflexivity.
Qed.
Lemma not_member n f (G : list term -> Prop) p : scales n f -> (forall g, G g -> sumc f g = 0) -> sumc f p <> 0 -> ~ rational_member n G p.
Proof.
  intros S V N (k & q & K & C & E). apply (combination_vanishes n f G q S V) in C. rewrite (sum_scaled f k p q E) in C. nia.
Qed.
