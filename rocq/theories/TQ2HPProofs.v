(** algorithmTQ2 with the Hilbert polynomial it prints. *)
From Coq Require Import ZArith List Bool Arith QArith Lia Permutation.
From Verif Require Import Outcome MonomModel MonomSpec MonomProofs PolyModel PolySpec PolyProofs PolyRedProofs PolyNfProofs
  JanetModel JanetSpec JanetProofs JanetFindProofs JanetTopProofs GBProofs JanetPolyModel TQModel JanetPolySpec IdealProofs JanetPolyProofs TQProofs JanetPolyTop
  HilbertModel HilbertSpec HilbertProofs InvolutiveProofs InvolutiveTop JanetPolyHPModel JanetPolyHPProofs AncProofs TQ2HPModel TQ2HPSpec.
Import ListNotations.
Local Open Scope nat_scope.

Lemma okw_multi n w : okw n w -> multi w <= n.
Proof. intros (_ & L2 & _). unfold multi. rewrite <- L2. apply filter_le. Qed.

Section S.
Variables (t : pos_order) (o : base_order) (n : nat).
Hypothesis Hn : 0 < n.
Hypothesis Ho : o <> OAlex.

Lemma item_wrap_ok G Ja T x : tinv t o n G Ja (atts T) -> Forall (oki t o n G) T -> In x T ->
  exists w, item_wrap [Ja] x = Ok w /\ okw n w /\ wlm w = item_lm x.
Proof.
  intros H Oi I. destruct x as [e|w]; cbn [item_wrap item_lm].
  - assert (Ie : In e (atts T)) by (unfold atts; apply in_flat_map; exists (Att e); split; [exact I|left; reflexivity]).
    destruct (get_wrap_ok t o n G Ja (atts T) e H Ie) as (w & Ew & Iw & Em). rewrite Ew. exists w. split; [reflexivity|]. split; [|exact Em].
    destruct (wrap_okw t o n G Ja (atts T) w H Iw) as [O _]. exact O.
  - rewrite Forall_forall in Oi. destruct (Oi _ I) as (_ & O & _). exists (wwrap w). auto.
Qed.
Lemma hp_loop_ok G Ja T : tinv t o n G Ja (atts T) -> Forall (oki t o n G) T -> forall l h u, incl l T -> length h = S n -> length u = S n ->
  exists h', jp2_hp_loop [Ja] l h u = Ok h'.
Proof.
  intros H Oi. induction l as [|x l IH]; intros h u I Lh Lu; cbn [jp2_hp_loop]; [exists h; reflexivity|].
  destruct (item_wrap_ok G Ja T x H Oi (I x (or_introl eq_refl))) as (w & Ew & Ow & _). rewrite Ew. cbn [bind]. apply okw_multi in Ow. cbv zeta.
  destruct (hp_binomial_ok u (Z.of_nat (multi w) - Z.of_nat (deg (item_lm x))) (multi w)) as (r & Er & Lr & _); [lia|]. rewrite Er. cbn [bind].
  destruct (hp_sub_ok h r) as (h1 & E1 & L1 & _); [lia|]. rewrite E1. cbn [bind]. apply IH; [intros y Iy; apply I; right; exact Iy|lia..].
Qed.
Lemma build_hp2_ok G J : jstate2 t o n G J -> j2one J = None -> j2t J <> [] -> exists h, jp2_build_hp false J hp_none = Ok h.
Proof.
  intros S E N. unfold jstate2 in S. rewrite E in S. destruct S as [(_ & X)|(Ja & E1 & E2 & Ti & Oi)]; [contradiction|]. unfold jp2_build_hp. unfold assert_ at 1. cbn [andb].
  destruct (j2t J) as [|x T] eqn:Et; [contradiction|]. rewrite E1, E2.
  destruct (item_wrap_ok G Ja (x :: T) x Ti Oi (or_introl eq_refl)) as (w & _ & Ow & Em). assert (Sz : size (item_lm x) = n) by (rewrite <- Em; apply Ow). rewrite Sz.
  unfold hp_setDim, assert_. cbn [andb bind hp_none]. assert (Ln : length (hp_new n) = S n) by apply repeat_length.
  destruct (hp_binomial_ok (hp_new n) (Z.of_nat n) n) as (r & Er & Lr & _); [lia|]. rewrite Er. cbn [bind].
  destruct (hp_mult_ok r (-1 + 2)) as (Lm & _). eapply hp_loop_ok; [exact Ti|exact Oi|apply incl_refl|lia|exact Ln].
Qed.

Lemma nothing_generated q : combination n (among []) q -> forall m, coef q m = 0%Z.
Proof. induction 1 as [p H|p q u g c Hq IH (f & [] & _)]. exact H. Qed.
Lemma zero_member f : ring_input t o n f -> rational_member n (among []) (terms f) -> terms f = [].
Proof.
  intros (V & _) (k & q & Nk & C & E). destruct (terms f) as [|[x c] l] eqn:Ef; [reflexivity|exfalso]. unfold valid_poly in V. rewrite Ef in V.
  destruct (canonical_coef _ _ _ _ x c V (or_introl eq_refl)) as [E1 N1]. assert (X := E x). rewrite (nothing_generated q C x), E1 in X. nia.
Qed.
Lemma history_inputs F J : jp_history false t o n F J -> forall f, In f F -> ring_input t o n f.
Proof. induction 1 as [|F J a J' H IH R E|F J fuel J' H IH E|F J one fuel J' H IH E]; [intros f []|intros f [<-|I]; [exact R|apply IH; exact I]|exact IH..]. Qed.

Lemma empty_iff F J fuel J2 : jp_history false t o n F J -> jp_tq2 fuel false J = Ok J2 ->
  (basis2 J2 = [] <-> forall f, In f F -> terms f = []).
Proof.
  intros H E. destruct (c53_tq2 t o n F J fuel J2 Hn Ho H E) as [A B]. split.
  - intros N f If. apply zero_member; [eapply history_inputs; eassumption|]. rewrite N in B. apply B. exact If.
  - intro Z. destruct (basis2 J2) as [|g l] eqn:Eb; [reflexivity|exfalso]. destruct (A g (or_introl eq_refl)) as (R & N & M). apply N. apply zero_member; [exact R|].
    assert (X : forall q, combination n (among F) q -> forall m, coef q m = 0%Z).
    { induction 1 as [p Hp|p q u g' c Hq IH (f & If & <-) Lu Hp]; [exact Hp|]. intro m. rewrite Hp, IH, (Z f If). cbn. lia. }
    destruct M as (k & q & Nk & C & Ek). exists k, []. split; [exact Nk|]. split; [constructor; reflexivity|]. intro m. rewrite <- Ek, (X q C m). reflexivity.
Qed.

(** It ends with a result unless nothing but 0 was pushed. *)
Theorem c89_ends F J fuel : jp_history false t o n F J ->
  ((exists r, jp_tq2_print fuel false J = Ok r) \/ jp_tq2_print fuel false J = OutOfFuel) \/ (jp_tq2_print fuel false J = Undef /\ forall f, In f F -> terms f = []).
Proof.
  intro H. destruct (history_state t o n F J Hn Ho H) as (S0 & _). assert (X := tq2_ok t o n (among F) Hn Ho fuel J S0). unfold jp_tq2_print.
  destruct (jp_tq2 fuel false J) as [J2| | | |] eqn:E; cbn [safe bind] in *; try contradiction; [|left; right; reflexivity]. destruct X as [S _].
  destruct (j2one J2) as [w|] eqn:Eo; [left; left; eexists; reflexivity|].
  destruct (j2t J2) as [|x T] eqn:Et.
  - right. split; [unfold jp2_build_hp; rewrite Et, Eo; unfold assert_; cbn [andb bind]; reflexivity|]. apply (empty_iff F J fuel J2 H E). unfold basis2. rewrite Eo, Et. reflexivity.
  - left. left. destruct (build_hp2_ok _ J2 S Eo) as (h & Eh); [rewrite Et; discriminate|]. rewrite Eh. cbn [bind]. eexists. reflexivity.
Qed.
Lemma zero_history F J : jp_history false t o n F J -> (forall f, In f F -> terms f = []) -> jone J = None /\ jq J = [] /\ jt J = [].
Proof.
  induction 1 as [|F J a J' H IH R E|F J fuel J' H IH E|F J one fuel J' H IH E]; intro Z.
  - repeat split.
  - destruct IH as (A & B & C); [intros f If; apply Z; right; exact If|]. unfold jp_push, assert_ in E. cbn [andb] in E. rewrite A in E. unfold is_zero in E. rewrite (Z a (or_introl eq_refl)) in E. injection E as <-. auto.
  - destruct (IH Z) as (A & B & C). unfold jp_build in E. rewrite A in E. unfold set_pos in E. rewrite B in E. cbn zeta in E.
    destruct (jpos J <? q_pos [])%Z; cbn [jtrees jq jt jpos] in E; rewrite ?B, ?C in E; [|destruct (jtrees J); cbn in E; rewrite ?C in E]; destruct fuel; injection E as <-; auto.
  - destruct (IH Z) as (A & B & C). unfold jp_tq in E. rewrite A in E. unfold set_pos in E. rewrite B in E. cbn zeta in E.
    destruct (jpos J <? q_pos [])%Z; cbn [jtrees jq jt jpos] in E; rewrite ?B, ?C in E; [|destruct (jtrees J); cbn in E; rewrite ?C in E]; destruct fuel; injection E as <-; auto.
Qed.
Theorem c89_crash F J fuel : jp_history false t o n F J -> (forall f, In f F -> terms f = []) -> jp_tq2_print fuel false J = Undef.
Proof.
  intros H Z. destruct (zero_history F J H Z) as (A & B & C). destruct (c89_ends F J fuel H) as [[[r E]|E]|[E _]]; auto; exfalso; unfold jp_tq2_print in E.
  - destruct (jp_tq2 fuel false J) as [J2| | | |] eqn:E2; cbn [bind] in E; try discriminate.
    assert (N := proj2 (empty_iff F J _ J2 H E2) Z). unfold basis2 in N. destruct (j2one J2) as [w|] eqn:Eo; [discriminate|]. destruct (j2t J2) as [|x T] eqn:Et; [|discriminate].
    unfold jp2_build_hp in E. rewrite Eo, Et in E. unfold assert_ in E. cbn [andb bind] in E. discriminate.
  - unfold jp_tq2 in E. rewrite A in E. unfold set_pos in E. rewrite B in E. cbn zeta in E.
    destruct (jpos J <? q_pos [])%Z; cbn [jtrees jq jt jpos] in E; rewrite ?B, ?C in E; [|destruct (jtrees J); cbn in E; rewrite ?C in E]; destruct fuel; cbn in E; discriminate.
Qed.

(** With all elements in trees the value is the one of C52. *)
Lemma hp_loop_atts js : forall l h u, jp2_hp_loop js (map Att l) h u = jp_hp_loop js l h u.
Proof.
  induction l as [|e l IH]; intros h u; cbn [map jp2_hp_loop jp_hp_loop item_wrap item_lm]; [reflexivity|]. destruct (get_wrap js (fst e)) as [w|]; cbn [bind]; [|reflexivity]. cbv zeta.
  destruct (hp_binomial u (Z.of_nat (multi w) - Z.of_nat (deg (fst e))) (multi w)) as [r| | | |]; cbn [bind]; try reflexivity. destruct (hp_sub h r); cbn [bind]; try reflexivity. apply IH.
Qed.
Lemma all_atts l : (forall x, In x l -> exists e, x = Att e) -> l = map Att (atts l).
Proof.
  induction l as [|x l IH]; intro A; [reflexivity|]. destruct (A x (or_introl eq_refl)) as [e ->]. cbn [atts flat_map app map]. f_equal. apply IH. intros y Iy. apply A. right. exact Iy.
Qed.
Theorem c89_count F J fuel J2 h : jp_history false t o n F J -> jp_tq2_print fuel false J = Ok (J2, Some h) -> all_in_trees J2 ->
  length h = S n /\ Forall lowest_terms h /\
  forall s, (forall g, In g (basis2 J2) -> total (lead g) <= s) ->
    exists k, number_of n s (fun m => forall u, ~ janet_divides n (map lead (basis2 J2)) u m) k /\ (peval h (inject_Z (Z.of_nat s)) == inject_Z (Z.of_nat k))%Q.
Proof.
  intros H E AA. destruct (history_state t o n F J Hn Ho H) as (S0 & _). set (A := fun _ : list term => True).
  assert (S1 : jstate t o n A J) by (eapply jstate_G; [|exact S0]; intros; exact I). assert (X := tq2_ok t o n A Hn Ho fuel J S1). unfold jp_tq2_print in E.
  destruct (jp_tq2 fuel false J) as [J2'| | | |]; cbn [safe bind] in *; try discriminate. destruct X as [S _].
  destruct (j2one J2') as [w|] eqn:Eo; [discriminate|]. destruct (jp2_build_hp false J2' hp_none) as [h'| | | |] eqn:Eh; cbn [bind] in E; try discriminate. injection E as -> ->.
  unfold jstate2 in S. rewrite Eo in S. destruct S as [(_ & X)|(Ja & E1 & E2 & Ti & Oi)]; [unfold jp2_build_hp in Eh; rewrite X in Eh; unfold assert_ in Eh; cbn [andb] in Eh; discriminate|].
  assert (Ea := all_atts _ AA). set (T := atts (j2t J2)) in *. assert (NT : T <> []) by (intro X; rewrite X in Ea; unfold jp2_build_hp in Eh; rewrite Ea in Eh; unfold assert_ in Eh; cbn [map andb] in Eh; discriminate).
  assert (Eh' : jp_build_hp false (JP None [] T (-1) (Some [Ja])) hp_none = Ok h).
  { rewrite <- Eh. unfold jp_build_hp, jp2_build_hp. rewrite Eo, E1, E2, Ea. cbn [jone jt jtrees jpos]. unfold assert_. cbn [andb]. destruct T as [|e T]; [contradiction|]. cbn [map item_lm].
    destruct (hp_setDim false hp_none (size (fst e))) as [h0| | | |]; cbn [bind]; try reflexivity. destruct (hp_binomial h0 (Z.of_nat (size (fst e))) (size (fst e))); cbn [bind]; try reflexivity.
    symmetry. apply (hp_loop_atts [Ja] (e :: T)). }
  destruct (build_hp_T t o n Hn Ja T false (JP None [] T (-1) (Some [Ja])) eq_refl eq_refl eq_refl eq_refl NT Ti) as (h2 & Eh2 & Lh & Th & V). rewrite Eh' in Eh2. injection Eh2 as <-.
  split; [exact Lh|]. split; [exact Th|].
  assert (Eb : map lead (basis2 J2) = map vars (map fst T)).
  { unfold basis2. rewrite Eo, Ea, map_map. cbn [item_poly]. rewrite map_map. rewrite <- (tinv_leads t o n A Ja T Ti). rewrite map_map. reflexivity. }
  assert (P : Permutation (lms (wraps (jroot Ja))) (map lead (basis2 J2))).
  { rewrite Eb. assert (P := Permutation_map vars (ti_perm _ _ _ _ _ _ Ti)). rewrite map_map in P. exact P. }
  intros s Hs. assert (Hs' : forall u, In u (wraps (jroot Ja)) -> total (lv u) <= s).
  { intros u Iu. assert (X : In (lv u) (map lead (basis2 J2))) by (eapply Permutation_in; [exact P|apply in_map; exact Iu]). apply in_map_iff in X as (g & <- & Ig). apply Hs. exact Ig. }
  assert (Ji := ti_inv _ _ _ _ _ _ Ti).
  destruct (count_cones n (jroot Ja) s Ji Hs') as (k & (L & L1 & L2 & L3) & C). exists k. split.
  - exists L. split; [exact L1|]. split; [exact L2|]. intro m. rewrite L3. split; intros (X & Y & Z); (split; [exact X|]; split; [exact Y|]); intros u D; apply (Z u); eapply perm_janet; try exact D; [apply Permutation_sym|]; exact P.
  - rewrite V. rewrite (sumq_sumn (uterm (inject_Z (Z.of_nat s))) (fun u => binom (s - total (lv u) + multi u) (multi u))).
    + rewrite <- inject_Z_plus, <- Nat2Z.inj_add, choose_binom. rewrite C, Nat2Z.inj_add, inject_Z_plus. ring.
    + intros u Iu. apply (uterm_binom n); [|apply Hs'; exact Iu]. assert (O : Forall (okw n) (wraps (jroot Ja))) by apply Ji. rewrite Forall_forall in O. apply O. exact Iu.
Qed.
End S.

Lemma hp_zip_noassert f a b : hp_zip f a b <> AssertFail.
Proof.
  revert b. induction a as [|x a IH]; intros [|y b]; cbn [hp_zip]; try discriminate. specialize (IH b). destruct (hp_zip f a b); cbn [bind]; congruence.
Qed.
Lemma hp_loop_noassert js : forall l h x, jp2_hp_loop js l h x <> AssertFail.
Proof.
  induction l as [|y l IH]; intros h x; cbn [jp2_hp_loop]; [discriminate|].
  assert (W : item_wrap js y <> AssertFail) by (unfold item_wrap; destruct y as [e|w0]; [destruct (get_wrap js (fst e))|]; discriminate).
  destruct (item_wrap js y) as [w| | | |]; cbn [bind]; try discriminate; [|congruence]. cbv zeta.
  unfold hp_binomial. destruct (Nat.ltb _ _); cbn [bind]; [|discriminate]. assert (Z := hp_zip_noassert (fun x y => Qred (x - y)) h). unfold hp_sub.
  match goal with |- context [hp_zip ?f h ?b] => specialize (Z b); destruct (hp_zip f h b) end; cbn [bind]; try discriminate; [apply IH|congruence].
Qed.
Lemma c89_assert J : (jp2_build_hp true J hp_none = AssertFail <-> j2one J <> None \/ j2t J = []) /\
  (j2one J = None -> j2t J <> [] -> jp2_build_hp true J hp_none = jp2_build_hp false J hp_none).
Proof.
  unfold jp2_build_hp. destruct (j2one J) as [w|], (j2t J) as [|x l]; unfold assert_; cbn [andb negb].
  - split; [|discriminate]. split; auto.
  - split; [|discriminate]. split; [left; discriminate|reflexivity].
  - split; [|intros _ N; destruct N; reflexivity]. split; auto.
  - split; [|reflexivity]. split; [|intros [N|N]; [destruct N; reflexivity|discriminate]]. intro E. exfalso. revert E. unfold hp_setDim, assert_, hp_none. cbn [andb negb bind]. cbv zeta.
    unfold hp_binomial. destruct (Nat.ltb _ _); cbn [bind]; [apply hp_loop_noassert|discriminate].
Qed.
