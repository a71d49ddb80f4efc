(** One variable: what completion computes, for all histories of an object. *)
From Coq Require Import ZArith List Bool Arith Lia Permutation Sorted.
From Verif Require Import Outcome MonomModel MonomSpec MonomProofs PolyModel PolySpec PolyProofs PolyRedProofs PolyNfProofs
  PolyTopProofs JanetModel JanetSpec JanetProofs JanetFindProofs CompletionProofs JanetPolyModel TQModel JanetPolySpec IdealProofs JanetPolyProofs
  TQProofs JanetPolyTop GrowthProofs JanetTermSpec JanetTermProofs JanetTermMain JanetTermTop ShapeSpec ShapeProofs ShapeTop
  InvolutiveProofs InvolutiveTop NormalSpec NormalProofs NormalTop UnivProofs UnivLoopProofs UnivStepProofs UnivRoundProofs UnivSpec.
Import ListNotations.
Local Open Scope Z_scope.

Section P.
Variables (t : pos_order) (o : base_order).
Hypothesis Ho : o <> OAlex.
Notation A := (fun _ : list term => True).
Notation one_lt := (le_n 1).

Lemma start_eq J : jstate t o 1 A J -> jone J = None ->
  start J = (match jtrees J with Some js => js | None => [jempty] end, jq J, jt J).
Proof.
  intros H E. unfold jstate in H. rewrite E in H. destruct H as [Q D]. unfold start, set_pos. rewrite (q_pos_ring t o 1 A _ Q).
  destruct D as [(D1 & D2 & D3)|(Ja & D1 & D2 & D3)].
  - rewrite D1, D2. change (-2 <? -1) with true. cbn iota.
    cbn [jtrees jpos jq jt firstn length app repeat Z.add Z.to_nat Z.opp Z.pos_sub Pos.pred_double]. cbn [Nat.sub Pos.to_nat].
    change (repeat jempty (Z.to_nat (-1 + 2) - 0)) with [jempty]. reflexivity.
  - rewrite D2. change (-1 <? -1) with false. cbn iota. rewrite D1. reflexivity.
Qed.

(** The invariant of the rounds holds of what a call starts from. *)
Definition ust (J : jpoly) : Prop := jone J = None -> uinv t o A (start J).

Lemma ust_empty : ust jp_empty.
Proof.
  intros _. exists jempty. split; [reflexivity|]. change (snd (fst (start jp_empty))) with (@nil wpoly). change (snd (start jp_empty)) with (@nil entry).
  split; [|split; [constructor|intros e []]]. split.
  - split; [apply jinv_nil|reflexivity|constructor|constructor|constructor].
  - constructor.
  - intros K _ _ w p [].
  - intros w [].
  - intros w [[]|[]].
  - intros w [].
Qed.

Lemma ust_push F J a J' : jp_history false t o 1 F J -> ring_input t o 1 a -> jp_push false J a = Ok J' -> ust J -> ust J'.
Proof.
  intros H Ra E U. assert (H' := hist_push _ _ _ _ _ _ _ _ H Ra E).
  assert (SJ := state_of t o 1 one_lt Ho F J H). assert (SJ' := state_of t o 1 one_lt Ho _ J' H').
  intro On'. rewrite (start_eq J' SJ' On').
  unfold jp_push, assert_ in E. cbn [andb] in E. destruct (jone J) as [w|] eqn:Eo; [injection E as <-; congruence|]. specialize (U Eo).
  rewrite (start_eq J SJ Eo) in U.
  destruct (is_zero a); [injection E as <-; exact U|].
  destruct (p_lm false a) as [m| | | |] eqn:El; cbn [bind] in E; try discriminate. destruct (p_copy false a) as [c| | | |] eqn:Ec; cbn [bind] in E; try discriminate.
  destruct (jp_insert false (jq J) _) as [q| | | |] eqn:Ei; cbn [bind] in E; try discriminate. injection E as <-. cbn [jtrees jq jt] in *.
  destruct U as (Ja & E1 & [C1 C2 C3 C4 C5 C6] & I1 & I2). cbn [fst snd] in *. exists Ja. cbn [fst snd]. split; [exact E1|].
  split; [|split; [exact I1|exact I2]]. unfold jstate in SJ'. cbn [jone jq jtrees jpos jt] in SJ'. destruct SJ' as [Q' _].
  assert (P : Permutation q (WP (new_wrap m) c :: jq J)).
  { rewrite copy_ok in Ec. injection Ec as <-. assert (Ra' : goodz t o 1 A a).
    { apply ring_input_goodz; [exact Ra|]. apply mem_gen; [exact Logic.I|eapply ring_input_monos; exact Ra]. }
    assert (Ga : good t o 1 A a).
    { split; [exact Ra'|]. intro Z. unfold p_lm in El. rewrite Z in El. discriminate. }
    destruct (good_hd t o 1 A a Ga) as [m0 Hm]. rewrite (hd_lm false a m0 Hm) in El. injection El as ->.
    destruct (insert_w t o 1 A one_lt false (jq J) (WP (new_wrap m) a)) as (q' & Eq & P & _); [exact Ga|apply okq_gw; exact C2|]. congruence. }
  assert (Sub : forall u, In u (jq J) -> In u q) by (intros u Iu; eapply Permutation_in; [apply Permutation_sym; exact P|right; exact Iu]).
  assert (Q : forall w, In w (map wwrap q) -> w = new_wrap m \/ In w (map wwrap (jq J))).
  { intros w Iw. apply in_map_iff in Iw as (u & <- & Iu). apply (Permutation_in _ P) in Iu as [<-|Iu]; [left; reflexivity|right; apply in_map; exact Iu]. }
  split; auto.
  - intros K Ad W. apply C3; [exact Ad|]. intros u Iu. apply W. auto.
  - intros w [Iw|Iw]; [apply C5; left; exact Iw|]. destruct (Q w Iw) as [->|Iw']; [left; reflexivity|apply C5; right; exact Iw'].
  - intros w Iw. destruct (Q w Iw) as [->|Iw']; [|apply C6; exact Iw']. unfold flag, new_wrap. cbn [wbuild]. rewrite nth_false. discriminate.
Qed.

Lemma ust_out J' : jstate t o 1 A J' -> uout t o A (inr J') -> ust J'.
Proof.
  intros SJ' [N|(E & Ja & Et & U)] On; [congruence|]. rewrite (start_eq J' SJ' On), Et. exact U.
Qed.

Lemma history_U F J : jp_history false t o 1 F J -> ust J.
Proof.
  induction 1 as [|F J a J' H IH Ra E|F J fuel J' H IH E|F J one fuel J' H IH E].
  - exact ust_empty.
  - eapply ust_push; eassumption.
  - assert (S0 := state_of t o 1 one_lt Ho F J H). assert (S1 := state_of t o 1 one_lt Ho F J' (hist_build _ _ _ _ _ _ _ _ H E)).
    destruct (jone J) as [w|] eqn:Eo; [unfold jp_build in E; rewrite Eo in E; injection E as <-; exact IH|].
    destruct (start_cases t o 1 A J S0) as [(w & E1 & X)|(R & X & _)]; [congruence|]. rewrite X in E.
    apply (ust_out J' S1). refine (run_U t o A _ block_run block_run_eq block_zero (block_round_U t o A Ho) fuel (start J) J' (IH Eo) E).
  - assert (S0 := state_of t o 1 one_lt Ho F J H). assert (S1 := state_of t o 1 one_lt Ho F J' (hist_tq _ _ _ _ _ _ _ _ _ H E)).
    destruct (jone J) as [w|] eqn:Eo; [unfold jp_tq in E; rewrite Eo in E; injection E as <-; exact IH|].
    destruct (start_cases t o 1 A J S0) as [(w & E1 & X)|(R & _ & X)]; [congruence|]. rewrite X in E.
    apply (ust_out J' S1). refine (run_U t o A _ (tq_run one) (tq_run_eq one) (tq_zero one) (tq_round_U t o A Ho one) fuel (start J) J' (IH Eo) E).
Qed.

Lemma c83_local F J : jp_history false t o 1 F J -> jq J = [] -> passes_local_test t o 1 J.
Proof.
  intros H Eq g i u x Ig Hi Nm Iv Rx Ex. assert (i = 0)%nat by lia. subst i.
  assert (Eu : u = [1%nat]).
  { destruct Iv as [L X]. destruct u as [|a [|b u]]; try discriminate. specialize (X 0%nat Hi). unfold expo in X. cbn in X. now subst. }
  subst u. assert (SJ := state_of t o 1 one_lt Ho F J H). assert (U := history_U F J H).
  destruct (jone J) as [w|] eqn:Eo.
  { destruct (c40_one t o 1 F J x one_lt Ho H Rx) as (N & r & E & Z); [congruence|]. exists N, r. split; [apply E; lia|exact Z]. }
  specialize (U Eo). rewrite (start_eq J SJ Eo) in U. destruct U as (Ja & _ & Co & _ & Cl). cbn [fst snd] in Co, Cl. rewrite Eq in Co.
  assert (Bj : basis J = map snd (jt J)) by (unfold basis; now rewrite Eo). assert (Ig' := Ig). rewrite Bj in Ig. apply in_map_iff in Ig as (e & <- & Ie).
  assert (Ti := c_ti _ _ _ _ _ _ Co).
  assert (Hd : forall e, In e (jt J) -> lead (snd e) = vars (fst e) /\ vars (fst e) = [deg (fst e)]).
  { intros e' Ie'. assert (Gg := ti_good _ _ _ _ _ _ Ti). rewrite Forall_forall in Gg. destruct (Gg e' Ie') as [[Ge _] (c & l & E)].
    destruct (goodz_mono t o 1 A (snd e') (fst e') Ge) as [[M _] _]; [rewrite E; left; reflexivity|]. split; [unfold lead; now rewrite E|apply vars_one; exact M]. }
  assert (Cv : covers (jt J) (S (deg (fst e)))).
  { destruct Nm as (z & Iz & _ & L). rewrite Bj in Iz. apply in_map_iff in Iz as (b & <- & Ib). apply in_map_iff in Ib as (e' & <- & Ie').
    destruct (Hd e Ie) as [X1 X2], (Hd e' Ie') as [Y1 Y2]. rewrite X1, X2, Y1, Y2 in L. unfold expo in L. cbn in L. exists e'. split; [exact Ie'|lia]. }
  destruct (Cl e Ie Cv) as (w & Iw & Ew & Fw).
  assert (HB := basis_ok t o 1 one_lt Ho F J H). assert (ND := c39_distinct t o 1 F J one_lt Ho H).
  set (K := fun (d : nat) (f : list term) => covers (jt J) d -> rs 1 (basis J) (fun _ => True) f).
  assert (Ad : adm K (jt J)).
  { split.
    - split.
      + intros d p Z _. apply rs_zero. exact Z.
      + intros d f h r a b c Na E Kf Kg C. apply (rs_lin 1 (basis J) _ f h r b c a Na); [apply Kf; exact C|apply Kg; exact C|exact E].
      + intros d d' p L Kp C. apply Kp. destruct C as (e' & Ie' & L'). exists e'. split; [exact Ie'|lia].
    - intros d p N C. contradiction.
    - intros e' Ie' _. apply (rs_div 1 (basis J) _ (terms (snd e')) (shift [0%nat] (terms (snd e'))) 1); [lia| |].
      + intro m. change [0%nat] with (repeat 0%nat 1). rewrite shift_unit; [lia|].
        apply (ring_input_monos t o). apply (HB (snd e')). rewrite Bj. apply in_map. exact Ie'.
      + apply (mult_rs t o 1 (basis J) HB ND); [rewrite Bj; apply in_map; exact Ie'|reflexivity|]. intros i Hi' L. assert (i = 0)%nat by lia. subst i. unfold expo in L. cbn in L. lia. }
  assert (R := c_ob _ _ _ _ _ _ Co K Ad (fun u (I : In u []) => match I with end) w (snd e) Iw Fw).
  rewrite Ew in R. specialize (R ltac:(destruct e; exact Ie) Cv).
  destruct (c40_nf t o 1 F J x one_lt Ho H Rx) as (N & r & E & _). exists N, r. split; [apply E; lia|].
  apply (c82_zero t o 1 one_lt Ho F J x N r H Rx (E N (le_n N))).
  destruct (rs_span t o 1 (basis J) HB ND _ R) as (k & p & Nk & Sp & Ep). exists k, p. split; [exact Nk|]. split; [exact Sp|].
  intro m. rewrite Ep, Ex. reflexivity.
Qed.

(** The first element of the basis. *)
Lemma lead_one F J g : jp_history false t o 1 F J -> In g (basis J) -> exists d c l, terms g = (Mon (-1) [d], c) :: l /\ lead g = [d].
Proof.
  intros H Ig. destruct (basis_ok t o 1 one_lt Ho F J H g Ig) as [Rg N]. assert (X := ring_input_monos t o 1 g Rg). destruct Rg as (_ & _ & _ & _ & R).
  destruct (terms g) as [|[m c] l] eqn:E; [congruence|]. assert (M := Forall_inv X). assert (Pm := Forall_inv R). cbn [fst] in M, Pm.
  exists (deg m), c, l. rewrite <- (one_var m M Pm). split; [reflexivity|]. unfold lead. rewrite E. apply vars_one. apply M.
Qed.

Lemma c83_first F J : jp_history false t o 1 F J -> basis J <> [] -> exists g, first_of (basis J) g.
Proof.
  intros H N. assert (As := c81_ascending t o 1 one_lt Ho F J H). assert (L1 := lead_one F J). 
  assert (L : forall g, In g (basis J) -> exists d, lead g = [d]) by (intros g Ig; destruct (L1 g H Ig) as (d & _ & _ & _ & X); exists d; exact X).
  clear L1. destruct (basis J) as [|g B]; [congruence|]. exists g, B. split; [reflexivity|]. intros b Ib. unfold ascending in As. inversion As as [|? ? _ Fa]; subst.
  rewrite Forall_forall in Fa. specialize (Fa b Ib). destruct (L g (or_introl eq_refl)) as (d & E1), (L b (or_intror Ib)) as (d' & E2). rewrite E1, E2 in *.
  unfold expo. cbn [nth]. unfold base_gt, lex_gt, degrevlex_gt, alex_gt, expo in Fa. destruct o; [| |congruence].
  - destruct Fa as (i & Li & _ & Lt). destruct i as [|[|i]]; cbn in Li, Lt; lia.
  - destruct Fa as [Lt|[Ed Et]]; [cbn in Lt; lia|]. exfalso. destruct Et as (i & Li & _ & Lt). cbn [total] in *. destruct i as [|[|i]]; cbn in Li, Lt; lia.
Qed.

Lemma c83_ideal F J g f : jp_history false t o 1 F J -> jq J = [] -> first_of (basis J) g -> ring_input t o 1 f ->
  (rational_member 1 (among F) (terms f) <-> multiple_of g f).
Proof.
  intros H Eq (B & Eb & Mn) Rf. assert (Ig : In g (basis J)) by (rewrite Eb; left; reflexivity).
  destruct (c39_members t o 1 F J g one_lt Ho H Ig) as (Rg & Ng & Mg).
  assert (Up : forall p, multiple_of g p -> rational_member 1 (among F) (terms p)).
  { intros p M. eapply mem_trans; [|exact M]. intros h (h' & [<-|[]] & <-). exact Mg. }
  split; [|apply Up]. intro M.
  destruct (lead_one F J g H Ig) as (d & cg & lg & Tg & Lg).
  set (find := fun m : monom => if (pos m =? -1) && (d <=? nth 0 (vars m) 0)%nat then Ok (Some g) else Ok None : outcome (option poly)).
  assert (GF : good_find false t o 1 (among [g]) find).
  { intros m Mm. unfold find. destruct (pos m =? -1) eqn:Pm; cbn [andb]; [|exists None; split; [reflexivity|discriminate]].
    destruct (d <=? nth 0 (vars m) 0)%nat eqn:Dm; [|exists None; split; [reflexivity|discriminate]]. exists (Some g). split; [reflexivity|].
    intros a Ea. injection Ea as <-. apply Z.eqb_eq in Pm. apply Nat.leb_le in Dm. destruct Rg as (V & Sz & T1 & O1 & R).
    split; [exact V|]. split; [exact Sz|]. split; [exact T1|]. split; [exact O1|]. split; [exists g; split; [left; reflexivity|reflexivity]|]. split.
    - split; [|discriminate]. unfold in_component. rewrite Pm. exact R.
    - exists (Mon (-1) [d]), cg, lg. split; [exact Tg|]. split; [left; reflexivity|]. cbn [vars]. split; [symmetry; apply Mm|]. intros [|i]; unfold expo; cbn [nth]; [exact Dm|destruct i; lia]. }
  destruct Rf as (V & Sz & T1 & O1 & R).
  destruct (nf_terminates false t o 1 _ find GF Ho f V (conj Sz (conj T1 O1))) as (N & r & k & Tr).
  destruct (nf_partial false t o 1 _ find GF N f 0%nat r (0 + k) V (conj Sz (conj T1 O1)) (Tr N 0%nat (le_n N))) as (Vr & Ir & Cr & Dr).
  assert (Gf : goodz t o 1 (among F) f) by (apply ring_input_goodz; [split; [exact V|split; [exact Sz|split; [exact T1|split; [exact O1|exact R]]]]|exact M]).
  assert (Gr : goodz t o 1 (among F) r).
  { apply (congruent_goodz t o 1 (among F) (among [g])) with (f := f); try assumption. intros h (h' & [<-|[]] & <-). split; [apply Rg|exact Mg]. }
  assert (Z : terms r = []).
  { destruct Dr as [Dr|(m & c & l & Er & Fm)]; [exact Dr|]. exfalso.
    destruct (goodz_mono t o 1 (among F) r m Gr) as [Mm Pm]; [rewrite Er; left; reflexivity|].
    assert (Nr : terms r <> []) by (rewrite Er; discriminate).
    destruct (c46_leading t o 1 one_lt Ho F J r H Eq (c83_local F J H Eq) (goodz_ring_input _ _ _ _ _ Gr) Nr) as (b & Ib & _ & Dv & _); [apply Gr|].
    specialize (Dv 0%nat one_lt). unfold lead at 2 in Dv. rewrite Er in Dv. unfold find in Fm. rewrite Pm in Fm. cbn [Z.eqb Z.opp Pos.eqb andb] in Fm.
    destruct (d <=? nth 0 (vars m) 0)%nat eqn:Dm; [discriminate|]. apply Nat.leb_gt in Dm.
    assert (L : (d <= expo (lead b) 0)%nat).
    { rewrite Eb in Ib. destruct Ib as [<-|Ib]; [rewrite Lg; apply le_n|]. specialize (Mn b Ib). rewrite Lg in Mn. unfold expo in *. cbn [nth] in Mn. lia. }
    unfold expo in *. lia. }
  destruct Cr as (k' & q & Nk & Cq & E). unfold multiple_of. exists k', (scale (-1) q). split; [exact Nk|]. split.
  - apply comb_scale. exact Cq.
  - intro m. specialize (E m). rewrite Z in E. cbn [coef] in E. rewrite coef_scale. lia.
Qed.

Lemma c83_gcd F J g : jp_history false t o 1 F J -> jq J = [] -> first_of (basis J) g -> is_gcd t o F g /\ rational_member 1 (among F) (terms g).
Proof.
  intros H Eq Fg. assert (Ig : In g (basis J)) by (destruct Fg as (B & -> & _); left; reflexivity).
  destruct (c39_members t o 1 F J g one_lt Ho H Ig) as (Rg & _ & Mg).
  assert (RF : Forall (ring_input t o 1) F) by (clear -H; induction H; [constructor|constructor; assumption|assumption|assumption]).
  rewrite Forall_forall in RF. split; [|exact Mg]. split.
  - intros f If. apply (c83_ideal F J g f H Eq Fg (RF f If)). apply (mem_among t o); [apply RF; exact If|exact If].
  - intros d Rd Md. eapply mem_trans; [|exact Mg]. intros h (f & If & <-). apply (Md f If).
Qed.

Lemma head_nz p m c l : ring_input t o 1 p -> terms p = (m, c) :: l -> coef (terms p) m <> 0.
Proof.
  intros R E. apply (in_coef t o 1 A); [|rewrite E; left; reflexivity].
  apply ring_input_goodz; [exact R|]. apply mem_gen; [exact Logic.I|eapply ring_input_monos; exact R].
Qed.
Lemma c83_nil F J : jp_history false t o 1 F J -> jq J = [] -> (basis J = [] <-> forall f, In f F -> terms f = []).
Proof.
  intros H Eq. split.
  - intros Eb f If. assert (M := done_same_ideal t o 1 F J f one_lt Ho H Eq If). rewrite Eb in M.
    assert (RF : Forall (ring_input t o 1) F) by (clear -H; induction H; [constructor|constructor; assumption|assumption|assumption]).
    rewrite Forall_forall in RF. destruct (terms f) as [|[m c] l] eqn:E; [reflexivity|]. exfalso. assert (Rf := RF f If).
    destruct M as (k & q & Nk & Cq & X).
    assert (Z : forall m, coef q m = 0).
    { clear -Cq. induction Cq as [p Z|p r u h c _ IH (f & [] & _) _ _]; exact Z. }
    assert (N0 := head_nz f m c l Rf E). rewrite E in N0. specialize (X m). rewrite Z in X. nia.
  - intro Z. destruct (basis J) as [|g B] eqn:Eb; [reflexivity|]. exfalso.
    destruct (c39_members t o 1 F J g one_lt Ho H) as (Rg & Ng & Mg); [rewrite Eb; left; reflexivity|].
    destruct Mg as (k & q & Nk & Cq & X).
    assert (Z' : forall m, coef q m = 0).
    { clear -Cq Z. induction Cq as [p Zp|p r u h c _ IH (f & If & <-) _ E]; [exact Zp|]. intro m. rewrite E, IH, (Z f If). cbn. lia. }
    destruct (terms g) as [|[m c] l] eqn:E; [congruence|].
    assert (N0 := head_nz g m c l Rg E). rewrite E in N0. specialize (X m). rewrite Z' in X. nia.
Qed.

Lemma c83_membership F J a : jp_history false t o 1 F J -> jq J = [] -> ring_input t o 1 a ->
  exists N r, (forall fuel, (N <= fuel)%nat -> jp_nf fuel false J a = Ok r) /\ (terms r = [] <-> rational_member 1 (among F) (terms a)).
Proof. intros H Q Ra. apply (c46_local t o 1 one_lt Ho F J a H Q (c83_local F J H Q) Ra). Qed.
Lemma c83_constant F J : jp_history false t o 1 F J -> jq J = [] ->
  (rational_member 1 (among F) (one 1) <-> exists g c, In g (basis J) /\ c <> 0 /\ terms g = [(Mon (-1) (repeat 0%nat 1), c)]).
Proof. intros H Q. apply (c47_local t o 1 one_lt Ho F J H Q (c83_local F J H Q)). Qed.
Lemma c83_classes F1 J1 F2 J2 a b fuel fuel' r s :
  jp_history false t o 1 F1 J1 -> jp_history false t o 1 F2 J2 -> jq J1 = [] -> jq J2 = [] -> same_ideal 1 F1 F2 -> ring_input t o 1 a -> ring_input t o 1 b ->
  jp_nf fuel false J1 a = Ok r -> jp_nf fuel' false J2 b = Ok s -> (plus_minus (terms r) (terms s) <-> same_mod_ideal 1 F1 (terms a) (terms b)).
Proof.
  intros H1 H2 Q1 Q2 I Ra Rb Ea Eb.
  apply (c82_objects t o 1 one_lt Ho F1 J1 F2 J2 a b fuel fuel' r s H1 H2 Q1 Q2 (c83_local _ _ H1 Q1) (c83_local _ _ H2 Q2) I Ra Rb Ea Eb).
Qed.

(** Both algorithms end with the greatest common divisor. *)
Local Notation gcd_done := (gcd_done t o).
Lemma done_gcd F J : jp_history false t o 1 F J -> jq J = [] -> gcd_done F J.
Proof.
  intros H Q. split; [exact Q|]. destruct (basis J) as [|g B] eqn:Eb.
  - left. split; [reflexivity|]. apply (c83_nil F J H Q). exact Eb.
  - right. rewrite <- Eb. destruct (c83_first F J H) as (h & Fh); [rewrite Eb; discriminate|]. exists h. split; [exact Fh|]. apply (c83_gcd F J h H Q Fh).
Qed.
Lemma c83_total F J : jp_history false t o 1 F J ->
  (exists N J', (forall fuel, (N <= fuel)%nat -> jp_build fuel false J = Ok J') /\ gcd_done F J') /\
  forall one, exists N J', (forall fuel, (N <= fuel)%nat -> jp_tq one fuel false J = Ok J') /\ gcd_done F J'.
Proof.
  intros H. destruct (c80_two t o 1 F J one_lt ltac:(lia) Ho H) as [(N & J' & E) X]. split; [|intro one].
  - exists N, J'. split; [exact E|]. assert (E' := E N (le_n N)). apply done_gcd; [eapply hist_build; eassumption|].
    assert (Y := build_ok t o 1 (among F) one_lt Ho N J (proj1 (history_state t o 1 F J one_lt Ho H))). rewrite E' in Y. apply Y.
  - destruct (X one) as (N1 & J1 & E1). exists N1, J1. split; [exact E1|]. assert (E' := E1 N1 (le_n N1)). apply done_gcd; [eapply hist_tq; eassumption|].
    assert (Y := tq_ok t o 1 (among F) one_lt Ho one N1 J (proj1 (history_state t o 1 F J one_lt Ho H))). rewrite E' in Y. apply Y.
Qed.
End P.
