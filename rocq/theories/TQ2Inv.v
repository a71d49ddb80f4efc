(** After algorithmTQ2: with all elements in the tree and the local test passed, nf decides membership in the ideal. *)
From Coq Require Import ZArith QArith List Bool Arith Lia Permutation.
From Verif Require Import Outcome MonomModel MonomSpec MonomProofs PolyModel PolySpec PolyProofs PolyRedProofs PolyNfProofs
  JanetModel JanetSpec JanetProofs JanetFindProofs CompletionProofs JanetPolyModel TQModel JanetPolySpec IdealProofs JanetPolyProofs TQProofs JanetPolyTop
  InvolutiveProofs InvolutiveTop HilbertModel HilbertSpec JanetPolyHPModel JanetPolyHPProofs NormalSpec NormalProofs NormalTop MultipleProofs ClosedSpec ClosedTop TQ2HPModel TQ2HPSpec TQ2HPProofs TQ2Mult TQ2Normal ClosedTQ2 InvolutiveExamples.
Import ListNotations.
Local Open Scope Z_scope.

Section T.
Variables (t : pos_order) (o : base_order) (n : nat).
Hypothesis Hn : (0 < n)%nat.
Hypothesis Ho : o <> OAlex.
Let A : list term -> Prop := fun _ => True.

Section U.
Variables (F : list poly) (J : jpoly) (fuel0 : nat) (J2 : jpoly2).
Hypothesis H : jp_history false t o n F J.
Hypothesis E0 : jp_tq2 fuel0 false J = Ok J2.
Hypothesis AT : all_in_trees J2.
Hypothesis L : passes_local_test2 t o n J2.

Lemma obj_local : exists K, jstate t o n A K /\ basis K = basis2 J2 /\ (jone K = None <-> j2one J2 = None) /\
  (forall m, jp2_find false J2 m = jp_find false K m) /\ passes_local_test t o n K.
Proof.
  destruct (tree_object t o n _ J2 (tq2_state t o n Hn Ho F J fuel0 J2 H E0)) as (K & S & B & Q & Fi). rewrite (all_tree_part J2 AT) in B.
  exists K. split; [eapply jstate_G; [|exact S]; intros; exact Logic.I|]. split; [exact B|]. split; [exact Q|]. split; [exact Fi|].
  intros g i u x. rewrite B. intros Ig Hi Nm V Rx Ex. destruct (L g i u x Ig Hi Nm V Rx Ex) as (f & r & E & Z). exists f, r. split; [|exact Z]. rewrite <- (nf_same _ _ Fi). exact E.
Qed.

Lemma obj2g : (forall b, In b (basis2 J2) -> ring_input t o n b /\ terms b <> []) /\ NoDup (map lead (basis2 J2)).
Proof. rewrite <- (all_tree_part J2 AT). destruct (obj2 t o n Hn Ho F J fuel0 J2 H E0) as (X & Y & _). auto. Qed.

Lemma tq2_member a : ring_input t o n a ->
  exists N r, (forall fuel, (N <= fuel)%nat -> jp2_nf fuel false J2 a = Ok r) /\ (terms r = [] <-> rational_member n (among F) (terms a)).
Proof.
  intro Ra. destruct (tq2_zero t o n Hn Ho F J fuel0 J2 a H E0 Ra) as (N & r & E & Zr). exists N, r. split; [exact E|]. split; [exact Zr|]. intro M.
  destruct (tq2_nf t o n Hn Ho F J fuel0 J2 a H E0 Ra) as (N' & r' & E' & Rr & C & D & One).
  assert (r' = r) by (specialize (E (max N N')%nat (Nat.le_max_l _ _)); specialize (E' (max N N')%nat (Nat.le_max_r _ _)); congruence). subst r'.
  destruct (j2one J2) as [w|] eqn:Eo; [apply One; congruence|].
  destruct obj_local as (K & S & B & Q & Fi & LK). assert (Ek : jone K = None) by (apply Q; exact Eo).
  assert (HB : forall b, In b (basis K) -> ring_input t o n b /\ terms b <> []).
  { intros b' Ib'. destruct (jstate_basis _ _ _ _ _ _ S Ib') as [X1 X2]. split; [eapply goodz_ring_input; exact X1|exact X2]. }
  assert (ND : NoDup (map lead (basis K))) by (eapply jstate_distinct; exact S).
  assert (Ma : rational_member n (among (basis K)) (terms a)).
  { rewrite B. eapply mem_trans; [|exact M]. intros g (f & If & <-). exact (proj2 (c53_tq2 t o n F J fuel0 J2 Hn Ho H E0) f If). }
  rewrite (all_tree_part J2 AT), <- B in C, D.
  apply (involutive t o n Ho (basis K) HB ND).
  - intros b i Ib Hi Nm. apply (local_ok t o n Hn); assumption.
  - right. destruct C as (k & l & q & Nk & Nl & Cq & Eq). destruct Ma as (k' & q' & Nk' & Cq' & Eq').
    exists (l * k'), (scale k q' ++ scale k' q)%list. split; [nia|]. split; [apply comb_app; apply comb_scale; assumption|].
    intro m. rewrite coef_app, !coef_scale, Eq'. transitivity (k' * (l * coef (terms r) m)); [rewrite Eq|]; ring.
  - destruct Rr as (V & E1 & E2 & E3 & _). unfold valid_poly in V. congruence.
  - intros m c Im. split; [|apply (D m c Im)]. destruct Rr as (_ & _ & _ & _ & RR). unfold ring_poly in RR. rewrite Forall_forall in RR. exact (RR _ Im).
Qed.

Lemma tq2_leading f : ring_input t o n f -> terms f <> [] -> rational_member n (among F) (terms f) ->
  exists g, In g (basis2 J2) /\ janet_divides n (map lead (basis2 J2)) (lead g) (lead f).
Proof.
  intros Rf Nf M. destruct (terms f) as [|[m c] l] eqn:Ef; [congruence|].
  destruct (goodz_mono t o n A f m (goodzA t o n f Rf)) as (Mm & Pm); [rewrite Ef; left; reflexivity|].
  assert (Elf : lead f = vars m) by (unfold lead; now rewrite Ef). rewrite Elf.
  destruct obj_local as (K & S & B & Q & Fi & _). destruct (find_full t o n Hn K S m Mm Pm) as (w & Ew & W). rewrite <- B.
  destruct w as [a|]; [exists a; exact W|exfalso].
  destruct (tq2_member f Rf) as (N & r & E & Z). rewrite Ef in Z. specialize (E N (le_n N)). assert (Zr := proj2 Z M).
  assert (X : p_nf N false (jp2_find false J2) f = Ok (f, 0%nat)).
  { unfold p_nf. destruct N; cbn [nf_loop]; rewrite Ef, Fi, Ew; reflexivity. }
  destruct (nf2_facts t o n Hn Ho F J fuel0 J2 H E0 f N r Rf E) as (_ & X2 & X3 & _).
  rewrite Zr in X2. clear X3 X.
  destruct (j2one J2) as [w|] eqn:Eo.
  - assert (NK : jone K <> None) by (intro X; apply Q in X; discriminate). unfold jp_find in Ew. destruct (jone K); [discriminate|congruence].
  - assert (Ek : jone K = None) by (apply Q; reflexivity). rewrite (nf_same _ _ Fi) in E.
    destruct (nf_zero t o n Hn K f N r S Ek Rf E Zr) as (r1 & k & E1 & Z1).
    destruct N as [|N]; cbn [nf_loop] in E1; rewrite Ef, Ew in E1; cbn [bind] in E1; injection E1 as <- _; congruence.
Qed.

Lemma tq2_rel a b : rel n (tree_part J2) a b -> same_mod_ideal n F a b.
Proof.
  intro R. apply (rel_class t o n _ (proj1 (obj2 t o n Hn Ho F J fuel0 J2 H E0)) (proj1 (proj2 (obj2 t o n Hn Ho F J fuel0 J2 H E0)))) in R as (k & l & q & Nk & Nl & Q & E).
  exists k, l, q. split; [exact Nk|]. split; [exact Nl|]. split; [|exact E]. exact (span2_ideal t o n Hn Ho F J fuel0 J2 H E0 q Q).
Qed.

(** What a normal form is when every leading monomial of the ideal has a divisor. *)
Definition normal_for (a r : poly) : Prop :=
  ring_input t o n r /\ same_mod_ideal n F (terms a) (terms r) /\ (terms r = [] \/ primitive (terms r)) /\
  forall m c, In (m, c) (terms r) -> forall f, ring_input t o n f -> terms f <> [] -> rational_member n (among F) (terms f) -> lead f <> vars m.
Lemma tq2_normal a fuel r : ring_input t o n a -> jp2_nf fuel false J2 a = Ok r -> normal_for a r.
Proof.
  intros Ra E. destruct (nf2_facts t o n Hn Ho F J fuel0 J2 H E0 a fuel r Ra E) as (A1 & A2 & A3 & A4).
  split; [exact A1|]. split; [apply tq2_rel; exact A2|]. split; [exact A4|]. intros m c I f Rf Nf Mf El.
  destruct (tq2_leading f Rf Nf Mf) as (g & _ & D). rewrite El, <- (all_tree_part J2 AT) in D. exact (A3 m c I (lead g) D).
Qed.

Lemma tq2_constant : rational_member n (among F) (one n) <-> exists g c, In g (basis2 J2) /\ c <> 0 /\ terms g = [(Mon (-1) (repeat 0%nat n), c)].
Proof.
  split.
  - intro M. set (p := Poly t o n (one n)).
    assert (Mu : mono n (Mon (-1) (repeat 0%nat n))) by (split; [apply repeat_length|cbn; lia]).
    assert (Rp : ring_input t o n p).
    { split; [|split; [reflexivity|split; [reflexivity|split; [reflexivity|repeat constructor]]]].
      split; [repeat constructor|split; constructor; auto; discriminate]. }
    destruct (tq2_leading p Rp) as (g & Ig & (_ & D & _)); [discriminate|exact M|].
    destruct (proj1 obj2g g Ig) as (Rg & Ng).
    destruct (terms g) as [|[m c] l] eqn:Eg; [congruence|]. exists g, c. split; [exact Ig|].
    assert (Rg' := Rg). destruct Rg' as (V & E1 & E2 & E3 & RR). unfold valid_poly in V. rewrite E1, E2, E3, Eg in V. rewrite Eg in RR.
    assert (Pm := Forall_inv RR). cbn [fst] in Pm. apply canonical_iff in V as (V1 & V2 & V3). assert (Mm := Forall_inv V2). assert (Nc := Forall_inv V3). cbn [fst snd] in *.
    split; [exact Nc|]. assert (Em : m = Mon (-1) (repeat 0%nat n)).
    { destruct m as [pm m]. cbn [pos vars] in *. subst pm. f_equal. destruct Mm as [Lm _]. cbn [vars] in Lm. apply expo_ext; [rewrite repeat_length; exact Lm|].
      intros i Hi. rewrite Lm in Hi. specialize (D i Hi). unfold lead in D. rewrite Eg in D. unfold p, one in D. cbn [terms vars] in D. rewrite expo_repeat in *. destruct (i <? n)%nat; lia. }
    rewrite Eg, Em. f_equal. destruct l as [|[x d] l]; [reflexivity|exfalso]. apply sorted_below in V1 as [V1 _]. assert (X := Forall_inv V1). cbn [fst] in X.
    assert (Mx := Forall_inv (Forall_inv_tail V2)). assert (Px := Forall_inv (Forall_inv_tail RR)). cbn [fst] in *.
    apply cmp1_spec in X; [|apply (msize n); assumption]. rewrite Em in X. revert X. apply unit_least; assumption.
  - intros (g & c & Ig & Nc & Eg). assert (M := proj2 (proj2 (proj1 (c53_tq2 t o n F J fuel0 J2 Hn Ho H E0) g Ig))). rewrite Eg in M.
    eapply (mem_div n (among F)); [exact Nc|exact M|]. intro m. unfold one. cbn [coef]. destruct (monom_eq_dec _ m); lia.
Qed.

Lemma lead_iff m : (exists u, janet_divides n (map lead (basis2 J2)) u m) /\ length m = n <-> leading_in_ideal t o n F m.
Proof.
  split.
  - intros ((u & D) & X). pose proof D as (Iu & Dd & _). apply in_map_iff in Iu as (g & <- & Ig).
    destruct (proj1 obj2g g Ig) as (Rg & Ng). assert (Mg := proj2 (proj2 (proj1 (c53_tq2 t o n F J fuel0 J2 Hn Ho H E0) g Ig))). set (v := subv m (lead g)).
    assert (Lg : length (lead g) = n).
    { unfold lead. destruct (terms g) as [|[y c] l] eqn:Eg; [congruence|]. assert (X' := ring_input_monos t o n g Rg). rewrite Eg in X'. apply (Forall_inv X'). }
    assert (Lv : length v = n) by (unfold v; rewrite subv_length; lia).
    exists (Poly t o n (shift v (terms g))). destruct Rg as (V1 & V2 & V3 & V4 & V5). unfold valid_poly in V1. rewrite V2, V3, V4 in V1.
    split; [split; [apply shift_canonical; assumption|split; [reflexivity|split; [reflexivity|split; [reflexivity|apply ring_shift; exact V5]]]]|].
    cbn [terms]. split; [destruct (terms g); [congruence|discriminate]|]. split; [apply mem_shift; assumption|].
    unfold lead in *. cbn [terms]. destruct (terms g) as [|[y c] l]; [congruence|]. cbn [shift map fst mprod vars]. rewrite vsum_addv.
    symmetry. apply (divides_split n); assumption.
  - intros (f & Rf & Nf & Mf & <-). destruct (tq2_leading f Rf Nf Mf) as (g & _ & D). split; [exists (lead g); exact D|].
    unfold lead. destruct (terms f) as [|[y c] l] eqn:Eg; [congruence|]. assert (X' := ring_input_monos t o n f Rf). rewrite Eg in X'. apply (Forall_inv X').
Qed.
End U.

Lemma normal_unique F a b r s : normal_for F a r -> normal_for F b s -> (plus_minus (terms r) (terms s) <-> same_mod_ideal n F (terms a) (terms b)).
Proof.
  intros (A1 & MA & A4 & A3) (B1 & MB & B4 & B3). split.
  - intro P. eapply smi_trans; [exact Hn|exact MA|]. eapply smi_trans; [exact Hn| |apply (smi_sym n Hn); exact MB].
    destruct (plus_minus_coef _ _ P) as (e & Ee & E). exists 1, e, []. split; [lia|]. split; [lia|]. split; [apply mem_zero; reflexivity|]. intro m. rewrite E. cbn [coef]. lia.
  - intro M. assert (X : same_mod_ideal n F (terms r) (terms s)) by (eapply smi_trans; [exact Hn|apply (smi_sym n Hn); exact MA|]; eapply smi_trans; [exact Hn|exact M|exact MB]).
    destruct X as (k & l & q & Nk & Nl & Q & E). destruct (diff_exists t o n r s k l A1 B1) as (d & Cd & Ed & Id).
    assert (Zd : d = []).
    { destruct d as [|[m c] d']; [reflexivity|exfalso]. set (D := Poly t o n ((m, c) :: d')).
      assert (RD : ring_input t o n D).
      { split; [exact Cd|]. do 3 (split; [reflexivity|]). apply Forall_forall. intros [x y] Ix. cbn [fst]. apply (Id x y Ix). }
      assert (MD : rational_member n (among F) (terms D)).
      { eapply (mem_ext n (among F) q); [|exact Q]. intro x. cbn [terms D]. rewrite Ed, E. ring. }
      destruct (Id m c (or_introl eq_refl)) as (Pm & Mm & _ & [(c' & I')|(c' & I')]).
      - exact (A3 m c' I' D RD ltac:(discriminate) MD eq_refl).
      - exact (B3 m c' I' D RD ltac:(discriminate) MD eq_refl). }
    destruct A1 as (Vr & G1 & G2 & G3 & _), B1 as (Vs & K1 & K2 & K3 & _). unfold valid_poly in Vr, Vs. rewrite G1, G2, G3 in Vr. rewrite K1, K2, K3 in Vs.
    apply (proportional t o n _ _ k l); auto. intro m. specialize (Ed m). rewrite Zd in Ed. cbn [coef] in Ed. lia.
Qed.

(** Normal forms of two objects, one completed by algorithmTQ2, the other by anything. *)
Lemma normal_same F1 F2 a r : same_ideal n F1 F2 -> normal_for F1 a r -> normal_for F2 a r.
Proof.
  intros S (A1 & A2 & A3 & A4). split; [exact A1|]. split; [exact (smi_same n F1 F2 _ _ S A2)|]. split; [exact A3|].
  intros m c I f Rf Nf Mf. apply (A4 m c I f Rf Nf). exact (member_same n F2 F1 _ (same_ideal_sym n _ _ S) Mf).
Qed.
Lemma build_normal F J a fuel r : jp_history false t o n F J -> jq J = [] -> passes_local_test t o n J -> ring_input t o n a -> jp_nf fuel false J a = Ok r -> normal_for F a r.
Proof.
  intros H Q L Ra E. destruct (nf_facts t o n Hn Ho F J a fuel r H Ra E) as (A1 & A2 & A3 & A4). split; [exact A1|].
  split; [exact (rel_ideal t o n Hn Ho F J _ _ H A2)|]. split; [exact A4|]. intros m c I f Rf Nf Mf El.
  destruct (c46_leading t o n Hn Ho F J f H Q L Rf Nf Mf) as (g & _ & D). rewrite El in D. exact (A3 m c I (lead g) D).
Qed.

Lemma tq2_ideal F J fuel0 J2 : jp_history false t o n F J -> jp_tq2 fuel0 false J = Ok J2 -> all_in_trees J2 -> passes_local_test2 t o n J2 ->
  forall a b fa fb r s, ring_input t o n a -> ring_input t o n b -> jp2_nf fa false J2 a = Ok r -> jp2_nf fb false J2 b = Ok s ->
  (plus_minus (terms r) (terms s) <-> same_mod_ideal n F (terms a) (terms b)).
Proof. intros H E0 AT L a b fa fb r s Ra Rb Er Es. apply normal_unique; eapply tq2_normal; eauto. Qed.
Lemma tq2_objects F1 J1 F2 J f J2 : jp_history false t o n F1 J1 -> jq J1 = [] -> passes_local_test t o n J1 ->
  jp_history false t o n F2 J -> jp_tq2 f false J = Ok J2 -> all_in_trees J2 -> passes_local_test2 t o n J2 -> same_ideal n F1 F2 ->
  forall a b fa fb r s, ring_input t o n a -> ring_input t o n b -> jp_nf fa false J1 a = Ok r -> jp2_nf fb false J2 b = Ok s ->
  (plus_minus (terms r) (terms s) <-> same_mod_ideal n F1 (terms a) (terms b)).
Proof.
  intros H1 Q1 L1 H E0 AT L S a b fa fb r s Ra Rb Er Es. apply normal_unique; [eapply build_normal; eauto|].
  apply (normal_same F2 F1); [apply same_ideal_sym; exact S|]. eapply tq2_normal; eauto.
Qed.
Lemma tq2_word F J f J2 E a b u v fa fb r s : jp_history false t o n F J -> jp_tq2 f false J = Ok J2 -> all_in_trees J2 -> passes_local_test2 t o n J2 ->
  Forall2 (difference_of n) F E -> ring_input t o n a -> ring_input t o n b -> terms a = [(Mon (-1) u, 1)] -> terms b = [(Mon (-1) v, 1)] ->
  jp2_nf fa false J2 a = Ok r -> jp2_nf fb false J2 b = Ok s -> (plus_minus (terms r) (terms s) <-> generated n E u v).
Proof.
  intros H E0 AT L HD Ra Rb Ea Eb Er Es. split.
  - intro P. destruct (c96_tq2_word t o n Hn Ho F J f J2 H E0 E a u fa r HD Ra Ea Er) as (w & x & Ew & _ & _ & Gw).
    destruct (c96_tq2_word t o n Hn Ho F J f J2 H E0 E b v fb s HD Rb Eb Es) as (w' & x' & Ew' & _ & _ & Gw').
    assert (w = w') as -> by (rewrite Ew, Ew' in P; destruct P as [P|P]; cbn in P; congruence).
    eapply gen_trans; [exact Gw|apply gen_sym; exact Gw'].
  - intro G. apply (tq2_ideal F J f J2 H E0 AT L a b fa fb r s Ra Rb Er Es). exists 1, 1, (two u v). split; [lia|]. split; [lia|]. split; [apply (word_ideal t o n Hn F E J H HD); exact G|].
    intro m. rewrite Ea, Eb. unfold two. cbn [coef]. destruct (monom_eq_dec (Mon (-1) u) m), (monom_eq_dec (Mon (-1) v) m); lia.
Qed.

(** The Hilbert polynomial printed. *)
Lemma tq2_hilbert F J fuel J2 h : jp_history false t o n F J -> jp_tq2_print fuel false J = Ok (J2, Some h) -> all_in_trees J2 -> passes_local_test2 t o n J2 ->
  forall s, (forall g, In g (basis2 J2) -> (total (lead g) <= s)%nat) ->
    exists k, number_of n s (fun m => ~ leading_in_ideal t o n F m) k /\ (peval h (inject_Z (Z.of_nat s)) == inject_Z (Z.of_nat k))%Q.
Proof.
  intros H E AT L s Hs. destruct (c89_count t o n Hn Ho F J fuel J2 h H E AT) as (_ & _ & V). destruct (V s Hs) as (k & (M & L1 & L2 & L3) & X). exists k. split; [|exact X].
  assert (E0 : jp_tq2 fuel false J = Ok J2).
  { unfold jp_tq2_print in E. destruct (jp_tq2 fuel false J) as [K| | | |]; cbn [bind] in E; try discriminate. destruct (j2one K); [discriminate|]. destruct (jp2_build_hp false K hp_none); cbn [bind] in E; congruence. }
  exists M. split; [exact L1|]. split; [exact L2|]. intro m. rewrite L3. assert (I := lead_iff F J fuel J2 H E0 AT L m).
  split; intros (Y1 & Y2 & Y3); (split; [exact Y1|]; split; [exact Y2|]).
  - intro Z. apply I in Z as ((u & D) & _). exact (Y3 u D).
  - intros u D. apply Y3, I. split; [exists u; exact D|exact Y1].
Qed.
End T.
