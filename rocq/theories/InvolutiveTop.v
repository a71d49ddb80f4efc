(** JanetPolyInt: when the built basis passes the local test, nf decides membership in the ideal. *)
From Coq Require Import ZArith List Bool Arith Lia Permutation.
From Verif Require Import Outcome MonomModel MonomSpec MonomProofs PolyModel PolySpec PolyProofs PolyRedProofs PolyNfProofs
  PolyTopProofs JanetModel JanetSpec JanetProofs JanetFindProofs JanetPolyModel JanetPolySpec IdealProofs JanetPolyProofs JanetPolyTop
  InvolutiveProofs.
Import ListNotations.
Local Open Scope Z_scope.

Lemma perm_janet n U V u m : Permutation U V -> janet_divides n U u m -> janet_divides n V u m.
Proof.
  intros P (I & D & N). split; [eapply Permutation_in; eassumption|]. split; [exact D|].
  intros i Hi L (w & Iw & H). apply (N i Hi L). exists w. split; [|exact H]. eapply Permutation_in; [apply Permutation_sym; exact P|exact Iw].
Qed.

(** No monomial is smaller than 1. *)
Lemma unit_least t o n x : o <> OAlex -> mono n x -> pos x = -1 -> ~ module_gt t o (Mon (-1) (repeat 0%nat n)) x.
Proof.
  intros Ho [L _] Px G.
  assert (Z : forall i, expo (repeat 0%nat n) i = 0%nat) by (intro i; rewrite expo_repeat; destruct (i <? n)%nat; reflexivity).
  assert (BG : base_gt o (repeat 0%nat n) (vars x)).
  { destruct t; cbn in G; rewrite Px in G; destruct G as [G|G]; try lia; try tauto; destruct G; auto; lia. }
  destruct o; [| |congruence]; cbn [base_gt] in BG.
  - destruct BG as (k & _ & _ & K). rewrite Z in K. lia.
  - assert (T : total (repeat 0%nat n) = 0%nat) by (clear; induction n; cbn; auto).
    destruct BG as [K|(E & k & Hk & H1 & H2)]; [lia|]. rewrite T in E.
    assert (X : forall (v : list nat) i, total v = 0%nat -> expo v i = 0%nat).
    { clear. unfold total. induction v as [|a v IH]; intros [|i] E; cbn in *; try reflexivity; try lia. apply IH. lia. }
    rewrite (X (vars x) k) in H2 by lia. rewrite Z in H2. lia.
Qed.

Section T.
Variables (t : pos_order) (o : base_order) (n : nat).
Hypothesis Hn : (0 < n)%nat.
Hypothesis Ho : o <> OAlex.
Let A : list term -> Prop := fun _ => True.

Lemma find_spec J : jstate t o n A J -> jone J = None ->
  good_find false t o n (GM n A) (jp_find false J) /\
  forall m, mono n m -> pos m = -1 -> exists w, jp_find false J m = Ok w /\
     match w with Some a => In a (basis J) /\ janet_divides n (map lead (basis J)) (lead a) (vars m) | None => True end.
Proof.
  intros S Eo. assert (EL := jstate_leads t o n A J S Eo). unfold jstate in S. rewrite Eo in S. destruct S as [_ [(D1 & D2 & D3)|(Ja & D1 & D2 & D3)]].
  - split; intros m Hm; [|intro Pm]; exists None; unfold jp_find; rewrite Eo, D1; (split; [reflexivity|]).
    + intros a Ea. discriminate.
    + exact I.
  - assert (Ej : jp_find false J = find_poly false (-1) (Some [Ja]) (jt J)) by (unfold jp_find; rewrite Eo, D1, D2; reflexivity). rewrite Ej. split.
    + intros m Hm. destruct (good_find_T t o n A Hn Ja (jt J) D3 m Hm) as (w & Ew & W). exists w. split; [exact Ew|]. intros a Ea.
      destruct (W a Ea) as (X1 & X2 & X3 & X4 & X5 & X6). do 4 (split; [assumption|]). split; [apply X5|exact X6].
    + intros m Mm Pm. destruct (find_poly_ok t o n A Hn Ja (jt J) m D3 Mm) as (w & Ew & W). exists w. split; [exact Ew|]. destruct w as [a|]; [|exact I].
      destruct W as (k & Ik & Ga & (c & l & Ea) & _ & D).
      assert (La : lead a = vars k) by (unfold lead; now rewrite Ea).
      split; [unfold basis; rewrite Eo; apply in_map_iff; exists (k, a); auto|]. rewrite La, <- EL. eapply perm_janet; [|exact D].
      assert (P := Permutation_map vars (ti_perm _ _ _ _ _ _ D3)). rewrite map_map in P. exact P.
Qed.

Lemma goodzA a : ring_input t o n a -> goodz t o n A a.
Proof. intro Ra. apply ring_input_goodz; [exact Ra|apply mem_gen; [exact I|eapply ring_input_monos; exact Ra]]. Qed.

(** A normal form 0 comes from the head reductions. *)
Lemma nf_zero J x fuel r : jstate t o n A J -> jone J = None -> ring_input t o n x -> jp_nf fuel false J x = Ok r -> terms r = [] ->
  exists r1 k, nf_loop fuel false (jp_find false J) 0 x = Ok (r1, k) /\ terms r1 = [].
Proof.
  intros S Eo Rx E Z. destruct (find_spec J S Eo) as [F _]. unfold jp_nf, assert_ in E. cbn [andb] in E.
  assert (X := nf_safe t o n A Hn (GM n A) (fun _ H => H) (jp_find false J) fuel x F (goodzA x Rx)). unfold p_nf in *.
  destruct (nf_loop fuel false (jp_find false J) 0 x) as [[r1 k]| | | |] eqn:E1; cbn [bind fst safe] in *; try discriminate.
  exists r1, k. split; [reflexivity|]. destruct X as (G1 & _ & [D|(m & Hm & _)]); [exact D|exfalso].
  assert (Y := nft_safe t o n A (GM n A) (fun _ H => H) (jp_find false J) (jp_find false J) fuel r1 m F (conj G1 (hd_nz _ _ Hm)) Hm (fun _ _ _ => eq_refl)).
  destruct (p_nfTail fuel false (jp_find false J) r1) as [[r2 k2]| | | |] eqn:E2; cbn [bind fst safe] in *; try discriminate.
  destruct Y as (G2 & H2 & _). destruct (good_pp t o n A r2 m G2 H2) as (r3 & E3 & _ & H3 & _). rewrite E in E3. injection E3 as <-.
  apply (hd_nz _ _ H3). exact Z.
Qed.

Lemma local_ok J b i : jstate t o n A J -> jone J = None -> NoDup (map lead (basis J)) -> passes_local_test t o n J ->
  In b (basis J) -> (i < n)%nat -> janet_nm (map lead (basis J)) (lead b) i ->
  rs n (basis J) (fun x => le t o x (R (addv (e n i) (lead b)))) (shift (e n i) (terms b)).
Proof.
  intros S Eo ND L Ib Hi Nm. assert (Gb := jstate_basis _ _ _ _ _ _ S Ib). destruct (good_hd t o n A b Gb) as (m & Hm).
  assert (HB : forall b, In b (basis J) -> ring_input t o n b /\ terms b <> []).
  { intros b' Ib'. destruct (jstate_basis _ _ _ _ _ _ S Ib') as [X1 X2]. split; [eapply goodz_ring_input; exact X1|exact X2]. }
  destruct (good_mul_var t o n A Hn i b m Hi Gb Hm) as (x & Ex & [Gx _] & Hx).
  assert (Ex' : terms x = shift (e n i) (terms b)).
  { unfold p_mul_var, checked, assert_ in Ex. cbn [andb] in Ex. injection Ex as <-. cbn [terms with_terms]. apply (shift_var t o n A); [exact Hi|apply Gb]. }
  assert (Rx := goodz_ring_input _ _ _ _ _ Gx).
  destruct (L b i (e n i) x) as (fuel & r & Er & Zr); auto.
  - split; [apply e_len|]. intros j _. apply e_expo. exact Hi.
  - intro y. now rewrite Ex'.
  - destruct (nf_zero J x fuel r S Eo Rx Er Zr) as (r1 & k & E1 & Z1).
    assert (Y := nf_rs t o n (basis J) HB ND (jp_find false J) (proj2 (find_spec J S Eo)) fuel x 0%nat r1 k Rx E1 Z1).
    rewrite Ex' in Y. destruct (HB b Ib) as ((_ & _ & _ & _ & Rb) & _). destruct Hm as (c & l & Em). rewrite Em in Y at 1. cbn [shift map below_head fst snd] in Y.
    assert (Pm : pos m = -1) by (rewrite Em in Rb; exact (Forall_inv Rb)).
    assert (El : lead b = vars m) by (unfold lead; now rewrite Em).
    eapply rs_mono; [|exact Y]. cbn beta. intros z _ Lz. rewrite El, <- mprod_R, <- (R_of m Pm). exact Lz.
Qed.

Lemma c46_local F J a : jp_history false t o n F J -> jq J = [] -> passes_local_test t o n J -> ring_input t o n a ->
  exists N r, (forall fuel, (N <= fuel)%nat -> jp_nf fuel false J a = Ok r) /\
    (terms r = [] <-> rational_member n (among F) (terms a)).
Proof.
  intros H Q L Ra. destruct (c40_zero t o n F J a Hn Ho H Ra) as (N & r & E & Zr). exists N, r. split; [exact E|]. split; [exact Zr|]. intro M.
  destruct (history_state t o n F J Hn Ho H) as (S0 & _ & K).
  assert (S : jstate t o n A J) by (eapply jstate_G; [|exact S0]; intros; exact I).
  destruct (jone J) as [w|] eqn:Eo.
  { destruct (c40_one t o n F J a Hn Ho H Ra) as (N' & r' & E' & Z'); [congruence|]. specialize (E (max N N')%nat (Nat.le_max_l _ _)). specialize (E' (max N N')%nat (Nat.le_max_r _ _)). congruence. }
  destruct (c40_nf t o n F J a Hn Ho H Ra) as (N' & r' & E' & Rr & C & D).
  assert (r' = r). { specialize (E (max N N')%nat (Nat.le_max_l _ _)). specialize (E' (max N N')%nat (Nat.le_max_r _ _)). congruence. }
  subst r'. assert (HB : forall b, In b (basis J) -> ring_input t o n b /\ terms b <> []).
  { intros b' Ib'. destruct (jstate_basis _ _ _ _ _ _ S Ib') as [X1 X2]. split; [eapply goodz_ring_input; exact X1|exact X2]. }
  assert (ND := c39_distinct t o n F J Hn Ho H).
  (* everything in the ideal of F is in the ideal of the basis *)
  assert (MB : memJ n (among (basis J)) J).
  { unfold memJ. rewrite Eo, Q. split; [|constructor]. apply Forall_forall. intros e' Ie. unfold memK.
    assert (Ib : In (snd e') (basis J)) by (unfold basis; rewrite Eo; apply in_map; exact Ie).
    apply (mem_among t o n); [apply HB; exact Ib|exact Ib]. }
  assert (KF := K _ MB).
  assert (Ma : rational_member n (among (basis J)) (terms a)).
  { eapply mem_trans; [|exact M]. intros g (f & If & <-). rewrite Forall_forall in KF. exact (KF f If). }
  apply (involutive t o n Ho (basis J) HB ND).
  - intros b i Ib Hi Nm. apply local_ok; assumption.
  - right. destruct C as (k & l & q & Nk & Nl & Cq & Eq). destruct Ma as (k' & q' & Nk' & Cq' & Eq').
    exists (l * k'), (scale k q' ++ scale k' q). split; [nia|]. split; [apply comb_app; apply comb_scale; assumption|].
    intro m. rewrite coef_app, !coef_scale, Eq'. transitivity (k' * (l * coef (terms r) m)); [rewrite Eq|]; ring.
  - destruct Rr as (V & E1 & E2 & E3 & _). unfold valid_poly in V. congruence.
  - intros m c Im. split; [|apply (D m c Im)]. destruct Rr as (_ & _ & _ & _ & RR). unfold ring_poly in RR. rewrite Forall_forall in RR. exact (RR _ Im).
Qed.

(** Leading monomials: every non-zero member of the ideal has a Janet divisor in the basis. *)
Lemma c46_leading F J f : jp_history false t o n F J -> jq J = [] -> passes_local_test t o n J ->
  ring_input t o n f -> terms f <> [] -> rational_member n (among F) (terms f) ->
  exists g, In g (basis J) /\ janet_divides n (map lead (basis J)) (lead g) (lead f).
Proof.
  intros H Q L Rf Nf M. destruct (history_state t o n F J Hn Ho H) as (S0 & _).
  assert (S : jstate t o n A J) by (eapply jstate_G; [|exact S0]; intros; exact I).
  assert (Mm : exists m c l, terms f = (m, c) :: l /\ mono n m /\ pos m = -1).
  { destruct (terms f) as [|[m c] l] eqn:E; [congruence|]. exists m, c, l. split; [reflexivity|]. assert (X := goodzA f Rf).
    apply (goodz_mono t o n A f m X). rewrite E. left. reflexivity. }
  destruct Mm as (m & c & l & Ef & Mm & Pm). assert (Elf : lead f = vars m) by (unfold lead; now rewrite Ef). rewrite Elf.
  destruct (jone J) as [w|] eqn:Eo.
  - unfold jstate in S. rewrite Eo in S. destruct S as ([_ Ew] & _). exists (wpol w). unfold basis. rewrite Eo. split; [left; reflexivity|].
    cbn [map]. assert (El : lead (wpol w) = repeat 0%nat n) by (unfold lead; now rewrite Ew). rewrite El.
    split; [left; reflexivity|]. split; [intros i Hi; rewrite expo_repeat; destruct (i <? n)%nat; lia|].
    intros i Hi _ (u & [<-|[]] & _ & X). lia.
  - destruct (c46_local F J f H Q L Rf) as (N & r & E & Z). assert (Z' := proj2 Z M).
    destruct (nf_zero J f N r S Eo Rf (E N (le_n N)) Z') as (r1 & k & E1 & Z1).
    destruct (proj2 (find_spec J S Eo) m Mm Pm) as (w & Ew & W).
    destruct N as [|N]; cbn [nf_loop] in E1; rewrite Ef, Ew in E1; cbn [bind] in E1; (destruct w as [a|]; [|injection E1 as <- _; congruence]); exists a; exact W.
Qed.

(** 1 is in the ideal exactly when the basis contains a constant. *)
Lemma c47_local F J : jp_history false t o n F J -> jq J = [] -> passes_local_test t o n J ->
  (rational_member n (among F) (one n) <-> exists g c, In g (basis J) /\ c <> 0 /\ terms g = [(Mon (-1) (repeat 0%nat n), c)]).
Proof.
  intros H Q L. split.
  - intro M. set (p := Poly t o n (one n)).
    assert (Mu : mono n (Mon (-1) (repeat 0%nat n))) by (split; [apply repeat_length|cbn; lia]).
    assert (Rp : ring_input t o n p).
    { split; [|split; [reflexivity|split; [reflexivity|split; [reflexivity|repeat constructor]]]].
      split; [repeat constructor|split; constructor; auto; discriminate]. }
    destruct (c46_leading F J p H Q L Rp) as (g & Ig & (_ & D & _)); [discriminate|exact M|].
    destruct (c39_members t o n F J g Hn Ho H Ig) as (Rg & Ng & _).
    destruct (terms g) as [|[m c] l] eqn:Eg; [congruence|]. exists g, c. split; [exact Ig|].
    assert (Rg' := Rg). destruct Rg' as (V & E1 & E2 & E3 & RR). unfold valid_poly in V. rewrite E1, E2, E3, Eg in V. rewrite Eg in RR.
    assert (Pm := Forall_inv RR). cbn [fst] in Pm. apply canonical_iff in V as (V1 & V2 & V3). assert (Mm := Forall_inv V2). assert (Nc := Forall_inv V3). cbn [fst snd] in *.
    split; [exact Nc|]. assert (Em : m = Mon (-1) (repeat 0%nat n)).
    { destruct m as [pm m]. cbn [pos vars] in *. subst pm. f_equal. destruct Mm as [Lm _]. cbn [vars] in Lm. apply expo_ext; [rewrite repeat_length; exact Lm|].
      intros i Hi. rewrite Lm in Hi. specialize (D i Hi). unfold lead in D. rewrite Eg in D. unfold p, one in D. cbn [terms vars] in D. rewrite expo_repeat in *. destruct (i <? n)%nat; lia. }
    rewrite Eg, Em. f_equal. destruct l as [|[x d] l]; [reflexivity|exfalso]. apply sorted_below in V1 as [V1 _]. assert (X := Forall_inv V1). cbn [fst] in X.
    assert (Mx := Forall_inv (Forall_inv_tail V2)). assert (Px := Forall_inv (Forall_inv_tail RR)). cbn [fst] in *.
    apply cmp1_spec in X; [|apply (msize n); assumption]. rewrite Em in X. revert X. apply unit_least; assumption.
  - intros (g & c & Ig & Nc & Eg). destruct (c39_members t o n F J g Hn Ho H Ig) as (_ & _ & M). rewrite Eg in M.
    eapply (mem_div n (among F)); [exact Nc|exact M|]. intro m. unfold one. cbn [coef]. destruct (monom_eq_dec _ m); lia.
Qed.
End T.
