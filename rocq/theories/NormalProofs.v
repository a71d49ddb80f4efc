(** Reduction by Janet divisors: what nf and nfTail preserve, and why the result is unique. *)
From Coq Require Import ZArith List Bool Arith Lia Znumtheory.
From Verif Require Import Outcome MonomModel MonomSpec MonomProofs PolyModel PolySpec PolyProofs PolyRedProofs PolyNfProofs
  JanetModel JanetSpec JanetFindProofs CompletionProofs JanetPolyModel JanetPolySpec IdealProofs InvolutiveProofs NormalSpec.
Import ListNotations.
Local Open Scope Z_scope.

(* ---- lists with proportional coefficients ---- *)
Lemma coef_opp l m : coef (map (fun x : monom * Z => (fst x, - snd x)) l) m = - coef l m.
Proof. induction l as [|[x c] l IH]; [reflexivity|]. cbn [map fst snd coef]. rewrite IH. destruct (monom_eq_dec x m); lia. Qed.
Lemma opp_scale l : map (fun x : monom * Z => (fst x, - snd x)) l = scale (-1) l.
Proof. unfold scale. apply map_ext. intros [x c]. cbn [fst snd]. f_equal; lia. Qed.
Lemma zero_nil t o n l : canonical t o n l -> (forall m, coef l m = 0) -> l = [].
Proof.
  intros C H. destruct l as [|[m c] l]; [reflexivity|exfalso].
  destruct (canonical_coef _ _ _ _ m c C (or_introl eq_refl)) as [E N]. rewrite H in E. congruence.
Qed.
Lemma proportional t o n r s k l : canonical t o n r -> canonical t o n s -> (r = [] \/ primitive r) -> (s = [] \/ primitive s) ->
  k <> 0 -> l <> 0 -> (forall m, k * coef r m = l * coef s m) -> plus_minus r s.
Proof.
  intros Cr Cs Pr Ps Nk Nl H.
  destruct Pr as [->|Pr].
  { left. symmetry. apply (zero_nil t o n s Cs). intro m. specialize (H m). cbn [coef] in H. nia. }
  destruct Ps as [->|Ps].
  { left. apply (zero_nil t o n r Cr). intro m. specialize (H m). cbn [coef] in H. nia. }
  assert (Ng : Z.gcd k l <> 0) by (intro E; apply Z.gcd_eq_0_l in E; contradiction).
  destruct (Z.gcd_divide_l k l) as (k' & Ek). destruct (Z.gcd_divide_r k l) as (l' & El). set (g := Z.gcd k l) in *.
  assert (Rp : rel_prime k' l').
  { apply Zgcd_1_rel_prime. assert (X := Z.gcd_div_gcd k l g Ng eq_refl).
    rewrite Ek, El in X at 1. rewrite !Z.div_mul in X by exact Ng. exact X. }
  assert (H' : forall m, k' * coef r m = l' * coef s m).
  { intro m. apply (Z.mul_reg_l _ _ g Ng). specialize (H m). rewrite Ek, El in H at 1. transitivity (k' * g * coef r m); [ring|]. rewrite H. ring. }
  assert (D1 : l' = 1 \/ l' = -1).
  { apply Pr. intro m. apply Gauss with (b := k'); [|apply rel_prime_sym; exact Rp]. exists (coef s m). rewrite H'. ring. }
  assert (D2 : k' = 1 \/ k' = -1).
  { apply Ps. intro m. apply Gauss with (b := l'); [|exact Rp]. exists (coef r m). rewrite <- H'. ring. }
  assert (E : (forall m, coef r m = coef s m) \/ (forall m, coef r m = - coef s m)).
  { destruct D1 as [-> | ->], D2 as [-> | ->]; [left|right|right|left]; intro m; specialize (H' m); lia. }
  destruct E as [E|E]; [left|right].
  - apply (canonical_unique t o n); assumption.
  - apply (canonical_unique t o n); [exact Cr|rewrite opp_scale; apply scale_canonical; [discriminate|exact Cs]|].
    intro m. rewrite coef_opp. apply E.
Qed.
Lemma plus_minus_coef r s : plus_minus r s -> exists e, (e = 1 \/ e = -1) /\ forall m, coef r m = e * coef s m.
Proof.
  intros [-> | ->]; [exists 1; split; [left; reflexivity|intro; lia]|exists (-1); split; [right; reflexivity|]].
  intro m. rewrite coef_opp. lia.
Qed.

Section N.
Variables (t : pos_order) (o : base_order) (n : nat).
Variable B : list poly.
Hypothesis HB : forall b, In b B -> ring_input t o n b /\ terms b <> [].
Hypothesis ND : NoDup (map lead B).
Notation U := (map lead B).
Notation all := (fun _ : monom => True).
Notation rsT := (rs n B all).

(* ---- the span and its representations ---- *)
Lemma mult_rs a u : In a B -> length u = n -> (forall i, (i < n)%nat -> (0 < expo u i)%nat -> ~ janet_nm U (lead a) i) -> rsT (shift u (terms a)).
Proof.
  intros Ia Lu M. destruct (head_of t o n B HB a Ia) as (c & l & _ & _ & La & _).
  eapply rs_mono; [|apply (cell_rs t o n B HB ND a u (R (addv u (lead a))) Ia Lu eq_refl)]; [intros; exact Logic.I|]. cbn [R vars].
  assert (X : forall i, expo (addv u (lead a)) i = (expo u i + expo (lead a) i)%nat) by (intro i; apply expo_addv; lia).
  split; [apply in_map; exact Ia|]. split; [intros i Hi; rewrite X; lia|]. intros i Hi L. rewrite X in L. apply M; [exact Hi|lia].
Qed.
Lemma span_rs q : inv_span n B q -> rsT q.
Proof.
  induction 1 as [p H|p q u g c _ IH Ig Lu M E]; [apply rs_zero; exact H|].
  apply (rs_lin n B all q (shift u (terms g)) p 1 c 1); [lia|exact IH|apply mult_rs; assumption|]. intro m. rewrite E. lia.
Qed.
Lemma rs_span q : rsT q -> exists k p, k <> 0 /\ inv_span n B p /\ forall m, coef p m = k * coef q m.
Proof.
  intros (k & L & Nk & F & E). exists k, (expand n B L). split; [exact Nk|]. split; [|exact E]. clear Nk E k q.
  induction F as [|[x c] L [Cx _] _ IH]; [apply span_zero; reflexivity|]. cbn [fst] in Cx.
  destruct (cell_inv t o n B HB ND x Cx) as (b & v & Ib & Lv & D & Ex & _ & EP).
  apply (span_add n B _ (expand n B L) v b c IH Ib Lv).
  - intros i Hi Lt. destruct D as (_ & _ & D). apply (D i Hi). rewrite Ex. cbn [R vars].
    destruct (head_of t o n B HB b Ib) as (d & l & _ & _ & Lb & _). rewrite expo_addv by lia. lia.
  - intro m. rewrite !coef_expand. cbn [sumc]. rewrite <- EP. ring.
Qed.

(* ---- reduction keeps the class ---- *)
Definition rel (a r : list term) : Prop := exists k l q, k <> 0 /\ l <> 0 /\ rsT q /\ forall m, l * coef r m = k * coef a m + coef q m.
Lemma rel_refl a b : (forall m, coef a m = coef b m) -> rel a b.
Proof. intro E. exists 1, 1, []. do 2 (split; [lia|]). split; [apply rs_zero; reflexivity|]. intro m. rewrite E. cbn [coef]. lia. Qed.
Lemma rel_trans a b c : rel a b -> rel b c -> rel a c.
Proof.
  intros (k & l & q & Nk & Nl & Q & E) (k' & l' & q' & Nk' & Nl' & Q' & E').
  exists (k' * k), (l' * l), (scale k' q ++ scale l q'). split; [nia|]. split; [nia|]. split.
  - apply (rs_lin n B all q q' _ k' l 1); [lia|exact Q|exact Q'|]. intro m. rewrite coef_app, !coef_scale. lia.
  - intro m. rewrite coef_app, !coef_scale. transitivity (l * (l' * coef c m)); [ring|]. rewrite E'.
    transitivity (k' * (l * coef b m) + l * coef q' m); [ring|]. rewrite E. ring.
Qed.
Lemma rel_step a r g u k1 k2 : k1 <> 0 -> rsT (shift u (terms g)) -> (forall m, coef r m = k1 * coef a m + k2 * coef (shift u (terms g)) m) -> rel a r.
Proof.
  intros N1 Q E. exists k1, 1, (scale k2 (shift u (terms g))). split; [exact N1|]. split; [lia|]. split.
  - apply (rs_lin n B all (shift u (terms g)) [] _ k2 0 1); [lia|exact Q|apply rs_zero; reflexivity|]. intro m. rewrite coef_scale. lia.
  - intro m. rewrite coef_scale, E. ring.
Qed.
Lemma rel_class a r : rel a r -> same_class n B a r.
Proof.
  intros (k & l & q & Nk & Nl & Q & E). destruct (rs_span q Q) as (k' & p & Nk' & Sp & Ep).
  exists (k' * k), (k' * l), (scale (-1) p). split; [nia|]. split; [nia|]. split.
  - clear -Sp. induction Sp as [p H|p q u g c _ IH Ig Lu M E].
    + apply span_zero. intro m. rewrite coef_scale, H. lia.
    + apply (span_add n B _ (scale (-1) q) u g (- c) IH Ig Lu M). intro m. rewrite !coef_scale, E. ring.
  - intro m. rewrite coef_scale, Ep. transitivity (k' * (l * coef r m) - k' * coef q m); [rewrite E; ring|ring].
Qed.
Lemma class_rel a r : same_class n B a r -> rel a r.
Proof.
  intros (k & l & q & Nk & Nl & Q & E). exists k, l, (scale (-1) q). split; [exact Nk|]. split; [exact Nl|]. split.
  - apply (rs_lin n B all q [] _ (-1) 0 1); [lia|apply span_rs; exact Q|apply rs_zero; reflexivity|]. intro m. rewrite coef_scale. cbn [coef]. lia.
  - intro m. rewrite coef_scale, E. ring.
Qed.

Variable find : monom -> outcome (option poly).
Hypothesis F : forall m, mono n m -> pos m = -1 -> exists w, find m = Ok w /\
  match w with Some a => In a B /\ janet_divides n U (lead a) (vars m) | None => forall u, ~ janet_divides n U u (vars m) end.

Lemma term_ok f m c : ring_input t o n f -> In (m, c) (terms f) -> mono n m /\ pos m = -1.
Proof.
  intros (V & E1 & _ & _ & Rf) I. unfold valid_poly in V. apply canonical_iff in V as (_ & M & _). unfold monos in M. rewrite E1 in M.
  unfold ring_poly in Rf. rewrite Forall_forall in M, Rf. split; [exact (M _ I)|exact (Rf _ I)].
Qed.
Lemma red_args f a m : ring_input t o n f -> mono n m -> pos m = -1 -> In a B -> janet_divides n U (lead a) (vars m) ->
  exists d a', terms a = (R (lead a), d) :: a' /\ pvalid a /\ comparable f a = true /\ mdivides (R (lead a)) m /\ reducer false m (terms a) /\ ring_poly (terms a).
Proof.
  intros (V & E1 & E2 & E3 & Rf) Mm Pm Ia D. destruct (head_of t o n B HB a Ia) as (d & a' & Ea & _ & La & _).
  destruct (HB a Ia) as ((Va & A1 & A2 & A3 & Ra) & _). exists d, a'. split; [exact Ea|]. split; [exact Va|].
  split; [apply comparable_eq; repeat split; congruence|]. split; [|split; [split; [rewrite Pm; exact Ra|discriminate]|exact Ra]].
  split; [left; reflexivity|]. split; [cbn [R vars]; destruct Mm; congruence|]. intro i. cbn [R vars].
  destruct (Nat.lt_ge_cases i n) as [Hi|Hi]; [apply D; exact Hi|]. unfold expo at 1. rewrite nth_overflow by lia. lia.
Qed.
Lemma cell_shift a u m : In a B -> length u = n -> mprod (Mon (-1) u) (R (lead a)) = m -> janet_divides n U (lead a) (vars m) -> rsT (shift u (terms a)).
Proof.
  intros Ia Lu Em D. change (Mon (-1) u) with (R u) in Em. rewrite mprod_R in Em.
  eapply rs_mono; [|apply (cell_rs t o n B HB ND a u m Ia Lu (eq_sym Em) D)]. intros; exact Logic.I.
Qed.

Lemma nf_rel fuel : forall f r0 r k, ring_input t o n f -> nf_loop fuel false find r0 f = Ok (r, k) ->
  ring_input t o n r /\ rel (terms f) (terms r) /\ forall m c l, terms r = (m, c) :: l -> forall u, ~ janet_divides n U u (vars m).
Proof.
  assert (Stop : forall f m c l, ring_input t o n f -> terms f = (m, c) :: l -> find m = Ok None ->
    ring_input t o n f /\ rel (terms f) (terms f) /\ forall m c l, terms f = (m, c) :: l -> forall u, ~ janet_divides n U u (vars m)).
  { intros f m c l Rf E W. split; [exact Rf|]. split; [apply rel_refl; reflexivity|]. intros m' c' l' E'. rewrite E in E'. injection E' as <- <- <-.
    destruct (term_ok f m c Rf) as [Mm Pm]; [rewrite E; left; reflexivity|]. destruct (F m Mm Pm) as (w & Ew & Hw). rewrite W in Ew. injection Ew as <-. exact Hw. }
  induction fuel as [|fuel IH]; intros f r0 r k Rf E; cbn [nf_loop] in E; destruct (terms f) as [|[m c] l] eqn:Ef.
  1,3: injection E as <- <-; split; [exact Rf|]; split; [apply rel_refl; intro; now rewrite Ef|]; intros m c l E; congruence.
  - destruct (find m) as [[a|]| | | |] eqn:W; cbn [bind] in E; try discriminate. injection E as <- <-. rewrite <- Ef. exact (Stop f m c l Rf Ef W).
  - destruct (find m) as [[a|]| | | |] eqn:W; cbn [bind] in E; try discriminate; [|injection E as <- <-; rewrite <- Ef; exact (Stop f m c l Rf Ef W)].
    destruct (term_ok f m c Rf) as [Mm Pm]; [rewrite Ef; left; reflexivity|]. destruct (F m Mm Pm) as (w & Ew & Hw). rewrite W in Ew. injection Ew as <-. destruct Hw as [Ia D].
    destruct (red_args f a m Rf Mm Pm Ia D) as (d & a' & Ea & Va & Cm & Dv & Rd & Ra).
    assert (Rf' := Rf). destruct Rf' as (V & E1 & E2 & E3 & RR).
    destruct (p_reduction_ok false f a m c l (R (lead a)) d a' V Va Cm Ef Ea Dv Rd) as (f1 & k1 & k2 & u & Er & C1 & V1 & N1 & _ & _ & Lu & Eu & Ec & _).
    rewrite Er in E. cbn [bind] in E. apply comparable_eq in C1 as (G1 & G2 & G3).
    assert (R1 : ring_input t o n f1).
    { split; [exact V1|]. split; [congruence|]. split; [congruence|]. split; [congruence|]. eapply ring_of_coef; [exact V1|].
      intros x Nx. rewrite Ec, (coef_ring _ x RR Nx), (coef_ring (shift u (terms a)) x); [lia|apply ring_shift; exact Ra|exact Nx]. }
    destruct (IH f1 _ r k R1 E) as (Rr & Rel & Ir). split; [exact Rr|]. split; [|exact Ir]. rewrite <- Ef.
    eapply rel_trans; [|exact Rel]. apply (rel_step _ _ a u k1 k2 N1); [|exact Ec]. apply (cell_shift a u m); auto. congruence.
Qed.

Lemma nft_rel fuel : forall f pre rest r0 r k, ring_input t o n (with_terms f (pre ++ rest)) -> irreducible n B pre ->
  nft_loop fuel false find r0 f pre rest = Ok (r, k) ->
  ring_input t o n r /\ rel (pre ++ rest) (terms r) /\ irreducible n B (terms r).
Proof.
  assert (Stop : forall f pre, ring_input t o n (with_terms f (pre ++ [])) -> irreducible n B pre ->
    ring_input t o n (with_terms f pre) /\ rel (pre ++ []) (terms (with_terms f pre)) /\ irreducible n B (terms (with_terms f pre))).
  { intros f pre Rf Ip. rewrite app_nil_r in *. split; [exact Rf|]. split; [apply rel_refl; reflexivity|exact Ip]. }
  induction fuel as [|fuel IH]; intros f pre rest r0 r k Rf Ip E; cbn [nft_loop] in E; destruct rest as [|[m c] rest].
  1,3: injection E as <- <-; apply Stop; assumption.
  - discriminate.
  - assert (Im : In (m, c) (terms (with_terms f (pre ++ (m, c) :: rest)))) by (cbn [terms with_terms]; apply in_or_app; right; left; reflexivity).
    destruct (term_ok _ m c Rf Im) as [Mm Pm]. destruct (F m Mm Pm) as (w & Ew & Hw). rewrite Ew in E. cbn [bind] in E. destruct w as [a|].
    + destruct Hw as [Ia D]. destruct (red_args _ a m Rf Mm Pm Ia D) as (d & a' & Ea & Va & Cm & Dv & Rd & Ra).
      assert (Rf' := Rf). destruct Rf' as (V & E1 & E2 & E3 & RR). cbn [psize pto pbo with_terms terms] in E1, E2, E3, RR.
      destruct (red_tail_ok false _ a pre m c rest (R (lead a)) d a' V Va Cm eq_refl Ea Dv Rd) as (k1 & k2 & u & l & Er & V1 & N1 & _ & _ & Lu & Eu & Ec & _).
      change (red_tail false f pre ((m, c) :: rest) a = Ok (scale k1 pre, l)) in Er. rewrite Er in E. cbn [bind] in E.
      cbn [terms with_terms psize] in Ec, Lu. change (pvalid (with_terms f (scale k1 pre ++ l))) in V1.
      assert (R1 : ring_input t o n (with_terms f (scale k1 pre ++ l))).
      { split; [exact V1|]. do 3 (split; [assumption|]). eapply ring_of_coef; [exact V1|].
        intros x Nx. cbn [terms with_terms]. rewrite Ec, (coef_ring _ x RR Nx), (coef_ring (shift u (terms a)) x); [lia|apply ring_shift; exact Ra|exact Nx]. }
      destruct (IH f (scale k1 pre) l (Datatypes.S r0) r k R1) as (Rr & Rel & Ir); [|exact E|].
      * intros x y I. unfold scale in I. apply in_map_iff in I as ([x' y'] & Exy & I). injection Exy as <- _. exact (Ip x' y' I).
      * split; [exact Rr|]. split; [|exact Ir]. eapply rel_trans; [|exact Rel]. apply (rel_step _ _ a u k1 k2 N1); [|exact Ec].
        apply (cell_shift a u m); auto. congruence.
    + destruct (IH f (pre ++ [(m, c)]) rest r0 r k) as (Rr & Rel & Ir).
      * rewrite <- app_assoc. exact Rf.
      * intros x y I. apply in_app_or in I as [I|[I|[]]]; [exact (Ip x y I)|]. injection I as <- _. exact Hw.
      * exact E.
      * rewrite <- app_assoc in Rel. auto.
Qed.

(* ---- the whole of nf ---- *)
Lemma nf_all fuel a r : ring_input t o n a ->
  (do r1 <- p_nf fuel false find a; do r2 <- p_nfTail fuel false find (fst r1); p_pp false (fst r2)) = Ok r ->
  ring_input t o n r /\ rel (terms a) (terms r) /\ irreducible n B (terms r) /\ (terms r = [] \/ primitive (terms r)).
Proof.
  intros Ra E. unfold p_nf in E. destruct (nf_loop fuel false find 0 a) as [[r1 k1]| | | |] eqn:E1; cbn [bind fst] in E; try discriminate.
  destruct (nf_rel fuel a 0%nat r1 k1 Ra E1) as (R1 & C1 & I1).
  assert (X : exists r2, p_pp false r2 = Ok r /\ ring_input t o n r2 /\ rel (terms r1) (terms r2) /\ irreducible n B (terms r2)).
  { unfold p_nfTail in E. destruct (terms r1) as [|[m c] l] eqn:Et.
    - cbn [bind fst] in E. exists r1. split; [exact E|]. split; [exact R1|]. rewrite Et. split; [apply rel_refl; reflexivity|intros x y []].
    - destruct (nft_loop fuel false find 0 r1 [(m, c)] l) as [[r2 k2]| | | |] eqn:E2; cbn [bind fst] in E; try discriminate.
      exists r2. split; [exact E|]. apply (nft_rel fuel r1 [(m, c)] l 0%nat r2 k2).
      + destruct r1 as [x1 x2 x3 x4]. cbn [terms] in Et. subst x4. exact R1.
      + intros x y [I|[]]. injection I as <- _. apply (I1 m c l eq_refl).
      + exact E2. }
  destruct X as (r2 & Ep & R2 & C2 & I2). assert (R2' := R2). destruct R2' as (V & A1 & A2 & A3 & RR).
  destruct (p_pp_ok false r2 V) as (r' & g & Ep' & Cm & V' & Ng & Em & Ec & Pr & _). rewrite Ep in Ep'. injection Ep' as <-.
  apply comparable_eq in Cm as (G1 & G2 & G3).
  assert (Im : forall m, In m (map fst (terms r)) -> exists c, In (m, c) (terms r2)).
  { intros m I. rewrite Em in I. apply in_map_iff in I as ([x c] & <- & I). exists c. exact I. }
  split; [|split; [|split]].
  - split; [exact V'|]. do 3 (split; [congruence|]). apply Forall_forall. intros [m c] I. cbn [fst]. destruct (Im m) as (c' & I'); [apply in_map_iff; exists (m, c); auto|].
    unfold ring_poly in RR. rewrite Forall_forall in RR. exact (RR _ I').
  - eapply rel_trans; [exact C1|]. eapply rel_trans; [exact C2|]. exists 1, g, []. split; [lia|]. split; [exact Ng|]. split; [apply rs_zero; reflexivity|].
    intro m. rewrite Ec. cbn [coef]. lia.
  - intros m c I. destruct (Im m) as (c' & I'); [apply in_map_iff; exists (m, c); auto|]. exact (I2 m c' I').
  - destruct Pr as [Pr|Pr]; [left|right; exact Pr]. rewrite Pr in Em. destruct (terms r); [reflexivity|discriminate].
Qed.

(* ---- uniqueness ---- *)
Lemma diff_exists r s k l : ring_input t o n r -> ring_input t o n s -> exists d, canonical t o n d /\ (forall m, coef d m = k * coef (terms r) m - l * coef (terms s) m) /\
  forall m c, In (m, c) d -> pos m = -1 /\ mono n m /\ c <> 0 /\ ((exists c', In (m, c') (terms r)) \/ (exists c', In (m, c') (terms s))).
Proof.
  intros Rr Rs. destruct (canonical_exists t o n (scale k (terms r) ++ scale (- l) (terms s))) as (d & Cd & Ed).
  { apply Forall_app. split; apply Forall_forall; intros x I; unfold scale in I; apply in_map_iff in I as ([m c] & <- & I); cbn [fst]; [apply (term_ok r m c Rr I)|apply (term_ok s m c Rs I)]. }
  assert (Ec : forall m, coef d m = k * coef (terms r) m - l * coef (terms s) m) by (intro m; rewrite Ed, coef_app, !coef_scale; ring).
  exists d. split; [exact Cd|]. split; [exact Ec|]. intros m c I. destruct (canonical_coef _ _ _ _ m c Cd I) as [E N].
  assert (X : (exists c', In (m, c') (terms r)) \/ (exists c', In (m, c') (terms s))).
  { destruct (in_dec monom_eq_dec m (map fst (terms r))) as [J|J]; [left; apply in_map_iff in J as ([x c'] & <- & J); exists c'; exact J|].
    destruct (in_dec monom_eq_dec m (map fst (terms s))) as [J'|J']; [right; apply in_map_iff in J' as ([x c'] & <- & J'); exists c'; exact J'|].
    exfalso. rewrite Ec, (coef_notin _ _ J), (coef_notin _ _ J') in E. lia. }
  split; [|split; [|split; [exact N|exact X]]]; destruct X as [(c' & I')|(c' & I')]; first [apply (term_ok r m c' Rr I')|apply (term_ok s m c' Rs I')].
Qed.
Lemma unique r s : ring_input t o n r -> ring_input t o n s -> irreducible n B (terms r) -> irreducible n B (terms s) ->
  (terms r = [] \/ primitive (terms r)) -> (terms s = [] \/ primitive (terms s)) -> rel (terms r) (terms s) -> plus_minus (terms r) (terms s).
Proof.
  intros Rr Rs Ir Is Pr Ps (k & l & q & Nk & Nl & Q & E). destruct (diff_exists r s k l Rr Rs) as (d & Cd & Ed & Id).
  assert (Zd : d = []).
  { apply (rs_reduced t o n B HB ND d); [|exact Cd|].
    - apply (rs_lin n B all q [] d (-1) 0 1); [lia|exact Q|apply rs_zero; reflexivity|]. intro m. rewrite Ed, E. cbn [coef]. ring.
    - intros m c I. destruct (Id m c I) as (Pm & _ & _ & X). split; [exact Pm|]. destruct X as [(c' & I')|(c' & I')]; [exact (Ir m c' I')|exact (Is m c' I')]. }
  destruct Rr as (Vr & A1 & A2 & A3 & _), Rs as (Vs & B1 & B2 & B3 & _). unfold valid_poly in Vr, Vs. rewrite A1, A2, A3 in Vr. rewrite B1, B2, B3 in Vs.
  apply (proportional t o n _ _ k l); auto. intro m. specialize (Ed m). rewrite Zd in Ed. cbn [coef] in Ed. lia.
Qed.

(* ---- nothing happens to an irreducible polynomial ---- *)
Lemma find_none f m c : ring_input t o n f -> irreducible n B (terms f) -> In (m, c) (terms f) -> find m = Ok None.
Proof.
  intros Rf If I. destruct (term_ok f m c Rf I) as [Mm Pm]. destruct (F m Mm Pm) as (w & Ew & Hw). destruct w as [a|]; [|exact Ew].
  exfalso. exact (If m c I (lead a) (proj2 Hw)).
Qed.
Lemma nf_stay fuel f r0 : ring_input t o n f -> irreducible n B (terms f) -> nf_loop fuel false find r0 f = Ok (f, r0).
Proof.
  intros Rf If. assert (X : forall m c l, terms f = (m, c) :: l -> find m = Ok None) by (intros m c l E; apply (find_none f m c Rf If); rewrite E; left; reflexivity).
  destruct fuel; cbn [nf_loop]; destruct (terms f) as [|[m c] l] eqn:E; try reflexivity; rewrite (X m c l eq_refl); reflexivity.
Qed.
Lemma nft_stay fuel : forall f pre rest r0 r k, Forall (fun x => find (fst x) = Ok None) rest ->
  nft_loop fuel false find r0 f pre rest = Ok (r, k) -> r = with_terms f (pre ++ rest).
Proof.
  induction fuel as [|fuel IH]; intros f pre rest r0 r k H E; cbn [nft_loop] in E; destruct rest as [|[m c] rest].
  1,3: injection E as <- _; now rewrite app_nil_r.
  - discriminate.
  - assert (Hm := Forall_inv H). cbn [fst] in Hm. rewrite Hm in E. cbn [bind] in E. rewrite (IH _ _ _ _ _ _ (Forall_inv_tail H) E). now rewrite <- app_assoc.
Qed.
Lemma pp_stay p r : pvalid p -> (terms p = [] \/ primitive (terms p)) -> p_pp false p = Ok r -> r = p.
Proof.
  intros V Pr E. destruct (p_pp_ok false p V) as (r' & g & E' & Cm & V' & Ng & Em & Ec & _ & Sg). rewrite E in E'. injection E' as <-.
  assert (Same : (forall m, coef (terms p) m = coef (terms r) m) -> r = p).
  { intro H. apply comparable_eq in Cm as (G1 & G2 & G3). assert (X : terms r = terms p).
    { unfold pvalid, valid_poly in V, V'. rewrite <- G1, <- G2, <- G3 in V'. eapply canonical_unique; [exact V'|exact V|]. intro m. now rewrite H. }
    destruct r, p. cbn in *. congruence. }
  destruct Pr as [Z|Pr].
  - unfold p_pp in E. rewrite Z in E. now injection E as <-.
  - destruct (Pr g) as [->|Eg]; [intro m; exists (coef (terms r) m); rewrite Ec; ring|apply Same; intro m; rewrite Ec; lia|].
    subst g. specialize (Sg ltac:(lia)). destruct (terms p) as [|[m c] [|y l]] eqn:Et; cbn [length] in Sg; try lia.
    assert (Ac : Z.abs c = 1).
    { destruct (Pr c) as [-> | ->]; [|reflexivity|reflexivity]. intro x. cbn [coef]. destruct (monom_eq_dec m x); [exists 1; ring|exists 0; ring]. }
    unfold p_pp in E. rewrite Et, Ac in E. cbn in E. now injection E as <-.
Qed.
Lemma nf_again fuel r r' : ring_input t o n r -> irreducible n B (terms r) -> (terms r = [] \/ primitive (terms r)) ->
  (do r1 <- p_nf fuel false find r; do r2 <- p_nfTail fuel false find (fst r1); p_pp false (fst r2)) = Ok r' -> r' = r.
Proof.
  intros Rr Ir Pr E. unfold p_nf in E. rewrite (nf_stay fuel r 0%nat Rr Ir) in E. cbn [bind fst] in E.
  unfold p_nfTail in E. destruct (terms r) as [|[m c] l] eqn:Et.
  - cbn [bind fst] in E. apply (pp_stay r r'); [apply Rr|left; exact Et|exact E].
  - destruct (nft_loop fuel false find 0 r [(m, c)] l) as [[r2 k2]| | | |] eqn:E2; cbn [bind fst] in E; try discriminate.
    assert (Y : r2 = r).
    { rewrite (nft_stay _ _ _ _ _ _ _ (proj2 (Forall_forall _ _) (fun x I => find_none r (fst x) (snd x) Rr ltac:(rewrite Et; exact Ir) ltac:(rewrite Et; right; destruct x; exact I))) E2).
      destruct r as [x1 x2 x3 x4]. cbn [terms] in Et. subst x4. reflexivity. }
    subst r2. apply (pp_stay r r'); [apply Rr|rewrite Et; exact Pr|exact E].
Qed.
End N.
