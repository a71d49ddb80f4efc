(** The local test for involutive bases: if every non-multiplicative prolongation of every element has
    normal form 0, then every element of the ideal has normal form 0. *)
From Coq Require Import ZArith List Bool Arith Lia Wf_nat.
From Verif Require Import Outcome MonomModel MonomSpec MonomProofs PolyModel PolySpec PolyProofs PolyRedProofs PolyNfProofs
  JanetSpec JanetModel JanetFindProofs CompletionProofs JanetPolyModel JanetPolySpec IdealProofs.
Import ListNotations.
Local Open Scope Z_scope.

Section Inv.
Variables (t : pos_order) (o : base_order) (n : nat).
Hypothesis Ho : o <> OAlex.
Variable B : list poly.
Hypothesis HB : forall b, In b B -> ring_input t o n b /\ terms b <> [].
Hypothesis ND : NoDup (map lead B).
Let U := map lead B.

Definition R (u : list nat) : monom := Mon (-1) u.
Definition le (x m : monom) : Prop := x = m \/ cmp1 t o m x = 1.

Lemma R_mono u : length u = n -> mono n (R u).
Proof. intro L. split; [exact L|cbn; lia]. Qed.
Lemma R_of m : pos m = -1 -> m = R (vars m).
Proof. destruct m as [p v]. cbn. intros ->. reflexivity. Qed.
Lemma mprod_R u v : mprod (R u) (R v) = R (addv u v).
Proof. unfold mprod, R. cbn [pos vars]. change (-1 =? -1) with true. cbn iota. now rewrite vsum_addv. Qed.
Lemma msize x y : mono n x -> mono n y -> size x = size y.
Proof. intros [A _] [C _]. unfold size. congruence. Qed.
Lemma cmp1_shift u x y : length u = n -> mono n x -> mono n y -> pos x = -1 -> pos y = -1 ->
  cmp1 t o (mprod (R u) x) (mprod (R u) y) = cmp1 t o x y.
Proof.
  intros L Mx My Px Py. rewrite (R_of x Px), (R_of y Py), !mprod_R.
  rewrite <- (cmp1_mul t o (R (vars x)) (R (vars y)) (R u)).
  - unfold mul, R. cbn [pos vars mul_pos]. rewrite (addv_comm (vars x)), (addv_comm (vars y)). reflexivity.
  - unfold size. cbn. destruct Mx, My. congruence.
  - unfold size. cbn. destruct My. congruence.
  - reflexivity.
Qed.
Lemma le_trans x y z : mono n x -> mono n y -> mono n z -> le x y -> le y z -> le x z.
Proof.
  intros Mx My Mz [->|H] [->|H']; unfold le; auto. right.
  apply (cmp1_trans t o z y x); auto using msize.
Qed.

Lemma head_of b : In b B -> exists c l, terms b = (R (lead b), c) :: l /\ c <> 0 /\ length (lead b) = n /\
  forall x, In x l -> cmp1 t o (R (lead b)) (fst x) = 1 /\ mono n (fst x) /\ pos (fst x) = -1.
Proof.
  intro I. destruct (HB b I) as ((V & E1 & E2 & E3 & Rb) & N). unfold valid_poly in V. rewrite E1, E2, E3 in V.
  apply canonical_iff in V as (S & M & Z). unfold lead. destruct (terms b) as [|[m c] l] eqn:E; [congruence|].
  exists c, l. assert (Pm := Forall_inv Rb). assert (Mm := Forall_inv M). assert (Zm := Forall_inv Z). cbn [fst snd] in *.
  rewrite <- (R_of m Pm). split; [reflexivity|]. split; [exact Zm|]. split; [apply Mm|].
  intros x Ix. apply sorted_below in S as [S _]. unfold below in S. rewrite Forall_forall in S.
  apply Forall_inv_tail in M, Rb. rewrite Forall_forall in M, Rb. split; [apply S; exact Ix|]. split; [exact (M x Ix)|exact (Rb x Ix)].
Qed.
Lemma U_len u : In u U -> length u = n.
Proof. intro I. apply in_map_iff in I as (b & <- & Ib). destruct (head_of b Ib) as (c & l & _ & _ & L & _). exact L. Qed.

(* ---- decidability of Janet division ---- *)
Lemma prefix_dec (w u : list nat) i : {forall j, (j < i)%nat -> expo w j = expo u j} + {~ forall j, (j < i)%nat -> expo w j = expo u j}.
Proof.
  induction i as [|i IH]; [left; intros; lia|]. destruct IH as [IH|IH].
  - destruct (Nat.eq_dec (expo w i) (expo u i)) as [E|E].
    + left. intros j Hj. destruct (Nat.eq_dec j i) as [->|]; [exact E|apply IH; lia].
    + right. intro H. apply E, H. lia.
  - right. intro H. apply IH. intros j Hj. apply H. lia.
Qed.
Lemma nm_dec (V : list (list nat)) u i : {janet_nm V u i} + {~ janet_nm V u i}.
Proof.
  induction V as [|w V IH]; [right; intros (w & [] & _)|]. destruct IH as [IH|IH].
  - left. destruct IH as (x & I & H). exists x. split; [right; exact I|exact H].
  - destruct (prefix_dec w u i) as [P|P]; [destruct (lt_dec (expo u i) (expo w i)) as [L|L]|].
    + left. exists w. split; [left; reflexivity|]. split; assumption.
    + right. intros (x & [<-|I] & H1 & H2); [contradiction|]. apply IH. exists x. auto.
    + right. intros (x & [<-|I] & H1 & H2); [contradiction|]. apply IH. exists x. auto.
Qed.
Lemma bounded_dec (Q : nat -> Prop) k : (forall i, {Q i} + {~ Q i}) -> {forall i, (i < k)%nat -> Q i} + {exists i, (i < k)%nat /\ ~ Q i}.
Proof.
  intro D. induction k as [|k IH]; [left; intros; lia|]. destruct IH as [IH|IH].
  - destruct (D k) as [E|E]; [left|right; exists k; split; [lia|exact E]].
    intros i Hi. destruct (Nat.eq_dec i k) as [->|]; [exact E|apply IH; lia].
  - right. destruct IH as (i & Hi & N). exists i. split; [lia|exact N].
Qed.
Lemma mult_dec u m : {forall i, (i < n)%nat -> (expo u i < expo m i)%nat -> ~ janet_nm U u i} +
  {exists i, (i < n)%nat /\ (expo u i < expo m i)%nat /\ janet_nm U u i}.
Proof.
  destruct (bounded_dec (fun i => (expo u i < expo m i)%nat -> ~ janet_nm U u i) n) as [H|H].
  - intro i. destruct (lt_dec (expo u i) (expo m i)) as [L|L]; [|left; intros; contradiction].
    destruct (nm_dec U u i) as [N|N]; [right; intro X; exact (X L N)|left; auto].
  - left. exact H.
  - right. destruct H as (i & Hi & N). exists i. split; [exact Hi|].
    destruct (lt_dec (expo u i) (expo m i)) as [L|L]; [|exfalso; apply N; intros; contradiction]. split; [exact L|].
    destruct (nm_dec U u i) as [X|X]; [exact X|exfalso; apply N; auto].
Qed.
Lemma jd_dec u m : {janet_divides n U u m} + {~ janet_divides n U u m}.
Proof.
  destruct (in_dec (list_eq_dec Nat.eq_dec) u U) as [I|I]; [|right; intros (H & _); contradiction].
  destruct (bounded_dec (fun i => (expo u i <= expo m i)%nat) n) as [D|D]; [intro; apply le_dec| |].
  - destruct (mult_dec u m) as [M|M]; [left; split; [exact I|split; assumption]|right].
    destruct M as (i & Hi & L & N). intros (_ & _ & X). exact (X i Hi L N).
  - right. destruct D as (i & Hi & N). intros (_ & X & _). apply N, X, Hi.
Qed.

(** The involutive multiple of an element whose leading monomial is m. *)
Definition jb (m : monom) (b : poly) : bool := if jd_dec (lead b) (vars m) then true else false.
Definition P (m : monom) : list term :=
  match List.find (jb m) B with Some b => shift (subv (vars m) (lead b)) (terms b) | None => [] end.
Definition cell (m : monom) : Prop := mono n m /\ pos m = -1 /\ exists u, janet_divides n U u (vars m).

Lemma lead_inj b b' : In b B -> In b' B -> lead b = lead b' -> b = b'.
Proof.
  clear -ND. induction B as [|x l IH]; intros I I' E; [destruct I|]. cbn [map] in ND. apply NoDup_cons_iff in ND as [N1 N2].
  destruct I as [->|I], I' as [->|I']; auto.
  - exfalso. apply N1. rewrite E. apply in_map. exact I'.
  - exfalso. apply N1. rewrite <- E. apply in_map. exact I.
Qed.
Lemma P_char b m : In b B -> janet_divides n U (lead b) (vars m) -> P m = shift (subv (vars m) (lead b)) (terms b).
Proof.
  intros I D. unfold P. destruct (List.find (jb m) B) as [b'|] eqn:E.
  - apply find_some in E as [I' E]. unfold jb in E. destruct (jd_dec (lead b') (vars m)) as [D'|]; [|discriminate].
    assert (b' = b); [|subst; reflexivity]. apply lead_inj; auto. eapply (janet_unique n U); eauto. apply U_len.
  - exfalso. assert (X := find_none _ _ E b I). unfold jb in X. destruct (jd_dec (lead b) (vars m)); [discriminate|contradiction].
Qed.
Lemma divides_split u m : length u = n -> length m = n -> divides n u m -> m = addv (subv m u) u.
Proof.
  intros Lu Lm D. apply expo_ext.
  - rewrite addv_length; rewrite ?subv_length; lia.
  - intros i Hi. rewrite expo_addv by (rewrite subv_length; lia). rewrite expo_subv by lia. specialize (D i). rewrite Lm in Hi. specialize (D Hi). lia.
Qed.
Lemma cell_inv m : cell m -> exists b v, In b B /\ length v = n /\ janet_divides n U (lead b) (vars m) /\ m = R (addv v (lead b)) /\
  v = subv (vars m) (lead b) /\ P m = shift v (terms b).
Proof.
  intros ([Lm Pm] & Em & u & D). assert (Iu := proj1 D). apply in_map_iff in Iu as (b & <- & Ib). exists b, (subv (vars m) (lead b)).
  assert (Lb : length (lead b) = n) by (apply U_len, in_map; exact Ib).
  split; [exact Ib|]. split; [rewrite subv_length; lia|]. split; [exact D|]. split; [|split; [reflexivity|apply P_char; assumption]].
  rewrite (R_of m Em) at 1. f_equal. apply divides_split; auto. apply D.
Qed.
Lemma P_head m : cell m -> exists c l, P m = (m, c) :: l /\ c <> 0 /\ forall x, In x l -> cmp1 t o m (fst x) = 1.
Proof.
  intro C. destruct (cell_inv m C) as (b & v & Ib & Lv & _ & Em & _ & ->). destruct (head_of b Ib) as (c & l & E & Nc & Lb & H).
  exists c, (shift v l). rewrite E. cbn [shift map fst snd]. change (Mon (-1) v) with (R v). rewrite mprod_R, <- Em. split; [reflexivity|]. split; [exact Nc|].
  intros x Ix. unfold shift in Ix. apply in_map_iff in Ix as (y & <- & Iy). cbn [fst]. destruct (H y Iy) as (H1 & H2 & H3).
  rewrite Em, <- mprod_R. change (Mon (-1) v) with (R v). rewrite cmp1_shift; auto. apply R_mono; exact Lb.
Qed.

(* ---- representations ---- *)
Definition expand (L : list term) : list term := flat_map (fun x => scale (snd x) (P (fst x))) L.
Lemma coef_expand L m : coef (expand L) m = sumc (fun x => coef (P x) m) L.
Proof. induction L as [|[x c] L IH]; [reflexivity|]. cbn [expand flat_map fst snd sumc]. rewrite coef_app, coef_scale. unfold expand in IH. now rewrite IH. Qed.
Definition rs (Bd : monom -> Prop) (p : list term) : Prop :=
  exists k L, k <> 0 /\ Forall (fun x => cell (fst x) /\ Bd (fst x)) L /\ forall m, coef (expand L) m = k * coef p m.

Lemma rs_zero Bd p : (forall m, coef p m = 0) -> rs Bd p.
Proof. intro H. exists 1, []. split; [lia|]. split; [constructor|]. intro m. rewrite H. reflexivity. Qed.
Lemma Forall_scale (Q : monom -> Prop) c (L : list term) : Forall (fun x => Q (fst x)) L -> Forall (fun x => Q (fst x)) (scale c L).
Proof. intro H. unfold scale. apply Forall_map. eapply Forall_impl; [|exact H]. intros [x d]; auto. Qed.
Lemma rs_lin Bd p q r c1 c2 k : k <> 0 -> rs Bd p -> rs Bd q -> (forall m, k * coef r m = c1 * coef p m + c2 * coef q m) -> rs Bd r.
Proof.
  intros Nk (k1 & L1 & N1 & F1 & E1) (k2 & L2 & N2 & F2 & E2) H.
  exists (k * k1 * k2), (scale (k2 * c1) L1 ++ scale (k1 * c2) L2). split; [nia|]. split.
  - apply Forall_app. split; apply (Forall_scale (fun x => cell x /\ Bd x)); assumption.
  - intro m. rewrite coef_expand, sumc_app, !sumc_scale, <- !coef_expand, E1, E2.
    transitivity (k1 * k2 * (k * coef r m)); [rewrite H; ring|ring].
Qed.
Lemma rs_mono (B1 B2 : monom -> Prop) p : (forall x, cell x -> B1 x -> B2 x) -> rs B1 p -> rs B2 p.
Proof. intros H (k & L & N & F & E). exists k, L. split; [exact N|]. split; [|exact E]. eapply Forall_impl; [|exact F]. intros x [A C]. split; auto. Qed.
Lemma rs_div Bd p q k : k <> 0 -> (forall m, coef q m = k * coef p m) -> rs Bd q -> rs Bd p.
Proof. intros N E H. apply (rs_lin Bd q q p 1 0 k N H H). intro m. rewrite E. ring. Qed.
Lemma rs_flat Bd f (L : list term) : Forall (fun x => rs Bd (f (fst x))) L -> rs Bd (flat_map (fun x => scale (snd x) (f (fst x))) L).
Proof.
  induction 1 as [|[x c] L H _ IH]; [apply rs_zero; reflexivity|]. cbn [flat_map fst snd] in *.
  apply (rs_lin Bd (f x) (flat_map (fun x => scale (snd x) (f (fst x))) L) _ c 1 1); auto; [lia|].
  intro m. rewrite coef_app, coef_scale. lia.
Qed.

(* ---- one prolongation ---- *)
Definition e (i : nat) : list nat := incr i (repeat 0%nat n).
Lemma e_len i : length (e i) = n.
Proof. unfold e. now rewrite incr_length, repeat_length. Qed.
Lemma e_expo i j : (i < n)%nat -> expo (e i) j = if Nat.eqb j i then 1%nat else 0%nat.
Proof. intro H. unfold e. rewrite incr_expo' by (rewrite repeat_length; exact H). rewrite expo_repeat. destruct (Nat.eqb_spec j i); destruct (Nat.ltb j n); lia. Qed.

(** The Janet divisor of x_i * lead b, i non-multiplicative, agrees with it on the variables 0..i. *)
Lemma continuity b b' i : In b B -> In b' B -> (i < n)%nat -> janet_nm U (lead b) i ->
  janet_divides n U (lead b') (addv (e i) (lead b)) ->
  forall j, (j <= i)%nat -> expo (lead b') j = expo (addv (e i) (lead b)) j.
Proof.
  intros Ib Ib' Hi (w & Iw & W1 & W2) (_ & D & M). assert (Lb : length (lead b) = n) by (apply U_len, in_map; exact Ib).
  assert (X : forall j, expo (addv (e i) (lead b)) j = ((if Nat.eqb j i then 1 else 0) + expo (lead b) j)%nat).
  { intro j. rewrite expo_addv by (rewrite e_len; lia). now rewrite e_expo. }
  intro j. induction j as [j IH] using lt_wf_ind. intros Hj. assert (Hjn : (j < n)%nat) by lia.
  assert (Dj := D j Hjn). destruct (Nat.eq_dec (expo (lead b') j) (expo (addv (e i) (lead b)) j)) as [E|N]; [exact E|].
  exfalso. apply (M j Hjn); [lia|]. rewrite X in N, Dj. destruct (Nat.eqb_spec j i) as [->|Nji].
  - exists w. split; [exact Iw|]. split; [|lia]. intros j' Hj'. rewrite W1 by exact Hj'. rewrite IH by lia. rewrite X. destruct (Nat.eqb_spec j' i); lia.
  - exists (lead b). split; [apply in_map; exact Ib|]. split; [|lia]. intros j' Hj'. rewrite IH by lia. rewrite X. destruct (Nat.eqb_spec j' i); lia.
Qed.

(** A successful reduction to 0 is a representation by involutive multiples. *)
Lemma cell_rs a u m : In a B -> length u = n -> m = R (addv u (lead a)) -> janet_divides n U (lead a) (vars m) ->
  rs (fun x => le x m) (shift u (terms a)).
Proof.
  intros Ia Lu Em D. assert (La : length (lead a) = n) by (apply U_len, in_map; exact Ia).
  exists 1, [(m, 1)]. split; [lia|]. split.
  - constructor; [|constructor]. cbn [fst]. split; [|left; reflexivity]. split; [rewrite Em; apply R_mono; rewrite addv_length; lia|].
    split; [rewrite Em; reflexivity|]. exists (lead a). exact D.
  - intro x. unfold expand. cbn [flat_map fst snd app]. rewrite app_nil_r, coef_scale. f_equal. rewrite (P_char a m Ia D).
    rewrite Em. cbn [R vars]. rewrite subv_addv by lia. reflexivity.
Qed.
Definition below_head (f : list term) (x : monom) : Prop := match f with [] => False | (m, _) :: _ => le x m end.

Lemma nf_rs find :
  (forall m, mono n m -> pos m = -1 -> exists w, find m = Ok w /\
     match w with Some a => In a B /\ janet_divides n U (lead a) (vars m) | None => True end) ->
  forall fuel f r0 r k, ring_input t o n f -> nf_loop fuel false find r0 f = Ok (r, k) -> terms r = [] -> rs (below_head (terms f)) (terms f).
Proof.
  intros F. induction fuel as [|fuel IH]; intros f r0 r k (V & E1 & E2 & E3 & Rf) E Z; cbn [nf_loop] in E;
    destruct (terms f) as [|[m c] l] eqn:Ef; try (apply rs_zero; reflexivity).
  - exfalso. assert (Mm : mono n m). { unfold valid_poly in V. apply canonical_iff in V as (_ & M & _). rewrite Ef, E1 in M. exact (Forall_inv M). }
    destruct (F m Mm (Forall_inv Rf)) as (w & Ew & W). rewrite Ew in E. cbn [bind] in E. destruct w; [discriminate|]. injection E as <- <-. congruence.
  - assert (Mm : mono n m). { unfold valid_poly in V. apply canonical_iff in V as (_ & M & _). rewrite Ef, E1 in M. exact (Forall_inv M). }
    assert (Pm : pos m = -1) by exact (Forall_inv Rf).
    destruct (F m Mm Pm) as (w & Ew & W). rewrite Ew in E. cbn [bind] in E. destruct w as [a|]; [|injection E as <- <-; congruence].
    destruct W as [Ia D]. destruct (head_of a Ia) as (d & a' & Ea & _ & La & _). destruct (HB a Ia) as ((Va & A1 & A2 & A3 & Ra) & _).
    destruct (p_reduction_ok false f a m c l (R (lead a)) d a') as (f1 & k1 & k2 & u & Er & Cm & V1 & N1 & _ & _ & Lu & Eu & Ec & Bl); auto.
    + apply comparable_eq. repeat split; congruence.
    + split; [left; reflexivity|]. split; [cbn [R vars]; destruct Mm; congruence|]. intro i. cbn [R vars].
      destruct (Nat.lt_ge_cases i n) as [Hi|Hi]; [apply D; exact Hi|]. unfold expo at 1. rewrite nth_overflow by lia. lia.
    + split; [rewrite Pm; exact Ra|discriminate].
    + rewrite Er in E. cbn [bind] in E. apply comparable_eq in Cm as (C1 & C2 & C3). unfold pvalid in V1.
      assert (R1 : ring_input t o n f1).
      { split; [exact V1|]. split; [congruence|]. split; [congruence|]. split; [congruence|]. eapply ring_of_coef; [exact V1|].
        intros x Nx. rewrite Ec, Ef, (coef_ring _ x Rf Nx), (coef_ring (shift u (terms a)) x); [lia|apply ring_shift; exact Ra|exact Nx]. }
      assert (X := IH f1 _ r k R1 E Z).
      change (Mon (-1) u) with (R u) in Eu. rewrite mprod_R in Eu.
      cbn [below_head]. apply (rs_lin _ (terms f1) (shift u (terms a)) _ 1 (- k2) k1 N1).
      * eapply rs_mono; [|exact X]. intros x Cx Bx. unfold below_head in Bx. destruct (terms f1) as [|[m1 c1] l1] eqn:Ef1; [destruct Bx|].
        unfold valid_poly in V1. apply canonical_iff in V1 as (_ & M1 & _). rewrite Ef1, <- C1, E1 in M1. assert (Bm := Forall_inv Bl). cbn [fst] in Bm.
        eapply le_trans; [apply Cx|exact (Forall_inv M1)|exact Mm|exact Bx|]. right. rewrite <- E2, <- E3. exact Bm.
      * apply cell_rs; auto; congruence.
      * intro x. rewrite Ec, Ef. ring.
Qed.

Hypothesis local : forall b i, In b B -> (i < n)%nat -> janet_nm U (lead b) i ->
  rs (fun x => le x (R (addv (e i) (lead b)))) (shift (e i) (terms b)).

Lemma lex_wf : well_founded (mlt TOP OLex n).
Proof. apply mlt_wf. discriminate. Qed.
Lemma lex_lt u v : length u = n -> length v = n -> lex_gt u v -> mlt TOP OLex n (R v) (R u).
Proof.
  intros Lu Lv G. split; [apply R_mono; exact Lv|]. split; [apply R_mono; exact Lu|].
  apply cmp1_spec; [unfold size; cbn; congruence|]. cbn. left. exact G.
Qed.

Lemma shift_rs : forall M, forall u b, In b B -> length u = n -> R (addv u (lead b)) = M -> rs (fun x => le x M) (shift u (terms b)).
Proof.
  intro M. induction M as [M OUT] using (well_founded_induction (mlt_wf t o n Ho)).
  enough (X : forall Y u b, R u = Y -> In b B -> length u = n -> R (addv u (lead b)) = M -> rs (fun x => le x M) (shift u (terms b)))
    by (intros u b; apply (X (R u)); reflexivity).
  intro Y. induction Y as [Y INN] using (well_founded_induction lex_wf). intros u b EY Ib Lu EM. subst Y.
  assert (Lb : length (lead b) = n) by (apply U_len, in_map; exact Ib).
  assert (LM : length (addv u (lead b)) = n) by (rewrite addv_length; lia).
  assert (X : forall j, expo (addv u (lead b)) j = (expo u j + expo (lead b) j)%nat) by (intro j; apply expo_addv; lia).
  destruct (mult_dec (lead b) (addv u (lead b))) as [Mu|(i & Hi & Lt & Nm)].
  - assert (D : janet_divides n U (lead b) (vars M)).
    { rewrite <- EM. cbn [R vars]. split; [apply in_map; exact Ib|]. split; [|exact Mu]. intros j Hj. rewrite X. lia. }
    exists 1, [(M, 1)]. split; [lia|]. split.
    + constructor; [|constructor]. cbn [fst]. split; [|left; reflexivity]. rewrite <- EM in *. split; [apply R_mono; exact LM|]. split; [reflexivity|]. exists (lead b). exact D.
    + intro m. unfold expand. cbn [flat_map fst snd app]. rewrite app_nil_r, coef_scale. f_equal. rewrite (P_char b M Ib D). rewrite <- EM. cbn [R vars].
      rewrite subv_addv by lia. reflexivity.
  - rewrite X in Lt. set (u1 := subv u (e i)).
    assert (Lu1 : length u1 = n) by (unfold u1; rewrite subv_length; rewrite ?e_len; lia).
    assert (Eu : u = addv u1 (e i)).
    { apply divides_split; [apply e_len|exact Lu|]. intros j Hj. rewrite e_expo by exact Hi. destruct (Nat.eqb_spec j i) as [->|]; lia. }
    destruct (local b i Ib Hi Nm) as (k & L & Nk & FL & EL).
    rewrite Eu, <- shift_shift.
    apply (rs_div _ _ (flat_map (fun x => scale (snd x) (shift u1 (P (fst x)))) L) k Nk).
    { intro m. rewrite <- (coef_scale k).
      transitivity (coef (shift u1 (expand L)) m).
      - unfold expand. clear. induction L as [|[x c] L IH]; [reflexivity|]. cbn [flat_map fst snd]. unfold shift in *. rewrite map_app, !coef_app, IH. f_equal.
        unfold scale. rewrite !map_map. reflexivity.
      - rewrite (coef_shift_ext u1 (expand L) (scale k (shift (e i) (terms b)))).
        + unfold shift, scale. rewrite !map_map. reflexivity.
        + intro y. rewrite coef_scale. apply EL. }
    apply (rs_flat (fun x => le x M) (fun x => shift u1 (P x))). eapply Forall_impl; [|exact FL]. intros [mj c] [Cj Bj]. cbn [fst] in *.
    destruct (cell_inv mj Cj) as (b' & v & Ib' & Lv & D' & Emj & Ev & ->). rewrite shift_shift.
    assert (Lb' : length (lead b') = n) by (apply U_len, in_map; exact Ib').
    assert (L1 : length (addv u1 v) = n) by (rewrite addv_length; lia).
    assert (E1 : R (addv (addv u1 v) (lead b')) = mprod (R u1) mj) by (rewrite Emj, mprod_R; f_equal; symmetry; apply addv_assoc).
    assert (EM' : M = mprod (R u1) (R (addv (e i) (lead b)))).
    { rewrite mprod_R, <- EM. f_equal. rewrite Eu at 1. symmetry. apply addv_assoc. }
    assert (MM : mono n M) by (rewrite <- EM; apply R_mono; exact LM).
    assert (Me : mono n (R (addv (e i) (lead b)))) by (apply R_mono; rewrite addv_length; rewrite ?e_len; lia).
    assert (M1 : mono n (mprod (R u1) mj)) by (rewrite <- E1; apply R_mono; rewrite addv_length; lia).
    destruct Bj as [Bj|Bj].
    + (* the same leading monomial: the cofactor is lexicographically smaller *)
      apply (INN (R (addv u1 v))); auto.
      * apply lex_lt; auto. assert (C := continuity b b' i Ib Ib' Hi Nm). rewrite Bj in D'. cbn [R vars] in D'. specialize (C D').
        assert (V0 : forall j, (j <= i)%nat -> expo v j = 0%nat).
        { intros j Hj. rewrite Ev, Bj. cbn [R vars]. rewrite expo_subv by (rewrite addv_length; rewrite ?e_len; lia). rewrite C by exact Hj. lia. }
        exists i. split; [lia|]. rewrite Eu. split.
        -- intros j Hj. rewrite !expo_addv by (rewrite ?e_len; lia). rewrite V0 by lia. rewrite e_expo by exact Hi. destruct (Nat.eqb_spec j i); lia.
        -- rewrite !expo_addv by (rewrite ?e_len; lia). rewrite V0 by lia. rewrite e_expo by exact Hi. rewrite Nat.eqb_refl. lia.
      * rewrite E1, EM', Bj. reflexivity.
    + (* smaller leading monomial *)
      assert (Lt' : cmp1 t o M (mprod (R u1) mj) = 1).
      { rewrite EM', cmp1_shift; auto; try (apply Cj); reflexivity. }
      eapply rs_mono; [|apply (OUT (mprod (R u1) mj))]; auto.
      * intros x Cx Lx. cbn beta in *. eapply le_trans; [apply Cx|exact M1|exact MM|exact Lx|right; exact Lt'].
      * split; [exact M1|]. split; [exact MM|exact Lt'].
Qed.

Lemma comb_rs q : combination n (among B) q -> rs (fun _ => True) q.
Proof.
  induction 1 as [p H|p q u g c Hq IH (b & Ib & <-) Lu H]; [apply rs_zero; exact H|].
  apply (rs_lin _ q (shift u (terms b)) p 1 c 1); auto; [lia| |intro m; rewrite H; ring].
  eapply rs_mono; [|apply (shift_rs _ u b Ib Lu eq_refl)]. auto.
Qed.

Lemma canonical_exists l : monos n l -> exists l', canonical t o n l' /\ forall m, coef l' m = coef l m.
Proof.
  induction 1 as [|[x c] l Mx _ IH].
  - exists []. split; [|reflexivity]. split; constructor.
    all: constructor.
  - destruct IH as (l' & C & E). destruct (Z.eq_dec c 0) as [->|Nc].
    + exists l'. split; [exact C|]. intro m. cbn [coef]. rewrite E. destruct (monom_eq_dec x m); lia.
    + cbn [fst] in Mx. assert (Cx : canonical t o n [(x, c)]) by (split; [|split]; repeat constructor; auto; apply Mx).
      exists (add_terms t o [(x, c)] l'). split; [apply add_canonical; assumption|].
      intro m. apply canonical_iff in Cx, C. rewrite coef_sumc, (add_sumc t o n) by tauto. rewrite <- !coef_sumc, E. cbn [coef]. lia.
Qed.

Lemma expand_ext L L' : (forall m, coef L m = coef L' m) -> forall m, coef (expand L) m = coef (expand L') m.
Proof. intros H m. rewrite !coef_expand. apply sumc_coef. exact H. Qed.

(** A combination of involutive multiples without reducible monomials is 0. *)
Lemma rs_reduced r : rs (fun _ => True) r -> canonical t o n r -> (forall m c, In (m, c) r -> pos m = -1 /\ forall u, ~ janet_divides n U u (vars m)) -> r = [].
Proof.
  intros (k & L & Nk & F & E) C H. assert (ML : monos n L).
  { unfold monos. eapply Forall_impl; [|exact F]. intros x [(A & _) _]. exact A. }
  destruct (canonical_exists L ML) as (L' & C' & E').
  assert (F' : forall x c, In (x, c) L' -> cell x).
  { intros x c I. destruct (canonical_coef _ _ _ _ _ _ C' I) as [E1 N1]. rewrite E' in E1.
    assert (Ix : In x (map fst L)). { destruct (in_dec monom_eq_dec x (map fst L)) as [|N]; [assumption|]. rewrite (coef_notin _ _ N) in E1. congruence. }
    apply in_map_iff in Ix as (y & <- & Iy). rewrite Forall_forall in F. apply (F y Iy). }
  destruct L' as [|[M c] L'].
  - destruct r as [|[m c] r]; [reflexivity|exfalso]. destruct (canonical_coef _ _ _ _ m c C (or_introl eq_refl)) as [E1 N1].
    assert (X := E m). rewrite (expand_ext L []) in X by (intro; now rewrite <- E'). change (coef (expand []) m) with 0 in X. rewrite E1 in X. nia.
  - exfalso. assert (CM : cell M) by (apply (F' M c); left; reflexivity). destruct (P_head M CM) as (d & l & EP & Nd & BP).
    destruct (canonical_coef _ _ _ _ M c C' (or_introl eq_refl)) as [_ Nc].
    assert (X := E M). rewrite (expand_ext L ((M, c) :: L')) in X by (intro; now rewrite <- E').
    apply canonical_iff in C' as (S' & M' & _). apply sorted_below in S' as [S' _].
    rewrite coef_expand in X. cbn [sumc] in X.
    assert (X1 : coef (P M) M = d).
    { rewrite EP. cbn [coef]. destruct (monom_eq_dec M M); [|congruence]. rewrite coef_notin; [lia|]. intro I. apply in_map_iff in I as (y & Ey & Iy).
      assert (Z := BP y Iy). rewrite Ey in Z. rewrite (proj2 (cmp1_eq t o M M eq_refl) eq_refl) in Z. discriminate. }
    assert (X2 : sumc (fun x => coef (P x) M) L' = 0).
    { rewrite <- (sumc_zero L'). apply sumc_ext. intros [x cx] Ix. cbn [fst]. assert (Cx : cell x) by (apply (F' x cx); right; exact Ix).
      unfold below in S'. rewrite Forall_forall in S'. assert (Gx := S' _ Ix). cbn [fst] in Gx. destruct (P_head x Cx) as (dx & lx & EPx & _ & BPx).
      apply coef_notin. rewrite EPx. cbn [map fst]. intros [Ex|I].
      - rewrite Ex in Gx. rewrite (proj2 (cmp1_eq t o M M eq_refl) eq_refl) in Gx. discriminate.
      - apply in_map_iff in I as (y & Ey & Iy). assert (Z := BPx y Iy). rewrite Ey in Z.
        assert (SZ : size M = size x) by (apply msize; [apply CM|apply Cx]). rewrite cmp1_antisym in Z by exact SZ. lia. }
    rewrite X1, X2 in X. assert (Nr : coef r M <> 0) by (intro Y; rewrite Y in X; nia).
    assert (I : In M (map fst r)). { destruct (in_dec monom_eq_dec M (map fst r)) as [|N]; [assumption|]. exfalso. apply Nr. apply coef_notin. exact N. }
    apply in_map_iff in I as ([m' c'] & Em & Im). cbn [fst] in Em. subst m'. destruct (H M c' Im) as [_ Hn].
    destruct CM as (_ & _ & u & Du). exact (Hn u Du).
Qed.

Theorem involutive r : combination n (among B) r \/ (exists k q, k <> 0 /\ combination n (among B) q /\ forall m, coef q m = k * coef r m) ->
  canonical t o n r -> (forall m c, In (m, c) r -> pos m = -1 /\ forall u, ~ janet_divides n U u (vars m)) -> r = [].
Proof.
  intros [H|(k & q & N & H & E)] C I; apply rs_reduced; auto; [apply comb_rs; exact H|].
  eapply rs_div; [exact N|exact E|apply comb_rs; exact H].
Qed.
End Inv.
