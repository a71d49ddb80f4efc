(** A tree all whose non-multiplicative prolongations are covered is an involutive basis of its ideal. *)
From Coq Require Import ZArith List Bool Arith Lia Permutation.
From Verif Require Import Outcome MonomModel MonomSpec MonomProofs PolyModel PolySpec PolyProofs PolyNfProofs PolyRedProofs IdealProofs JanetSpec JanetFindProofs JanetPolySpec JanetPolyProofs CompletionProofs InvolutiveProofs
  PyMonomModel PyMonomSpec PyMonomProofs PyPolyModel PyPolySpec PyPolyProofs PyRedProofs PyJanetModel PyJanetSpec PyJanetProofs PyJanetTop PyJanetProlong
  PyHPModel PyForestModel PyForestProofs PyQueueModel PyQueueProofs PyDivProofs PySpan PyGinvModel PyGinvBase PyGinvSweep PyGinvRound PyGinvCover.
Import ListNotations.
Local Open Scope nat_scope.

Lemma split_var : forall u v, v < length u -> 0 < expo u v -> exists u', length u' = length u /\ addv u' (incr v (repeat 0 (length u))) = u.
Proof.
  induction u as [|a u IH]; intros [|v] L P; cbn [length] in *; try lia.
  - change (0 < a) in P. exists (a - 1 :: u). split; [reflexivity|]. change (addv (a - 1 :: u) (incr 0 (repeat 0 (S (length u))))) with ((a - 1 + 1) :: addv u (repeat 0 (length u))). rewrite addv_zero by reflexivity. f_equal. lia.
  - destruct (IH v ltac:(lia) P) as (u' & L' & E). exists (a :: u'). split; [cbn; lia|]. change (addv (a :: u') (incr (S v) (repeat 0 (S (length u))))) with ((a + 0) :: addv u' (incr v (repeat 0 (length u)))). rewrite E, Nat.add_0_r. reflexivity.
Qed.
Lemma mult_or_not (n : nat) (u : list nat) (P : nat -> Prop) (D : forall i, {P i} + {~ P i}) : (forall i, i < n -> 0 < expo u i -> ~ P i) \/ exists v, v < n /\ 0 < expo u v /\ P v.
Proof.
  induction n as [|n IH]; [left; intros; lia|]. destruct IH as [IH|(v & A & B & C)]; [|right; exists v; auto].
  destruct (D n) as [X|X]; [destruct (Nat.eq_dec (expo u n) 0) as [Z|Z]; [left; intros i Hi Q; destruct (Nat.eq_dec i n) as [->|]; [lia|apply IH; lia]|right; exists n; repeat split; auto; lia]|].
  left. intros i Hi Q. destruct (Nat.eq_dec i n) as [->|]; [exact X|apply IH; lia].
Qed.

Section Inv.
Variables (o : py_order) (n : nat) (k : Z) (F : ppoly -> Prop).
Hypothesis K : (0 <= k)%Z.
Hypothesis N : 0 < n.
Local Notation good := (good o n k).
Local Notation blt := (blt o n k).
Local Notation ble := (ble o n k).
Local Notation mul u := (mprod (Mon (-1) u)).
Variable T : pdiv.
Hypothesis To : treeok o n k F T.

Definition imult (w : pwrap) (u : list nat) : Prop := janet_divides n (d_comp T (pos (pw_lm w))) (exps w) (addv u (exps w)).
Inductive ispan (B : monom -> Prop) : ppoly -> Prop :=
| i_zero p : (forall m, coef p m = 0%Z) -> ispan B p
| i_add p q w u c : ispan B q -> In w (d_elems T) -> length u = n -> imult w u -> B (mul u (pw_lm w)) ->
    (forall m, coef p m = (coef q m + c * coef (shift u (pw_poly w)) m)%Z) -> ispan B p.
Definition rispan (B : monom -> Prop) (p : ppoly) : Prop := exists j q, (j <> 0)%Z /\ ispan B q /\ forall m, (coef q m = j * coef p m)%Z.
Lemma ispan_lin B p q r a b : ispan B q -> ispan B r -> (forall m, coef p m = a * coef q m + b * coef r m)%Z -> ispan B p.
Proof.
  intros Sq. revert r p. induction Sq as [q Z|q q' w u c S IH Gg L Mu Bg H]; intros r p Sr E.
  - revert p E. induction Sr as [r Zr|r r' w u c S IH Gg L Mu Bg H]; intros p E; [apply i_zero; intro m; rewrite E, Z, Zr; ring|].
    apply (i_add B p (scale b r') w u (b * c)); auto; [apply IH; intro m; rewrite coef_scale', Z; ring|]. intro m. rewrite E, Z, H, coef_scale'. ring.
  - apply (i_add B p (scale a q' ++ scale b r) w u (a * c)); auto.
    + apply (IH r); [exact Sr|]. intro m. rewrite coef_app, !coef_scale'. ring.
    + intro m. rewrite E, H, coef_app, !coef_scale'. ring.
Qed.
Lemma ispan_mono (B B' : monom -> Prop) p : (forall x, B x -> B' x) -> ispan B p -> ispan B' p.
Proof. intros H S. induction S as [p Z|p q w u c S IH Gg L Mu Bg E]; [now apply i_zero|]. apply (i_add B' p q w u c); auto. Qed.
Lemma rispan_lin B p q r j a b : (j <> 0)%Z -> rispan B q -> rispan B r -> (forall m, j * coef p m = a * coef q m + b * coef r m)%Z -> rispan B p.
Proof.
  intros J (j1 & q1 & J1 & S1 & E1) (j2 & q2 & J2 & S2 & E2) E. exists (j * j1 * j2)%Z, (scale (j2 * a) q1 ++ scale (j1 * b) q2). split; [nia|]. split.
  - apply (ispan_lin B _ q1 q2 (j2 * a) (j1 * b) S1 S2). intro m. rewrite coef_app, !coef_scale'. reflexivity.
  - intro m. rewrite coef_app, !coef_scale', E1, E2. transitivity (j1 * j2 * (j * coef p m))%Z; [rewrite E; ring|ring].
Qed.
Lemma rispan_mono (B B' : monom -> Prop) p : (forall x, B x -> B' x) -> rispan B p -> rispan B' p.
Proof. intros H (j & q & J & S & E). exists j, q. split; [exact J|]. split; [|exact E]. exact (ispan_mono B B' q H S). Qed.
Lemma rispan_zero B p : (forall m, coef p m = 0%Z) -> rispan B p.
Proof. intro Z. exists 1%Z, p. split; [lia|]. split; [now apply i_zero|]. intro m. ring. Qed.
Lemma rispan_trans (G : ppoly -> Prop) (B B' : monom -> Prop) p :
  (forall u g, G g -> length u = n -> B (mul u (lmon g)) -> rispan B' (shift u g)) -> rspan n G B p -> rispan B' p.
Proof.
  intros H (j & q & J & S & E). assert (X : rispan B' q).
  { clear E. induction S as [q Z|q r u g c S IH Gg L Bg E]; [now apply rispan_zero|]. apply (rispan_lin B' q r (shift u g) 1 1 c); [lia|exact IH|exact (H u g Gg L Bg)|]. intro m. rewrite E. ring. }
  apply (rispan_lin B' p q [] j 1 0 J X); [apply rispan_zero; reflexivity|]. intro m. rewrite E. cbn [coef]. ring.
Qed.

Lemma elem_good w : In w (d_elems T) -> good w.
Proof. exact (treeok_good o n k F T To w). Qed.
Lemma elem_mono w : In w (d_elems T) -> pmono n k (pw_lm w).
Proof. intro W. exact (good_pmono o n k w (elem_good w W)). Qed.
Lemma elem_len w : In w (d_elems T) -> length (exps w) = n.
Proof. intro W. exact (proj1 (elem_good w W)). Qed.
Lemma comp_self w : In w (d_elems T) -> In (exps w) (d_comp T (pos (pw_lm w))).
Proof. intro W. apply d_comp_in. exists w. auto. Qed.
Lemma polys_elem s : polys (d_elems T) s -> exists w, In w (d_elems T) /\ pw_poly w = s /\ lmon s = pw_lm w.
Proof. intro S. apply in_map_iff in S. destruct S as (w & <- & W). exists w. split; [exact W|]. split; [reflexivity|]. exact (good_lmon o n k w (elem_good w W)). Qed.
Lemma mul_vars u m : vars (mul u m) = addv u (vars m).
Proof. unfold mprod. cbn [vars]. apply vsum_addv. Qed.
Lemma mul_pos u m : pos (mul u m) = pos m.
Proof. reflexivity. Qed.

Section Complete.
Hypothesis Cov : forall w v, In w (d_elems T) -> v < n -> janet_nm (d_comp T (pos (pw_lm w))) (exps w) v -> covered o n k (polys (d_elems T)) w v.

Lemma multiples_in : forall mu, forall u w, In w (d_elems T) -> length u = n -> mul u (pw_lm w) = mu -> rispan (ble mu) (shift u (pw_poly w)).
Proof.
  intro mu. induction mu as [mu OIH] using (well_founded_induction (pylt_wf o n k)). intro u. induction u as [u IIH] using (well_founded_induction vlt_wf). intros w W Lu Eu.
  pose proof (elem_mono w W) as Mw. assert (Mmu : pmono n k mu) by (rewrite <- Eu; apply mul_mono; auto).
  destruct (mult_or_not n u (janet_nm (d_comp T (pos (pw_lm w))) (exps w)) (nm_dec _ _)) as [H|(v & V & P & Nm)].
  - exists 1%Z, (shift u (pw_poly w)). split; [lia|]. split; [|intro m; ring]. apply (i_add _ _ [] w u 1); [apply i_zero; reflexivity|exact W|exact Lu| |rewrite Eu; split; auto|intro m; cbn [coef]; ring].
    split; [exact (comp_self w W)|]. pose proof (elem_len w W) as Lw. split; [intros i Hi; rewrite expo_addv by lia; lia|]. intros i Hi Q. apply H; [exact Hi|]. rewrite expo_addv in Q by lia. lia.
  - destruct (Cov w v W V Nm) as (s & a & j & c & d & Ss & La & Ea & Lx & J & D & Co). destruct (polys_elem s Ss) as (g & G & <- & El). rewrite El in *.
    destruct (split_var u v ltac:(lia) P) as (u' & Lu' & Es). rewrite Lu in Es. fold (ev n v) in Es.
    assert (Lb : length (addv u' a) = n) by (rewrite addv_length; lia). assert (Lu1 : length u' = n) by lia.
    assert (Eb : mul (addv u' a) (pw_lm g) = mu) by (rewrite <- mul_mul, Ea, mul_mul, Es; exact Eu).
    apply (rispan_lin (ble mu) _ (shift (addv u' a) (pw_poly g)) (shift u' d) j c 1 J).
    + apply IIH; auto. split; [lia|]. apply lexv_spec; [lia|]. pose proof (elem_len g G) as Lg. pose proof (elem_len w W) as Lw. unfold exps in Lg, Lw, Lx.
      assert (Q : addv (addv u' a) (vars (pw_lm g)) = addv u (vars (pw_lm w))) by (rewrite <- !mul_vars, Eb, Eu; reflexivity).
      assert (Q' : forall i, expo (addv u' a) i + expo (vars (pw_lm g)) i = expo u i + expo (vars (pw_lm w)) i) by (intro i; rewrite <- !expo_addv by lia; now rewrite Q).
      destruct Lx as (i & Li & L1 & L2). exists i. split; [lia|]. split; [intros x X; specialize (Q' x); specialize (L1 x X); lia|specialize (Q' i); lia].
    + apply (rispan_mono (blt mu)); [intros x X; now apply blt_ble|]. apply (rispan_trans (polys (d_elems T)) (blt mu) (blt mu)).
      * intros u0 g0 G0 L0 B0. destruct (polys_elem g0 G0) as (w0 & W0 & <- & E0). rewrite E0 in B0. destruct B0 as [M0 P0].
        apply (rispan_mono (ble (mul u0 (pw_lm w0)))); [intros x X; apply (blt_trans o n k mu (mul u0 (pw_lm w0)) x Mmu); [split; assumption|exact X]|].
        apply OIH; auto. split; [exact M0|]. split; [exact Mmu|exact P0].
      * apply (rspan_shift n _ (blt (mul (ev n v) (pw_lm w))) (blt mu) u' d Lu1); [|exact D]. intros x X.
        assert (Mv : pmono n k (mul (ev n v) (pw_lm w))) by (apply mul_mono; [apply ev_len|exact Mw]). pose proof (blt_mul o n k K u' _ x Lu1 Mv X) as Y. rewrite mul_mul, Es, Eu in Y. exact Y.
    + intro m. pose proof (coef_shift_lin u' (scale j (shift (ev n v) (pw_poly w))) (shift a (pw_poly g)) d c 1 ltac:(intro x; rewrite coef_scale, Co; ring) m) as X1.
      pose proof (coef_shift_lin u' (scale j (shift (ev n v) (pw_poly w))) (shift (ev n v) (pw_poly w)) [] j 0 ltac:(intro x; rewrite coef_scale; cbn [coef]; ring) m) as X2.
      change (coef (shift u' []) m) with 0%Z in X2. rewrite !shift_shift, Es in *. rewrite X2 in X1. lia.
Qed.
End Complete.

(* ---- leading monomials of combinations of multiplicative multiples ---- *)
Lemma shift_lead w u : In w (d_elems T) -> length u = n -> coef (shift u (pw_poly w)) (mul u (pw_lm w)) <> 0%Z /\ forall x, coef (shift u (pw_poly w)) x <> 0%Z -> ble (mul u (pw_lm w)) x.
Proof.
  intros W Lu. destruct (elem_good w W) as (_ & _ & _ & (c & l & E) & C). apply py_canonical_iff in C as (S & M & Z). pose proof (elem_mono w W) as Mw. assert (Mm : pmono n k (mul u (pw_lm w))) by (apply mul_mono; auto).
  rewrite E in *. apply psorted_cons in S as [Bl _]. cbn [fst] in Bl. pose proof (Forall_inv_tail M) as Ml. pose proof (Forall_inv Z) as Zc. cbn [snd] in Zc.
  assert (X : forall x, coef (shift u l) x <> 0%Z -> blt (mul u (pw_lm w)) x).
  { intros x H. apply coef_nz_in in H. unfold shift in H. rewrite map_map in H. apply in_map_iff in H. destruct H as (y & <- & Y). cbn [fst]. unfold pbelow in Bl. rewrite Forall_forall in Bl. unfold pmonos in Ml. rewrite Forall_forall in Ml.
    apply (blt_mul o n k K u _ _ Lu Mw). split; [exact (Ml y Y)|exact (Bl y Y)]. }
  change (shift u ((pw_lm w, c) :: l)) with ((mul u (pw_lm w), c) :: shift u l). cbn [coef]. split.
  - destruct (monom_eq_dec _ _) as [_|Q]; [|now contradiction Q]. destruct (Z.eq_dec (coef (shift u l) (mul u (pw_lm w))) 0) as [->|Q]; [lia|]. exfalso. destruct (X _ Q) as [_ P]. exact (pgt_irrefl o n _ (proj1 Mm) P).
  - intros x H. destruct (monom_eq_dec (mul u (pw_lm w)) x) as [<-|Q]; [split; auto|]. apply blt_ble, X. lia.
Qed.
Lemma cell_unique w u w' u' : In w (d_elems T) -> In w' (d_elems T) -> length u = n -> length u' = n -> imult w u -> imult w' u' -> mul u (pw_lm w) = mul u' (pw_lm w') -> w = w' /\ u = u'.
Proof.
  intros W W' L L' I I' E. pose proof (f_equal pos E) as Ep. rewrite !mul_pos in Ep. pose proof (f_equal vars E) as Ev. rewrite !mul_vars in Ev. pose proof (elem_len w W) as Lw. pose proof (elem_len w' W') as Lw'.
  unfold imult in *. rewrite <- Ep in I'. assert (Ex : exps w = exps w').
  { apply (janet_unique n (d_comp T (pos (pw_lm w))) (exps w) (exps w') (addv u (exps w))); [|exact I|]; [|unfold exps at 2; rewrite Ev; exact I'].
    intros x X. apply d_comp_in in X. destruct X as (y & Y & _ & <-). exact (elem_len y Y). }
  assert (w = w') as <-. { apply (dfit_unique bare n k bare_eraser N T w w' (proj1 To) W W'). rewrite (lm_split w), (lm_split w'). now rewrite Ep, Ex. }
  split; [reflexivity|]. unfold exps in *. apply nth_ext with (d := 0) (d' := 0); [lia|]. intros i Hi. pose proof (f_equal (fun l => expo l i) Ev) as Q. cbn beta in Q. rewrite !expo_addv in Q by lia. unfold expo in Q. lia.
Qed.
Lemma top_split mu p : ispan (ble mu) p -> (ispan (blt mu) p) \/ exists w u c d, In w (d_elems T) /\ length u = n /\ imult w u /\ mul u (pw_lm w) = mu /\ ispan (blt mu) d /\ forall m, (coef p m = c * coef (shift u (pw_poly w)) m + coef d m)%Z.
Proof.
  induction 1 as [p Z|p q w u c S IH W L I B E]; [left; now apply i_zero|]. destruct B as [M [B|B]].
  - right. destruct IH as [IH|(w' & u' & c' & d & W' & L' & I' & E' & D & Co)].
    + exists w, u, c, q. rewrite B. repeat split; auto; try apply I. intro m. rewrite E. ring.
    + destruct (cell_unique w u w' u' W W' L L' I I' ltac:(congruence)) as [<- <-]. exists w, u, (c + c')%Z, d. repeat split; auto; try apply I. intro m. rewrite E, Co. ring.
  - destruct IH as [IH|(w' & u' & c' & d & W' & L' & I' & E' & D & Co)].
    + left. apply (i_add _ p q w u c); auto. split; assumption.
    + right. exists w', u', c', (d ++ scale c (shift u (pw_poly w))). repeat split; auto; try apply I'.
      * apply (i_add _ _ d w u c); auto; [split; assumption|]. intro m. rewrite coef_app, coef_scale. ring.
      * intro m. rewrite E, Co, coef_app, coef_scale. ring.
Qed.
Lemma ispan_below mu p : ispan (blt mu) p -> pmono n k mu -> forall x, coef p x <> 0%Z -> blt mu x.
Proof.
  intros S M. induction S as [p Z|p q w u c S IH W L I B E]; intros x H; [rewrite Z in H; congruence|]. destruct (Z.eq_dec (coef q x) 0) as [Q|Q]; [|exact (IH x Q)].
  rewrite E, Q in H. destruct (Z.eq_dec (coef (shift u (pw_poly w)) x) 0) as [R|R]; [rewrite R in H; lia|]. apply (blt_trans o n k mu _ x M B). exact (proj2 (shift_lead w u W L) x R).
Qed.
Lemma ispan_max (B : monom -> Prop) p : (forall x, B x -> pmono n k x) -> ispan B p -> (forall m, coef p m = 0%Z) \/ exists nu, B nu /\ ispan (ble nu) p.
Proof.
  intros HB S. induction S as [p Z|p q w u c S IH W L I Bm E]; [now left|right]. pose proof (HB _ Bm) as Mm. set (x := mul u (pw_lm w)) in *. destruct IH as [Z|(nu & Bn & Sn)].
  - exists x. split; [exact Bm|]. apply (i_add _ p [] w u c); [apply i_zero; reflexivity|exact W|exact L|exact I|split; auto|]. intro m. rewrite E, Z. cbn [coef]. ring.
  - pose proof (HB _ Bn) as Mn. destruct (pcases o n x nu (proj1 Mm) (proj1 Mn)) as [[G _]|[[G _]|[G _]]].
    + exists x. split; [exact Bm|]. apply (i_add _ p q w u c); auto; [|split; auto]. apply (ispan_mono (ble nu)); [|exact Sn]. intros y Y. apply blt_ble, (blt_trans o n k x nu y Mm); [split; assumption|exact Y].
    + exists nu. split; [exact Bn|]. apply (i_add _ p q w u c); auto. split; auto.
    + exists nu. split; [exact Bn|]. apply (i_add _ p q w u c); auto. split; auto.
Qed.
(** the leading monomial of a combination of multiplicative multiples that is not zero has a Janet divisor *)
Lemma ispan_lead : forall mu p, pmono n k mu -> ispan (ble mu) p -> (forall m, coef p m = 0%Z) \/ exists w u, In w (d_elems T) /\ length u = n /\ imult w u /\ coef p (mul u (pw_lm w)) <> 0%Z /\ forall x, coef p x <> 0%Z -> ble (mul u (pw_lm w)) x.
Proof.
  intro mu. induction mu as [mu IH] using (well_founded_induction (pylt_wf o n k)). intros p Mmu S. destruct (top_split mu p S) as [S'|(w & u & c & d & W & L & I & Em & D & Co)].
  - destruct (ispan_max (blt mu) p (fun x X => proj1 X) S') as [Z|(nu & Bn & Sn)]; [now left|]. apply (IH nu); [split; [apply Bn|split; [exact Mmu|apply Bn]]|apply Bn|exact Sn].
  - destruct (Z.eq_dec c 0) as [->|Nc].
    + assert (S' : ispan (blt mu) p) by (apply (ispan_lin _ p d d 1 0 D D); intro m; rewrite Co; ring). destruct (ispan_max (blt mu) p (fun x X => proj1 X) S') as [Z|(nu & Bn & Sn)]; [now left|].
      apply (IH nu); [split; [apply Bn|split; [exact Mmu|apply Bn]]|apply Bn|exact Sn].
    + right. exists w, u. split; [exact W|]. split; [exact L|]. split; [exact I|]. destruct (shift_lead w u W L) as [H1 H2]. rewrite Em in *. split.
      * rewrite Co. destruct (Z.eq_dec (coef d mu) 0) as [->|Q]; [nia|]. exfalso. destruct (ispan_below mu d D Mmu mu Q) as [_ X]. exact (pgt_irrefl o n mu (proj1 Mmu) X).
      * intros x H. destruct (Z.eq_dec (coef d x) 0) as [Q|Q]; [|apply blt_ble; exact (ispan_below mu d D Mmu x Q)]. apply H2. intro X. apply H. rewrite Co, Q, X. ring.
Qed.

Theorem lead_divisible : (forall w v, In w (d_elems T) -> v < n -> janet_nm (d_comp T (pos (pw_lm w))) (exps w) v -> covered o n k (polys (d_elems T)) w v) ->
  forall p, py_canonical o n k p -> p <> [] -> rspan n (polys (d_elems T)) everything p -> exists w, In w (d_elems T) /\ pos (pw_lm w) = pos (lmon p) /\ janet_divides n (d_comp T (pos (lmon p))) (exps w) (vars (lmon p)).
Proof.
  intros Cov p C Np R. assert (Ri : rispan (pmono n k) p).
  { apply (rispan_trans (polys (d_elems T)) everything (pmono n k)); [|exact R]. intros u g G L _. destruct (polys_elem g G) as (w & W & <- & E). apply (rispan_mono (ble (mul u (pw_lm w)))); [intros x X; apply X|]. now apply multiples_in. }
  destruct Ri as (j & q & J & S & E). destruct (ispan_max (pmono n k) q (fun x X => X) S) as [Z|(nu & Mn & Sn)].
  - exfalso. destruct p as [|[m c] p]; [contradiction|]. apply py_canonical_iff in C as (So & M & Nz). pose proof (pcoef_in o n k m c _ So M (or_introl eq_refl)) as X. pose proof (Forall_inv Nz) as Nc. cbn [snd] in Nc. specialize (Z m). rewrite E, X in Z. nia.
  - destruct p as [|[m c] p]; [contradiction|]. apply py_canonical_iff in C as (So & M & Nz). pose proof (pcoef_in o n k m c _ So M (or_introl eq_refl)) as X. pose proof (Forall_inv Nz) as Nc. cbn [snd] in Nc.
    destruct (ispan_lead nu q Mn Sn) as [Z|(w & u & W & L & I & H1 & H2)]; [exfalso; specialize (Z m); rewrite E, X in Z; nia|].
    assert (Em : mul u (pw_lm w) = m).
    { assert (Hm : coef q m <> 0%Z) by (rewrite E, X; nia). destruct (H2 m Hm) as [Mm [G|G]]; [congruence|]. exfalso.
      assert (Hx : coef ((m, c) :: p) (mul u (pw_lm w)) <> 0%Z) by (intro Q; apply H1; rewrite E; etransitivity; [apply (f_equal (Z.mul j)); exact Q|ring]). apply coef_nz_in in Hx. destruct Hx as [Hx|Hx]; [cbn [fst] in Hx; rewrite <- Hx in G; exact (pgt_irrefl o n m (proj1 Mm) G)|].
      apply psorted_cons in So as [Bl _]. unfold pbelow in Bl. rewrite Forall_forall in Bl. apply in_map_iff in Hx. destruct Hx as (y & Ey & Y). specialize (Bl y Y). cbn [fst] in Bl. rewrite Ey in Bl.
      pose proof (proj1 (mul_mono n k u (pw_lm w) L (elem_mono w W))) as Mx. apply (pgt_irrefl o n m (proj1 Mm)). exact (pgt_trans o n m _ m (proj1 Mm) Mx (proj1 Mm) Bl G). }
    exists w. split; [exact W|]. cbn [lmon]. rewrite <- Em. rewrite mul_pos, mul_vars. split; [reflexivity|exact I].
Qed.
End Inv.
