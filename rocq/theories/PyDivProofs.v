(** Trees and forests of pyginv whose Wraps are changed from outside: polynomials, ancestors and marks.  The search and
    insert depend on the leading monomials alone, so such a tree behaves like one that was built by insertions. *)
From Coq Require Import ZArith List Bool Arith Lia Permutation.
From Verif Require Import Outcome MonomModel MonomSpec MonomProofs PolySpec JanetSpec PyMonomModel PyMonomSpec PyPolyModel PyPolySpec PyJanetModel PyJanetSpec PyJanetProofs PyJanetTop PyJanetProlong
  PyHPModel PyForestModel PyForestSpec PyForestProofs PyQueueModel PyQueueProofs.
Import ListNotations.
Local Open Scope nat_scope.

(* ---- the marks nonmult of the elements that stay are never taken back ---- *)
Definition core (w : pwrap) : pwrap := PW (pw_id w) (pw_poly w) (pw_anc w) (pw_lm w) (pw_prolong w) (map (fun _ => false) (pw_nonmult w)).
Lemma set_flag_core l v b : map (fun _ : bool => false) (set_flag l v b) = map (fun _ => false) l.
Proof. revert v. induction l as [|x l IH]; intros [|v]; cbn [set_flag map]; try reflexivity. now rewrite IH. Qed.
Lemma core_mark v b w : core (set_nonmult v b w) = core w.
Proof. unfold core, set_nonmult. cbn. now rewrite set_flag_core. Qed.
Definition grows (u u' : pwrap) : Prop := core u = core u' /\ forall i, nmf u i = true -> nmf u' i = true.
Lemma grows_refl u : grows u u.
Proof. split; auto. Qed.
Lemma grows_trans a b c : grows a b -> grows b c -> grows a c.
Proof. intros [A A'] [B B']. split; [congruence|auto]. Qed.
Lemma grows_mark v u : grows u (set_nonmult v true u).
Proof.
  split; [symmetry; apply core_mark|]. intros i H. destruct (Nat.eq_dec i v) as [->|N]; [|rewrite nmf_other; assumption].
  apply nmf_same. destruct (Nat.lt_ge_cases v (length (pw_nonmult u))) as [L|L]; [exact L|]. unfold nmf in H. rewrite nth_overflow in H by exact L. discriminate H.
Qed.
Definition grown (l l' : list pwrap) : Prop := exists l0, Permutation l' l0 /\ Forall2 grows l l0.
Lemma grown_refl l : grown l l.
Proof. exists l. split; [reflexivity|]. induction l; constructor; auto using grows_refl. Qed.
Lemma grown_app a a' b b' : grown a a' -> grown b b' -> grown (a ++ b) (a' ++ b').
Proof. intros (x & P & F) (y & P' & F'). exists (x ++ y). split; [apply Permutation_app; assumption|apply Forall2_app; assumption]. Qed.
Lemma grown_perm_r l l' l'' : Permutation l'' l' -> grown l l' -> grown l l''.
Proof. intros P (x & Px & F). exists x. split; [etransitivity; eassumption|exact F]. Qed.
Lemma grown_perm_l l0 l l' : Permutation l0 l -> grown l l' -> grown l0 l'.
Proof.
  intros P (x & Px & F). assert (X : exists y, Permutation x y /\ Forall2 grows l0 y).
  { clear Px. revert x F. induction P as [|a l0 l P IH|a b l|l0 l1 l2 P1 IH1 P2 IH2]; intros x F.
    - exists x. split; [reflexivity|exact F].
    - inversion F as [|? b ? x' G F']; subst. destruct (IH x' F') as (y & P' & F2). exists (b :: y). split; [now apply perm_skip|now constructor].
    - inversion F as [|? b' ? x' G F']; subst. inversion F' as [|? a' ? x2 G' F2]; subst. exists (a' :: b' :: x2). split; [constructor|]. constructor; [exact G'|]. constructor; assumption.
    - destruct (IH2 x F) as (y & Py & Fy). destruct (IH1 y Fy) as (z & Pz & Fz). exists z. split; [etransitivity; eassumption|exact Fz]. }
  destruct X as (y & Py & Fy). exists y. split; [etransitivity; eassumption|exact Fy].
Qed.
Lemma grown_mark v r : grown (relems r) (relems (map (t_mark v) r)).
Proof.
  rewrite mark_relems. exists (map (set_nonmult v true) (relems r)). split; [reflexivity|]. induction (relems r) as [|u l IH]; constructor; [apply grows_mark|exact IH].
Qed.
Lemma grown_trans a b c : grown a b -> grown b c -> grown a c.
Proof.
  intros (x & P & F) Q. apply (grown_perm_l x b c (Permutation_sym P)) in Q. destruct Q as (y & Py & G). exists y. split; [exact Py|]. clear P Py.
  revert y G. induction F as [|u u' a x S F IH]; intros y G; inversion G as [|? u2 ? y' S' G']; subst; constructor; [eapply grows_trans; eassumption|exact (IH _ G')].
Qed.
Lemma p_insert_grown : forall es v d w r r' rm, p_insert es v d w r = Ok (r', rm) ->
  exists w' l, Permutation (relems r' ++ rm) (w' :: l) /\ core w' = core w /\ grown (relems r) l.
Proof.
  induction es as [|e es IH]; intros v d w r r' rm E; [discriminate E|]. cbn [p_insert] in E.
  set (w1 := if Nat.ltb (S e) (length r) then set_nonmult v true w else w) in *.
  assert (W1 : core w1 = core w) by (unfold w1; destruct (Nat.ltb _ _); [apply core_mark|reflexivity]).
  set (r1 := if Nat.ltb (length r) (S e) then map (t_mark v) r ++ repeat (PList []) (S e - length r) else r) in *.
  assert (R1 : grown (relems r) (relems r1)) by (unfold r1; destruct (Nat.ltb (length r) (S e)); [rewrite relems_app, relems_empty, app_nil_r; apply grown_mark|apply grown_refl]).
  rewrite <- W1. destruct (nth e r1 (PList [])) as [u|c] eqn:N; [discriminate E|]. destruct (Nat.ltb_spec e d) as [L|L].
  - apply bind_ok in E. destruct E as ([c' rm'] & E1 & E). cbn [fst snd] in E. injection E as <- <-. apply IH in E1. destruct E1 as (w' & l & P & C & G).
    assert (Le : e < length r1). { destruct (Nat.lt_ge_cases e (length r1)) as [X|X]; [exact X|]. unfold r1 in X. destruct (Nat.ltb_spec (length r) (S e)); [rewrite app_length, map_length, repeat_length in X; lia|lia]. }
    destruct (set_nth_split r1 e (PList c) (PList c')) as [S1 S2]; [rewrite (nth_some r1 e (PList [])) by exact Le; now rewrite N|].
    set (a := relems (firstn e r1)) in *. set (b := relems (skipn (S e) r1)) in *.
    exists w', (a ++ l ++ b). split; [|split; [exact C|]].
    + rewrite S2, relems_app. cbn [relems]. rewrite telems_list. fold a b. rewrite <- !app_assoc.
      transitivity (a ++ (relems c' ++ rm') ++ b); [rewrite <- app_assoc; do 2 apply Permutation_app_head; apply Permutation_app_comm|].
      transitivity (a ++ (w' :: l) ++ b); [apply Permutation_app_head, Permutation_app_tail, P|]. cbn [app]. symmetry. apply Permutation_middle.
    + apply (grown_trans _ _ _ R1). rewrite S1, relems_app. cbn [relems]. rewrite telems_list. fold a b. apply grown_app; [apply grown_refl|]. apply grown_app; [exact G|apply grown_refl].
  - unfold assert_ in E. destruct (true && negb (Nat.eqb d e)); [discriminate E|]. injection E as <- <-. rewrite relems_app. cbn [relems telems app]. rewrite <- app_assoc. cbn [app].
    exists (set_nonmult v false w1), (relems (firstn e r1) ++ relems (skipn e r1)). split; [symmetry; apply Permutation_middle|]. split; [apply core_mark|]. rewrite <- relems_app, firstn_skipn. exact R1.
Qed.
Lemma insert_grown J w J' lst : pj_insert J [w] = Ok (J', lst) ->
  exists w' l, Permutation (elems J' ++ lst) (w' :: l) /\ core w' = core w /\ grown (elems J) l.
Proof.
  intro E. unfold pj_insert in E. cbn [pj_insert_loop] in E. apply bind_ok in E. destruct E as ([J1 l1] & E & E'). apply bind_ok in E. destruct E as ([J2 l2] & E & X). injection X as <- <-. injection E' as <- <-.
  cbn [fst snd app]. unfold pj_insert1 in E. apply bind_ok in E. destruct E as ([u|] & _ & E); [discriminate E|]. unfold assert_ in E. destruct (true && _); [discriminate E|].
  apply bind_ok in E. destruct E as ([r' rm] & E & X). injection X as <- <-. unfold elems. cbn [pj_root fst snd]. exact (p_insert_grown _ _ _ _ _ _ _ E).
Qed.

(** insertion of a Wrap does not extend the cones of the elements that stay *)
Lemma core_exps u u' : core u = core u' -> exps u = exps u'.
Proof. intro H. unfold exps. apply (f_equal pw_lm) in H. cbn in H. now rewrite H. Qed.
Lemma grown_in l l' u : grown l l' -> In u l -> exists u', In u' l' /\ grows u u'.
Proof.
  intros (x & P & F) U. assert (X : exists u', In u' x /\ grows u u').
  { clear P. induction F as [|a b l x S F IH]; [destruct U|]. destruct U as [->|U]; [exists b; split; [now left|exact S]|]. destruct (IH U) as (u' & I & G). exists u'. split; [now right|exact G]. }
  destruct X as (u' & I & G). exists u'. split; [apply (Permutation_in _ (Permutation_sym P)), I|exact G].
Qed.
Lemma insert_cones n J w J' lst : 0 < n -> built n J -> clean n w -> pj_insert J [w] = Ok (J', lst) ->
  forall x i, In x (tree_exps J) -> In x (tree_exps J') -> i < n -> janet_nm (tree_exps J) x i -> janet_nm (tree_exps J') x i.
Proof.
  intros N B C E x i X X' Hi H. pose proof (insert_one n J w J' lst N B C E) as (B' & P & NF).
  destruct (pyj_insert n J w N B C P NF) as (J2 & l2 & kept & E2 & _ & Pm & _). rewrite E in E2. injection E2 as <- <-.
  destruct (insert_grown J w J' lst E) as (w' & l & Pg & Cw & G).
  apply in_map_iff in X. destruct X as (u & Eu & U).
  assert (H0 : nmf u i = true) by (apply (pyj_flags n J u i N B U Hi); rewrite Eu; exact H).
  destruct (grown_in _ _ u G U) as (u' & I & Gu & Gf). assert (I' : In u' (elems J' ++ lst)) by (apply (Permutation_in _ (Permutation_sym Pg)); now right).
  apply in_app_iff in I'. destruct (built_extra n J' N B') as [D' _]. apply in_map_iff in X'. destruct X' as (v & Ev & V).
  assert (Eu' : exps u' = x) by (rewrite <- (core_exps _ _ Gu); exact Eu).
  destruct I' as [I'|I'].
  - rewrite <- Eu'. apply (pyj_flags n J' u' i N B' I' Hi). exact (Gf i H0).
  - (* a removed element: its monomial is not in the new tree *)
    exfalso. destruct (built_extra n J N B) as [D _].
    assert (Nd : NoDup (map exps (elems J' ++ lst))).
    { apply (Permutation_NoDup (l := exps w :: tree_exps J)).
      - symmetry. exact (insert_perm exps (fun _ _ _ => eq_refl) J w J' lst E).
      - constructor; [|exact D]. intro Y. apply (NF (exps w)). split; [exact Y|]. split; [intros j _; lia|]. intros j _ Z. lia. }
    rewrite map_app in Nd. apply in_map with (f := exps) in I'. apply in_map with (f := exps) in V. rewrite Eu' in I'. rewrite Ev in V.
    clear - Nd I' V. induction (map exps (elems J')) as [|a l IH]; [destruct V|]. inversion Nd as [|? ? Y Nd']; subst. destruct V as [->|V]; [apply Y, in_app_iff; now right|exact (IH V Nd')].
Qed.

(* ---- a tree that looks like a built one through e ---- *)
Definition eraser (e : pwrap -> pwrap) : Prop :=
  (forall v b w, e (set_nonmult v b w) = set_nonmult v b (e w)) /\ (forall w, pw_lm (e w) = pw_lm w) /\
  (forall w p, e (set_prolong p true w) = e w).
(** the leading monomial only; the leading monomial and the marks nonmult *)
Definition bare (w : pwrap) : pwrap := PW 0 [] (pw_lm w) (pw_lm w) [] [].
Definition flags (w : pwrap) : pwrap := PW 0 [] (pw_lm w) (pw_lm w) [] (pw_nonmult w).
Lemma bare_eraser : eraser bare.
Proof. repeat split; reflexivity. Qed.
Lemma flags_eraser : eraser flags.
Proof. repeat split; reflexivity. Qed.
(** e does not tell w from a Wrap as constructed *)
Definition fresh (e : pwrap -> pwrap) (n : nat) (w : pwrap) : Prop := exists w0, clean n w0 /\ e w0 = e w.
Lemma bare_fresh n w : length (exps w) = n -> fresh bare n w.
Proof. intro L. exists (PW 0 [] (pw_lm w) (pw_lm w) (repeat false n) (repeat false n)). split; [|reflexivity]. split; [exact L|]. split; [reflexivity|apply repeat_length]. Qed.
Lemma flags_fresh n w : clean n w -> fresh flags n w.
Proof. intro C. exists w. auto. Qed.

Section Ghost.
Variables (e : pwrap -> pwrap) (n : nat).
Hypothesis He : eraser e.
Hypothesis N : 0 < n.
Definition ghost (p : Z) (J : pjanet) : Prop :=
  exists J0, built n J0 /\ (forall u, In u (elems J0) -> pos (pw_lm u) = p) /\ j_map e J = j_map e J0.
Lemma e_exps w : exps (e w) = exps w.
Proof. unfold exps. now rewrite (proj1 (proj2 He)). Qed.
Lemma map_exps J J0 : j_map e J = j_map e J0 -> tree_exps J = tree_exps J0.
Proof.
  intro E. unfold tree_exps. rewrite <- (map_ext _ _ e_exps (elems J)), <- (map_ext _ _ e_exps (elems J0)), <- !(map_map e exps), <- !j_map_elems. now rewrite E.
Qed.
Lemma map_lms J J0 : j_map e J = j_map e J0 -> map pw_lm (elems J) = map pw_lm (elems J0).
Proof.
  intro E. rewrite <- (map_ext _ _ (proj1 (proj2 He)) (elems J)), <- (map_ext _ _ (proj1 (proj2 He)) (elems J0)), <- !(map_map e pw_lm), <- !j_map_elems. now rewrite E.
Qed.
Lemma ghost_pos p J u : ghost p J -> In u (elems J) -> pos (pw_lm u) = p.
Proof.
  intros (J0 & _ & P & E) U. apply (in_map pw_lm) in U. rewrite (map_lms J J0 E) in U. apply in_map_iff in U. destruct U as (u0 & <- & U). exact (P u0 U).
Qed.
Lemma ghost_distinct p J : ghost p J -> NoDup (tree_exps J).
Proof. intros (J0 & B & _ & E). rewrite (map_exps J J0 E). exact (proj1 (built_extra n J0 N B)). Qed.
Lemma ghost_lengths p J x : ghost p J -> In x (tree_exps J) -> length x = n.
Proof. intros (J0 & B & _ & E) X. rewrite (map_exps J J0 E) in X. exact (tree_lengths n J0 x (proj1 (built_inv n J0 N B)) X). Qed.
Lemma ghost_find p J m : ghost p J -> length (vars m) = n -> pos m = p ->
  (exists r, pj_findWrap J m = Ok r) /\
  (forall u, pj_findWrap J m = Ok (Some u) -> In u (elems J) /\ janet_divides n (tree_exps J) (exps u) (vars m)) /\
  (pj_findWrap J m = Ok None <-> forall x, ~ janet_divides n (tree_exps J) x (vars m)).
Proof.
  intros (J0 & B & P & E) L Pm. destruct (pyj_find n J0 m N B L) as ((r & R) & S & T); [intros u U; rewrite Pm; exact (P u U)|].
  rewrite (map_exps J J0 E). pose proof (findWrap_map e J m) as X. rewrite E, findWrap_map, R in X. cbn [omap bind] in X. symmetry in X. apply omap_ok in X. destruct X as (r' & R' & Er).
  split; [eauto|]. split.
  - intros u U. split; [exact (findWrap_in J m u U)|]. rewrite U in R'. injection R' as <-. destruct r as [u0|]; [|discriminate Er]. injection Er as Er.
    rewrite <- e_exps, Er, e_exps. apply (proj1 (S u0) R).
  - rewrite <- T, R, R'. destruct r as [u|], r' as [u'|]; try discriminate Er; split; intro; auto; discriminate.
Qed.
Lemma ghost_insert p J w : ghost p J -> fresh e n w -> pos (pw_lm w) = p -> (forall x, ~ janet_divides n (tree_exps J) x (exps w)) ->
  exists J' lst, pj_insert J [w] = Ok (J', lst) /\ ghost p J' /\
    (forall u, In u lst -> janet_divides n (tree_exps J') (exps w) (exps u)) /\
    (forall x i, In x (tree_exps J) -> In x (tree_exps J') -> i < n -> janet_nm (tree_exps J) x i -> janet_nm (tree_exps J') x i).
Proof.
  intros (J0 & B & P & E) (w0 & C & W) Pw NF. rewrite (map_exps J J0 E) in *.
  assert (Ew : exps w0 = exps w) by (rewrite <- (e_exps w), <- W; symmetry; apply e_exps).
  assert (Lw : pw_lm w0 = pw_lm w) by (rewrite <- (proj1 (proj2 He) w), <- W; symmetry; apply (proj1 (proj2 He))).
  rewrite <- Ew in NF. destruct (pyj_insert n J0 w0 N B C) as (J0' & lst0 & kept & E0 & B' & Pm & (l & Pl & F2) & D); [intros u U; rewrite Lw, Pw; exact (P u U)|exact NF|].
  pose proof (insert_map e (proj1 He) (proj1 (proj2 He)) J w) as X. rewrite E, <- W, (insert_map e (proj1 He) (proj1 (proj2 He)) J0 w0), E0 in X. cbn [omap bind] in X.
  symmetry in X. apply omap_ok in X. destruct X as ([J' lst] & I & X). unfold jimap in X. cbn [fst snd] in X.
  pose proof (f_equal fst X) as X1'. pose proof (f_equal snd X) as X2. cbn [fst snd] in X1', X2.
  exists J', lst. split; [exact I|]. split; [exists J0'; split; [exact B'|]; split; [|exact X1']|].
  - intros u U. apply (Permutation_in _ Pl) in U. assert (Y : exists u', In u' (w0 :: kept) /\ pw_lm u = pw_lm u').
    { clear - F2 U. induction F2 as [|a b l l' S F IH]; [destruct U|]. destruct U as [<-|U]; [exists b; split; [now left|apply S]|]. destruct (IH U) as (u' & A & D). exists u'. split; [now right|exact D]. }
    destruct Y as (u' & [<-|U'] & Y); [rewrite Y, Lw; exact Pw|]. rewrite Y. apply P. apply (Permutation_in _ (Permutation_sym Pm)), in_app_iff. now left.
  - rewrite (map_exps J' J0' X1'). split.
    + intros u U. apply (in_map e) in U. rewrite X2 in U. apply in_map_iff in U. destruct U as (u0 & Eu & U). rewrite <- Ew, <- (e_exps u), <- Eu, e_exps. apply D; [|exact U].
      apply (Permutation_in _ (Permutation_sym Pm)), in_app_iff. now right.
    + exact (insert_cones n J0 w0 J0' lst0 N B C E0).
Qed.
Lemma ghost_map f p J : (forall w, In w (elems J) -> e (f w) = e w) -> ghost p J -> ghost p (j_map f J).
Proof. intros H (J0 & B & P & E). exists J0. split; [exact B|]. split; [exact P|]. rewrite j_map_comp, <- E. apply j_map_ext. exact H. Qed.
Lemma ghost_empty p : ghost p pj_empty.
Proof. exists pj_empty. split; [apply built_new|]. split; [intros u []|reflexivity]. Qed.
End Ghost.

(** the marks are right when they are not erased *)
Lemma ghost_flags n p J u i : 0 < n -> ghost flags n p J -> In u (elems J) -> i < n ->
  (nth i (pw_nonmult u) false = true <-> janet_nm (tree_exps J) (exps u) i).
Proof.
  intros N (J0 & B & P & E) U Hi. rewrite (map_exps flags flags_eraser J J0 E). apply (in_map flags) in U. rewrite <- j_map_elems, E, j_map_elems in U. apply in_map_iff in U. destruct U as (u0 & Eu & U).
  assert (X : pw_nonmult u0 = pw_nonmult u) by exact (f_equal pw_nonmult Eu). assert (Y : exps u0 = exps u) by (apply (f_equal pw_lm) in Eu; cbn in Eu; unfold exps; now rewrite Eu).
  rewrite <- X, <- Y. exact (pyj_flags n J0 u0 i N B U Hi).
Qed.

(* ---- Janet or Forest ---- *)
(** the monomials the tree is for *)
Definition zone (T : pdiv) (m : monom) : Prop := match T with DJanet _ => pos m = (-1)%Z | DForest _ => (0 <= pos m)%Z end.
Definition same_kind (T T' : pdiv) : Prop := match T, T' with DJanet _, DJanet _ => True | DForest F, DForest F' => length F = length F' | _, _ => False end.
Definition dfit (e : pwrap -> pwrap) (n : nat) (k : Z) (T : pdiv) : Prop :=
  match T with
  | DJanet J => k = 0%Z /\ ghost e n (-1)%Z J
  | DForest F => k = Z.of_nat (length F) /\ forall i J, nth_error F i = Some J -> ghost e n (Z.of_nat i) J
  end.
(** exponents of the leading monomials with unknown function p (-1: none) *)
Definition d_comp (T : pdiv) (p : Z) : list (list nat) := map exps (filter (fun w => Z.eqb (pos (pw_lm w)) p) (d_elems T)).

Lemma same_kind_refl T : same_kind T T.
Proof. destruct T; cbn; auto. Qed.
Lemma same_kind_trans a b c : same_kind a b -> same_kind b c -> same_kind a c.
Proof. destruct a, b, c; cbn; intros; auto; try contradiction. congruence. Qed.
Lemma same_kind_zone T T' m : same_kind T T' -> zone T m <-> zone T' m.
Proof. destruct T, T'; cbn; intro; try contradiction; tauto. Qed.

Lemma nth_error_split_at (F : pforest) i J : nth_error F i = Some J -> exists A B, length A = i /\ F = A ++ J :: B /\ forall J', replace F i J' = A ++ J' :: B.
Proof.
  revert i. induction F as [|x F IH]; intros [|i] E; try discriminate E.
  - injection E as ->. exists [], F. repeat split.
  - destruct (IH i E) as (A & B & L & F1 & F2). exists (x :: A), B. split; [cbn; lia|]. split; [cbn; now rewrite <- F1|]. intro J'. cbn [replace app]. now rewrite F2.
Qed.
Lemma pf_elems_app A B : pf_elems (A ++ B) = pf_elems A ++ pf_elems B.
Proof. unfold pf_elems. apply flat_map_app. Qed.

Section Div.
Variables (e : pwrap -> pwrap) (n : nat) (k : Z).
Hypothesis He : eraser e.
Hypothesis N : 0 < n.
Local Notation dfit := (dfit e n k).
Local Notation ghost := (ghost e n).

Lemma d_sel T m : dfit T -> pmono n k m -> zone T m -> exists J A B (put : pjanet -> pdiv),
  ghost (pos m) J /\ d_findWrap T m = pj_findWrap J m /\ d_elems T = A ++ elems J ++ B /\ (forall u, In u (A ++ B) -> pos (pw_lm u) <> pos m) /\
  (forall J', d_elems (put J') = A ++ elems J' ++ B /\ same_kind T (put J') /\ (ghost (pos m) J' -> dfit (put J'))) /\
  forall w, pos (pw_lm w) = pos m -> d_insert T [w] = omap (fun x => (put (fst x), snd x)) (pj_insert J [w]).
Proof.
  intros D [Mm Pm] Z. destruct T as [J|F]; cbn [zone PyDivProofs.dfit] in *.
  - destruct D as [K G]. exists J, [], [], DJanet. rewrite Z. split; [exact G|]. split; [reflexivity|]. split; [cbn; now rewrite app_nil_r|]. split; [intros u []|]. split.
    + intro J'. split; [cbn; now rewrite app_nil_r|]. split; [exact I|]. intro G'. split; assumption.
    + intros w _. reflexivity.
  - destruct D as [K G]. set (i := Z.to_nat (pos m)). assert (Ei : pos m = Z.of_nat i) by (unfold i; lia). assert (Li : i < length F) by lia.
    set (J := nth i F pj_empty). assert (EJ : nth_error F i = Some J) by (apply nth_some; exact Li).
    destruct (nth_error_split_at F i J EJ) as (A & B & La & F1 & F2). exists J, (pf_elems A), (pf_elems B), (fun J' => DForest (A ++ J' :: B)).
    assert (Fe : forall J', pf_elems (A ++ J' :: B) = pf_elems A ++ elems J' ++ pf_elems B) by (intro J'; rewrite pf_elems_app; reflexivity).
    split; [rewrite Ei; exact (G i J EJ)|]. split; [cbn [d_findWrap]; unfold pf_findWrap; rewrite (proj2 (Z.leb_le 0 (pos m))) by exact Z; rewrite index_ok by lia; fold i; reflexivity|].
    split; [cbn [d_elems]; rewrite F1; apply Fe|]. split; [|split].
    + intros u U. apply in_app_iff in U. destruct U as [U|U]; unfold pf_elems in U; apply in_flat_map in U; destruct U as (J1 & I1 & U); apply In_nth_error in I1; destruct I1 as (j & I1).
      * assert (Lj : j < length A) by (apply nth_error_Some; rewrite I1; discriminate). rewrite (ghost_pos e n He (Z.of_nat j) J1 u); [lia| |exact U]. apply G. rewrite F1, nth_error_app1 by exact Lj. exact I1.
      * rewrite (ghost_pos e n He (Z.of_nat (S (length A + j))) J1 u); [lia| |exact U]. apply G. rewrite F1, nth_error_app2 by lia. replace (S (length A + j) - length A) with (S j) by lia. exact I1.
    + intro J'. split; [apply Fe|]. assert (Ln : length (A ++ J' :: B) = length F) by (rewrite F1, !app_length; reflexivity). split; [cbn; now symmetry|]. intro G'. split; [rewrite Ln; exact K|].
      intros j J1 E1. destruct (Nat.lt_trichotomy j (length A)) as [L|[L|L]].
      * apply G. rewrite F1. rewrite nth_error_app1 in * by exact L. exact E1.
      * subst j. rewrite nth_error_app2, Nat.sub_diag in E1 by lia. injection E1 as <-. rewrite La, <- Ei. exact G'.
      * apply G. rewrite F1. rewrite nth_error_app2 in * by lia. destruct (j - length A) as [|x] eqn:X; [lia|]. exact E1.
    + intros w Pw. cbn [d_insert]. unfold pf_insert. cbn [pf_insert_loop]. rewrite Pw, index_ok by lia. fold i. fold J. destruct (pj_insert J [w]) as [[J' lst]| | | |]; try reflexivity. cbn [bind omap fst snd app]. now rewrite F2.
Qed.
Lemma d_comp_tree T p A J B : d_elems T = A ++ elems J ++ B -> (forall u, In u (A ++ B) -> pos (pw_lm u) <> p) -> (forall u, In u (elems J) -> pos (pw_lm u) = p) -> d_comp T p = tree_exps J.
Proof.
  intros E H G. unfold d_comp, tree_exps. f_equal. rewrite E, !filter_app. rewrite (filter_none _ A), (filter_none _ B), (filter_all _ (elems J)).
  - apply app_nil_r.
  - intros u U. apply Z.eqb_eq. exact (G u U).
  - intros u U. apply Z.eqb_neq. apply H, in_app_iff. now right.
  - intros u U. apply Z.eqb_neq. apply H, in_app_iff. now left.
Qed.

Lemma d_find_ok T m : dfit T -> pmono n k m ->
  (exists r, d_findWrap T m = Ok r) /\
  (forall u, d_findWrap T m = Ok (Some u) -> In u (d_elems T) /\ zone T m /\ pos (pw_lm u) = pos m /\ janet_divides n (d_comp T (pos m)) (exps u) (vars m)) /\
  (zone T m -> (d_findWrap T m = Ok None <-> forall x, ~ janet_divides n (d_comp T (pos m)) x (vars m))).
Proof.
  intros D Pm. assert (Zd : zone T m \/ ~ zone T m) by (destruct T; cbn; lia). destruct Zd as [Z|Z].
  - destruct (d_sel T m D Pm Z) as (J & A & B & put & G & Ef & Ee & Ho & _). rewrite Ef. destruct (ghost_find e n He N (pos m) J m G (proj1 (proj1 Pm)) eq_refl) as (R & S & X).
    rewrite (d_comp_tree T (pos m) A J B Ee Ho (fun u U => ghost_pos e n He (pos m) J u G U)). split; [exact R|]. split; [|intros _; exact X].
    intros u U. destruct (S u U) as [U' Y]. split; [rewrite Ee; apply in_app_iff; right; apply in_app_iff; now left|]. split; [exact Z|]. split; [exact (ghost_pos e n He (pos m) J u G U')|exact Y].
  - assert (X : d_findWrap T m = Ok None).
    { destruct T as [J|F]; cbn [zone PyDivProofs.dfit d_findWrap] in *.
      - destruct D as [-> _]. exfalso. destruct Pm as [[_ P1] P2]. lia.
      - unfold pf_findWrap. destruct (Z.leb_spec 0 (pos m)); [lia|reflexivity]. }
    rewrite X. split; [eauto|]. split; [discriminate|]. intro Y. contradiction.
Qed.
Lemma d_insert_ok T w : dfit T -> fresh e n w -> pmono n k (pw_lm w) -> zone T (pw_lm w) ->
  (forall x, ~ janet_divides n (d_comp T (pos (pw_lm w))) x (exps w)) ->
  exists T' lst, d_insert T [w] = Ok (T', lst) /\ dfit T' /\ same_kind T T' /\
    (forall u, In u lst -> pos (pw_lm u) = pos (pw_lm w) /\ janet_divides n (d_comp T' (pos (pw_lm w))) (exps w) (exps u)) /\
    (exists w' l, Permutation (d_elems T' ++ lst) (w' :: l) /\ core w' = core w /\ grown (d_elems T) l) /\
    (forall p x i, In x (d_comp T p) -> In x (d_comp T' p) -> i < n -> janet_nm (d_comp T p) x i -> janet_nm (d_comp T' p) x i) /\
    (forall p, p <> pos (pw_lm w) -> d_comp T' p = d_comp T p).
Proof.
  intros D Fw Pm Z NF. destruct (d_sel T (pw_lm w) D Pm Z) as (J & A & B & put & G & Ef & Ee & Ho & Hp & Hi).
  pose proof (fun u U => ghost_pos e n He (pos (pw_lm w)) J u G U) as Gp.
  rewrite (d_comp_tree T _ A J B Ee Ho Gp) in NF. destruct (ghost_insert e n He N (pos (pw_lm w)) J w G Fw eq_refl NF) as (J' & lst & E & G' & R & Cn).
  pose proof (fun u U => ghost_pos e n He (pos (pw_lm w)) J' u G' U) as Gp'.
  destruct (Hp J') as (Ee' & Sk & Df). exists (put J'), lst. split; [rewrite Hi by reflexivity; rewrite E; reflexivity|]. split; [exact (Df G')|]. split; [exact Sk|].
  pose proof (insert_grown J w J' lst E) as (w' & l & Pg & Cw & Gl). split; [|split; [|split]].
  - intros u U. split; [|rewrite (d_comp_tree _ _ A J' B Ee' Ho Gp'); exact (R u U)].
    pose proof (insert_perm (fun x => pos (pw_lm x)) (fun _ _ _ => eq_refl) J w J' lst E) as Pp.
    assert (X : In (pos (pw_lm u)) (pos (pw_lm w) :: map (fun x => pos (pw_lm x)) (elems J))) by (apply (Permutation_in _ Pp); apply (in_map (fun x => pos (pw_lm x))), in_app_iff; now right).
    destruct X as [X|X]; [now symmetry|]. apply in_map_iff in X. destruct X as (u0 & <- & U0). exact (Gp u0 U0).
  - exists w', (A ++ l ++ B). split; [|split; [exact Cw|]].
    + rewrite Ee'. rewrite <- !app_assoc. transitivity (A ++ (elems J' ++ lst) ++ B); [rewrite <- app_assoc; do 2 apply Permutation_app_head; apply Permutation_app_comm|].
      transitivity (A ++ (w' :: l) ++ B); [apply Permutation_app_head, Permutation_app_tail, Pg|]. cbn [app]. symmetry. apply Permutation_middle.
    + rewrite Ee. apply grown_app; [apply grown_refl|]. apply grown_app; [exact Gl|apply grown_refl].
  - intros p x i. destruct (Z.eq_dec p (pos (pw_lm w))) as [->|Np].
    + rewrite (d_comp_tree _ _ A J' B Ee' Ho Gp'), (d_comp_tree T _ A J B Ee Ho Gp). apply Cn.
    + unfold d_comp. rewrite Ee, Ee', !filter_app, (filter_none _ (elems J)), (filter_none _ (elems J')); [auto|intros u U; apply Z.eqb_neq; rewrite (Gp' u U); auto|intros u U; apply Z.eqb_neq; rewrite (Gp u U); auto].
  - intros p Np. unfold d_comp. rewrite Ee, Ee', !filter_app, (filter_none _ (elems J)), (filter_none _ (elems J')); [reflexivity|intros u U; apply Z.eqb_neq; rewrite (Gp' u U); auto|intros u U; apply Z.eqb_neq; rewrite (Gp u U); auto].
Qed.
Lemma d_map_fit f T : (forall w, In w (d_elems T) -> e (f w) = e w) -> dfit T -> dfit (d_map f T).
Proof.
  destruct T as [J|F]; cbn [d_map d_elems PyDivProofs.dfit]; intros H [K G]; split; auto; [apply ghost_map; assumption|rewrite map_length; exact K|].
  intros i J E. rewrite nth_error_map in E. destruct (nth_error F i) as [J0|] eqn:E0; [|discriminate E]. injection E as <-. apply ghost_map; [|exact (G i J0 E0)].
  intros w W. apply H. unfold pf_elems. apply in_flat_map. exists J0. split; [exact (nth_error_In F i E0)|exact W].
Qed.
Lemma d_map_kind f T : same_kind T (d_map f T).
Proof. destruct T; cbn; auto. now rewrite map_length. Qed.
Lemma d_comp_lms T T' p : map pw_lm (d_elems T) = map pw_lm (d_elems T') -> d_comp T p = d_comp T' p.
Proof.
  unfold d_comp. generalize (d_elems T) (d_elems T'). intro l. induction l as [|u l IH]; intros [|u' l'] E; try discriminate E; [reflexivity|]. cbn [map] in E. injection E as E1 E2.
  cbn [filter]. rewrite <- E1. destruct (Z.eqb _ _); [cbn [map]; unfold exps at 1 3; rewrite E1; f_equal|]; exact (IH l' E2).
Qed.
Lemma d_comp_in T p x : In x (d_comp T p) <-> exists u, In u (d_elems T) /\ pos (pw_lm u) = p /\ exps u = x.
Proof. unfold d_comp. rewrite in_map_iff. split; intros (u & H); [destruct H as [E H]; apply filter_In in H; destruct H as [I H]; apply Z.eqb_eq in H; exists u; auto|]. destruct H as (I & P & E). exists u. split; [exact E|]. apply filter_In. split; [exact I|]. apply Z.eqb_eq. exact P. Qed.
Lemma NoDup_map_app {A B} (f : A -> B) l l' : NoDup (map f l) -> NoDup (map f l') -> (forall x y, In x l -> In y l' -> f x <> f y) -> NoDup (map f (l ++ l')).
Proof.
  intros D D' H. rewrite map_app. apply NoDup_app_intro; auto. intros x X Y. apply in_map_iff in X. apply in_map_iff in Y. destruct X as (a & <- & A1), Y as (b & E & B1). exact (H a b A1 B1 (eq_sym E)).
Qed.
Lemma lm_split u : pw_lm u = Mon (pos (pw_lm u)) (exps u).
Proof. unfold exps. destruct (pw_lm u); reflexivity. Qed.
Lemma ghost_lms p J : ghost p J -> NoDup (map pw_lm (elems J)).
Proof.
  intro G. pose proof (ghost_distinct e n He N p J G) as D. unfold tree_exps in D. clear G. induction (elems J) as [|u l IH]; [constructor|]. cbn [map] in *. inversion D as [|? ? X D']; subst. constructor; [|exact (IH D')].
  intro Y. apply X. apply in_map_iff in Y. destruct Y as (u' & E & U'). apply in_map_iff. exists u'. split; [unfold exps; now rewrite E|exact U'].
Qed.
Lemma dfit_distinct T : dfit T -> NoDup (map pw_lm (d_elems T)).
Proof.
  destruct T as [J|F]; cbn [PyDivProofs.dfit d_elems]; intros [_ G]; [exact (ghost_lms _ J G)|].
  assert (X : forall i, (forall j J, nth_error F j = Some J -> ghost (Z.of_nat (i + j)) J) -> NoDup (map pw_lm (pf_elems F)) /\ forall u, In u (pf_elems F) -> (Z.of_nat i <= pos (pw_lm u))%Z).
  { clear G. induction F as [|J F IH]; intros i H; [split; [constructor|intros u []]|]. destruct (IH (S i)) as [D P]; [intros j J1 E; rewrite Nat.add_succ_l, <- Nat.add_succ_r; exact (H (S j) J1 E)|].
    pose proof (H 0 J eq_refl) as G. rewrite Nat.add_0_r in G. change (pf_elems (J :: F)) with (elems J ++ pf_elems F). split.
    - apply NoDup_map_app; [exact (ghost_lms _ J G)|exact D|]. intros x y X Y E. pose proof (ghost_pos e n He _ J x G X) as Px. specialize (P y Y). rewrite E in Px. lia.
    - intros u U. apply in_app_iff in U. destruct U as [U|U]; [rewrite (ghost_pos e n He _ J u G U); lia|]. specialize (P u U). lia. }
  apply (X 0). exact G.
Qed.
Lemma dfit_elem T u : dfit T -> In u (d_elems T) -> pmono n k (pw_lm u) /\ zone T (pw_lm u).
Proof.
  destruct T as [J|F]; cbn [PyDivProofs.dfit d_elems zone]; intros [K G] U.
  - pose proof (ghost_pos e n He _ J u G U) as P. pose proof (ghost_lengths e n He N _ J (exps u) G (in_map exps _ _ U)) as L. split; [|exact P]. split; [split; [exact L|lia]|lia].
  - unfold pf_elems in U. apply in_flat_map in U. destruct U as (J & I & U). apply In_nth_error in I. destruct I as (i & I). assert (Li : i < length F) by (apply nth_error_Some; rewrite I; discriminate).
    specialize (G i J I). pose proof (ghost_pos e n He _ J u G U) as P. pose proof (ghost_lengths e n He N _ J (exps u) G (in_map exps _ _ U)) as L. split; [|lia]. split; [split; [exact L|lia]|lia].
Qed.
Lemma dfit_unique T u u' : dfit T -> In u (d_elems T) -> In u' (d_elems T) -> pw_lm u = pw_lm u' -> u = u'.
Proof.
  intros D U U' E. pose proof (dfit_distinct T D) as X. clear D. induction (d_elems T) as [|x l IH]; [destruct U|]. cbn [map] in X. inversion X as [|? ? Y X']; subst.
  destruct U as [->|U], U' as [->|U']; auto; exfalso; apply Y; [rewrite E|rewrite <- E]; apply in_map; assumption.
Qed.
End Div.
Lemma dfit_flags n k T u i : 0 < n -> dfit flags n k T -> In u (d_elems T) -> i < n ->
  (nth i (pw_nonmult u) false = true <-> janet_nm (d_comp T (pos (pw_lm u))) (exps u) i).
Proof.
  intros N D U Hi. destruct (dfit_elem flags n k flags_eraser N T u D U) as [Pu Zu]. destruct (d_sel flags n k flags_eraser N T (pw_lm u) D Pu Zu) as (J & A & B & put & G & _ & Ee & Ho & _).
  rewrite (d_comp_tree T _ A J B Ee Ho (fun v V => ghost_pos flags n flags_eraser _ J v G V)).
  apply (ghost_flags n _ J u i N G); [|exact Hi]. rewrite Ee in U. apply in_app_iff in U. destruct U as [U|U]; [exfalso; apply (Ho u); [apply in_app_iff; now left|reflexivity]|].
  apply in_app_iff in U. destruct U as [U|U]; [exact U|]. exfalso. apply (Ho u); [apply in_app_iff; now right|reflexivity].
Qed.
Lemma ghost_weaken n p J : ghost flags n p J -> ghost bare n p J.
Proof.
  intros (J0 & B & P & E). exists J0. split; [exact B|]. split; [exact P|]. apply (f_equal (j_map bare)) in E. rewrite !j_map_comp in E. exact E.
Qed.
Lemma dfit_weaken n k T : dfit flags n k T -> dfit bare n k T.
Proof. destruct T; cbn [dfit]; intros [K G]; split; auto using ghost_weaken. Qed.
