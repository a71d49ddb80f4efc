(** Walks through the Janet trees of pyginv. *)
From Coq Require Import ZArith List Bool Arith Lia.
From Verif Require Import Outcome MonomModel MonomSpec PolySpec JanetSpec PyMonomModel PyMonomSpec PyMonomProofs PyPolyModel PyPolySpec
  PyJanetModel PyJanetSpec PyJanetProofs PyJanetTop PyForestModel PyForestSpec PyForestProofs PyWalkModel.
Import ListNotations.
Local Open Scope nat_scope.

(* ---------------------------------------------------------------- the generators *)
(** Wraps are last in their list. *)
Fixpoint lastw (t : ptree) : Prop :=
  match t with
  | PWrap _ => False
  | PList l => (fix go (l : prow) : Prop := match l with [] => True | t' :: l' => match t', l' with PWrap _, [] => True | _, _ => lastw t' /\ go l' end end) l
  end.
Definition lastr (l : prow) : Prop := lastw (PList l).
Lemma lastr_cons t l : lastr (t :: l) <-> match t, l with PWrap _, [] => True | _, _ => lastw t /\ lastr l end.
Proof. reflexivity. Qed.

Lemma rok_lastr n : forall k v r, rok n k v r -> lastr r.
Proof.
  induction k as [|k IH]; intros v r R; [cbn in R; subst; exact Logic.I|]. cbn [rok] in R.
  assert (X : forall i t, nth_error r i = Some t -> match t with PWrap _ => S i = length r | PList c => lastr c end).
  { intros i t E. destruct (R i t E) as [_ Y]. destruct t as [w|c]; [apply Y|]. exact (IH _ _ (proj2 Y)). }
  clear R IH. induction r as [|t r IH]; [exact Logic.I|]. apply lastr_cons. assert (X0 := X 0 t eq_refl).
  assert (Y : lastr r). { apply IH. intros i t' E. specialize (X (S i) t' E). destruct t'; [cbn in X; lia|exact X]. }
  destruct t as [w|c]; [cbn in X0; destruct r; [exact Logic.I|cbn in X0; lia]|]. split; [exact X0|exact Y].
Qed.

Definition trav (keep : pwrap -> bool) (l : prow) := t_traversal keep (PList l).
Lemma trav_cons keep t l : trav keep (t :: l) = match t, l with PWrap w, [] => Ok (if keep w then [w] else []) | _, _ => do a <- t_traversal keep t; do b <- trav keep l; Ok (a ++ b) end.
Proof. reflexivity. Qed.
Lemma trav_ok keep t : lastw t -> t_traversal keep t = Ok (filter keep (telems t)).
Proof.
  induction t as [w|l F] using ptree_ind'; [intros []|]. change (lastr l -> trav keep l = Ok (filter keep (telems (PList l)))). rewrite telems_list.
  induction F as [|t l E F IH]; [reflexivity|]. intro L. rewrite lastr_cons in L. rewrite trav_cons. cbn [relems]. rewrite filter_app.
  assert (G : lastw t /\ lastr l -> (do a <- t_traversal keep t; do b <- trav keep l; Ok (a ++ b)) = Ok (filter keep (telems t) ++ filter keep (relems l))).
  { intros [L1 L2]. rewrite (E L1). cbn [bind]. rewrite (IH L2). reflexivity. }
  destruct t as [w|c]; [|exact (G L)]. destruct l as [|t' l]; [|exact (G L)]. cbn [telems relems filter]. now rewrite app_nil_r.
Qed.

Section W.
Variables (n : nat).
Hypothesis Hn : 0 < n.
Lemma filter_all {A} (l : list A) : filter (fun _ => true) l = l.
Proof. induction l as [|x l IH]; [reflexivity|]. cbn. now rewrite IH. Qed.
Lemma tree_lastw J : inv n J -> lastw (PList (pj_root J)).
Proof. intros [R _]. exact (rok_lastr n n 0 _ R). Qed.
Lemma iter_inv J : inv n J -> pj_iter J = Ok (elems J).
Proof. intro I. unfold pj_iter. rewrite trav_ok by (apply tree_lastw, I). rewrite telems_list, filter_all. reflexivity. Qed.
Lemma GB_inv o J : inv n J -> pj_GB o J = Ok (filter (w_isGB o) (elems J)).
Proof. intro I. unfold pj_GB. rewrite trav_ok by (apply tree_lastw, I). rewrite telems_list. reflexivity. Qed.
Lemma isGB_ok o w : mono n (pw_lm w) -> mono n (pw_anc w) -> (w_isGB o w = true <-> pw_lm w = pw_anc w).
Proof. intros A B. unfold w_isGB, py_eq. rewrite Z.eqb_eq. apply (py_total o n); assumption. Qed.

Lemma walk_iter J : built n J -> pj_iter J = Ok (elems J).
Proof. intro B. apply iter_inv. apply (built_inv n J Hn B). Qed.
Lemma walk_GB o J : built n J -> (forall w, In w (elems J) -> mono n (pw_lm w) /\ mono n (pw_anc w)) ->
  exists keep, (forall w, In w (elems J) -> (keep w = true <-> pw_lm w = pw_anc w)) /\ pj_GB o J = Ok (filter keep (elems J)).
Proof.
  intros B M. exists (w_isGB o). split; [|apply GB_inv, (built_inv n J Hn B)]. intros w I. destruct (M w I) as [M1 M2]. apply isGB_ok; assumption.
Qed.

(** A smallest divisor is kept. *)
Lemma total_lt u w : length u = n -> length w = n -> divides n u w -> u <> w -> fold_right Nat.add 0 u < fold_right Nat.add 0 w.
Proof.
  clear. revert u w. induction n as [|k IH]; intros [|x u] [|y w] Lu Lw D N; try discriminate; [congruence|]. cbn [length] in *. injection Lu as Lu. injection Lw as Lw.
  assert (D0 := D 0 ltac:(lia)). cbn in D0. assert (D' : divides k u w) by (intros i Hi; exact (D (S i) ltac:(lia))). cbn [fold_right].
  destruct (list_eq_dec Nat.eq_dec u w) as [-> |N']; [assert (x <> y) by congruence; lia|]. specialize (IH u w Lu Lw D' N'). lia.
Qed.
Lemma divides_trans u v w : divides n u v -> divides n v w -> divides n u w.
Proof. intros A B i Hi. specialize (A i Hi). specialize (B i Hi). lia. Qed.

Lemma walk_GB_generates o J : built n J -> (forall w, In w (elems J) -> mono n (pw_lm w) /\ mono n (pw_anc w) /\ pos (pw_anc w) = pos (pw_lm w) /\
    divides n (vars (pw_anc w)) (exps w) /\ exists u, In u (elems J) /\ divides n (exps u) (vars (pw_anc w))) ->
  exists l, pj_GB o J = Ok l /\ incl l (elems J) /\ forall w, In w (elems J) -> exists g, In g l /\ divides n (exps g) (exps w).
Proof.
  intros B M. rewrite (GB_inv o J (proj1 (built_inv n J Hn B))). eexists. split; [reflexivity|]. split; [intros x X; apply filter_In in X; apply X|].
  assert (G : forall s w, fold_right Nat.add 0 (exps w) < s -> In w (elems J) -> exists g, In g (filter (w_isGB o) (elems J)) /\ divides n (exps g) (exps w)).
  { induction s as [|s IH]; intros w Ls I; [lia|]. destruct (M w I) as (M1 & M2 & Ep & D & u & Iu & Du).
    assert (Duw : divides n (exps u) (exps w)) by exact (divides_trans _ _ _ Du D).
    destruct (list_eq_dec Nat.eq_dec (exps u) (exps w)) as [E|N].
    - exists w. split; [|intros i _; lia]. apply filter_In. split; [exact I|]. apply isGB_ok; [assumption..|]. rewrite E in Du.
      assert (V : vars (pw_lm w) = vars (pw_anc w)).
      { destruct (list_eq_dec Nat.eq_dec (vars (pw_lm w)) (vars (pw_anc w))) as [V|V]; [exact V|]. exfalso.
        assert (T := total_lt _ _ (proj1 M1) (proj1 M2) Du V). assert (V' : vars (pw_anc w) <> vars (pw_lm w)) by congruence.
        assert (T' := total_lt _ _ (proj1 M2) (proj1 M1) D V'). unfold exps in *. lia. }
      destruct (pw_lm w), (pw_anc w). cbn in *. congruence.
    - destruct (M u Iu) as (Mu & _). assert (T := total_lt _ _ (proj1 Mu) (proj1 M1) Duw N). destruct (IH u ltac:(unfold exps in *; lia) Iu) as (g & Ig & Dg).
      exists g. split; [exact Ig|]. exact (divides_trans _ _ _ Dg Duw). }
  intros w I. exact (G (S (fold_right Nat.add 0 (exps w))) w ltac:(lia) I).
Qed.

(* ---------------------------------------------------------------- setNonmut *)
Definition setnm (m : monom) (b : bool) (l : prow) : outcome prow :=
  (fix go (n : bool) (l : prow) : outcome prow :=
         match l with
         | [] => Ok []
         | t' :: l' =>
             match t', l' with
             | PWrap w, [] => do v <- py_nonmult (pw_lm w) m; Ok [PWrap (set_nonmult v true w)]
             | PList c, [] => if n then Ok [PList c] else Undef
             | _, _ => do a <- t_setnm m t'; do b <- go true l'; Ok (a :: b)
             end
         end) b l.
Lemma setnm_list m l : t_setnm m (PList l) = do x <- setnm m false l; Ok (PList x).
Proof. reflexivity. Qed.
Lemma setnm_cons m b t l : setnm m b (t :: l) = match t, l with
  | PWrap w, [] => do v <- py_nonmult (pw_lm w) m; Ok [PWrap (set_nonmult v true w)]
  | PList c, [] => if b then Ok [PList c] else Undef
  | _, _ => do a <- t_setnm m t; do b <- setnm m true l; Ok (a :: b) end.
Proof. reflexivity. Qed.
Definition step (m : monom) (u u' : pwrap) : Prop := u' = u \/ exists v, py_nonmult (pw_lm u) m = Ok v /\ u' = set_nonmult v true u.
Lemma step_refl m l : Forall2 (step m) l l.
Proof. induction l; constructor; [left; reflexivity|assumption]. Qed.
Lemma setnm_step m t : forall t', t_setnm m t = Ok t' -> Forall2 (step m) (telems t) (telems t').
Proof.
  induction t as [w|l F] using ptree_ind'; intros t' E; [discriminate E|]. rewrite setnm_list in E. apply bind_ok in E as (x & E & E'). injection E' as <-. rewrite !telems_list.
  revert x E. generalize false as b. induction F as [|t l Ht F IH]; intros b x E; [injection E as <-; constructor|]. rewrite setnm_cons in E. cbn [relems].
  assert (G : (do a <- t_setnm m t; do b <- setnm m true l; Ok (a :: b)) = Ok x -> Forall2 (step m) (telems t ++ relems l) (relems x)).
  { intro G. apply bind_ok in G as (a & Ea & G). apply bind_ok in G as (y & Ey & G). injection G as <-. cbn [relems]. apply Forall2_app; [exact (Ht a Ea)|exact (IH true y Ey)]. }
  destruct t as [w|c]; destruct l as [|t2 l]; try exact (G E).
  - apply bind_ok in E as (v & Ev & E). injection E as <-. cbn. constructor; [right; exists v; auto|constructor].
  - destruct b; [|discriminate E]. injection E as <-. cbn [relems]. apply step_refl.
Qed.
Lemma set_flag_nth l v b i : nth i (set_flag l v b) false = if (i =? v) && (v <? length l) then b else nth i l false.
Proof.
  destruct (Nat.eqb_spec i v) as [-> |N]; [|apply set_flag_other; exact N]. destruct (Nat.ltb_spec v (length l)) as [L|L]; [apply set_flag_same; exact L|].
  cbn [andb]. rewrite !nth_overflow; [reflexivity|lia|rewrite set_flag_length; lia].
Qed.
Lemma walk_setNonmut J J' m : built n J -> mono n m -> (forall w, In w (elems J) -> mono n (pw_lm w) /\ pos (pw_lm w) = pos m) -> pj_setNonmut J m = Ok J' ->
  pj_count J' = pj_count J /\
  Forall2 (fun u u' => same_wrap u' u /\ forall i, nth i (pw_nonmult u') false = true -> nth i (pw_nonmult u) false = true \/
    ((i < n)%nat /\ expo (exps u) i < expo (vars m) i /\ forall j, j < i -> expo (vars m) j <= expo (exps u) j)) (elems J) (elems J').
Proof.
  intros B Mm M E. unfold pj_setNonmut in E. apply bind_ok in E as (t & E & E'). injection E' as <-. split; [reflexivity|].
  assert (H := setnm_step m _ t E). rewrite setnm_list in E. apply bind_ok in E as (x & _ & E). injection E as <-. rewrite !telems_list in H.
  unfold elems in *. cbn [pj_root]. clear B. induction H as [|u u' l l' S H IH]; [constructor|]. constructor; [|apply IH; intros w I; apply M; right; exact I].
  destruct (M u (or_introl eq_refl)) as [Mu Pu]. destruct S as [-> |(v & Ev & ->)]; [split; [repeat split|auto]|]. split; [repeat split|].
  intros i Hi. cbn [set_nonmult pw_nonmult] in Hi. rewrite set_flag_nth in Hi. destruct (Nat.eqb_spec i v) as [Ei|N]; [|left; exact Hi]. subst v.
  right. apply (py_nonmult_spec n) in Ev; assumption.
Qed.

Lemma pf_each_ok f g F : (forall J, In J F -> f J = Ok (g J)) -> pf_each f F = Ok (flat_map g F).
Proof.
  induction F as [|J F IH]; intro H; [reflexivity|]. cbn [pf_each flat_map]. rewrite (H J (or_introl eq_refl)). cbn [bind]. rewrite IH by (intros x X; apply H; right; exact X). reflexivity.
Qed.
Lemma filter_flat {A B} (p : B -> bool) (g : A -> list B) l : filter p (flat_map g l) = flat_map (fun x => filter p (g x)) l.
Proof. induction l as [|x l IH]; [reflexivity|]. cbn [flat_map]. now rewrite filter_app, IH. Qed.
Lemma forest_tree k F J : fbuilt n k F -> In J F -> inv n J.
Proof.
  intros B I. destruct (fbuilt_finv n k F Hn B) as [[L Fi] _]. apply In_nth_error in I as (i & Ei). destruct (Fi i J Ei) as (Bj & _). apply (built_inv n J Hn Bj).
Qed.
Lemma walk_forest_iter k F : fbuilt n k F -> pf_iter F = Ok (pf_elems F).
Proof. intro B. unfold pf_iter. rewrite (pf_each_ok _ elems); [reflexivity|]. intros J I. apply iter_inv. exact (forest_tree k F J B I). Qed.
Lemma walk_forest_GB o k F : fbuilt n k F -> (forall w, In w (pf_elems F) -> mono n (pw_lm w) /\ mono n (pw_anc w)) ->
  exists keep, (forall w, In w (pf_elems F) -> (keep w = true <-> pw_lm w = pw_anc w)) /\ pf_GB o F = Ok (filter keep (pf_elems F)).
Proof.
  intros B M. exists (w_isGB o). split; [intros w I; destruct (M w I) as [M1 M2]; apply isGB_ok; assumption|].
  unfold pf_GB. rewrite (pf_each_ok _ (fun J => filter (w_isGB o) (elems J))); [unfold pf_elems; now rewrite filter_flat|]. intros J I. apply GB_inv. exact (forest_tree k F J B I).
Qed.
End W.
