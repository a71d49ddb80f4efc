(** Proofs for Prop_PyWrap.v *)
From Coq Require Import ZArith List Bool Arith Lia.
From Verif Require Import Outcome MonomModel MonomSpec MonomProofs PolySpec PyMonomModel PyMonomSpec PyMonomProofs PyPolyModel PyPolySpec PyPolyProofs PyRedProofs PyRedProofs PyTop
  PyJanetModel PyJanetSpec PyJanetProlong PyQueueModel PyWrapSpec.
Import ListNotations.
Local Open Scope nat_scope.

Section Wrap.
Variables (o : py_order) (n : nat) (k : Z).
Hypothesis K : (0 <= k)%Z.

Lemma mdivides_refl m : mdivides m m.
Proof. split; [now right|]. split; [reflexivity|]. intro; lia. Qed.
Lemma mdivides_trans a b c : mdivides a b -> mdivides b c -> mdivides a c.
Proof.
  intros (P & L & X) (Q & M & Y). split; [destruct P as [P|P]; [now left|]; rewrite P; exact Q|]. split; [congruence|]. intro i. specialize (X i). specialize (Y i). lia.
Qed.
Lemma lead_mono m c p : py_canonical o n k ((m, c) :: p) -> pmono n k m.
Proof. apply (pcanonical_mono o n k []). Qed.

Definition inv (w : pwrap) : Prop := leads w /\ py_canonical o n k (pw_poly w) /\ mono n (pw_anc w) /\ mdivides (pw_anc w) (pw_lm w) /\
  length (pw_prolong w) = n /\ length (pw_nonmult w) = n.
Lemma inv_lm w : inv w -> pmono n k (pw_lm w).
Proof. intros ((c & l & E) & C & _). rewrite E in C. apply (lead_mono _ _ _ C). Qed.

Lemma set_flag_length l v b : length (set_flag l v b) = length l.
Proof. revert v; induction l as [|x l IH]; intros [|v]; cbn; auto. Qed.

Lemma update_eq w m c p w' : pmono n k (pw_lm w) -> pmono n k m -> w_update o (set_poly w ((m, c) :: p)) = Ok w' ->
  (m = pw_lm w -> w' = set_poly w ((m, c) :: p)) /\
  (m <> pw_lm w -> w' = PW (pw_id w) ((m, c) :: p) m m (repeat false (length (pw_prolong w))) (repeat false (length (pw_nonmult w)))).
Proof.
  intros [Ml _] [Mm _] E. assert (R : forall l : list bool, map (fun _ => false) l = repeat false (length l)) by (intro l; induction l; cbn; congruence).
  unfold w_update in E. cbn [set_poly pw_poly pw_lm pw_id pw_prolong pw_nonmult] in E. destruct (py_eq o (pw_lm w) m) eqn:Q.
  - apply (py_eq_true o n) in Q; [|assumption..]. injection E as <-. split; [reflexivity|]. intro N. exfalso. apply N. symmetry. exact Q.
  - injection E as <-. rewrite !R. split; [|reflexivity]. intro X. assert (Y : py_eq o (pw_lm w) m = true) by (apply (py_eq_true o n); auto). congruence.
Qed.
Lemma refresh_eq w v v' : mono n (pw_anc w) -> mono n (pw_anc v) -> w_refresh o w v = Ok v' ->
  exists a, v' = PW (pw_id v) (pw_poly v) a (pw_lm v) (pw_prolong v) (pw_nonmult v) /\
    (mdivides (pw_anc w) (pw_anc v) /\ vars (pw_anc w) <> vars (pw_anc v) -> a = pw_anc w) /\
    (~ (mdivides (pw_anc w) (pw_anc v) /\ vars (pw_anc w) <> vars (pw_anc v)) -> a = pw_anc v) /\ mdivides a (pw_anc v).
Proof.
  intros Mw Mv E. unfold w_refresh in E. destruct (pw_poly w) as [|[m c] l]; [discriminate|]. unfold assert_ in E. destruct (py_eq o m (pw_lm w)); [|discriminate].
  cbn [andb negb] in E. injection E as <-. assert (T := py_true_divisor n (pw_anc v) (pw_anc w) Mv Mw). destruct (py_divisible_true (pw_anc v) (pw_anc w)).
  - exists (pw_anc w). split; [reflexivity|]. split; [reflexivity|]. split; [|apply T; reflexivity]. intro X. exfalso. apply X, T. reflexivity.
  - exists (pw_anc v). split; [destruct v; reflexivity|]. split; [|split; [reflexivity|apply mdivides_refl]]. intro X. apply T in X. discriminate.
Qed.
Lemma prolong_eq id w v x w' : inv w -> w_of_prolong o id w v = Ok (x, w') ->
  v < n /\ w' = set_prolong v true w /\ pw_lm x = mul_var v (pw_lm w) /\ pw_anc x = pw_anc w /\ leads x /\ py_canonical o n k (pw_poly x) /\
  pw_prolong x = repeat false n /\ pw_nonmult x = repeat false n.
Proof.
  intros ((c & l & E) & C & Ma & D & L1 & L2) H. unfold w_of_prolong, assert_ in H. destruct (nth v (pw_prolong w) true); [discriminate|]. destruct (nth v (pw_nonmult w) false) eqn:N; [|discriminate]. cbn [andb negb] in H.
  assert (V : v < n). { destruct (Nat.lt_ge_cases v n) as [|V]; [assumption|]. rewrite nth_overflow in N by (rewrite L2; exact V). discriminate. }
  destruct (prolong_poly_eq o n k (pw_poly w) v K C V) as [Q Cq]. rewrite Q in H. cbn [bind] in H. rewrite E in H, Cq. cbn [map fst snd] in H, Cq. injection H as <- <-.
  assert (Lm : length (vars (mul_var v (pw_lm w))) = n) by apply (lead_mono _ _ _ Cq). split; [exact V|]. split; [reflexivity|]. cbn [pw_lm pw_anc pw_poly pw_prolong pw_nonmult].
  split; [reflexivity|]. split; [reflexivity|]. split; [red; cbn [pw_poly pw_lm]; eauto|]. split; [exact Cq|]. cbn [mul_var vars] in Lm |- *. rewrite Lm. split; reflexivity.
Qed.
Lemma mdivides_var m v : length (vars m) = n -> v < n -> mdivides m (mul_var v m).
Proof.
  intros L V. split; [now right|]. unfold mul_var. cbn [vars pos]. clear k K. revert n L V. generalize (vars m) as e. intro e.
  assert (X : forall e v, length e = length (incr v e) /\ forall i, expo e i <= expo (incr v e) i).
  { clear. induction e as [|x e IH]; intros [|v]; cbn [incr length]; (split; [|intro i; destruct i; cbn; try lia; unfold expo; try lia]).
    - reflexivity.
    - reflexivity.
    - reflexivity.
    - f_equal. apply IH.
    - apply IH. }
  intros n _ _. apply X.
Qed.

Lemma made_inv w : wrap_made o n k w -> inv w.
Proof.
  induction 1 as [id p w C E|id w v x w' W IH E|id w v x w' W IH E|w v b W IH|w p w' W IH C E|w c p W IH C|w v v' W IH V IH' E].
  - destruct p as [|[m c] p]; [discriminate|]. injection E as <-. assert (M := lead_mono _ _ _ C). unfold inv, leads. cbn [pw_poly pw_lm pw_anc pw_prolong pw_nonmult]. split; [eauto|]. split; [exact C|]. split; [apply M|]. split; [apply mdivides_refl|].
    rewrite !repeat_length. split; apply M.
  - assert (M := inv_lm w IH). destruct (prolong_eq id w v x w' IH E) as (V & _ & El & Ea & L & C & F1 & F2). split; [exact L|]. split; [exact C|]. rewrite El, Ea, F1, F2, repeat_length. split; [apply IH|]. split; [|auto].
    apply (mdivides_trans _ (pw_lm w)); [apply IH|]. apply mdivides_var; [apply M|exact V].
  - destruct (prolong_eq id w v x w' IH E) as (V & -> & _). destruct IH as (L & C & Ma & D & L1 & L2). unfold inv, leads in *. cbn [set_prolong pw_poly pw_lm pw_anc pw_prolong pw_nonmult]. rewrite set_flag_length. auto 6.
  - destruct IH as (L & C & Ma & D & L1 & L2). unfold inv, leads in *. cbn [set_nonmult pw_poly pw_lm pw_anc pw_prolong pw_nonmult]. rewrite set_flag_length. auto 6.
  - destruct p as [|[m c] p]; [discriminate|]. assert (M := lead_mono _ _ _ C). assert (Ml := inv_lm w IH). destruct (update_eq w m c p w' Ml M E) as [X Y]. destruct IH as (L & Cw & Ma & D & L1 & L2).
    assert (Dec : m = pw_lm w \/ m <> pw_lm w). { destruct (py_eq o m (pw_lm w)) eqn:Q; [left; apply (py_eq_true o n) in Q; [exact Q|apply M|apply Ml]|]. right. intro Z. assert (py_eq o m (pw_lm w) = true) by (apply (py_eq_true o n); [apply M|apply Ml|exact Z]). congruence. }
    destruct Dec as [Z|Z]; [rewrite (X Z)|rewrite (Y Z)]; unfold inv, leads; cbn [set_poly pw_poly pw_lm pw_anc pw_prolong pw_nonmult].
    + rewrite Z in *. split; [eauto|]. auto.
    + split; [eauto|]. split; [exact C|]. split; [apply M|]. split; [apply mdivides_refl|]. rewrite !repeat_length. auto.
  - destruct IH as (L & Cw & Ma & D & L1 & L2). unfold inv, leads; cbn [set_poly pw_poly pw_lm pw_anc pw_prolong pw_nonmult]. split; [eauto|]. auto.
  - destruct (refresh_eq w v v') as (a & -> & A1 & A2 & A3); [apply IH|apply IH'|exact E|]. assert (Mw : mono n (pw_anc w)) by apply IH. destruct IH' as (L & Cw & Ma & D & L1 & L2). unfold inv, leads; cbn [pw_poly pw_lm pw_anc pw_prolong pw_nonmult]. split; [exact L|]. split; [exact Cw|].
    split; [|split; [apply (mdivides_trans _ (pw_anc v)); assumption|auto]].
    destruct (py_divisible_true (pw_anc v) (pw_anc w)) eqn:T.
    + apply (py_true_divisor n) in T; [|assumption..]. rewrite (A1 T). exact Mw.
    + rewrite A2; [exact Ma|]. intro X. apply (py_true_divisor n) in X; [congruence|assumption..].
Qed.

Theorem wrap_ancestor w : wrap_made o n k w -> mdivides (pw_anc w) (pw_lm w) /\ leads w /\ py_canonical o n k (pw_poly w).
Proof. intro W. destruct (made_inv w W) as (L & C & _ & D & _). auto. Qed.
Theorem wrap_prolong id w v : wrap_made o n k w -> pending w v -> exists x, w_of_prolong o id w v = Ok (x, set_prolong v true w) /\ prolonged o n k w v x /\ pw_id x = id.
Proof.
  intros W [P1 P2]. pose proof (made_inv w W) as I. destruct I as ((c & l & E) & C & Ma & D & L1 & L2). assert (V : v < n). { destruct (Nat.lt_ge_cases v n) as [|V]; [assumption|]. rewrite nth_overflow in P1 by (rewrite L2; exact V). discriminate. }
  destruct (py_prolong_yields o n k (pw_poly w) v K C V) as (r & Q & Cr & Co). destruct (prolong_poly_eq o n k (pw_poly w) v K C V) as [Q' _]. rewrite Q in Q'. injection Q' as ->.
  unfold w_of_prolong. rewrite P1, P2. cbn [assert_ andb negb]. rewrite Q. cbn [bind]. rewrite E in Cr, Co |- *. cbn [map fst snd] in *. eexists. split; [reflexivity|]. split; [|reflexivity].
  assert (Lm : length (vars (mul_var v (pw_lm w))) = n) by apply (lead_mono _ _ _ Cr). unfold prolonged, clean, exps, leads. cbn [pw_poly pw_lm pw_anc pw_prolong pw_nonmult]. cbn [mul_var vars] in Lm |- *. rewrite Lm, repeat_length.
  split; [repeat split; auto|]. split; [eexists; eexists; reflexivity|]. split; [exact Cr|]. split; [reflexivity|]. split; [reflexivity|]. split; [|reflexivity]. rewrite E. exact Co.
Qed.
Theorem wrap_update w m c p : wrap_made o n k w -> py_canonical o n k ((m, c) :: p) -> exists w', w_update o (set_poly w ((m, c) :: p)) = Ok w' /\
  (m = pw_lm w -> w' = set_poly w ((m, c) :: p)) /\
  (m <> pw_lm w -> w' = PW (pw_id w) ((m, c) :: p) m m (repeat false n) (repeat false n)).
Proof.
  intros W C. pose proof (made_inv w W) as I. assert (Ml := inv_lm w I). assert (M := lead_mono _ _ _ C). destruct I as (_ & _ & _ & _ & L1 & L2).
  assert (X : exists w', w_update o (set_poly w ((m, c) :: p)) = Ok w') by (unfold w_update; cbn [set_poly pw_poly pw_lm]; destruct (py_eq o (pw_lm w) m); eauto).
  destruct X as [w' E]. exists w'. split; [exact E|]. rewrite <- L1 at 1. rewrite <- L2. apply (update_eq w m c p w' Ml M E).
Qed.
Theorem wrap_refresh w v : wrap_made o n k w -> wrap_made o n k v -> exists a,
  w_refresh o w v = Ok (PW (pw_id v) (pw_poly v) a (pw_lm v) (pw_prolong v) (pw_nonmult v)) /\
  (mdivides (pw_anc w) (pw_anc v) /\ vars (pw_anc w) <> vars (pw_anc v) -> a = pw_anc w) /\
  (~ (mdivides (pw_anc w) (pw_anc v) /\ vars (pw_anc w) <> vars (pw_anc v)) -> a = pw_anc v).
Proof.
  intros W V. pose proof (made_inv w W) as I. pose proof (made_inv v V) as I'. assert (Ml := inv_lm w I).
  assert (X : exists v', w_refresh o w v = Ok v').
  { destruct I as ((c & l & E) & _). unfold w_refresh. rewrite E, (proj2 (py_eq_true o n (pw_lm w) (pw_lm w) (proj1 Ml) (proj1 Ml)) eq_refl). cbn. eauto. }
  destruct X as [v' E]. destruct (refresh_eq w v v') as (a & -> & A1 & A2 & _); [apply I|apply I'|exact E|]. exists a. auto.
Qed.
Theorem wrap_isGB w : wrap_made o n k w -> (w_isGB o w = true <-> pw_anc w = pw_lm w).
Proof.
  intro W. pose proof (made_inv w W) as I. unfold w_isGB. rewrite (py_eq_true o n); [split; congruence|apply (inv_lm w I)|apply I].
Qed.

Lemma nth_combine2 (a b : list nat) : length a = length b -> forall P : nat * nat -> Prop, (forall i, i < length a -> P (expo a i, expo b i)) <-> forall x, In x (combine a b) -> P x.
Proof.
  intros L P. split.
  - intros H x X. apply (In_nth _ _ (0, 0)) in X as (i & I & <-). rewrite combine_length, <- L, Nat.min_id in I. rewrite combine_nth by exact L. apply H, I.
  - intros H i I. apply H. unfold expo. rewrite <- combine_nth by exact L. apply nth_In. rewrite combine_length, <- L, Nat.min_id. exact I.
Qed.
Theorem wrap_crit1 w v : wrap_made o n k w -> wrap_made o n k v ->
  (w_crit1 w v = true <-> forall i, i < n -> expo (vars (pw_anc w)) i = 0 \/ expo (vars (pw_anc v)) i = 0).
Proof.
  intros W V. assert (Lw : length (vars (pw_anc w)) = n) by apply (made_inv w W). assert (Lv : length (vars (pw_anc v)) = n) by apply (made_inv v V).
  unfold w_crit1. rewrite forallb_forall. rewrite <- (nth_combine2 _ _ (eq_trans Lw (eq_sym Lv)) (fun x => (fst x =? 0) || (snd x =? 0) = true)). rewrite Lw. cbn [fst snd].
  split; intros H i I; specialize (H i I); rewrite orb_true_iff, !Nat.eqb_eq in *; exact H.
Qed.
Theorem wrap_crit2 w v : wrap_made o n k w -> wrap_made o n k v ->
  (w_crit2 w v = true <-> exists i, i < n /\ expo (vars (pw_anc w)) i + expo (vars (pw_anc v)) i < expo (vars (pw_lm w)) i).
Proof.
  intros W V. pose proof (made_inv w W) as I. assert (Ll : length (vars (pw_lm w)) = n) by apply (inv_lm w I). assert (Lw : length (vars (pw_anc w)) = n) by apply I. assert (Lv : length (vars (pw_anc v)) = n) by apply (made_inv v V).
  clear I W V. unfold w_crit2. rewrite existsb_exists. set (b := combine (vars (pw_anc w)) (vars (pw_anc v))). assert (Lb : length b = n) by (unfold b; rewrite combine_length; lia). split.
  - intros (x & X & H). apply (In_nth _ _ (0, (0, 0))) in X as (i & I & <-). rewrite combine_length, Lb, Ll, Nat.min_id in I. rewrite combine_nth in H by congruence. unfold b in H. rewrite combine_nth in H by congruence. cbn [fst snd] in H. apply Nat.ltb_lt in H. exists i. split; [exact I|exact H].
  - intros (i & I & H). exists (nth i (combine (vars (pw_lm w)) b) (0, (0, 0))). split; [apply nth_In; rewrite combine_length; lia|]. rewrite combine_nth by congruence. unfold b. rewrite combine_nth by congruence. cbn [fst snd]. apply Nat.ltb_lt, H.
Qed.
(** What the criteria mean for a w whose leading monomial is divisible by that of v *)
Theorem wrap_criteria w v : wrap_made o n k w -> wrap_made o n k v -> mdivides (pw_lm v) (pw_lm w) ->
  (w_crit1 w v = true -> forall i, expo (vars (pw_anc w)) i + expo (vars (pw_anc v)) i <= expo (vars (pw_lm w)) i) /\
  (w_crit2 w v = true -> (forall i, Nat.max (expo (vars (pw_anc w)) i) (expo (vars (pw_anc v)) i) <= expo (vars (pw_lm w)) i) /\
     exists i, Nat.max (expo (vars (pw_anc w)) i) (expo (vars (pw_anc v)) i) < expo (vars (pw_lm w)) i).
Proof.
  intros W V D. destruct (wrap_ancestor w W) as [(_ & _ & Dw) _]. destruct (wrap_ancestor v V) as [Dv _]. destruct (mdivides_trans _ _ _ Dv D) as (_ & _ & Dv').
  assert (Lw : length (vars (pw_anc w)) = n) by apply (made_inv w W). assert (Lv : length (vars (pw_anc v)) = n) by apply (made_inv v V). split.
  - intros C i. specialize (Dw i). specialize (Dv' i). destruct (Nat.lt_ge_cases i n) as [I|I]; [|unfold expo in *; rewrite !(nth_overflow (vars (pw_anc _))) by lia; lia].
    destruct (proj1 (wrap_crit1 w v W V) C i I); lia.
  - intro C. split; [intro i; specialize (Dw i); specialize (Dv' i); lia|]. destruct (proj1 (wrap_crit2 w v W V) C) as (i & _ & X). exists i. lia.
Qed.
Theorem wrap_order w v : wrap_made o n k w -> wrap_made o n k v ->
  (w_lt o w v = true <-> py_greater o (pw_lm v) (pw_lm w) \/ (pw_lm w = pw_lm v /\ pw_id w < pw_id v)) /\
  (w_gt o w v = true <-> py_greater o (pw_lm w) (pw_lm v) \/ (pw_lm w = pw_lm v /\ pw_id v < pw_id w)).
Proof.
  intros W V. assert (Mw := proj1 (inv_lm w (made_inv w W))). assert (Mv := proj1 (inv_lm v (made_inv v V))). destruct (py_total o n) as (T1 & T2 & T3 & _).
  rewrite <- (py_meaning o n _ _ Mv Mw), <- (py_meaning o n _ _ Mw Mv), (T3 _ _ Mw Mv), <- (T2 _ _ Mw Mv). unfold w_lt, w_gt. rewrite !orb_true_iff, !andb_true_iff, !Z.ltb_lt, !Z.eqb_eq, !Nat.ltb_lt.
  specialize (T1 _ _ Mw Mv). lia.
Qed.
End Wrap.
