(** Prolongations in the Janet trees of pyginv. *)
From Coq Require Import ZArith List Bool Arith Lia Permutation.
From Verif Require Import Outcome MonomModel MonomSpec MonomProofs PolySpec JanetSpec PyMonomModel PyMonomSpec PyMonomProofs PyPolyModel PyPolySpec PyPolyProofs PyRedProofs PyTop PyJanetModel PyJanetSpec PyJanetProofs PyJanetTop.
Import ListNotations.
Local Open Scope nat_scope.

Lemma prolong_poly_eq o n k p v : (0 <= k)%Z -> py_canonical o n k p -> v < n ->
  py_prolong_poly o p v = Ok (map (fun x => (mul_var v (fst x), snd x)) p) /\ py_canonical o n k (map (fun x => (mul_var v (fst x), snd x)) p).
Proof.
  intros K P V. destruct (py_prolong_yields o n k p v K P V) as (r & E & C & _). pose proof E as E0. unfold py_prolong_poly in E.
  rewrite (map_terms_ok (fun m0 => py_prolong m0 v) (mul_var v)) in E.
  2:{ intros x X. apply (py_prolong_ok n); [|exact V]. destruct P as (_ & Mp & _). rewrite Forall_forall in Mp. apply (Mp x X). }
  cbn [bind] in E. assert (X : map (fun x => (mul_var v (fst x), (1 * snd x)%Z)) p = map (fun x => (mul_var v (fst x), snd x)) p) by (apply map_ext; intros [m c]; cbn [snd fst]; f_equal; lia).
  rewrite X in E. unfold py_checked, assert_ in E. destruct (negb _); [discriminate E|]. injection E as E. rewrite E0. subst r. split; [reflexivity|exact C].
Qed.

Section P.
Variables (o : py_order) (n : nat) (k : Z).
Hypothesis K : (0 <= k)%Z.
Definition good (w : pwrap) : Prop := length (exps w) = n /\ length (pw_nonmult w) = n /\ length (pw_prolong w) = n /\ leads w /\ py_canonical o n k (pw_poly w).

Lemma w_of_prolong_ok w v id : good w -> pending w v ->
  exists x, w_of_prolong o id w v = Ok (x, set_prolong v true w) /\ prolonged o n k w v x /\ pw_id x = id.
Proof.
  intros (L & Ln & Lp & (c & l & Ep) & C) [Pn Pp]. assert (V : v < n).
  { rewrite <- Ln. destruct (le_lt_dec (length (pw_nonmult w)) v) as [X|X]; [|exact X]. rewrite nth_overflow in Pn by exact X. discriminate Pn. }
  unfold w_of_prolong. rewrite Pp, Pn. cbn [assert_ andb negb]. destruct (prolong_poly_eq o n k (pw_poly w) v K C V) as [E Cr]. rewrite E. cbn [bind].
  assert (Er : map (fun x => (mul_var v (fst x), snd x)) (pw_poly w) = (mul_var v (pw_lm w), c) :: map (fun x => (mul_var v (fst x), snd x)) l) by exact (f_equal (map (fun x => (mul_var v (fst x), snd x))) Ep).
  set (r := map (fun x => (mul_var v (fst x), snd x)) (pw_poly w)) in *. destruct r as [|[m c'] r']; [discriminate Er|]. injection Er as -> -> ->. eexists. split; [reflexivity|].
  assert (Lv : length (vars (mul_var v (pw_lm w))) = n) by (cbn; rewrite incr_length; exact L).
  split; [|reflexivity]. rewrite Lv. cbn [pw_lm pw_poly pw_prolong pw_nonmult pw_anc]. split; [split; [exact Lv|split; [reflexivity|apply repeat_length]]|].
  split; [eexists; eexists; reflexivity|]. split; [exact Cr|]. split; [reflexivity|]. split; [reflexivity|]. split; [|reflexivity].
  destruct (py_prolong_yields o n k (pw_poly w) v K C V) as (r & E2 & _ & Cf). rewrite E in E2. injection E2 as <-. exact Cf.
Qed.

Lemma set_prolong_nth v b w i : v < length (pw_prolong w) -> nth i (pw_prolong (set_prolong v b w)) true = if Nat.eqb i v then b else nth i (pw_prolong w) true.
Proof using.
  cbn [set_prolong pw_prolong]. generalize (pw_prolong w). intros l. revert v i. induction l as [|x l IH]; intros [|v] [|i] L; cbn in *; try lia; try reflexivity. apply IH. lia.
Qed.
Lemma good_set v b w : good w -> good (set_prolong v b w).
Proof. intros (A & B & C & D & E). split; [exact A|]. split; [exact B|]. split; [cbn; rewrite set_flag_length; exact C|]. split; [exact D|exact E]. Qed.

Lemma w_prolongs_ok vs : forall w id, good w -> NoDup vs -> (forall v, In v vs -> pending w v) ->
  exists new, w_prolongs o vs w id = Ok (fold_left (fun w v => set_prolong v true w) vs w, new, id + length new) /\
    Forall2 (prolonged o n k w) vs new /\ map pw_id new = seq id (length new).
Proof.
  induction vs as [|v vs IH]; intros w id G D Pd; cbn [w_prolongs fold_left].
  - exists []. cbn [length]. rewrite Nat.add_0_r. split; [reflexivity|split; [constructor|reflexivity]].
  - destruct (w_of_prolong_ok w v id G (Pd v (or_introl eq_refl))) as (x & E & Px & Ix). rewrite E. cbn [bind fst snd]. inversion D as [|? ? Nv D']; subst.
    destruct (IH (set_prolong v true w) (S (pw_id x))) as (new & E2 & F & Is).
    + apply good_set, G. + exact D'.
    + intros u U. destruct (Pd u (or_intror U)) as [A B]. split; [exact A|]. rewrite set_prolong_nth.
      * destruct (Nat.eqb_spec u v) as [->|]; [contradiction|exact B].
      * destruct G as (_ & Ln & Lp & _). rewrite Lp, <- Ln. destruct (Pd v (or_introl eq_refl)) as [Pn _]. destruct (le_lt_dec (length (pw_nonmult w)) v) as [X|X]; [|exact X]. rewrite nth_overflow in Pn by exact X. discriminate Pn.
    + rewrite E2. cbn [bind fst snd]. exists (x :: new). split; [cbn [length]; rewrite Nat.add_succ_r; reflexivity|]. split.
      * constructor; [exact Px|]. clear - F. induction F as [|a b l l' A F IH]; constructor; [|exact IH]. exact A.
      * cbn [map length seq]. rewrite Is. reflexivity.
Qed.

Lemma pending_spec w v : In v (w_pending w) <-> pending w v.
Proof using.
  unfold w_pending. rewrite filter_In, in_seq, andb_true_iff, negb_true_iff. unfold pending. split; [tauto|]. intros [A B]. split; [|tauto]. split; [lia|].
  destruct (le_lt_dec (length (pw_nonmult w)) v) as [X|X]; [|lia]. rewrite nth_overflow in A by exact X. discriminate A.
Qed.
Lemma pending_nodup w : NoDup (w_pending w).
Proof using. apply NoDup_filter, seq_NoDup. Qed.

Variable take : pwrap -> nat -> bool.
Definition jobs (l : list pwrap) : list (pwrap * nat) := flat_map (fun w => map (pair w) (filter (take w) (w_pending w))) l.
Lemma jobs_app l l' : jobs (l ++ l') = jobs l ++ jobs l'.
Proof using. apply flat_map_app. Qed.
Lemma t_prolongs_ok t : forall id, (forall w, In w (telems t) -> good w) ->
  exists new, t_prolongs o take t id = Ok (tmap (marked take) t, new, id + length new) /\
    Forall2 (fun j => prolonged o n k (fst j) (snd j)) (jobs (telems t)) new /\ map pw_id new = seq id (length new).
Proof.
  induction t as [w|l F] using ptree_ind'; intros id G; cbn [t_prolongs tmap].
  - destruct (w_prolongs_ok (filter (take w) (w_pending w)) w id (G w (or_introl eq_refl))) as (new & E & Fn & Is).
    + apply NoDup_filter, pending_nodup. + intros v V. apply filter_In in V. apply pending_spec, V.
    + rewrite E. cbn [bind fst snd]. exists new. split; [reflexivity|]. split; [|exact Is]. cbn [telems jobs flat_map]. rewrite app_nil_r. clear - Fn.
      induction Fn; cbn [map]; constructor; auto.
  - rewrite telems_list in *.
    assert (X : exists new, (fix go (l : prow) (id : nat) : outcome (prow * list pwrap * nat) :=
         match l with
         | [] => Ok ([], [], id)
         | t' :: l' => do x <- t_prolongs o take t' id; do y <- go l' (snd x); Ok (fst (fst x) :: fst (fst y), snd (fst x) ++ snd (fst y), snd y)
         end) l id = Ok (map (tmap (marked take)) l, new, id + length new) /\
      Forall2 (fun j => prolonged o n k (fst j) (snd j)) (jobs (relems l)) new /\ map pw_id new = seq id (length new)).
    { revert id. induction F as [|t l Ht F IH]; intro id.
      - exists []. cbn [length map]. rewrite Nat.add_0_r. split; [reflexivity|split; [constructor|reflexivity]].
      - destruct (Ht id) as (n1 & E1 & F1 & I1); [intros w W; apply G; cbn [relems]; apply in_app_iff; now left|].
        destruct (IH (fun w W => G w (proj2 (in_app_iff _ _ _) (or_intror W))) (id + length n1)) as (n2 & E2 & F2 & I2).
        exists (n1 ++ n2). rewrite E1. cbn [bind fst snd]. rewrite E2. cbn [bind fst snd map relems]. split; [rewrite app_length, Nat.add_assoc; reflexivity|].
        split; [rewrite jobs_app; apply Forall2_app; assumption|]. rewrite map_app, app_length, seq_app, I1, I2. reflexivity. }
    destruct X as (new & E & Fn & Is). rewrite E. cbn [bind fst snd]. exists new. split; [reflexivity|split; assumption].
Qed.

Lemma jobs_in l w v : In (w, v) (jobs l) <-> In w l /\ pending w v /\ take w v = true.
Proof using.
  unfold jobs. rewrite in_flat_map. split.
  - intros (u & U & X). apply in_map_iff in X. destruct X as (v' & X & V). injection X as -> ->. apply filter_In in V. rewrite <- pending_spec. tauto.
  - intros (W & P & T). exists w. split; [exact W|]. apply in_map_iff. exists v. split; [reflexivity|]. apply filter_In. rewrite pending_spec. auto.
Qed.
Lemma NoDup_app_intro {A} (a b : list A) : NoDup a -> NoDup b -> (forall x, In x a -> ~ In x b) -> NoDup (a ++ b).
Proof using.
  induction 1 as [|x a X Na IH]; intros Nb H; [exact Nb|]. cbn [app]. constructor; [|apply IH; [exact Nb|intros y Y; apply H; now right]].
  rewrite in_app_iff. intros [Y|Y]; [contradiction|]. exact (H x (or_introl eq_refl) Y).
Qed.
Lemma jobs_nodup l : NoDup l -> NoDup (jobs l).
Proof using.
  induction 1 as [|w l W D IH]; [constructor|]. cbn [jobs flat_map]. apply NoDup_app_intro; [|exact IH|].
  - apply FinFun.Injective_map_NoDup; [intros a b X; now injection X|]. apply NoDup_filter, pending_nodup.
  - intros [u v] X Y. apply in_map_iff in X. destruct X as (v' & X & _). injection X as <- _. apply jobs_in in Y. exact (W (proj1 Y)).
Qed.

End P.

(** the flags afterwards *)
Lemma fold_marks_flags vs i : forall w, (forall v, In v vs -> v < length (pw_prolong w)) ->
  (nth i (pw_prolong (fold_left (fun w v => set_prolong v true w) vs w)) true = true <-> In i vs \/ nth i (pw_prolong w) true = true).
Proof.
  induction vs as [|v vs IH]; intros w L; cbn [fold_left]; [cbn; tauto|]. rewrite IH.
  - rewrite set_prolong_nth by (apply L; now left). cbn [In]. destruct (Nat.eqb_spec i v) as [->|N]; [tauto|]. split; [tauto|]. intros [[X|X]|X]; [congruence|tauto|tauto].
  - intros u U. cbn [set_prolong pw_prolong]. rewrite set_flag_length. apply L. now right.
Qed.

Lemma pyj_prolongs o n k take J id : 0 < n -> (0 <= k)%Z -> built n J -> (forall w, In w (elems J) -> leads w /\ py_canonical o n k (pw_poly w)) ->
  prolongation o n k J id (fun w v => take w v = true) (pj_prolongs o take J id).
Proof.
  intros N K B H. destruct (built_inv n J N B) as [[R _] _]. destruct (built_extra n J N B) as (D & Lp & _).
  assert (G : forall w, In w (elems J) -> good o n k w).
  { intros w W. destruct (rok_wok n n 0 _ w R W) as [A Bn]. destruct (H w W) as [X Y]. split; [exact A|]. split; [exact Bn|]. split; [exact (Lp w W)|]. split; assumption. }
  destruct (t_prolongs_ok o n k K take (PList (pj_root J)) id) as (new & E & F & Is); [rewrite telems_list; exact G|]. rewrite telems_list in F.
  assert (E' : pj_prolongs o take J id = Ok (PJ (map (tmap (marked take)) (pj_root J)) (pj_pos J) (pj_count J), new, id + length new)).
  { unfold pj_prolongs. rewrite E. reflexivity. }
  exists (PJ (map (tmap (marked take)) (pj_root J)) (pj_pos J) (pj_count J)), new. split; [exact E'|]. split; [exact (built_prolong n o take J id _ new _ B E')|].
  split; [exact Is|]. split; [exists (jobs take (elems J)); split; [apply jobs_nodup; exact (NoDup_map_inv _ _ D)|]; split; [intros w v; apply jobs_in|exact F]|].
  unfold elems at 2. cbn [pj_root]. rewrite tmap_relems. fold (elems J). clear - G. induction (elems J) as [|u l IH]; cbn [map]; constructor.
  - unfold marked. destruct (fold_marks (filter (take u) (w_pending u)) u) as (A & Bn & C & D & E). split; [repeat split; assumption|].
    intro v. rewrite fold_marks_flags.
    + rewrite filter_In, pending_spec. tauto.
    + intros x X. apply filter_In in X. destruct X as [X _]. apply pending_spec in X. destruct (G u (or_introl eq_refl)) as (_ & Ln & L2 & _). rewrite L2, <- Ln. destruct X as [Pn _].
      destruct (le_lt_dec (length (pw_nonmult u)) x) as [Y|Y]; [|exact Y]. rewrite nth_overflow in Pn by exact Y. discriminate Pn.
  - apply IH. intros w W. apply G. now right.
Qed.

Lemma step_sel o n k id sel sel' ws ws' new : (forall w v, In w ws -> pending w v -> (sel w v <-> sel' w v)) -> prolong_step o n k id sel ws ws' new -> prolong_step o n k id sel' ws ws' new.
Proof.
  intros S (Is & (jobs & D & I & F) & El). split; [exact Is|]. split.
  - exists jobs. split; [exact D|]. split; [|exact F]. intros w v. rewrite I. split; intros (A & C & X); (split; [exact A|split; [exact C|apply (S w v A C), X]]).
  - clear - S El. revert S. induction El as [|u u' l l' H El IH]; intro S; constructor; [|apply IH; intros w v W; apply S; now right].
    destruct H as [H1 H2]. split; [exact H1|]. intro v. rewrite H2. split; (intros [X|[X Y]]; [now left|right; split; [exact X|]]); apply (S u v (or_introl eq_refl) X), Y.
Qed.
Lemma prolongation_sel o n k J id sel sel' r : (forall w v, In w (elems J) -> pending w v -> (sel w v <-> sel' w v)) -> prolongation o n k J id sel r -> prolongation o n k J id sel' r.
Proof. intros S (J' & new & E & B & P). exists J', new. split; [exact E|]. split; [exact B|]. exact (step_sel o n k id sel sel' _ _ _ S P). Qed.
Section API.
Variables (o : py_order) (n : nat) (k : Z) (J : pjanet) (id : nat).
Hypothesis N : 0 < n.
Hypothesis K : (0 <= k)%Z.
Hypothesis B : built n J.
Hypothesis H : forall w, In w (elems J) -> leads w /\ py_canonical o n k (pw_poly w).
Lemma pyj_prolongDeg d : prolongation o n k J id (fun w _ => d = 0 \/ fold_right Nat.add 0 (exps w) = d) (pj_prolongDeg o J d id).
Proof.
  refine (prolongation_sel o n k J id _ _ _ _ (pyj_prolongs o n k _ J id N K B H)). intros w v _ _. unfold take_deg. rewrite orb_true_iff, !Nat.eqb_eq. unfold w_degree, py_degree, exps.
  split; intros [X|X]; auto.
Qed.
Lemma pyj_prolongAll : prolongation o n k J id (fun _ _ => True) (pj_prolongAll o J id).
Proof. refine (prolongation_sel o n k J id _ _ _ _ (pyj_prolongs o n k _ J id N K B H)). intros w v _ _. unfold take_all. tauto. Qed.
Lemma pyj_prolongMonom m : mono n m -> prolongation o n k J id (fun w v => ~ py_greater o (Mon (pos (pw_lm w)) (incr v (vars (pw_lm w)))) m) (pj_prolongMonom o J m id).
Proof.
  intro M. refine (prolongation_sel o n k J id _ _ _ _ (pyj_prolongs o n k _ J id N K B H)). intros w v W [Pn _].
  destruct (H w W) as [(c & l & E) C]. assert (Mw : mono n (pw_lm w)) by (destruct C as (_ & C & _); rewrite E in C; inversion C as [|? ? X _]; apply X).
  destruct (built_inv n J N B) as [[R _] _]. destruct (rok_wok n n 0 _ w R W) as [A Bn].
  assert (V : v < n) by (rewrite <- Bn; destruct (le_lt_dec (length (pw_nonmult w)) v) as [Y|Y]; [rewrite nth_overflow in Pn by exact Y; discriminate Pn|exact Y]).
  unfold take_monom. rewrite (py_prolong_ok n) by assumption.
  assert (Mv : mono n (mul_var v (pw_lm w))) by (destruct Mw as [L P]; split; [cbn; rewrite incr_length; exact L|exact P]).
  exact (proj1 (proj2 (proj2 (proj2 (py_above o n _ m Mv M))))).
Qed.
End API.

(** degMinProlong *)
Definition minz (d x : nat) : nat := if Nat.eqb d 0 then x else Nat.min d x.
Lemma fold_minz l : forall d, (forall x, In x l -> 0 < x) ->
  (fold_left minz l d = 0 <-> d = 0 /\ l = []) /\
  (forall x, In x l \/ (x = d /\ 0 < d) -> fold_left minz l d <= x) /\ (fold_left minz l d <> 0 -> fold_left minz l d = d \/ In (fold_left minz l d) l).
Proof.
  induction l as [|y l IH]; intros d P; cbn [fold_left].
  - split; [tauto|]. split; [intros x [[]|[-> _]]; lia|now left].
  - pose proof (P y (or_introl eq_refl)) as Py. assert (M : minz d y = if Nat.eqb d 0 then y else Nat.min d y) by reflexivity.
    destruct (IH (minz d y) (fun x X => P x (or_intror X))) as (A & B & C). assert (Pos : 0 < minz d y) by (rewrite M; destruct (Nat.eqb_spec d 0); lia).
    assert (Le : minz d y <= y /\ (0 < d -> minz d y <= d)) by (rewrite M; destruct (Nat.eqb_spec d 0); lia).
    assert (Ei : minz d y = y \/ minz d y = d) by (rewrite M; destruct (Nat.eqb_spec d 0); lia).
    split; [split; [intro X; apply A in X; lia|intros [_ X]; discriminate X]|]. split.
    + intros x [[->|X]|[-> X]].
      * assert (fold_left minz l (minz d x) <= minz d x) by (apply B; right; auto). lia.
      * apply B. now left.
      * assert (fold_left minz l (minz d y) <= minz d y) by (apply B; right; auto). lia.
    + intro X. cbn [In]. destruct (C X) as [Y|Y]; [rewrite Y; destruct Ei as [->| ->]; auto|auto].
Qed.
Lemma fold_same (f : nat -> nat) {A} (l : list A) x : forall d, fold_left (fun d _ => if Nat.eqb d 0 then x else Nat.min d x) l d = fold_left minz (map (fun _ => x) l) d.
Proof. induction l as [|a l IH]; intro d; cbn [fold_left map]; [reflexivity|]. apply IH. Qed.
Lemma degmin_eq l : forall d, fold_left (fun d w => fold_left (fun d _ => if Nat.eqb d 0 then w_degree w else Nat.min d (w_degree w)) (w_pending w) d) l d =
  fold_left minz (flat_map (fun w => map (fun _ => w_degree w) (w_pending w)) l) d.
Proof. induction l as [|w l IH]; intro d; cbn [fold_left flat_map]; [reflexivity|]. rewrite fold_left_app, <- IH, (fold_same (fun x => x)). reflexivity. Qed.

Lemma degree_zero l : fold_right Nat.add 0 l = 0 -> forall i, i < length l -> expo l i = 0.
Proof. induction l as [|x l IH]; intros E i Hi; cbn in *; [lia|]. destruct i as [|i]; [cbn; lia|]. apply IH; lia. Qed.
Lemma pyj_degmin n J : 0 < n -> built n J ->
  ((forall w v, In w (elems J) -> ~ pending w v) -> pj_degMinProlong J = 0) /\
  ((exists w v, In w (elems J) /\ pending w v) ->
    (exists w v, In w (elems J) /\ pending w v /\ fold_right Nat.add 0 (exps w) = pj_degMinProlong J) /\
    (forall w v, In w (elems J) -> pending w v -> pj_degMinProlong J <= fold_right Nat.add 0 (exps w)) /\ 0 < pj_degMinProlong J).
Proof.
  intros N B. unfold pj_degMinProlong. rewrite degmin_eq. fold (elems J). set (L := flat_map _ (elems J)).
  assert (LI : forall x, In x L <-> exists w v, In w (elems J) /\ pending w v /\ fold_right Nat.add 0 (exps w) = x).
  { intro x. unfold L. rewrite in_flat_map. split.
    - intros (w & W & X). apply in_map_iff in X. destruct X as (v & <- & V). exists w, v. split; [exact W|]. split; [apply pending_spec, V|reflexivity].
    - intros (w & v & W & P & <-). exists w. split; [exact W|]. apply in_map_iff. exists v. split; [reflexivity|]. apply pending_spec, P. }
  assert (P : forall x, In x L -> 0 < x).
  { intros x X. apply LI in X. destruct X as (w & v & W & [Pn _] & <-). destruct (built_inv n J N B) as [[R _] _]. destruct (built_extra n J N B) as (_ & _ & Z0).
    destruct (rok_wok n n 0 _ w R W) as [A Bn]. destruct (Nat.eq_dec (fold_right Nat.add 0 (exps w)) 0) as [E|E]; [exfalso|lia].
    assert (Zw : allzero n w) by (intros i Hi; apply degree_zero; [exact E|unfold exps; lia]).
    assert (V : v < n) by (rewrite <- Bn; destruct (le_lt_dec (length (pw_nonmult w)) v) as [Y|Y]; [rewrite nth_overflow in Pn by exact Y; discriminate Pn|exact Y]).
    apply (pyj_flags n J w v N B W V) in Pn. destruct Pn as (x & X & _ & X2). unfold tree_exps in X. rewrite (Z0 w W Zw) in X. destruct X as [<-|[]]. lia. }
  destruct (fold_minz L 0 P) as (A & Bd & C). split.
  - intro H. apply A. split; [reflexivity|]. destruct L as [|x L'] eqn:EL; [reflexivity|exfalso]. destruct (proj1 (LI x) (or_introl eq_refl)) as (w & v & W & Pd & _). exact (H w v W Pd).
  - intros (w0 & v0 & W0 & P0). assert (Ne : fold_left minz L 0 <> 0).
    { intro X. apply A in X. destruct X as [_ X]. assert (In (fold_right Nat.add 0 (exps w0)) L) as Y by (apply LI; eauto). rewrite X in Y. destruct Y. }
    split; [|split; [|lia]].
    + destruct (C Ne) as [X|X]; [contradiction|]. apply LI, X.
    + intros w v W Pd. apply Bd. left. apply LI. eauto.
Qed.
