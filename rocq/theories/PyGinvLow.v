(** The rounds of ginvBlockLow. *)
From Coq Require Import ZArith List Bool Arith Lia Permutation.
From Verif Require Import Outcome MonomModel MonomSpec MonomProofs PolyModel PolySpec PolyProofs PolyNfProofs PolyRedProofs IdealProofs JanetSpec JanetPolySpec JanetPolyProofs CompletionProofs
  PyMonomModel PyMonomSpec PyMonomProofs PyPolyModel PyPolySpec PyPolyProofs PyRedProofs PyJanetModel PyJanetSpec PyJanetProofs PyJanetTop PyJanetProlong
  PyHPModel PyForestModel PyForestProofs PyQueueModel PyQueueProofs PyDivProofs PySpan PyGinvModel PyGinvBase PyGinvSweep PyGinvRound PyGinvCover PyGinvMin PyGinvLoop.
Import ListNotations.
Local Open Scope nat_scope.

Lemma perm_in_ids (l l' : list pwrap) : Permutation l l' -> Permutation (map pw_id l) (map pw_id l').
Proof. apply Permutation_map. Qed.
Lemma NoDup_parts {A} (a b : list A) : NoDup (a ++ b) -> NoDup b /\ forall x, In x a -> ~ In x b.
Proof. induction a as [|y a IH]; cbn [app]; intro H; [split; [exact H|intros x []]|]. inversion H as [|? ? Ny H']; subst. destruct (IH H') as [Nb D]. split; [exact Nb|]. intros x [<-|X]; [intro Q; apply Ny, in_app_iff; now right|exact (D x X)]. Qed.

Lemma divides_sum a : forall n b, divides n b a -> length a = n -> length b = n -> fold_right Nat.add 0 b <= fold_right Nat.add 0 a.
Proof.
  induction a as [|x a IH]; intros [|n] [|y b] D La Lb; try discriminate; [cbn; lia|]. cbn [length fold_right] in *. pose proof (D 0 ltac:(lia)) as D0. unfold expo in D0. cbn in D0.
  assert (Dt : divides n b a) by (intros i Hi; exact (D (S i) ltac:(lia))). specialize (IH n b Dt ltac:(lia) ltac:(lia)). lia.
Qed.
Lemma divides_degree a : forall n b, divides n b a -> length a = n -> length b = n -> fold_right Nat.add 0 a = fold_right Nat.add 0 b -> a = b.
Proof.
  induction a as [|x a IH]; intros [|n] [|y b] D La Lb E; try discriminate; [reflexivity|]. cbn [length fold_right] in *. pose proof (D 0 ltac:(lia)) as D0. unfold expo in D0. cbn in D0.
  assert (Dt : divides n b a) by (intros i Hi; exact (D (S i) ltac:(lia))). pose proof (divides_sum a n b Dt ltac:(lia) ltac:(lia)) as Le. assert (x = y) as -> by lia. f_equal. apply (IH n b Dt); lia.
Qed.

Section Low.
Variables (o : py_order) (n : nat) (k : Z) (F : ppoly -> Prop).
Hypothesis K : (0 <= k)%Z.
Hypothesis N : 0 < n.
Local Notation good := (good o n k).
Local Notation fine := (fine o n k F).
Local Notation treeok := (treeok o n k F).
Local Notation sinv := (sinv o n k F).
Local Notation mul u := (mprod (Mon (-1) u)).

Lemma sinv_sub T T2 l l2 id : anc_step T T2 -> sinv T l id -> (forall w, In w l2 -> fine T w) -> NoDup (map pw_id l2) -> incl (map pw_id l2) (map pw_id l) -> sinv T2 l2 id.
Proof.
  intros A (To & Fl & Nd & B) F2 N2 I2. rewrite map_app in Nd. destruct (NoDup_parts _ _ Nd) as [_ Di]. split; [exact (treeok_anc o n k F T T2 A To)|]. split; [intros w W; apply (fine_kind o n k F T); [exact (anc_step_kind T T2 A)|exact (F2 w W)]|].
  rewrite map_app, (anc_step_ids T T2 A). split.
  - apply NoDup_app_intro; [apply To|exact N2|]. intros x X Y. exact (Di x X (I2 x Y)).
  - intros x X. apply B. rewrite map_app. apply in_app_iff in X. apply in_app_iff. destruct X as [X|X]; [now left|right; exact (I2 x X)].
Qed.
Lemma sinv_ids T l id : sinv T l id -> NoDup (map pw_id l).
Proof. intros (_ & _ & Nd & _). rewrite map_app in Nd. exact (proj1 (NoDup_parts _ _ Nd)). Qed.

(* ---- reduceMinDegree ---- *)
Lemma qmin_ok nf id : forall fuel T q d r, sinv T (pq_list q ++ r) id -> (forall w, In w r -> irred T w) ->
  q_min_loop fuel nf o T q d r = OutOfFuel \/ exists T2 q2 r2, q_min_loop fuel nf o T q d r = Ok (T2, q2, r2) /\ anc_step T T2 /\ sinv T2 (pq_list q2 ++ r2) id /\ forall w, In w r2 -> irred T2 w.
Proof.
  induction fuel as [|fuel IH]; intros T q d r Si Ir; [now left|]. cbn [q_min_loop]. set (go := match pq_list q with [] => false | x :: _ => match r with [] => true | _ => Nat.eqb (w_degree x) d end end).
  assert (Stop : exists T2 q2 r2, Ok (T, q, r) = Ok (T2, q2, r2) /\ anc_step T T2 /\ sinv T2 (pq_list q2 ++ r2) id /\ forall w, In w r2 -> irred T2 w) by (exists T, q, r; split; [reflexivity|]; split; [apply anc_step_refl|auto]).
  destruct go; [|right; exact Stop]. pose proof (heap_pop_perm (w_lt o) (pq_list q)) as P. destruct (heap_pop (w_lt o) (pq_list q)) as [[w h]|]; [|right; exact Stop]. clear Stop.
  assert (Pw : Permutation (pq_list q ++ r) (w :: h ++ r)) by (rewrite P; reflexivity). apply (sinv_perm o n k F T _ _ id (Permutation_sym Pw)) in Si. clear P Pw. pose proof (sinv_ids _ _ _ Si) as Nd. pose proof Si as (To & Fl & _). cbn [map] in Nd. inversion Nd as [|? ? Nw Nr]; subst.
  pose proof (Fl w (or_introl eq_refl)) as Fw. destruct (reduce1_ok o n k F K N nf T w To Fw) as [E|(T1 & v & E & A & H)]; rewrite E; [now left|]. cbn [bind fst snd].
  assert (Ir1 : forall u, In u r -> irred T1 u) by (intros u U; apply (anc_step_findWrap T T1 (pw_lm u) A); exact (Ir u U)).
  assert (Drop : sinv T1 (h ++ r) id) by (apply (sinv_sub T T1 _ (h ++ r) id A Si); [intros x X; apply Fl; now right|exact Nr|cbn [map]; apply incl_tl, incl_refl]).
  assert (Put : forall w', fine T w' -> pw_id w' = pw_id w -> forall l2, Permutation l2 (w' :: h ++ r) -> sinv T1 l2 id).
  { intros w' Fw' Ei l2 P2. apply (sinv_perm o n k F T1 _ _ id P2). apply (sinv_sub T T1 _ (w' :: h ++ r) id A Si); [intros x [<-|X]; [exact Fw'|apply Fl; now right]|cbn [map]; rewrite Ei; exact Nd|cbn [map]; rewrite Ei; apply incl_refl]. }
  assert (Res : forall q2 d2 r2, sinv T1 (pq_list q2 ++ r2) id -> (forall u, In u r2 -> irred T1 u) -> q_min_loop fuel nf o T1 q2 d2 r2 = OutOfFuel \/ exists T2 q3 r3, q_min_loop fuel nf o T1 q2 d2 r2 = Ok (T2, q3, r3) /\ anc_step T T2 /\ sinv T2 (pq_list q3 ++ r3) id /\ forall w, In w r3 -> irred T2 w).
  { intros q2 d2 r2 S2 I2. destruct (IH T1 q2 d2 r2 S2 I2) as [X|(T2 & q3 & r3 & X & A2 & S3 & I3)]; [now left|right]. exists T2, q3, r3. split; [exact X|]. split; [exact (anc_step_trans T T1 T2 A A2)|auto]. }
  destruct v as [| | |[|] w'].
  - apply Res; [exact Drop|exact Ir1].
  - apply Res; [exact Drop|exact Ir1].
  - apply Res; [exact Drop|exact Ir1].
  - destruct H as [-> Hi]. apply Res; cbn [pq_list].
    + apply (Put w Fw eq_refl). rewrite app_assoc. symmetry. apply Permutation_cons_append.
    + intros u U. apply in_app_iff in U. destruct U as [U|[<-|[]]]; [exact (Ir1 u U)|]. apply (anc_step_findWrap T T1 (pw_lm w) A). exact Hi.
  - destruct H as (Fw' & _ & _ & _ & Ei & _ & Hi & _). assert (Iw' : irred T1 w') by (apply (anc_step_findWrap T T1 (pw_lm w') A); exact Hi). destruct r as [|r0 r].
    + apply Res; cbn [pq_list]; [|intros u [<-|[]]; exact Iw']. apply (Put w' Fw' Ei). rewrite app_nil_r. symmetry. apply Permutation_cons_append.
    + destruct (Nat.ltb (w_degree w') d).
      * destruct (push_ok o n k (r0 :: r) (PQ h (pq_crit1 q) (pq_crit2 q))) as (q' & Eq & Pq & _); [intros u U; exact (proj1 (Fl u (or_intror (proj2 (in_app_iff _ _ _) (or_intror U)))))|]. rewrite Eq. cbn [bind pq_list] in *.
        apply Res; [|intros u [<-|[]]; exact Iw']. apply (Put w' Fw' Ei). rewrite Pq. rewrite (Permutation_app_comm (r0 :: r) h). symmetry. apply Permutation_cons_append.
      * apply Res; cbn [pq_list]; [apply (Put w' Fw' Ei); rewrite app_assoc; symmetry; apply Permutation_cons_append|]. intros u U. apply in_app_iff in U. destruct U as [U|[<-|[]]]; [exact (Ir1 u U)|exact Iw'].
Qed.

(** no monomial of w is reducible *)
Definition whole (T : pdiv) (w : pwrap) : Prop := forall m, coef (pw_poly w) m <> 0%Z -> d_findWrap T m = Ok None.
Lemma whole_irred T w : good w -> whole T w -> irred T w.
Proof.
  intros (_ & _ & _ & (c & l & E) & C) H. apply H. apply py_canonical_iff in C as (S & M & Z). rewrite E in *. rewrite (pcoef_in o n k (pw_lm w) c _ S M (or_introl eq_refl)). exact (Forall_inv Z).
Qed.
Lemma tails_ok nf T : treeok T -> forall r, (forall w, In w r -> fine T w /\ irred T w) -> q_tails nf o T r = OutOfFuel \/ exists r', q_tails nf o T r = Ok r' /\ map pw_id r' = map pw_id r /\ forall w, In w r' -> fine T w /\ whole T w.
Proof.
  intros To. induction r as [|w r IH]; intros H; cbn [q_tails]; [right; exists []; split; [reflexivity|]; split; [reflexivity|intros w []]|]. destruct (H w (or_introl eq_refl)) as [(Gw & Pw & Sw) Iw]. pose proof Gw as (L1 & L2 & L3 & Lw & C).
  assert (Ff : py_good_find o n k (polys (d_elems T)) (d_find T)) by (apply find_good; [exact N|apply To|exact (treeok_good o n k F T To)]). assert (Np : pw_poly w <> []) by (destruct Lw as (c & l & ->); discriminate). pose proof (good_lmon o n k w Gw) as El.
  destruct (nftail_total o n k K (polys (d_elems T)) (d_find T) Ff nf (pw_poly w) C Np) as [X|(p & X)]; rewrite X; [now left|]. cbn [bind].
  destruct (nftail_span o n k K (polys (d_elems T)) (d_find T) Ff nf (pw_poly w) p C Np X) as (Cp & Npp & Elp & Se & j & d & J & Sd & Co). destruct (pp_good o n k p Cp Npp) as (p' & a & Ep & Cr & Nr & Lr & Fr & Na & Ca & _). rewrite Ep. cbn [bind].
  destruct (IH (fun u U => H u (or_intror U))) as [E|(r' & E & Ei & Hr)]; rewrite E; [now left|]. cbn [bind]. right. exists (set_poly w p' :: r'). split; [reflexivity|]. split; [cbn [map set_poly pw_id]; now rewrite Ei|]. intros u [<-|U]; [|exact (Hr u U)].
  assert (Cr' : forall x, (a * coef p' x = j * coef (pw_poly w) x + coef d x)%Z) by (intro x; rewrite <- Ca; apply Co).
  destruct (derived o n k F N T (polys (d_elems T)) _ (pw_poly w) p' d j a (treeok_polys o n k F T To) Pw Sw Sd Cr Na Cr') as [P' S']. rewrite El in *. split.
  - split; [|split; assumption]. split; [exact L1|]. split; [exact L2|]. split; [exact L3|]. split; [|exact Cr]. destruct p' as [|[m c] p']; [congruence|]. cbn [lmon] in Lr. exists c, p'. cbn [set_poly pw_poly pw_lm]. rewrite <- Elp, <- Lr. reflexivity.
  - intros m Hm. cbn [set_poly pw_poly] in Hm. apply coef_nz_in in Hm. assert (Hm' : In m (map fst p)) by (rewrite <- Fr; exact Hm). clear Hm. destruct p as [|[m0 c0] p]; [contradiction|]. cbn [lmon] in Elp. destruct Hm' as [Hm|Hm].
    + cbn [fst] in Hm. subst m. subst m0. exact Iw.
    + cbn [skipn] in Se. unfold settled in Se. rewrite Forall_forall in Se. apply in_map_iff in Hm. destruct Hm as (y & <- & Y). specialize (Se y Y). cbn beta in Se. rewrite d_find_eq in Se. destruct (d_findWrap T (fst y)) as [[u|]| | | |]; cbn in Se; congruence.
Qed.

(* ---- autoReduce ---- *)
Lemma unit_mul s u : length s = n -> length (vars u) = n -> mul s u = u -> s = repeat 0 n.
Proof.
  intros L Lu E. apply (f_equal vars) in E. unfold mprod in E. cbn [vars] in E. rewrite vsum_addv in E. apply nth_ext with (d := 0) (d' := 0); [rewrite repeat_length; exact L|]. intros i Hi. rewrite nth_repeat.
  pose proof (f_equal (fun l => expo l i) E) as Q. cbn beta in Q. rewrite expo_addv in Q by lia. unfold expo in Q. lia.
Qed.
Lemma reduce_full p u d q : p <> [] -> py_canonical o n k p -> py_canonical o n k ((u, d) :: q) ->
  exists r k1 k2, py_reduce o p ((u, d) :: q) = Ok r /\ py_canonical o n k r /\ (k1 <> 0)%Z /\ (forall x, coef r x = k1 * coef p x + k2 * coef ((u, d) :: q) x)%Z /\ coef r u = 0%Z.
Proof.
  intros Np Cp Cq. destruct (py_reduce_ok o n k p u d q K Np Cp Cq) as (r & _ & _ & _ & E & Cr & _ & _ & _ & Z).
  pose proof Cp as Cp'. apply py_canonical_iff in Cp' as (S & M & _). pose proof Cq as Cq'. apply py_canonical_iff in Cq' as (_ & Mq & _). assert (Mu := Forall_inv Mq). cbn [fst] in Mu.
  assert (X := position_ok o n k u Mu p 0 M S). exists r. unfold py_reduce in E. destruct p as [|x p]; [congruence|]. cbn [py_reduce]. destruct (py_position o 0 (x :: p) u) as [j|].
  - destruct X as (A & c & B & Ex & ->). rewrite Ex in Cp. destruct (py_reduction_full o n k A u c B u d q Cp Cq eq_refl) as (r' & k1 & k2 & s & E' & C & _ & K1 & Ls & Es & H); [split; [now right|split; [reflexivity|lia]]|exact K|].
    cbn [Nat.add] in E. rewrite Ex in E. rewrite E in E'. injection E' as ->. exists k1, k2. split; [rewrite Ex; exact E|]. split; [exact C|]. split; [exact K1|]. split; [|exact Z]. intro y. rewrite Ex, H. rewrite (unit_mul s u Ls (proj1 (proj1 Mu)) Es).
    pose proof (mprod_unit_shift n k ((u, d) :: q) Mq) as Us. f_equal. f_equal. f_equal. exact Us.
  - injection E as <-. exists 1%Z, 0%Z. split; [reflexivity|]. split; [exact Cp|]. split; [lia|]. split; [intro y; lia|exact Z].
Qed.
Definition absent (m : monom) (l : list pwrap) : Prop := forall v, In v l -> coef (pw_poly v) m = 0%Z.
Lemma fine_anc_only T w w' : anc_only w w' -> fine T w -> fine T w'.
Proof. exact (fine_anc o n k F T w w'). Qed.
Lemma auto_row_ok T : treeok T -> forall q w d, fine T w -> whole T w -> (forall v, In v q -> fine T v /\ whole T v) ->
  exists w' q' d', auto_row o w q d = Ok (w', q', d') /\ anc_only w w' /\ length q' <= length q /\ sublist (map pw_id q') (map pw_id q) /\ (forall v, In v q' -> fine T v /\ whole T v) /\ absent (pw_lm w) q' /\
    forall m, coef (pw_poly w) m = 0%Z -> absent m q -> absent m q'.
Proof.
  intros To. induction q as [|v q IH]; intros w d Fw Ww H; cbn [auto_row].
  - exists w, [], d. split; [reflexivity|]. split; [apply anc_only_refl|]. split; [lia|]. split; [apply sub_nil|]. split; [intros v []|]. split; [intros v []|]. auto.
  - destruct (H v (or_introl eq_refl)) as [Fv Wv]. destruct (refresh_ok o n k v w (proj1 Fv)) as (w1 & Er & Aw). rewrite Er. cbn [bind]. pose proof Aw as (Ai & Ap & Al & Ar & Am). pose proof (fine_anc_only T w w1 Aw Fw) as Fw1.
    assert (Ww1 : whole T w1) by (unfold whole; rewrite Ap; exact Ww). rewrite Ap. pose proof Fw as (Gw & Pw & Sw). pose proof Gw as (_ & _ & _ & (c & l & Ew) & Cw). pose proof Fv as ((L1 & L2 & L3 & (cv & lv & Ev) & Cv) & Pv & Sv).
    assert (Nv : pw_poly v <> []) by (rewrite Ev; discriminate). pose proof Cw as Cw'. rewrite Ew in Cw'. destruct (reduce_full (pw_poly v) (pw_lm w) c l Nv Cv Cw') as (p & k1 & k2 & E & Cp & K1 & Co & Zp).
    assert (E' : py_reduce o (pw_poly v) (pw_poly w) = Ok p) by (rewrite Ew; exact E). rewrite E'. cbn [bind]. assert (Co' : forall x, (coef p x = k1 * coef (pw_poly v) x + k2 * coef (pw_poly w) x)%Z) by (intro x; rewrite Ew; exact (Co x)). clear E E' Co.
    destruct p as [|[m e] p].
    + destruct (IH w1 d Fw1 Ww1 (fun u U => H u (or_intror U))) as (w' & q' & d' & E & A & Ln & Su & Hq & Ab & Abm). exists w', q', d'. split; [exact E|]. split; [exact (anc_only_trans w w1 w' Aw A)|]. split; [cbn [length]; lia|]. split; [cbn [map]; apply sub_skip; exact Su|]. split; [exact Hq|].
      split; [rewrite <- Al; exact Ab|]. intros x Zx Zq. rewrite Ap in Abm. apply Abm; [exact Zx|]. intros u U. apply Zq. now right.
    + assert (M : pmono n k m) by exact (pcanonical_mono o n k [] m e p Cp). assert (Mv : pmono n k (pw_lm v)) by exact (good_pmono o n k v (proj1 Fv)).
      assert (Hu : exists v', w_update o (set_poly v ((m, e) :: p)) = Ok v' /\ good v' /\ pw_poly v' = (m, e) :: p /\ pw_id v' = pw_id v).
      { unfold w_update. cbn [set_poly pw_poly pw_lm pw_id pw_prolong pw_nonmult]. destruct (py_eq o (pw_lm v) m) eqn:Q; eexists; split; try reflexivity.
        - apply (py_eq_true o n) in Q; [|apply Mv|apply M]. split; [|auto]. split; [exact L1|]. split; [exact L2|]. split; [exact L3|]. split; [exists e, p; cbn [set_poly pw_poly pw_lm]; now rewrite Q|exact Cp].
        - split; [|auto]. split; [exact (proj1 (proj1 M))|]. cbn [pw_nonmult pw_prolong]. rewrite !map_length. split; [exact L2|]. split; [exact L3|]. split; [exists e, p; reflexivity|exact Cp]. }
      destruct Hu as (v' & Eu & Gv' & Epv & Eiv). match goal with |- exists _ _ _, bind ?X _ = _ /\ _ => replace X with (Ok v') by (symmetry; exact Eu) end. cbn [bind].
      assert (Fv' : fine T v').
      { split; [exact Gv'|]. rewrite Epv. assert (Sd : span n (polys [w]) everything (scale k2 (pw_poly w))).
        { apply (span_ext n _ _ (scale k2 (shift (repeat 0 n) (pw_poly w)))); [|intro x; rewrite !coef_scale; f_equal; f_equal; apply (mprod_unit_shift n k); exact (good_monos o n k w Gw)].
          apply (span_lin n _ _ _ (shift (repeat 0 n) (pw_poly w)) [] k2 0); [apply span_single; [now left|apply repeat_length|exact I]|now apply span_zero|]. intro x. rewrite coef_scale. cbn [coef]. ring. }
        apply (derived o n k F N T (polys [w]) everything (pw_poly v) ((m, e) :: p) (scale k2 (pw_poly w)) k1 1); [intros g Hg; apply in_map_iff in Hg; destruct Hg as (u & <- & [<-|[]]); auto|exact Pv|exact Sv|exact Sd|exact Cp|discriminate|]. intro x. rewrite coef_scale. specialize (Co' x). etransitivity; [apply Z.mul_1_l|exact Co']. }
      assert (Wv' : whole T v').
      { intros x Hx. rewrite Epv in Hx. destruct (Z.eq_dec (coef (pw_poly v) x) 0) as [Q|Q]; [|exact (Wv x Q)]. apply Ww. intro Q'. apply Hx. specialize (Co' x). etransitivity; [exact Co'|]. rewrite Q, Q'. ring. }
      destruct (IH w1 (Nat.min d (w_degree v')) Fw1 Ww1 (fun u U => H u (or_intror U))) as (w' & q' & d' & E & A & Ln & Su & Hq & Ab & Abm). rewrite E. cbn [bind fst snd]. exists w', (v' :: q'), d'. split; [reflexivity|]. split; [exact (anc_only_trans w w1 w' Aw A)|]. split; [cbn [length]; lia|].
      split; [cbn [map]; rewrite Eiv; apply sub_take; exact Su|]. split; [intros u [<-|U]; [auto|exact (Hq u U)]|]. split.
      * intros u [<-|U]; [rewrite Epv; exact Zp|]. rewrite Al in Ab. exact (Ab u U).
      * intros x Zx Zq u [<-|U].
        -- rewrite Epv. specialize (Co' x). etransitivity; [exact Co'|]. rewrite Zx, (Zq v (or_introl eq_refl)). ring.
        -- rewrite Ap in Abm. apply (Abm x Zx); [|exact U]. intros y Y. apply Zq. now right.
Qed.
Lemma min_index_nth oo : forall l best i j l0, nth_error l0 i = Some best -> (forall a, nth_error l0 (j + a) = nth_error l a) -> nth_error l0 (fst (min_index oo best i j l)) = Some (snd (min_index oo best i j l)).
Proof.
  induction l as [|x l IH]; intros best i j l0 H1 H2; cbn [min_index]; [exact H1|]. assert (Hx : nth_error l0 j = Some x) by (specialize (H2 0); rewrite Nat.add_0_r in H2; exact H2).
  assert (Ht : forall a, nth_error l0 (S j + a) = nth_error l a) by (intro a; specialize (H2 (S a)); rewrite Nat.add_succ_r in H2; exact H2). destruct (w_gt oo best x); apply IH; auto.
Qed.
Lemma get_min_perm w0 l : Permutation (w0 :: l) (fst (get_min o w0 l) :: snd (get_min o w0 l)).
Proof.
  unfold get_min. cbn [fst snd]. pose proof (min_index_nth o l w0 0 1 (w0 :: l) eq_refl (fun a => eq_refl)) as H. set (i := fst (min_index o w0 0 1 l)) in *. set (x := snd (min_index o w0 0 1 l)) in *. clearbody i x. generalize dependent (w0 :: l). clear.
  intros l H. rewrite <- (firstn_skipn i l) at 1. assert (E : skipn i l = x :: skipn (S i) l).
  { revert i H. induction l as [|y l IH]; intros [|i] H; try discriminate H; [injection H as ->; reflexivity|]. exact (IH i H). }
  rewrite E. symmetry. apply Permutation_middle.
Qed.
Lemma auto_loop_ok T : treeok T -> forall fuel q d r, length q <= fuel -> (forall v, In v q -> fine T v /\ whole T v) -> (forall v, In v r -> fine T v /\ whole T v) -> NoDup (map pw_id (r ++ q)) ->
  NoDup (map pw_lm r) -> (forall u, In u r -> absent (pw_lm u) q) ->
  exists r' d', auto_loop fuel o q d r = Ok (r', d') /\ (forall v, In v r' -> fine T v /\ whole T v) /\ NoDup (map pw_id r') /\ incl (map pw_id r') (map pw_id (r ++ q)) /\ NoDup (map pw_lm r').
Proof.
  intros To. induction fuel as [|fuel IH]; intros q d r Lq Hq Hr Nd Nl Ab.
  - destruct q; [|cbn in Lq; lia]. exists r, d. split; [reflexivity|]. rewrite app_nil_r in *. split; [exact Hr|]. split; [exact Nd|]. split; [apply incl_refl|exact Nl].
  - destruct q as [|w0 l]; [exists r, d; split; [reflexivity|]; rewrite app_nil_r in *; split; [exact Hr|]; split; [exact Nd|]; split; [apply incl_refl|exact Nl]|]. cbn [auto_loop]. pose proof (get_min_perm w0 l) as P. set (w := fst (get_min o w0 l)) in *. set (q := snd (get_min o w0 l)) in *. clearbody w q.
    assert (Hw : fine T w /\ whole T w) by (apply Hq; apply (Permutation_in w (Permutation_sym P)); now left). assert (Hq' : forall v, In v q -> fine T v /\ whole T v) by (intros v V; apply Hq; apply (Permutation_in v (Permutation_sym P)); now right).
    destruct (auto_row_ok T To q w d (proj1 Hw) (proj2 Hw) Hq') as (w' & q' & d' & E & A & Ln & Su & Hq2 & Aw & Am). rewrite E. cbn [bind fst snd]. pose proof A as (Ai & Ap & Al & _).
    assert (Nd1 : NoDup (map pw_id (r ++ w :: q))) by (apply (Permutation_NoDup (l := map pw_id (r ++ w0 :: l))); [apply Permutation_map, Permutation_app_head, P|exact Nd]).
    assert (Sub : sublist (map pw_id ((r ++ [w']) ++ q')) (map pw_id (r ++ w :: q))) by (rewrite <- app_assoc, !map_app; cbn [app map]; rewrite Ai; apply sublist_app, sub_take; exact Su).
    assert (Ab1 : forall u, In u r -> absent (pw_lm u) (w :: q)) by (intros u U v V; apply (Ab u U); exact (Permutation_in v (Permutation_sym P) V)).
    destruct (IH q' d' (r ++ [w'])) as (r' & d2 & E2 & Hr' & Nd' & Inc & Nl').
    + apply Permutation_length in P. cbn [length] in *. lia.
    + exact Hq2.
    + intros v V. apply in_app_iff in V. destruct V as [V|[<-|[]]]; [exact (Hr v V)|]. split; [exact (fine_anc_only T w w' A (proj1 Hw))|unfold whole; rewrite Ap; exact (proj2 Hw)].
    + exact (sublist_nodup _ _ Sub Nd1).
    + rewrite map_app. cbn [map]. rewrite Al. apply NoDup_app_intro; [exact Nl|constructor; [intros []|constructor]|]. intros x X [<-|[]]. apply in_map_iff in X. destruct X as (u & Eu & U).
      pose proof (Ab1 u U w (or_introl eq_refl)) as Z. rewrite Eu in Z. destruct Hw as [((_ & _ & _ & (c & l' & Ew) & C) & _) _]. apply py_canonical_iff in C as (S & M & Nz). rewrite Ew in *. rewrite (pcoef_in o n k (pw_lm w) c _ S M (or_introl eq_refl)) in Z. exact (Forall_inv Nz Z).
    + intros u U. apply in_app_iff in U. destruct U as [U|[<-|[]]]; [|rewrite Al; exact Aw]. apply Am; [exact (Ab1 u U w (or_introl eq_refl))|]. intros v V. exact (Ab1 u U v (or_intror V)).
    + exists r', d2. split; [exact E2|]. split; [exact Hr'|]. split; [exact Nd'|]. split; [|exact Nl']. intros x X. apply Inc in X. apply (sublist_in _ _ x Sub) in X. apply (Permutation_in x (l := map pw_id (r ++ w :: q))); [apply Permutation_map, Permutation_app_head; symmetry; exact P|exact X].
Qed.
Lemma split_ok T d : forall r q, (forall w, In w r -> fine T w /\ whole T w) -> exists q2 res, auto_split o q d r = Ok (q2, res) /\ Permutation (map pw_id (res ++ pq_list q2)) (map pw_id (r ++ pq_list q)) /\
  (forall w, In w (pq_list q2) -> In w (pq_list q) \/ In w r) /\ (forall w, In w res -> fine T w /\ whole T w /\ w_degree w = d) /\ sublist (map pw_lm res) (map pw_lm r).
Proof.
  induction r as [|w r IH]; intros q H; cbn [auto_split]; [exists q, []; split; [reflexivity|]; split; [reflexivity|]; split; [auto|]; split; [intros w []|apply sub_nil]|]. destruct (H w (or_introl eq_refl)) as [Fw Ww]. pose proof Fw as (Gw & Pw & Sw). destruct (Nat.eqb_spec (w_degree w) d) as [Ed|Ed].
  - pose proof Gw as (L1 & L2 & L3 & (c & l & El) & C). destruct (pp_good o n k (pw_poly w) C ltac:(rewrite El; discriminate)) as (p & g & Ep & Cp & Np & Lp & Fp & Ng & Co & _). rewrite Ep. cbn [bind].
    destruct (IH q (fun u U => H u (or_intror U))) as (q2 & res & E & P & Hq & Hr & Su). rewrite E. cbn [bind fst snd]. exists q2, (set_poly w p :: res). split; [reflexivity|]. split; [cbn [map app set_poly pw_id]; now apply perm_skip|]. split; [intros u U; destruct (Hq u U); [now left|right; now right]|]. split.
    + intros u [<-|U]; [|exact (Hr u U)]. split; [|split; [intros m Hm; apply Ww; cbn [set_poly pw_poly] in Hm; rewrite Co; nia|exact Ed]].
      split; [|split].
      * split; [exact L1|]. split; [exact L2|]. split; [exact L3|]. split; [|exact Cp]. destruct p as [|[m e] p]; [congruence|]. rewrite (good_lmon o n k w Gw) in Lp. cbn [lmon] in Lp. exists e, p. cbn [set_poly pw_poly pw_lm]. now rewrite <- Lp.
      * unfold pure in *. cbn [set_poly pw_poly]. rewrite Forall_forall in *. intros x X. apply (in_map fst) in X. rewrite Fp in X. apply in_map_iff in X. destruct X as (y & Ey & Y). rewrite <- Ey. exact (Pw y Y).
      * cbn [set_poly pw_poly]. apply (rspan_scaled n F everything p (pw_poly w) g 1 Ng Sw). intro m. rewrite Co. ring.
    + cbn [map set_poly pw_lm]. apply sub_take. exact Su.
  - destruct (push_ok o n k [w] q ltac:(intros u [<-|[]]; exact Gw)) as (q1 & E1 & P1 & _). rewrite E1. cbn [bind]. destruct (IH q1 (fun u U => H u (or_intror U))) as (q2 & res & E & P & Hq & Hr & Su). rewrite E. exists q2, res. split; [reflexivity|]. split; [|split; [|split; [exact Hr|cbn [map]; apply sub_skip; exact Su]]].
    + rewrite P. rewrite map_app, (Permutation_map pw_id P1). cbn [app map]. rewrite map_app. symmetry. apply Permutation_middle.
    + intros u U. destruct (Hq u U) as [X|X]; [|right; now right]. apply (Permutation_in u P1) in X. destruct X as [<-|X]; [right; now left|now left].
Qed.

(* ---- insertion of several Wraps ---- *)
Lemma insert1_count J w c : pj_insert1 (PJ (pj_root J) (pj_pos J) c) w = omap (fun x => (PJ (pj_root (fst x)) (pj_pos (fst x)) (c + 1)%Z, snd x)) (pj_insert1 J w).
Proof.
  unfold pj_insert1. cbn [pj_root pj_pos pj_count]. change (pj_findWrap (PJ (pj_root J) (pj_pos J) c) (pw_lm w)) with (pj_findWrap J (pw_lm w)). destruct (pj_findWrap J (pw_lm w)) as [[u|]| | | |]; try reflexivity. cbn [bind].
  unfold assert_. destruct (true && _); [reflexivity|]. destruct (p_insert _ _ _ _ _) as [[a b]| | | |]; reflexivity.
Qed.
Lemma insert1_counts J w J' l : pj_insert1 J w = Ok (J', l) -> pj_count J' = (pj_count J + 1)%Z.
Proof.
  unfold pj_insert1. destruct (pj_findWrap J (pw_lm w)) as [[u|]| | | |]; try discriminate. cbn [bind]. unfold assert_. destruct (true && _); [discriminate|]. destruct (p_insert _ _ _ _ _) as [[a b]| | | |]; try discriminate. cbn [bind fst snd]. intro E. injection E as <- _. reflexivity.
Qed.
Definition recount (J : pjanet) (c : Z) : pjanet := PJ (pj_root J) (pj_pos J) c.
Lemma loop_count q : forall J lst c, pj_insert_loop (recount J c) q lst = omap (fun x => (recount (fst x) (c + Z.of_nat (length q))%Z, snd x)) (pj_insert_loop J q lst).
Proof.
  induction q as [|w q IH]; intros J lst c; cbn [pj_insert_loop omap fst snd length]; [now rewrite Z.add_0_r|]. unfold recount at 1. rewrite insert1_count. destruct (pj_insert1 J w) as [[J1 l1]| | | |]; try reflexivity. cbn [omap bind fst snd].
  change (PJ (pj_root J1) (pj_pos J1) (c + 1)%Z) with (recount J1 (c + 1)%Z). rewrite IH. destruct (pj_insert_loop J1 q (lst ++ l1)) as [[J2 l2]| | | |]; try reflexivity. cbn [omap fst snd]. replace (c + Z.of_nat (S (length q)))%Z with (c + 1 + Z.of_nat (length q))%Z by lia. reflexivity.
Qed.
Lemma loop_counts q : forall J lst J' l, pj_insert_loop J q lst = Ok (J', l) -> pj_count J' = (pj_count J + Z.of_nat (length q))%Z.
Proof.
  induction q as [|w q IH]; intros J lst J' l E; cbn [pj_insert_loop] in E; [injection E as <- _; cbn; lia|]. apply bind_ok in E. destruct E as ([J1 l1] & E1 & E). cbn [fst snd] in E. apply IH in E. apply insert1_counts in E1. cbn [length]. lia.
Qed.
Lemma loop_lst q : forall J lst, pj_insert_loop J q lst = omap (fun x => (fst x, lst ++ snd x)) (pj_insert_loop J q []).
Proof.
  induction q as [|w q IH]; intros J lst; [cbn; now rewrite app_nil_r|]; cbn [pj_insert_loop]. destruct (pj_insert1 J w) as [[J1 l1]| | | |]; try reflexivity. cbn [bind fst snd app]. rewrite (IH J1 (lst ++ l1)), (IH J1 l1). destruct (pj_insert_loop J1 q []) as [[J2 l2]| | | |]; try reflexivity. cbn. now rewrite app_assoc.
Qed.
Lemma pj_insert_cons J w q J1 l1 : pj_insert J [w] = Ok (J1, l1) -> pj_insert J (w :: q) = omap (fun x => (fst x, l1 ++ snd x)) (pj_insert J1 q).
Proof.
  intro E. unfold pj_insert in *. cbn [pj_insert_loop] in *. destruct (pj_insert1 J w) as [[J2 l2]| | | |]; try discriminate E. cbn [bind fst snd app] in *. injection E as <- <-. rewrite loop_lst. fold (recount J2 (pj_count J2 - Z.of_nat (length l2))). rewrite loop_count.
  destruct (pj_insert_loop J2 q []) as [[J3 l3]| | | |] eqn:E3; try reflexivity. cbn [omap bind fst snd recount pj_root pj_pos pj_count]. apply loop_counts in E3. rewrite app_length. match goal with |- Ok (PJ _ _ ?a, _) = Ok (PJ _ _ ?b, _) => replace a with b by lia end. reflexivity.
Qed.
Lemma pf_loop_lst q : forall Fo lst, pf_insert_loop Fo q lst = omap (fun x => (fst x, lst ++ snd x)) (pf_insert_loop Fo q []).
Proof.
  induction q as [|w q IH]; intros Fo lst; [cbn; now rewrite app_nil_r|]; cbn [pf_insert_loop]. destruct (py_index (length Fo) (pos (pw_lm w))) as [i|]; [|reflexivity]. destruct (pj_insert (nth i Fo pj_empty) [w]) as [[J1 l1]| | | |]; try reflexivity. cbn [bind fst snd app].
  rewrite (IH _ (lst ++ l1)), (IH _ l1). destruct (pf_insert_loop _ q []) as [[J2 l2]| | | |]; try reflexivity. cbn. now rewrite app_assoc.
Qed.
Lemma d_insert_cons T w q T1 l1 : d_insert T [w] = Ok (T1, l1) -> d_insert T (w :: q) = omap (fun x => (fst x, l1 ++ snd x)) (d_insert T1 q).
Proof.
  destruct T as [J|Fo]; cbn [d_insert]; intro E.
  - destruct (pj_insert J [w]) as [[J1 l]| | | |] eqn:E1; try discriminate E. cbn [bind fst snd] in E. injection E as <- <-. rewrite (pj_insert_cons J w q J1 l E1). cbn [d_insert]. destruct (pj_insert J1 q) as [[J2 l2]| | | |]; reflexivity.
  - unfold pf_insert in *. cbn [pf_insert_loop] in *. destruct (py_index (length Fo) (pos (pw_lm w))) as [i|]; [|discriminate E]. destruct (pj_insert (nth i Fo pj_empty) [w]) as [[J1 l]| | | |]; try discriminate E. cbn [bind fst snd app] in *. injection E as <- <-. cbn [d_insert]. unfold pf_insert. rewrite pf_loop_lst.
    destruct (pf_insert_loop _ q []) as [[F2 l2]| | | |]; reflexivity.
Qed.
Lemma insert_cone T w T' lst v : treeok T -> fine T w -> fine T v -> dfit bare n k T' -> fine T' v -> inserted n T w T' lst -> irred T v -> w_degree v = w_degree w -> pw_lm v <> pw_lm w -> irred T' v.
Proof.
  intros To Fw Fv D' Fv' (_ & P & _ & Nm & Ot) Iv Ed El. pose proof (irred_spec o n k F N T v (proj1 To) Fv Iv) as H.
  apply (d_find_ok bare n k bare_eraser N T' (pw_lm v) D' (good_pmono o n k v (proj1 Fv))); [exact (good_zone o n k F T' v Fv')|]. intros x Jd. fold (exps v) in Jd. destruct (Z.eq_dec (pos (pw_lm v)) (pos (pw_lm w))) as [Ep|Ep].
  - destruct Jd as (Ix & Dx & Mx). apply d_comp_in in Ix. destruct Ix as (y & Y & Py & Ey). destruct (perm_core_in _ _ y P (proj2 (in_app_iff _ _ _) (or_introl Y))) as (z & Z & Ez). pose proof (f_equal pw_lm Ez) as Em. cbn [core pw_lm] in Em.
    destruct Z as [<-|Z].
    + apply El. rewrite (lm_split v), (lm_split w), Ep. f_equal. unfold exps in Ey at 1. rewrite <- Em in Ey. fold (exps w) in Ey. subst x. pose proof (proj1 (proj1 Fv)) as Lv. pose proof (proj1 (proj1 Fw)) as Lw. apply (divides_degree _ n); [exact Dx|exact Lv|exact Lw|exact Ed].
    + apply (H x). assert (Ixz : In x (d_comp T (pos (pw_lm v)))) by (apply d_comp_in; exists z; split; [exact Z|]; split; [rewrite Em; exact Py|unfold exps in *; rewrite Em; exact Ey]). split; [exact Ixz|]. split; [exact Dx|].
      intros i Hi Q Hn. apply (Mx i Hi Q). apply (Nm _ x i); auto. apply d_comp_in. exists y. auto.
  - rewrite (Ot _ Ep) in Jd. exact (H x Jd).
Qed.
Lemma insert_one T w h id : sinv T (w :: h) id -> irred T w -> exists T' lst, d_insert T [w] = Ok (T', lst) /\ sinv T' (lst ++ h) id /\ inserted n T w T' lst /\ dfit bare n k T' /\ (forall u, In u lst -> good u).
Proof.
  intros Si Iw. destruct (insert_sinv o n k F K N T w h id Si Iw) as (T' & lst & E & H & G). exists T', lst. split; [exact E|]. destruct (H (lst ++ h) (Permutation_refl _)) as [S' _]. split; [exact S'|]. destruct Si as (To & Fl & _). pose proof (Fl w (or_introl eq_refl)) as Fw.
  destruct (insert_any o n k F N bare T w bare_eraser (proj1 To) (bare_fresh n w (proj1 (proj1 Fw))) (proj1 To) Fw Iw) as (T1 & l1 & E1 & D1 & I1). rewrite E in E1. injection E1 as <- <-. auto.
Qed.
Lemma insert_many d id : forall res T h, sinv T (res ++ h) id -> (forall w, In w res -> irred T w /\ w_degree w = d) -> NoDup (map pw_lm res) -> exists T' lst, d_insert T res = Ok (T', lst) /\ sinv T' (lst ++ h) id /\ forall u, In u lst -> good u.
Proof.
  induction res as [|w res IH]; intros T h Si H Nl.
  - exists T, []. split; [destruct T as [[r p c]|Fo]; cbn; [now rewrite Z.sub_0_r|reflexivity]|]. split; [exact Si|intros u []].
  - destruct (H w (or_introl eq_refl)) as [Iw Dw]. cbn [app] in Si. destruct (insert_one T w (res ++ h) id Si Iw) as (T1 & l1 & E1 & S1 & In1 & D1 & G1). inversion Nl as [|? ? Nw Nl']; subst.
    assert (S1' : sinv T1 (res ++ l1 ++ h) id) by (apply (sinv_perm o n k F T1 (l1 ++ res ++ h)); [apply Permutation_app_swap_app|exact S1]). destruct Si as (To & Fl & _).
    destruct (IH T1 (l1 ++ h) S1') as (T2 & l2 & E2 & S2 & G2); [|exact Nl'|].
    + intros v V. destruct (H v (or_intror V)) as [Iv Dv]. split; [|exact Dv]. apply (insert_cone T w T1 l1 v To); auto; [apply Fl; now left|apply Fl; right; apply in_app_iff; now left|destruct S1' as (_ & F1 & _); apply F1, in_app_iff; now left|intro Q; apply Nw; rewrite <- Q; now apply in_map].
    + exists T2, (l1 ++ l2). split; [rewrite (d_insert_cons T w res T1 l1 E1), E2; reflexivity|]. split; [|intros u U; apply in_app_iff in U; destruct U; auto]. apply (sinv_perm o n k F T2 (l2 ++ l1 ++ h)); [|exact S2]. rewrite <- app_assoc. apply Permutation_app_swap_app.
Qed.

(* ---- rounds ---- *)
Notation list_of s := (pq_list (ps_queue s)).
Definition sound_state (s : pstate) : Prop := sinv (ps_tree s) (list_of s) (ps_id s) /\ tinv (ps_tree s).
Lemma anc_tinv T T2 : anc_step T T2 -> tinv T -> tinv T2.
Proof.
  intros A H u U. destruct (Forall2_in_r _ _ _ u (anc_step_elems T T2 A) U) as (x & X & (_ & Ep & _)). destruct (H x X) as [H1 H2]. split; rewrite Ep; [|exact H2]. revert H1. apply Forall_impl. intros y Y. apply (anc_step_findWrap T T2 (fst y) A). exact Y.
Qed.
Lemma low_round_ok fuel nf s : sound_state s -> low_round fuel nf o s = OutOfFuel \/ exists s' b, low_round fuel nf o s = Ok (s', b) /\ sound_state s'.
Proof.
  intros [Si Ti]. unfold low_round. set (j := match list_of s with w :: _ => w_degree w | [] => 0 end). set (i := d_degMinProlong (ps_tree s)). destruct (Nat.eqb i 0 && Nat.eqb j 0); [right; exists s, false; split; [reflexivity|split; assumption]|].
  assert (H : exists s1, (if Nat.eqb j 0 || (Nat.ltb 0 i && Nat.ltb i j) then prolong_by o (take_deg i) s else Ok s) = Ok s1 /\ sound_state s1).
  { destruct (Nat.eqb j 0 || _); [|exists s; split; [reflexivity|split; assumption]]. destruct (prolong_by_ok o n k F K N (take_deg i) s Si) as (s1 & new & E & _ & _ & _ & _ & S1 & _ & T1 & _). exists s1. split; [exact E|]. split; [exact S1|exact (T1 Ti)]. }
  destruct H as (s1 & E1 & S1 & T1). unfold prolong_by in E1. rewrite E1. cbn [bind]. clear E1 i j. unfold q_reduceMinDegree.
  assert (S1' : sinv (ps_tree s1) (list_of s1 ++ []) (ps_id s1)) by (rewrite app_nil_r; exact S1).
  destruct (qmin_ok nf (ps_id s1) fuel (ps_tree s1) (ps_queue s1) 0 [] S1' ltac:(intros w [])) as [E|(T2 & q2 & r2 & E & A & S2 & I2)]; rewrite E; [now left|]. cbn [bind]. pose proof S2 as (To2 & Fl2 & _ & B2).
  destruct (tails_ok nf T2 To2 r2) as [Et|(r3 & Et & Ei & H3)]; [intros w W; split; [apply Fl2, in_app_iff; now right|exact (I2 w W)]|rewrite Et; now left|]. rewrite Et. cbn [bind]. pose proof (anc_tinv _ _ A T1) as Ta2.
  assert (S3 : sinv T2 (pq_list q2 ++ r3) (ps_id s1)).
  { apply (sinv_sub T2 T2 _ _ _ (anc_step_refl T2) S2); [intros w W; apply in_app_iff in W; destruct W as [W|W]; [apply Fl2, in_app_iff; now left|exact (proj1 (H3 w W))]| |]; rewrite !map_app, Ei, <- map_app; [exact (sinv_ids _ _ _ S2)|apply incl_refl]. }
  clear S2 I2 Et Ei B2 E Fl2. destruct r3 as [|w0 l0]; [right; exists (PS T2 q2 (ps_id s1)), true; split; [reflexivity|]; split; [cbn [ps_tree ps_queue ps_id]; rewrite app_nil_r in S3; exact S3|exact Ta2]|].
  set (r := w0 :: l0) in *. unfold q_autoReduce. change (match r with [] => AssertFail | w :: _ => do x <- auto_loop (length r) o r (w_degree w) []; auto_split o q2 (snd x) (fst x) end) with (do x <- auto_loop (length r) o r (w_degree w0) []; auto_split o q2 (snd x) (fst x)).
  pose proof (sinv_ids _ _ _ S3) as N3. rewrite map_app in N3. destruct (NoDup_parts _ _ N3) as [Nr Di].
  destruct (auto_loop_ok T2 To2 (length r) r (w_degree w0) [] (le_n _) H3 ltac:(intros v []) Nr ltac:(constructor) ltac:(intros u [])) as (r4 & d4 & E4 & H4 & Nd4 & Inc4 & Nl4). rewrite E4. cbn [bind fst snd app] in *.
  destruct (split_ok T2 d4 r4 q2 H4) as (q5 & res & E5 & P5 & Hq5 & Hr5 & Su5). rewrite E5. cbn [bind fst snd].
  assert (S5 : sinv T2 (res ++ pq_list q5) (ps_id s1)).
  { apply (sinv_sub T2 T2 _ _ _ (anc_step_refl T2) S3).
    - intros w W. apply in_app_iff in W. destruct W as [W|W]; [exact (proj1 (Hr5 w W))|]. destruct (Hq5 w W) as [X|X]; [destruct S3 as (_ & Fl3 & _); apply Fl3, in_app_iff; now left|exact (proj1 (H4 w X))].
    - apply (Permutation_NoDup (Permutation_sym P5)). rewrite map_app. apply NoDup_app_intro; [exact Nd4|exact (NoDup_app_l _ _ N3)|]. intros x X Y. exact (Di x Y (Inc4 x X)).
    - intros x X. apply (Permutation_in x P5) in X. rewrite map_app in *. apply in_app_iff in X. apply in_app_iff. destruct X as [X|X]; [right; exact (Inc4 x X)|now left]. }
  destruct (insert_many d4 (ps_id s1) res T2 (pq_list q5) S5) as (T6 & lst & E6 & S6 & G6); [intros w W; destruct (Hr5 w W) as (A1 & A2 & A3); split; [exact (whole_irred T2 w (proj1 A1) A2)|exact A3]|exact (sublist_nodup _ _ Su5 Nl4)|]. rewrite E6. cbn [bind fst snd].
  destruct (push_ok o n k lst q5 G6) as (q7 & E7 & P7 & _). rewrite E7. cbn [bind]. apply (sinv_perm o n k F T6 _ _ _ P7) in S6.
  destruct (sweep_sinv o n k F K N nf T6 (pq_list q7) (ps_id s1) S6) as [E8|(T8 & E8 & S8 & T8' & _)]; rewrite E8; [now left|]. cbn [bind]. right. exists (PS T8 q7 (ps_id s1)), true. split; [reflexivity|]. split; [exact S8|exact T8'].
Qed.
Lemma low_loop_ok nf : forall fuel s, sound_state s -> low_loop fuel nf o s = OutOfFuel \/ exists s', low_loop fuel nf o s = Ok s' /\ sound_state s'.
Proof.
  induction fuel as [|fuel IH]; intros s Ss; [now left|]. cbn [low_loop]. destruct (low_round_ok (S fuel) nf s Ss) as [E|(s1 & b & E & S1)]; rewrite E; [now left|]. cbn [bind fst snd]. destruct b; [exact (IH s1 S1)|right; exists s1; auto].
Qed.
End Low.
