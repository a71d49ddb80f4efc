(** The order of the queue during the calls of ginvMin and ginvBlockLow. *)
From Coq Require Import ZArith List Bool Arith Lia Permutation.
From Verif Require Import Outcome MonomModel MonomSpec MonomProofs PolyModel PolySpec PolyProofs PolyNfProofs PolyRedProofs IdealProofs JanetSpec JanetPolySpec JanetPolyProofs CompletionProofs
  PyMonomModel PyMonomSpec PyMonomProofs PyPolyModel PyPolySpec PyPolyProofs PyRedProofs PyJanetModel PyJanetSpec PyJanetProofs PyJanetTop PyJanetProlong
  PyHPModel PyForestModel PyForestProofs PyQueueModel PyQueueProofs PyDivProofs PySpan PyGinvModel PyGinvSpec PyGinvBase PyGinvSweep PyGinvRound PyGinvCover PyInvolutive PyGinvMin PyGinvLoop PyGinvLow PyGinvTop
  PyHeapqSpec PyHeapqProofs PyHeapqQueue.
Import ListNotations.
Local Open Scope nat_scope.
Notation list_of s := (pq_list (ps_queue s)).

Lemma deg_eq w : w_degree w = deg w.
Proof. unfold w_degree, py_degree, deg. induction (vars (pw_lm w)) as [|a l IH]; [reflexivity|]. cbn [fold_right total]. now rewrite IH. Qed.
Lemma greater_deg a b : py_greater TOPdeglex a b -> total (vars b) <= total (vars a).
Proof. intros [[L|[E _]]|[E _]]; [lia|lia|rewrite E; lia]. Qed.

Section Run.
Variables (o : py_order) (n : nat) (k : Z) (F : ppoly -> Prop).
Hypothesis K : (0 <= k)%Z.
Hypothesis N : 0 < n.
Local Notation good := (good o n k).
Local Notation fine := (fine o n k F).
Local Notation treeok := (treeok o n k F).
Local Notation sinv := (sinv o n k F).
Notation heap q := (is_heap (w_lt o) (pq_list q)).
Notation nv l := (Forall (nvars n) l).

Lemma sinv_nv T l id : sinv T l id -> nv l.
Proof. intros (_ & Fl & _). apply Forall_forall. intros w W. exact (proj1 (good_pmono o n k w (proj1 (Fl w W)))). Qed.
Lemma prolong_heap take s s1 : sinv (ps_tree s) (list_of s) (ps_id s) -> heap (ps_queue s) -> prolong_by o take s = Ok s1 -> sinv (ps_tree s1) (list_of s1) (ps_id s1) /\ heap (ps_queue s1).
Proof.
  intros Si H E. destruct (prolong_by_ok o n k F K N take s Si) as (s' & new & E' & _ & _ & _ & _ & S1 & _). rewrite E in E'. injection E' as <-. split; [exact S1|]. apply sinv_nv in S1.
  unfold prolong_by in E. destruct (d_prolongs o take (ps_tree s) (ps_id s)) as [x| | | |]; try discriminate E. cbn [bind] in E. destruct (q_push o (ps_queue s) (snd (fst x))) as [q| | | |] eqn:Eq; try discriminate E. cbn [bind] in E. injection E as <-. exact (push_heap o n _ _ _ Eq S1 H).
Qed.
Lemma min_prolong_heap (level : bool) s s1 : sinv (ps_tree s) (list_of s) (ps_id s) -> heap (ps_queue s) -> (if level then min_prolong o s else Ok s) = Ok s1 -> sinv (ps_tree s1) (list_of s1) (ps_id s1) /\ heap (ps_queue s1).
Proof.
  intros Si H E. destruct level; [|injection E as <-; auto]. unfold min_prolong in E. revert E. set (take := match list_of s with [] => take_all | w :: _ => if py_bool (pw_lm w) then take_monom o (pw_lm w) else take_all end). intro E. exact (prolong_heap take s s1 Si H E).
Qed.
Lemma min_round_heap nf level s s' b : sinv (ps_tree s) (list_of s) (ps_id s) -> heap (ps_queue s) -> min_round nf o level s = Ok (s', b) -> sinv (ps_tree s') (list_of s') (ps_id s') /\ heap (ps_queue s').
Proof.
  intros Si H E. split. { destruct (min_round_ok o n k F K N nf level s Si) as [X|(s2 & b2 & X & Kp & _)]; rewrite E in X; [discriminate X|]. injection X as <- _. apply Kp. }
  unfold min_round in E. destruct (if level then min_prolong o s else Ok s) as [s1| | | |] eqn:E1; try discriminate E. cbn [bind] in E. destruct (min_prolong_heap level s s1 Si H E1) as [S1 H1].
  destruct (list_of s1) as [|w0 l0] eqn:El; [injection E as <- _; rewrite El; exact H1|]. rewrite <- El in S1. destruct (reduceAll_ok o n k F K N nf (ps_tree s1) (ps_queue s1) (ps_id s1) S1) as [X|(T2 & q2 & r & X & _ & _ & _ & R)]; rewrite X in E; [discriminate E|]. cbn [bind] in E. cbv zeta in R. destruct R as (S2 & I2 & _).
  pose proof (sinv_nv _ _ _ S2) as V2. destruct (reduceAll_heap o n nf _ _ _ _ _ X V2) as [H2 _]. destruct r as [w|]; [|injection E as <- _; exact H2].
  destruct (insert_sinv o n k F K N T2 w (pq_list q2) (ps_id s1) S2 (I2 w (or_introl eq_refl))) as (T3 & lst & E3 & H3 & _). rewrite E3 in E. cbn [bind fst snd] in E.
  destruct (q_push o q2 lst) as [q4| | | |] eqn:E4; try discriminate E. cbn [bind] in E. destruct (sweep nf o T3 (d_elems T3)) as [T5| | | |]; try discriminate E. cbn [bind] in E. injection E as <- _. cbn [ps_queue].
  apply (push_heap o n _ _ _ E4); [|exact H2]. exact (sinv_nv _ _ _ (proj1 (H3 (pq_list q4) (push_perm o _ _ _ E4)))).
Qed.
Lemma lowest_head T w l id : sinv T (w :: l) id -> is_heap (w_lt o) (w :: l) -> lowest o w l.
Proof. intros Si H. pose proof (sinv_nv _ _ _ Si) as V. apply (least_lowest o n); [exact V|exact (sinv_ids o n k F _ _ _ Si)|exact (heap_least (nvars n) (w_lt o) (w_order o n) w l V H)]. Qed.
Lemma reduceAll_lowest nf T q id T2 q2 w : sinv T (pq_list q) id -> q_reduceAll nf o T q = Ok (T2, q2, Some w) -> lowest o w (pq_list q2).
Proof.
  intros Si E. destruct (reduceAll_ok o n k F K N nf T q id Si) as [X|(T2' & q2' & r & X & _ & _ & _ & R)]; rewrite E in X; [discriminate X|]. injection X as <- <- <-. cbv zeta in R. destruct R as (S2 & _). pose proof (sinv_nv _ _ _ S2) as V.
  apply (least_lowest o n); [exact V|exact (sinv_ids o n k F _ _ _ S2)|]. exact (proj2 (reduceAll_heap o n nf _ _ _ _ _ E V) w eq_refl).
Qed.
End Run.

Section LowRun.
Variables (n : nat) (k : Z) (F : ppoly -> Prop).
Hypothesis K : (0 <= k)%Z.
Hypothesis N : 0 < n.
Local Notation o := TOPdeglex.
Local Notation good := (good o n k).
Local Notation fine := (fine o n k F).
Local Notation treeok := (treeok o n k F).
Local Notation sinv := (sinv o n k F).
Notation heap q := (is_heap (w_lt o) (pq_list q)).
Notation nv l := (Forall (nvars n) l).

Lemma lt_deg x y : nvars n x -> nvars n y -> w_lt o y x = false -> deg x <= deg y.
Proof. intros X Y E. destruct (w_lt_false o n y x Y X E) as [G|[E' _]]; [exact (greater_deg _ _ G)|unfold deg; rewrite E'; lia]. Qed.
Lemma gt_deg x y : nvars n x -> nvars n y -> w_gt o x y = false -> deg x <= deg y.
Proof.
  intros X Y E. destruct (py_total o n) as (T1 & T2 & T3 & _). unfold w_gt in E. apply orb_false_iff in E. destruct E as [E _]. apply Z.ltb_ge in E. pose proof (T1 _ _ X Y) as C. destruct (Z.eq_dec (py_cmp o (pw_lm x) (pw_lm y)) 0) as [Q|Q].
  - apply (T2 _ _ X Y) in Q. unfold deg. rewrite Q. lia.
  - apply greater_deg. apply (py_meaning o n _ _ Y X). rewrite (T3 _ _ X Y). lia.
Qed.
Definition low_inv (q : pqueue) (d : nat) (r : list pwrap) : Prop := heap q /\ (r = [] -> d = 0) /\ (r = [] \/ exists e, block e r (pq_list q) /\ (d = e \/ d = 0)).
Lemma qmin_low nf id : forall fuel T q d r T2 q2 r2, sinv T (pq_list q ++ r) id -> (forall w, In w r -> irred T w) -> low_inv q d r -> q_min_loop fuel nf o T q d r = Ok (T2, q2, r2) ->
  heap q2 /\ exists e, block e r2 (pq_list q2).
Proof.
  induction fuel as [|fuel IH]; intros T q d r T3 q3 r3 Si Ir (Hq & D0 & Lo) Run; [discriminate Run|]. cbn [q_min_loop] in Run. set (go := match pq_list q with [] => false | x :: _ => match r with [] => true | _ => Nat.eqb (w_degree x) d end end) in *.
  assert (Stop : go = false \/ heap_pop (w_lt o) (pq_list q) = None -> heap q /\ exists e, block e r (pq_list q)).
  { intro St. split; [exact Hq|]. destruct Lo as [->|(e & B & _)]; [|exists e; exact B]. exists 0. split; [intros w []|intros w _; lia]. }
  pose proof (heap_pop_perm (w_lt o) (pq_list q)) as P. destruct (heap_pop (w_lt o) (pq_list q)) as [[w h]|] eqn:Ep; [|rewrite (match go as g return (match g with true => Ok (T, q, r) | false => Ok (T, q, r) end = Ok (T, q, r)) with true => eq_refl | false => eq_refl end) in Run; injection Run as <- <- <-; apply Stop; now right].
  destruct go eqn:Eg; [|injection Run as <- <- <-; apply Stop; now left]. clear Stop.
  pose proof (sinv_nv o n k F _ _ _ Si) as Va. apply Forall_app in Va. destruct Va as [Vq Vr]. destruct (heap_pop_ok (nvars n) (w_lt o) (w_order o n) _ w h Vq Hq Ep) as (Le & Hh & Hd).
  assert (Vwh : nv (w :: h)) by exact (nv_perm n _ _ P Vq). inversion Vwh as [|? ? Vw Vh]; subst. pose proof (proj1 (Forall_forall _ _) Vh) as Vh'.
  assert (Low : forall v, In v h -> deg w <= deg v) by (intros v V; apply lt_deg; [exact Vw|exact (Vh' v V)|exact (Le v V)]).
  assert (Top : r <> [] -> exists e, d = e /\ deg w = e /\ block e r h).
  { intro Nr. destruct Lo as [->|(e & (B1 & B2) & De)]; [congruence|]. unfold go in Eg. destruct (pq_list q) as [|x l] eqn:El; [discriminate Eg|]. injection Hd as <-. destruct r as [|r0 r]; [congruence|]. apply Nat.eqb_eq in Eg. rewrite deg_eq in Eg.
    pose proof (B2 x (or_introl eq_refl)) as Bx. exists e. assert (De' : d = e) by lia. split; [exact De'|]. split; [lia|]. split; [exact B1|]. intros v V. apply B2. exact (Permutation_in v (Permutation_sym P) (or_intror V)). }
  assert (Pw : Permutation (pq_list q ++ r) (w :: h ++ r)) by (rewrite P; reflexivity). apply (sinv_perm o n k F T _ _ id (Permutation_sym Pw)) in Si. clear P Pw. pose proof (sinv_ids o n k F _ _ _ Si) as Nd. pose proof Si as (To & Fl & _). cbn [map] in Nd. inversion Nd as [|? ? Nw Nr]; subst.
  pose proof (Fl w (or_introl eq_refl)) as Fw. destruct (reduce1_ok o n k F K N nf T w To Fw) as [E|(T1 & v & E & A & H)]; rewrite E in Run; [discriminate Run|]. cbn [bind fst snd] in Run.
  assert (Ir1 : forall u, In u r -> irred T1 u) by (intros u U; apply (anc_step_findWrap T T1 (pw_lm u) A); exact (Ir u U)).
  assert (Drop : sinv T1 (h ++ r) id) by (apply (sinv_sub o n k F T T1 _ (h ++ r) id A Si); [intros x X; apply Fl; now right|exact Nr|cbn [map]; apply incl_tl, incl_refl]).
  assert (Put : forall w', fine T w' -> pw_id w' = pw_id w -> forall l2, Permutation l2 (w' :: h ++ r) -> sinv T1 l2 id).
  { intros w' Fw' Ei l2 P2. apply (sinv_perm o n k F T1 _ _ id P2). apply (sinv_sub o n k F T T1 _ (w' :: h ++ r) id A Si); [intros x [<-|X]; [exact Fw'|apply Fl; now right]|cbn [map]; rewrite Ei; exact Nd|cbn [map]; rewrite Ei; apply incl_refl]. }
  assert (Ldrop : forall a b, low_inv (PQ h a b) d r).
  { intros a b. split; [exact Hh|]. split; [exact D0|]. destruct r as [|r0 r]; [now left|right]. destruct Top as (e & -> & _ & B); [discriminate|]. exists e. split; [exact B|now left]. }
  destruct v as [| | |[|] w'].
  - exact (IH T1 (PQ h _ _) _ _ _ _ _ Drop Ir1 (Ldrop _ _) Run).
  - exact (IH T1 (PQ h _ _) _ _ _ _ _ Drop Ir1 (Ldrop _ _) Run).
  - exact (IH T1 (PQ h _ _) _ _ _ _ _ Drop Ir1 (Ldrop _ _) Run).
  - destruct H as [-> Hi]. refine (IH T1 (PQ h _ _) _ _ _ _ _ _ _ _ Run); cbn [pq_list].
    + apply (Put w Fw eq_refl). rewrite app_assoc. symmetry. apply Permutation_cons_append.
    + intros u U. apply in_app_iff in U. destruct U as [U|[<-|[]]]; [exact (Ir1 u U)|]. apply (anc_step_findWrap T T1 (pw_lm w) A). exact Hi.
    + split; [exact Hh|]. split; [intro Q; destruct r; discriminate Q|]. right. destruct r as [|r0 r].
      * exists (deg w). split; [split; [intros u [<-|[]]; reflexivity|exact Low]|]. right. exact (D0 eq_refl).
      * destruct Top as (e & -> & Dw & (B1 & B2)); [discriminate|]. exists e. split; [|now left]. split; [|exact B2]. intros u U. apply in_app_iff in U. destruct U as [U|[<-|[]]]; [exact (B1 u U)|exact Dw].
  - destruct H as (Fw' & _ & _ & _ & Ei & (_ & Gt) & Hi & _). assert (Iw' : irred T1 w') by (apply (anc_step_findWrap T T1 (pw_lm w') A); exact Hi).
    assert (Vw' : nvars n w') by exact (proj1 (good_pmono o n k w' (proj1 Fw'))). assert (Dw' : deg w' <= deg w) by (apply greater_deg, (py_meaning o n _ _ Vw Vw'), Gt). destruct r as [|r0 r].
    + refine (IH T1 (PQ h _ _) _ _ _ _ _ _ _ _ Run); cbn [pq_list]; [apply (Put w' Fw' Ei); rewrite app_nil_r; symmetry; apply Permutation_cons_append|intros u [<-|[]]; exact Iw'|]. split; [exact Hh|]. split; [intro Q; try discriminate Q; destruct r; discriminate Q|]. right. exists (deg w'). split; [|left; apply deg_eq].
      split; [intros u [<-|[]]; reflexivity|]. intros v V. specialize (Low v V). lia.
    + destruct Top as (e & -> & Dw & (B1 & B2)); [discriminate|]. destruct (Nat.ltb_spec (w_degree w') e) as [L|L]; rewrite deg_eq in L.
      * destruct (q_push o (PQ h (pq_crit1 q) (pq_crit2 q)) (r0 :: r)) as [q'| | | |] eqn:Eq; try discriminate Run. cbn [bind] in Run. pose proof (push_perm o _ _ _ Eq) as Pq. cbn [pq_list] in Pq.
        assert (Vq' : nv (pq_list q')) by (apply (nv_perm n _ _ (Permutation_sym Pq)); apply Forall_app; split; assumption).
        refine (IH T1 q' _ _ _ _ _ _ _ _ Run); [apply (Put w' Fw' Ei); rewrite Pq, (Permutation_app_comm (r0 :: r) h); symmetry; apply Permutation_cons_append|intros u [<-|[]]; exact Iw'|]. split; [exact (push_heap o n _ _ _ Eq Vq' Hh)|]. split; [discriminate|]. right. exists (deg w'). split; [|left; apply deg_eq].
        split; [intros u [<-|[]]; reflexivity|]. intros v V. apply (Permutation_in v Pq), in_app_iff in V. destruct V as [V|V]; [rewrite (B1 v V); lia|specialize (B2 v V); lia].
      * refine (IH T1 (PQ h _ _) _ _ _ _ _ _ _ _ Run); cbn [pq_list]; [apply (Put w' Fw' Ei); rewrite app_assoc; symmetry; apply Permutation_cons_append|intros u U; apply in_app_iff in U; destruct U as [U|[<-|[]]]; [exact (Ir1 u U)|exact Iw']|]. split; [exact Hh|]. split; [intro Q; try discriminate Q; destruct r; discriminate Q|]. right. exists e.
        split; [|now left]. split; [|exact B2]. intros u U. apply in_app_iff in U. destruct U as [U|[<-|[]]]; [exact (B1 u U)|lia].
Qed.
Lemma tails_lm nf T : forall r r', q_tails nf o T r = Ok r' -> map pw_lm r' = map pw_lm r.
Proof.
  induction r as [|w r IH]; intros r' E; cbn [q_tails] in E; [injection E as <-; reflexivity|]. destruct (py_nftail nf o (d_find T) (pw_poly w)) as [p| | | |]; try discriminate E. cbn [bind] in E. destruct (py_pp o p) as [p'| | | |]; try discriminate E. cbn [bind] in E.
  destruct (q_tails nf o T r) as [l| | | |] eqn:El; try discriminate E. cbn [bind] in E. injection E as <-. cbn [map set_poly pw_lm]. now rewrite (IH l eq_refl).
Qed.
Lemma refresh_lm w v w' : w_refresh o v w = Ok w' -> pw_lm w' = pw_lm w.
Proof. unfold w_refresh, assert_. destruct (pw_poly v) as [|[m c] p]; [discriminate|]. destruct (true && _); [discriminate|]. intro E. injection E as <-. destruct (py_divisible_true _ _); reflexivity. Qed.
Lemma auto_row_deg : forall q w d w' q' d', auto_row o w q d = Ok (w', q', d') -> pw_lm w' = pw_lm w /\ d' <= d /\ (forall v, In v q' -> d' <= deg v) /\ (d' = d \/ exists v, In v q' /\ deg v = d').
Proof.
  induction q as [|v q IH]; intros w d w' q' d' E; cbn [auto_row] in E; [injection E as <- <- <-; split; [reflexivity|]; split; [lia|]; split; [intros v []|now left]|].
  destruct (w_refresh o v w) as [w1| | | |] eqn:Er; try discriminate E. cbn [bind] in E. apply refresh_lm in Er. destruct (py_reduce o (pw_poly v) (pw_poly w1)) as [p| | | |]; try discriminate E. cbn [bind] in E. destruct p as [|x p].
  - destruct (IH _ _ _ _ _ E) as (A & B & C & D). rewrite A, Er. auto.
  - destruct (w_update o (set_poly v (x :: p))) as [v'| | | |]; try discriminate E. cbn [bind] in E. destruct (auto_row o w1 q (Nat.min d (w_degree v'))) as [[[w2 q2] d2]| | | |] eqn:E2; try discriminate E. cbn [bind fst snd] in E. injection E as <- <- <-.
    destruct (IH _ _ _ _ _ E2) as (A & B & C & D). rewrite deg_eq in *. split; [now rewrite A|]. split; [lia|]. split.
    + intros u [<-|U]; [lia|exact (C u U)].
    + destruct D as [D|(u & U & Du)]; [|right; exists u; split; [now right|exact Du]]. destruct (Nat.le_gt_cases d (deg v')); [left; lia|right; exists v'; split; [now left|lia]].
Qed.
Lemma auto_loop_deg T : treeok T -> forall fuel q d r r' d', (forall v, In v q -> fine T v /\ whole T v) -> (forall v, In v (r ++ q) -> d <= deg v) -> (exists v, In v (r ++ q) /\ deg v = d) ->
  auto_loop fuel o q d r = Ok (r', d') -> d' <= d /\ (forall v, In v r' -> d' <= deg v) /\ exists v, In v r' /\ deg v = d'.
Proof.
  intros To. induction fuel as [|fuel IH]; intros q d r r' d' Hq Lo At E.
  - destruct q; [|discriminate E]. cbn in E. injection E as <- <-. rewrite app_nil_r in *. auto.
  - destruct q as [|w0 l]; [cbn in E; injection E as <- <-; rewrite app_nil_r in *; auto|]. cbn [auto_loop] in E. pose proof (get_min_perm o w0 l) as P.
    assert (Vq : nv (w0 :: l)) by (apply Forall_forall; intros w W; exact (proj1 (good_pmono o n k w (proj1 (proj1 (Hq w W)))))). pose proof (get_min_least o n w0 l Vq) as Le. set (w := fst (get_min o w0 l)) in *. set (q := snd (get_min o w0 l)) in *. clearbody w q.
    assert (Hw : fine T w /\ whole T w) by (apply Hq; apply (Permutation_in w (Permutation_sym P)); now left). assert (Hq' : forall v, In v q -> fine T v /\ whole T v) by (intros v V; apply Hq; apply (Permutation_in v (Permutation_sym P)); now right).
    apply (nv_perm n _ _ P) in Vq. inversion Vq as [|? ? Vw Vq']; subst. rewrite Forall_forall in Vq'.
    destruct (auto_row_ok o n k F K N T To q w d (proj1 Hw) (proj2 Hw) Hq') as (w' & q' & d1 & E1 & _ & _ & _ & Hq2 & _). rewrite E1 in E. cbn [bind fst snd] in E. destruct (auto_row_deg _ _ _ _ _ _ E1) as (A & B & C & D).
    assert (Dw : deg w' = deg w) by (unfold deg; now rewrite A). assert (Lw : d <= deg w) by (apply Lo, in_app_iff; right; apply (Permutation_in w (Permutation_sym P)); now left).
    destruct (IH q' d1 (r ++ [w']) r' d' Hq2) as (X1 & X2 & X3); [| |exact E|split; [lia|auto]].
    + intros v V. rewrite <- app_assoc in V. apply in_app_iff in V. destruct V as [V|[<-|V]]; [|lia|exact (C v V)]. assert (d <= deg v) by (apply Lo, in_app_iff; now left). lia.
    + destruct D as [-> | (v & V & Dv)]; [|exists v; split; [apply in_app_iff; now right|exact Dv]]. destruct At as (v & V & Dv). apply in_app_iff in V. destruct V as [V|V]; [exists v; split; [rewrite <- app_assoc; apply in_app_iff; now left|exact Dv]|].
      exists w'. split; [rewrite <- app_assoc; apply in_app_iff; right; now left|]. apply (Permutation_in v P) in V. destruct V as [<-|V]; [lia|]. pose proof (gt_deg w v Vw (Vq' v V) (Le v V)). lia.
Qed.
Lemma split_some d : forall r q q2 res w, auto_split o q d r = Ok (q2, res) -> In w r -> deg w = d -> res <> [].
Proof.
  induction r as [|x r IH]; intros q q2 res w E W D; [destruct W|]. cbn [auto_split] in E. destruct (Nat.eqb_spec (w_degree x) d) as [Q|Q].
  - destruct (py_pp o (pw_poly x)) as [p| | | |]; try discriminate E. cbn [bind] in E. destruct (auto_split o q d r) as [[qa qb]| | | |]; try discriminate E. cbn [bind fst snd] in E. injection E as <- <-. discriminate.
  - rewrite deg_eq in Q. destruct W as [<-|W]; [congruence|]. destruct (q_push o q [x]) as [q1| | | |]; try discriminate E. cbn [bind] in E. exact (IH _ _ _ _ E W D).
Qed.
Lemma auto_low T q r q2 res id e : sinv T (pq_list q ++ r) id -> (forall w, In w r -> whole T w) -> block e r (pq_list q) -> heap q -> q_autoReduce o q r = Ok (q2, res) ->
  heap q2 /\ res <> [] /\ exists d, d <= e /\ block d res (pq_list q2).
Proof.
  intros Si Wh (B1 & B2) Hq E. pose proof Si as (To & Fl & _). assert (Hr : forall v, In v r -> fine T v /\ whole T v) by (intros v V; split; [apply Fl, in_app_iff; now right|exact (Wh v V)]).
  pose proof (sinv_ids o n k F _ _ _ Si) as Nd. rewrite map_app in Nd. destruct (NoDup_parts _ _ Nd) as [Nr _]. unfold q_autoReduce in E. destruct r as [|w0 l]; [discriminate E|].
  destruct (auto_loop_ok o n k F K N T To (length (w0 :: l)) (w0 :: l) (w_degree w0) [] (le_n _) Hr ltac:(intros v []) Nr ltac:(constructor) ltac:(intros u [])) as (r4 & d4 & E4 & H4 & _). rewrite E4 in E. cbn [bind fst snd] in E.
  destruct (auto_loop_deg T To (length (w0 :: l)) (w0 :: l) (w_degree w0) [] r4 d4 Hr) as (D1 & D2 & (u & U & Du)); [intros v V; cbn [app] in V; rewrite deg_eq, (B1 w0 (or_introl eq_refl)), (B1 v V); lia|exists w0; split; [now left|symmetry; apply deg_eq]|exact E4|].
  rewrite deg_eq, (B1 w0 (or_introl eq_refl)) in D1. destruct (split_ok o n k F N T d4 r4 q H4) as (q5 & res5 & E5 & _ & Hq5 & Hr5 & _). rewrite E in E5. injection E5 as <- <-.
  assert (V2 : nv (pq_list q2)). { apply Forall_forall. intros w W. destruct (Hq5 w W) as [X|X]; [apply (proj1 (Forall_forall _ _) (sinv_nv o n k F _ _ _ Si)), in_app_iff; now left|exact (proj1 (good_pmono o n k w (proj1 (proj1 (H4 w X)))))]. }
  split; [exact (split_heap o n d4 _ _ _ _ E V2 Hq)|]. split; [exact (split_some d4 _ _ _ _ u E U Du)|]. exists d4. split; [exact D1|]. split; [intros w W; destruct (Hr5 w W) as (_ & _ & X); rewrite deg_eq in X; exact X|].
  intros w W. destruct (Hq5 w W) as [X|X]; [specialize (B2 w X); lia|exact (D2 w X)].
Qed.
(** the first part of a round *)
Lemma reduce_low fuel nf T q id T2 q2 r : sinv T (pq_list q) id -> heap q -> q_reduceMinDegree fuel nf o T q = Ok (T2, q2, r) ->
  sinv T2 (pq_list q2 ++ r) id /\ heap q2 /\ (forall w, In w r -> whole T2 w) /\ exists e, block e r (pq_list q2).
Proof.
  intros Si Hq E. unfold q_reduceMinDegree in E. assert (Si' : sinv T (pq_list q ++ []) id) by (rewrite app_nil_r; exact Si).
  destruct (qmin_ok o n k F K N nf id fuel T q 0 [] Si' ltac:(intros w [])) as [X|(T1 & q1 & r1 & X & _ & S1 & I1)]; rewrite X in E; [discriminate E|]. cbn [bind] in E.
  destruct (qmin_low nf id fuel T q 0 [] T1 q1 r1 Si' ltac:(intros w []) ltac:(split; [exact Hq|]; split; [reflexivity|now left]) X) as (H1 & e & B1 & B2). pose proof S1 as (To1 & Fl1 & _).
  destruct (tails_ok o n k F K N nf T1 To1 r1) as [Et|(r3 & Et & Ei & H3)]; [intros w W; split; [apply Fl1, in_app_iff; now right|exact (I1 w W)]|rewrite Et in E; discriminate E|]. rewrite Et in E. cbn [bind] in E. injection E as <- <- <-. split; [|split; [exact H1|split; [intros w W; exact (proj2 (H3 w W))|]]].
  - apply (sinv_sub o n k F T1 T1 _ _ _ (anc_step_refl T1) S1); [intros w W; apply in_app_iff in W; destruct W as [W|W]; [apply Fl1, in_app_iff; now left|exact (proj1 (H3 w W))]| |]; rewrite !map_app, Ei, <- map_app; [exact (sinv_ids o n k F _ _ _ S1)|apply incl_refl].
  - exists e. split; [|exact B2]. intros w W. pose proof (tails_lm nf T1 _ _ Et) as El. apply (in_map pw_lm) in W. rewrite El in W. apply in_map_iff in W. destruct W as (u & Eu & U). unfold deg. rewrite <- Eu. exact (B1 u U).
Qed.
Lemma low_round_heap fuel nf s s' b : sound_state o n k F s -> heap (ps_queue s) -> low_round fuel nf o s = Ok (s', b) -> sound_state o n k F s' /\ heap (ps_queue s').
Proof.
  intros Ss H E. assert (Ss' : sound_state o n k F s') by (destruct (low_round_ok o n k F K N fuel nf s Ss) as [X|(s2 & b2 & X & S2)]; rewrite E in X; [discriminate X|]; injection X as <- _; exact S2). split; [exact Ss'|].
  destruct Ss as [Si _]. destruct Ss' as [Si' _]. unfold low_round in E. set (j := match list_of s with w :: _ => w_degree w | [] => 0 end) in *. set (i := d_degMinProlong (ps_tree s)) in *. destruct (Nat.eqb i 0 && Nat.eqb j 0); [injection E as <- _; exact H|].
  match type of E with bind ?X _ = _ => destruct X as [s1| | | |] eqn:E1; try discriminate E end. cbn [bind] in E.
  assert (Q : sinv (ps_tree s1) (list_of s1) (ps_id s1) /\ heap (ps_queue s1)) by (destruct (Nat.eqb j 0 || _); [exact (prolong_heap o n k F K N (take_deg i) s s1 Si H E1)|injection E1 as <-; auto]). destruct Q as [S1 H1].
  destruct (q_reduceMinDegree fuel nf o (ps_tree s1) (ps_queue s1)) as [[[T2 q2] r]| | | |] eqn:E2; try discriminate E. cbn [bind] in E. destruct (reduce_low fuel nf _ _ _ _ _ _ S1 H1 E2) as (S2 & H2 & W2 & e & B2).
  destruct r as [|w0 l]; [injection E as <- _; exact H2|]. destruct (q_autoReduce o q2 (w0 :: l)) as [[q3 res]| | | |] eqn:E3; try discriminate E. cbn [bind fst snd] in E. destruct (auto_low _ _ _ _ _ _ e S2 W2 B2 H2 E3) as (H3 & _).
  destruct (d_insert T2 res) as [[T4 lst]| | | |] eqn:E4; try discriminate E. cbn [bind fst snd] in E. destruct (q_push o q3 lst) as [q5| | | |] eqn:E5; try discriminate E. cbn [bind] in E. destruct (sweep nf o T4 (d_elems T4)) as [T6| | | |]; try discriminate E. cbn [bind] in E. injection E as <- _. cbn [ps_queue].
  apply (push_heap o n _ _ _ E5); [|exact H3]. exact (sinv_nv o n k F _ _ _ Si').
Qed.
End LowRun.

(* ---- during a call ---- *)
Section Call.
Variables (o : py_order) (n : nat) (k : Z).
Hypothesis K : (0 <= k)%Z.
Hypothesis N : 0 < n.
Variables (cs : list (PyGinvSpec.call * nat)) (T : pdiv) (id id' : nat).
Hypothesis Se : session o n k cs T id.
Hypothesis Le : id <= id'.
Notation heap q := (is_heap (w_lt o) (pq_list q)).
Definition wanted (c : PyGinvSpec.call) (p : ppoly) : Prop := inputs cs p \/ In p (call_inputs c).
Lemma start_heap ps s : start o ps T id' = Ok s -> Forall (nvars n) (list_of s) -> heap (ps_queue s).
Proof.
  unfold start. intros E Pl. destruct ps as [|p ps]; [discriminate E|]. destruct (wraps id' (p :: ps)) as [l| | | |]; try discriminate E. cbn [bind] in E. destruct (q_new o l) as [q| | | |] eqn:Eq; try discriminate E. cbn [bind] in E. injection E as <-. exact (new_heap o n l q Eq Pl).
Qed.
Lemma in_call_heap c s : Forall (input o n k T) (call_inputs c) -> in_call o T id' c s ->
  sound_state o n k (wanted c) s /\ heap (ps_queue s) /\ match c with CMin _ _ => True | CLow _ => o = TOPdeglex end.
Proof.
  intros H I. induction I as [c s E Ho|nf level ps s s' go I IH E|fuel nf ps s s' go I IH E].
  - assert (Np : call_inputs c <> []) by (intro Q; rewrite Q in E; discriminate E). pose proof (session_kind o n k K N cs T id Se) as Sk. destruct (start_ok o n k N _ T id id' (call_inputs c) (se_sinv _ _ _ _ _ _ Sk) Le Np H) as (s0 & E0 & Et & _ & S0 & _). rewrite E in E0. injection E0 as <-.
    split; [split; [rewrite Et; exact S0|rewrite Et; exact (se_tinv _ _ _ _ _ _ Sk)]|]. split; [|exact Ho]. apply (start_heap _ _ E). exact (sinv_nv o n k _ _ _ _ S0).
  - destruct (IH H) as ((Si & Ti) & Hp & _). destruct (min_round_heap o n k _ K N nf level s s' go Si Hp E) as [S1 H1]. split; [|auto]. split; [exact S1|]. destruct (min_round_ok o n k _ K N nf level s Si) as [X|(s2 & b2 & X & (_ & _ & Kt & _) & _)]; rewrite E in X; [discriminate X|]. injection X as <- _. exact (Kt Ti).
  - destruct (IH H) as (Ss & Hp & Ho). subst o. destruct (low_round_heap n k _ K N fuel nf s s' go Ss Hp E) as [S1 H1]. auto.
Qed.
Lemma prepared_heap F s T1 q1 : sinv o n k F (ps_tree s) (list_of s) (ps_id s) -> heap (ps_queue s) -> prepared o s T1 q1 -> exists id1, sinv o n k F T1 (pq_list q1) id1 /\ heap q1.
Proof.
  intros Si H [[-> ->]|(take & new & i & E1 & E2)]; [exists (ps_id s); auto|]. exists i. assert (E : prolong_by o take s = Ok (PS T1 q1 i)) by (unfold prolong_by; rewrite E1; cbn [bind fst snd]; rewrite E2; reflexivity). exact (prolong_heap o n k F K N take s _ Si H E).
Qed.
Lemma first_ok c s w l : Forall (input o n k T) (call_inputs c) -> in_call o T id' c s -> list_of s = w :: l -> lowest o w l.
Proof. intros H I E. destruct (in_call_heap c s H I) as ((Si & _) & Hp & _). rewrite E in *. exact (lowest_head o n k _ _ w l _ Si Hp). Qed.
Lemma next_ok level ps s nf T1 q1 T2 q2 w : Forall (input o n k T) ps -> in_call o T id' (CMin level ps) s -> prepared o s T1 q1 -> q_reduceAll nf o T1 q1 = Ok (T2, q2, Some w) -> lowest o w (pq_list q2).
Proof.
  intros H I Pr E. destruct (in_call_heap (CMin level ps) s H I) as ((Si & _) & Hp & _). destruct (prepared_heap _ s T1 q1 Si Hp Pr) as (i & S1 & _). exact (reduceAll_lowest o n k _ K N nf T1 q1 i T2 q2 w S1 E).
Qed.
End Call.
Lemma block_ok n k : (0 <= k)%Z -> 0 < n -> forall cs T id id' ps s fuel nf T1 q1 T2 q2 r, session TOPdeglex n k cs T id -> id <= id' -> Forall (input TOPdeglex n k T) ps -> in_call TOPdeglex T id' (CLow ps) s -> prepared TOPdeglex s T1 q1 ->
  q_reduceMinDegree fuel nf TOPdeglex T1 q1 = Ok (T2, q2, r) -> exists d, block d r (pq_list q2) /\
    forall q3 res, q_autoReduce TOPdeglex q2 r = Ok (q3, res) -> res <> [] /\ exists e, e <= d /\ block e res (pq_list q3).
Proof.
  intros K N cs T id id' ps s fuel nf T1 q1 T2 q2 r Se Le H I Pr E. destruct (in_call_heap TOPdeglex n k K N cs T id id' Se Le (CLow ps) s H I) as ((Si & _) & Hp & _).
  destruct (prepared_heap TOPdeglex n k K N _ s T1 q1 Si Hp Pr) as (i & S1 & H1). destruct (reduce_low n k _ K N fuel nf T1 q1 i T2 q2 r S1 H1 E) as (S2 & H2 & W2 & e & B2). exists e. split; [exact B2|]. intros q3 res E3.
  destruct (auto_low n k _ K N T2 q2 r q3 res i e S2 W2 B2 H2 E3) as (_ & A & B). auto.
Qed.
