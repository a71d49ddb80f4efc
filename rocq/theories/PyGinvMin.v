(** ginvMin: what each round keeps. *)
From Coq Require Import ZArith List Bool Arith Lia Permutation.
From Verif Require Import Outcome MonomModel MonomSpec MonomProofs PolyModel PolySpec PolyProofs PolyNfProofs PolyRedProofs IdealProofs JanetSpec JanetPolySpec JanetPolyProofs CompletionProofs
  PyMonomModel PyMonomSpec PyMonomProofs PyPolyModel PyPolySpec PyPolyProofs PyRedProofs PyJanetModel PyJanetSpec PyJanetProofs PyJanetTop PyJanetProlong
  PyHPModel PyForestModel PyForestProofs PyQueueModel PyQueueProofs PyDivProofs PySpan PyGinvModel PyGinvBase PyGinvSweep PyGinvRound PyGinvCover.
Import ListNotations.
Local Open Scope nat_scope.

Lemma Forall2_in_l {A B} (R : A -> B -> Prop) l l' x : Forall2 R l l' -> In x l -> exists y, In y l' /\ R x y.
Proof. induction 1 as [|a b l l' H F IH]; intros I; [destruct I|]. destruct I as [->|I]; [exists b; split; [now left|exact H]|]. destruct (IH I) as (y & Y & Q). exists y. split; [now right|exact Q]. Qed.
Lemma Forall2_in_r {A B} (R : A -> B -> Prop) l l' y : Forall2 R l l' -> In y l' -> exists x, In x l /\ R x y.
Proof. induction 1 as [|a b l l' H F IH]; intros I; [destruct I|]. destruct I as [->|I]; [exists a; split; [now left|exact H]|]. destruct (IH I) as (x & X & Q). exists x. split; [now right|exact Q]. Qed.

Section Min.
Variables (o : py_order) (n : nat) (k : Z) (F : ppoly -> Prop).
Hypothesis K : (0 <= k)%Z.
Hypothesis N : 0 < n.
Local Notation good := (good o n k).
Local Notation fine := (fine o n k F).
Local Notation treeok := (treeok o n k F).
Local Notation blt := (blt o n k).
Local Notation ble := (ble o n k).
Local Notation near := (near o n k).
Local Notation covered := (covered o n k).
Local Notation follows := (follows o n k).
Local Notation mul u := (mprod (Mon (-1) u)).

Definition all_polys (T : pdiv) (l : list pwrap) : ppoly -> Prop := polys (d_elems T ++ l).
Definition nm (T : pdiv) (g : pwrap) (v : nat) : Prop := janet_nm (d_comp T (pos (pw_lm g))) (exps g) v.
Definition done (g : pwrap) (v : nat) : Prop := nth v (pw_prolong g) true = true.
Definition cinv (T : pdiv) (l : list pwrap) : Prop :=
  (forall f, F f -> rspan n (all_polys T l) everything f) /\
  forall g v, In g (d_elems T) -> v < n -> done g v -> nm T g v /\ covered (all_polys T l) g v.

Definition carried (S S' : ppoly -> Prop) : Prop := forall s, S s -> pmono n k (lmon s) /\ rspan n S' (ble (lmon s)) s.
Lemma carried_incl T l T' l' : (forall w, In w (d_elems T ++ l) -> good w) -> (forall s, all_polys T l s -> all_polys T' l' s) -> carried (all_polys T l) (all_polys T' l').
Proof.
  intros G H s Ss. pose proof (H s Ss) as Ss'. apply in_map_iff in Ss. destruct Ss as (w & <- & W). pose proof (G w W) as Gw. pose proof (good_lmon o n k w Gw) as E. assert (M : pmono n k (lmon (pw_poly w))) by (rewrite E; exact (good_pmono o n k w Gw)).
  split; [exact M|]. apply (rspan_self o n k); [exact Ss'|exact M|exact (good_monos o n k w Gw)].
Qed.
Lemma cinv_move T l T' l' :
  carried (all_polys T l) (all_polys T' l') ->
  (forall g' v, In g' (d_elems T') -> v < n -> done g' v -> (nm T' g' v /\ covered (all_polys T' l') g' v) \/
     exists g, In g (d_elems T) /\ done g v /\ good g /\ pw_lm g' = pw_lm g /\ near (all_polys T' l') (pw_poly g) (pw_poly g') /\ (nm T g v -> nm T' g' v)) ->
  (forall g v s u, In g (d_elems T) -> v < n -> nm T g v -> all_polys T l s -> length u = n -> mul u (lmon s) = mul (ev n v) (pw_lm g) -> lex_gt (vars (lmon s)) (exps g) ->
     exists s' u', all_polys T' l' s' /\ follows (all_polys T' l') s s' u' /\ lex_gt (vars (lmon s')) (exps g)) ->
  cinv T l -> cinv T' l'.
Proof.
  intros Th Hg Hf (C1 & C2). split.
  - intros f Ff. apply (rspan_through o n k K (all_polys T l)); [intros; exact I|exact Th|exact (C1 f Ff)].
  - intros g' v G' V D. destruct (Hg g' v G' V D) as [H|(g & G & Dg & Gg & El & Nr & Hn)]; [exact H|]. destruct (C2 g v G V Dg) as [Nm Cv]. split; [exact (Hn Nm)|].
    apply (covered_step o n k K (all_polys T l) (all_polys T' l') g g' v); auto; [exact (good_pmono o n k g Gg)|exact (good_lmon o n k g Gg)|].
    intros s u Ss Lu Eu Lx. exact (Hf g v s u G V Nm Ss Lu Eu Lx).
Qed.
Lemma follow_self T l T' l' w : good w -> In w (d_elems T ++ l) -> all_polys T' l' (pw_poly w) -> follows (all_polys T' l') (pw_poly w) (pw_poly w) (repeat 0 n).
Proof.
  intros G W H. apply self_follows; [exact N| |exact (good_monos o n k w G)]. rewrite (good_lmon o n k w G). exact (good_pmono o n k w G).
Qed.
Lemma lm_comp_eq T T' : map pw_lm (d_elems T') = map pw_lm (d_elems T) -> forall p, d_comp T' p = d_comp T p.
Proof. intros E p. apply d_comp_lms. exact E. Qed.

(* ---- prolongation ---- *)
Lemma marked_done take g v : good g -> v < n -> (done (marked take g) v <-> (pending g v /\ take g v = true) \/ done g v).
Proof.
  intros (_ & Ln & Lp & _) V. unfold done, marked. rewrite fold_marks_flags.
  - rewrite filter_In, pending_spec. tauto.
  - intros x X. apply filter_In in X. destruct X as [X _]. apply pending_spec in X. destruct X as [Pn _]. rewrite Lp, <- Ln. destruct (le_lt_dec (length (pw_nonmult g)) x) as [Y|Y]; [|exact Y]. rewrite nth_overflow in Pn by exact Y. discriminate Pn.
Qed.
Lemma ev_lex g v : length (exps g) = n -> v < n -> lex_gt (vars (mul (ev n v) (pw_lm g))) (exps g).
Proof.
  intros L V. unfold mprod. cbn [vars]. rewrite vsum_addv. unfold exps in *. pose proof (ev_len n v) as Le. exists v. rewrite addv_length by lia. split; [lia|]. split.
  - intros i Hi. rewrite expo_addv by lia. rewrite ev_expo by exact V. destruct (Nat.eqb_spec i v); [lia|]. reflexivity.
  - rewrite expo_addv by lia. rewrite ev_expo by exact V. rewrite Nat.eqb_refl. lia.
Qed.
Lemma prolong_cinv take T l new : treeok T -> dfit flags n k T -> (forall w, In w l -> fine T w) -> Forall2 (fun j => prolonged o n k (fst j) (snd j)) (jobs take (d_elems T)) new ->
  cinv T l -> forall l', Permutation l' (new ++ l) -> cinv (d_map (marked take) T) l'.
Proof.
  intros To Df Fl Fn Ci l' P. pose proof To as (_ & Fi & _). rewrite Forall_forall in Fi. assert (Ga : forall w, In w (d_elems T ++ l) -> good w) by (intros w W; apply in_app_iff in W; destruct W as [W|W]; [exact (proj1 (Fi w W))|exact (proj1 (Fl w W))]).
  assert (El : map pw_lm (d_elems (d_map (marked take) T)) = map pw_lm (d_elems T)) by (rewrite d_map_elems, map_map; apply map_ext; intro w; apply (marked_fields take w)).
  assert (Inc : forall s, all_polys T l s -> all_polys (d_map (marked take) T) l' s).
  { intros s Ss. apply in_map_iff in Ss. destruct Ss as (w & <- & W). unfold all_polys, polys. rewrite map_app, d_map_elems, map_map. apply in_app_iff in W. apply in_app_iff. destruct W as [W|W].
    - left. rewrite (map_ext _ pw_poly); [now apply in_map|]. intro x. apply (marked_fields take x).
    - right. apply in_map. apply (Permutation_in w (Permutation_sym P)), in_app_iff. now right. }
  refine (cinv_move T l _ l' (carried_incl T l _ l' Ga Inc) _ _ Ci).
  - intros g' v G' V D. rewrite d_map_elems in G'. apply in_map_iff in G'. destruct G' as (g & <- & G). pose proof (proj1 (Fi g G)) as Gg. destruct (marked_fields take g) as (_ & Ep & _ & Em & _).
    apply marked_done in D; [|exact Gg|exact V]. destruct D as [[Pd Tk]|D].
    + left. assert (Nm : nm T g v) by (apply (dfit_flags n k T g v N Df G V); apply Pd). split; [unfold nm, exps; rewrite Em, (lm_comp_eq _ _ El); exact Nm|].
      destruct (Forall2_in_l _ _ _ (g, v) Fn (proj2 (jobs_in take _ g v) (conj G (conj Pd Tk)))) as (x & X & Px). cbn [fst snd] in Px.
      pose proof (prolong_fine o n k F N T g v x (Fi g G) Px) as Fx. pose proof (good_lmon o n k x (proj1 Fx)) as Ex. pose proof (prolong_lm o n k g v x (proj1 Gg) Px V) as Lx.
      exists (pw_poly x), (repeat 0 n), 1%Z, 1%Z, []. rewrite Ex, Lx, Em, Ep. split; [unfold all_polys, polys; apply in_map, in_app_iff; right; apply (Permutation_in x (Permutation_sym P)), in_app_iff; now left|]. split; [apply repeat_length|].
      split; [apply (mul_unit n k), mul_mono; [apply ev_len|exact (good_pmono o n k g Gg)]|]. split; [unfold exps; rewrite Em; apply ev_lex; [exact (proj1 Gg)|exact V]|]. split; [lia|]. split; [now apply rspan_zero|].
      intro m. pose proof (prolong_shift o n k N g v x Px m) as Q. fold (ev n v) in Q. pose proof (mprod_unit_shift n k (pw_poly x) (good_monos o n k x (proj1 Fx))) as Us.
      replace (coef (shift (repeat 0 n) (pw_poly x)) m) with (coef (pw_poly x) m) by (f_equal; symmetry; exact Us). cbn [coef]. lia.
    + right. exists g. split; [exact G|]. split; [exact D|]. split; [exact Gg|]. split; [exact Em|]. split; [rewrite Ep; apply near_refl; exact N|]. unfold nm, exps. rewrite Em, (lm_comp_eq _ _ El). auto.
  - intros g v s u G V Nm Ss Lu Eu Lx. exists s, (repeat 0 n). split; [exact (Inc s Ss)|]. split; [|exact Lx]. pose proof (Inc s Ss) as Ss'. apply in_map_iff in Ss. destruct Ss as (w & <- & W). apply (follow_self T l _ l' w (Ga w W) W Ss').
Qed.

(* ---- reduction ---- *)
Lemma reduced_from T q q2 c1 c2 : reduced o n k F T q q2 c1 c2 -> c1 = 0 -> c2 = 0 -> forall w, In w q ->
  In w q2 \/ exists r, step_eq o n k T w r /\ (r = [] \/ exists w2, In w2 q2 /\ r = pw_poly w2 /\ blt (pw_lm w) (pw_lm w2)).
Proof.
  intro R. induction R as [|w q q2 c1 c2 X R IH|w q q2 c1 c2 X R IH|w q q2 c1 c2 X R IH|w q q2 c1 c2 X R IH|w w' q q2 c1 c2 X1 X2 X3 X4 X5 X6 R IH]; intros Z1 Z2 x I; try discriminate.
  - destruct I.
  - destruct I as [<-|I]; [right; exists []; split; [exact X|now left]|]. exact (IH Z1 Z2 x I).
  - destruct I as [<-|I]; [left; now left|]. destruct (IH Z1 Z2 x I) as [H|(r & H & [->|(w2 & W2 & E)])]; [left; now right|right; exists []; auto|right; exists r; split; [exact H|]; right; exists w2; split; [now right|exact E]].
  - destruct I as [<-|I]; [right; exists (pw_poly w'); split; [exact X6|]; right; exists w'; split; [now left|auto]|].
    destruct (IH Z1 Z2 x I) as [H|(r & H & [->|(w2 & W2 & E)])]; [left; now right|right; exists []; auto|right; exists r; split; [exact H|]; right; exists w2; split; [now right|exact E]].
Qed.
Lemma step_follows T l' w r : treeok T -> fine T w -> step_eq o n k T w r -> (r = [] \/ exists w2, In w2 l' /\ good w2 /\ r = pw_poly w2 /\ blt (pw_lm w) (pw_lm w2)) ->
  exists g u, In g (d_elems T) /\ follows (all_polys T l') (pw_poly w) (pw_poly g) u /\ janet_divides n (d_comp T (pos (pw_lm w))) (exps g) (exps w) /\ pos (pw_lm g) = pos (pw_lm w).
Proof.
  intros To Fw (g & j & l & c & u & d & G & Lu & Eu & Jd & Pg & J & L & D & Co) Hr. pose proof (treeok_good o n k F T To g G) as Gg. exists g, u. split; [exact G|]. split; [|auto].
  split; [exact Lu|]. rewrite (good_lmon o n k g Gg), (good_lmon o n k w (proj1 Fw)). split; [exact Eu|]. exists j, c, (scale l r ++ d). split; [exact J|]. split.
  - assert (Rd : rspan n (all_polys T l') (blt (pw_lm w)) d) by (apply rspan_of; apply (span_mono n (polys (d_elems T)) _ (blt (pw_lm w)) _ d); [|auto|exact D]; intros s Ss; unfold all_polys, polys in *; rewrite map_app; apply in_app_iff; now left).
    destruct Hr as [->|(w2 & W2 & G2 & -> & B)]; [exact Rd|]. apply (rspan_lin n _ _ _ (pw_poly w2) d 1 l 1); [lia| |exact Rd|intro m; rewrite coef_app, coef_scale; ring].
    apply (rspan_mono n (all_polys T l') _ (ble (pw_lm w2)) _ _ (fun _ x => x)).
    + intros x X. exact (blt_trans o n k _ _ x (good_pmono o n k w (proj1 Fw)) B X).
    + rewrite <- (good_lmon o n k w2 G2). apply (rspan_self o n k); [unfold all_polys; apply in_map, in_app_iff; now right|rewrite (good_lmon o n k w2 G2); exact (good_pmono o n k w2 G2)|exact (good_monos o n k w2 G2)].
  - intro m. rewrite coef_app, coef_scale, Co. ring.
Qed.
Lemma follows_span (S' : ppoly -> Prop) s s' u : pmono n k (lmon s) -> S' s' -> follows S' s s' u -> rspan n S' (ble (lmon s)) s.
Proof.
  intros M Ss (Lu & Eu & j & c & d & J & D & Co). apply (rspan_lin n S' _ s (shift u s') d j c 1 J); [|apply (rspan_mono n S' S' (blt (lmon s)) _ d (fun _ x => x)); [intros x; apply blt_ble|exact D]|intro m; rewrite Co; ring].
  apply rspan_single; [exact Ss|exact Lu|]. rewrite Eu. split; auto.
Qed.
Lemma reduce_cinv T T2 q q2 : treeok T -> (forall w, In w q -> fine T w) -> anc_step T T2 -> reduced o n k F T q q2 0 0 -> cinv T q -> forall l', Permutation l' q2 -> cinv T2 l'.
Proof.
  intros To Fq A R Ci l' P. pose proof (reduced_in o n k F T q q2 0 0 R Fq) as Rin. pose proof To as (_ & Fi & _). rewrite Forall_forall in Fi.
  assert (Eq : forall s, all_polys T l' s <-> all_polys T2 l' s) by (intro s; unfold all_polys, polys; rewrite !map_app, (anc_step_polys T T2 A); tauto).
  assert (Hr : forall w, In w q -> In w l' \/ exists g u, In g (d_elems T) /\ follows (all_polys T l') (pw_poly w) (pw_poly g) u /\ janet_divides n (d_comp T (pos (pw_lm w))) (exps g) (exps w) /\ pos (pw_lm g) = pos (pw_lm w)).
  { intros w W. destruct (reduced_from T q q2 0 0 R eq_refl eq_refl w W) as [H|(r & H & Hr)]; [left; exact (Permutation_in w (Permutation_sym P) H)|right]. apply (step_follows T l' w r To (Fq w W) H).
    destruct Hr as [->|(w2 & W2 & E & B)]; [now left|right]. exists w2. split; [exact (Permutation_in w2 (Permutation_sym P) W2)|]. split; [exact (proj1 (proj1 (Rin w2 W2)))|auto]. }
  assert (Fo : forall w u v, In w (d_elems T ++ q) -> (forall g, In g (d_elems T) -> mul u (pw_lm w) = mul (ev n v) (pw_lm g) -> v < n -> length u = n -> nm T g v -> lex_gt (exps w) (exps g) ->
     exists s' u', all_polys T l' s' /\ follows (all_polys T l') (pw_poly w) s' u' /\ lex_gt (vars (lmon s')) (exps g))).
  { intros w u v W g G Eu V Lu Nm Lx. apply in_app_iff in W. assert (St : good w -> all_polys T l' (pw_poly w) -> exists s' u', all_polys T l' s' /\ follows (all_polys T l') (pw_poly w) s' u' /\ lex_gt (vars (lmon s')) (exps g)).
    { intros Gw Aw. exists (pw_poly w), (repeat 0 n). split; [exact Aw|]. split; [|rewrite (good_lmon o n k w Gw); exact Lx]. apply self_follows; [exact N|rewrite (good_lmon o n k w Gw); exact (good_pmono o n k w Gw)|exact (good_monos o n k w Gw)]. }
    destruct W as [W|W]; [apply St; [exact (proj1 (Fi w W))|unfold all_polys, polys; apply in_map, in_app_iff; now left]|].
    destruct (Hr w W) as [H|(y & a & Y & Fy & Jd & Py)]; [apply St; [exact (proj1 (Fq w W))|unfold all_polys, polys; apply in_map, in_app_iff; now right]|].
    exists (pw_poly y), a. split; [unfold all_polys, polys; apply in_map, in_app_iff; now left|]. split; [exact Fy|]. pose proof (proj1 (Fi y Y)) as Gy. pose proof (proj1 (Fi g G)) as Gg. pose proof (proj1 (Fq w W)) as Gw. rewrite (good_lmon o n k y Gy).
    pose proof (f_equal pos Eu) as Ep. cbn [mprod pos] in Ep. cbn in Ep. rewrite Ep in Jd. change (vars (pw_lm y)) with (exps y). apply (nm_lex n (d_comp T (pos (pw_lm g))) (exps g) v (exps w) (exps y)); auto; [apply Gg|apply Gw|apply Gy| |apply d_comp_in; exists g; auto].
    intros i Hi. pose proof (f_equal (fun m => expo (vars m) i) Eu) as Ev. cbn beta in Ev. unfold mprod in Ev. cbn [vars] in Ev. rewrite !vsum_addv in Ev. pose proof (proj1 Gw) as Lw. pose proof (proj1 Gg) as Lg. unfold exps in *. rewrite !expo_addv in Ev by (rewrite ?ev_len; lia). rewrite expo_addv by (rewrite ev_len; lia). lia. }
  refine (cinv_move T q T2 l' _ _ _ Ci).
  - intros s Ss. apply in_map_iff in Ss. destruct Ss as (w & <- & W). assert (Gw : good w) by (apply in_app_iff in W; destruct W as [W|W]; [exact (proj1 (Fi w W))|exact (proj1 (Fq w W))]).
    assert (M : pmono n k (lmon (pw_poly w))) by (rewrite (good_lmon o n k w Gw); exact (good_pmono o n k w Gw)). split; [exact M|].
    assert (H : all_polys T l' (pw_poly w) \/ exists g u, In g (d_elems T) /\ follows (all_polys T l') (pw_poly w) (pw_poly g) u).
    { apply in_app_iff in W. destruct W as [W|W]; [left; unfold all_polys, polys; apply in_map, in_app_iff; now left|]. destruct (Hr w W) as [H|(g & u & G & H & _)]; [left; unfold all_polys, polys; apply in_map, in_app_iff; now right|right; exists g, u; auto]. }
    apply (rspan_mono n (all_polys T l') _ (ble (lmon (pw_poly w))) _ _ (fun s => proj1 (Eq s)) (fun _ x => x)). destruct H as [H|(g & u & G & H)].
    + apply (rspan_self o n k); [exact H|exact M|exact (good_monos o n k w Gw)].
    + apply (follows_span _ _ (pw_poly g) u M); [unfold all_polys, polys; apply in_map, in_app_iff; now left|exact H].
  - intros g' v G' V D. right. pose proof (anc_step_elems T T2 A) as F2. destruct (Forall2_in_r _ _ _ g' F2 G') as (g & G & (_ & Ep & Em & Er & _)). exists g. split; [exact G|]. unfold done in *. rewrite Er in D. split; [exact D|]. split; [exact (proj1 (Fi g G))|]. split; [exact Em|].
    split; [rewrite Ep; apply near_refl; exact N|]. unfold nm, exps. rewrite Em, (lm_comp_eq _ _ (anc_step_lms T T2 A)). auto.
  - intros g v s u G V Nm Ss Lu Eu Lx. apply in_map_iff in Ss. destruct Ss as (w & <- & W). assert (Gw : good w) by (apply in_app_iff in W; destruct W as [W|W]; [exact (proj1 (Fi w W))|exact (proj1 (Fq w W))]). rewrite (good_lmon o n k w Gw) in *.
    destruct (Fo w u v W g G Eu V Lu Nm Lx) as (s' & u' & Ss' & (L1 & E1 & j & c & d & J & D & Co) & Lx'). exists s', u'. split; [apply Eq; exact Ss'|]. split; [|exact Lx']. split; [exact L1|]. split; [exact E1|]. exists j, c, d. split; [exact J|]. split; [|exact Co].
    exact (rspan_mono n _ _ _ _ d (fun s => proj1 (Eq s)) (fun _ x => x) D).
Qed.

(* ---- insertion ---- *)
Lemma insert_cinv T w T' lst h : treeok T -> fine T w -> spotless n w -> (forall u, In u h -> fine T u) -> inserted n T w T' lst -> cinv T (w :: h) -> forall l', Permutation l' (lst ++ h) -> cinv T' l'.
Proof.
  intros To Fw (Cl & Pr) Fh (Kd & P & _ & Nm & _) Ci l' Pl. pose proof To as (_ & Fi & _). rewrite Forall_forall in Fi.
  pose proof (perm_core pw_poly _ _ (fun _ => eq_refl) P) as Pp. cbn [map] in Pp.
  assert (Eq : forall s, all_polys T (w :: h) s <-> all_polys T' l' s).
  { intro s. assert (Px : Permutation (map pw_poly (d_elems T ++ w :: h)) (map pw_poly (d_elems T' ++ l'))).
    { rewrite !map_app. cbn [map]. rewrite (Permutation_map pw_poly Pl), map_app, app_assoc, <- map_app, Pp. rewrite <- Permutation_middle. reflexivity. }
    unfold all_polys, polys. split; intro H; [exact (Permutation_in s Px H)|exact (Permutation_in s (Permutation_sym Px) H)]. }
  assert (Ga : forall x, In x (d_elems T ++ w :: h) -> good x) by (intros x X; apply in_app_iff in X; destruct X as [X|[<-|X]]; [exact (proj1 (Fi x X))|exact (proj1 Fw)|exact (proj1 (Fh x X))]).
  refine (cinv_move T (w :: h) T' l' (carried_incl T (w :: h) T' l' Ga (fun s => proj1 (Eq s))) _ _ Ci).
  - intros g' v G' V D. right. destruct (perm_core_in _ _ g' P (proj2 (in_app_iff _ _ _) (or_introl G'))) as (y & Y & E). pose proof (f_equal pw_poly E) as Ep. pose proof (f_equal pw_lm E) as Em. pose proof (f_equal pw_prolong E) as Er. cbn [core pw_poly pw_lm pw_prolong] in *.
    unfold done in D. rewrite <- Er in D. destruct Y as [<-|Y].
    + exfalso. rewrite Pr in D. rewrite (nth_indep _ true false) in D by (rewrite repeat_length; exact V). rewrite nth_repeat in D. discriminate D.
    + exists y. split; [exact Y|]. split; [exact D|]. split; [exact (proj1 (Fi y Y))|]. split; [auto|]. split; [rewrite Ep; apply near_refl; exact N|]. unfold nm, exps. rewrite <- Em. intro H. apply (Nm (pos (pw_lm y)) (vars (pw_lm y)) v); auto; apply d_comp_in; [exists y; auto|exists g'; unfold exps; rewrite <- Em; auto].
  - intros g v s u G V Nm' Ss Lu Eu Lx. exists s, (repeat 0 n). split; [apply Eq; exact Ss|]. split; [|exact Lx]. pose proof (proj1 (Eq s) Ss) as Ss'. apply in_map_iff in Ss. destruct Ss as (x & <- & X). apply (follow_self T (w :: h) T' l' x (Ga x X) X Ss').
Qed.

(* ---- sweep ---- *)
Lemma sweep_cinv T T' l : treeok T -> treeok T' -> (forall u, In u l -> fine T u) -> retail o n k T T' -> cinv T l -> cinv T' l.
Proof.
  intros To To' Fl Re Ci. pose proof (retail_span o n k F N T T' To To' Re) as Sp. pose proof To as (_ & Fi & _). rewrite Forall_forall in Fi. destruct Re as (f & -> & H). pose proof To' as (_ & Fi' & _). rewrite Forall_forall in Fi'.
  assert (Inc : forall s, polys (d_elems (d_map f T)) s -> all_polys (d_map f T) l s) by (intros s Ss; unfold all_polys, polys; rewrite map_app; apply in_app_iff; now left).
  assert (Inl : forall x, In x l -> all_polys (d_map f T) l (pw_poly x)) by (intros x X; unfold all_polys, polys; apply in_map, in_app_iff; now right).
  assert (Em : forall u, In u (d_elems T) -> pw_lm (f u) = pw_lm u /\ pw_prolong (f u) = pw_prolong u) by (intros u U; destruct (H u U) as ((p & ->) & _); auto).
  assert (El : map pw_lm (d_elems (d_map f T)) = map pw_lm (d_elems T)) by (rewrite d_map_elems, map_map; apply map_ext_in; intros u U; apply (Em u U)).
  assert (Nr : forall u, In u (d_elems T) -> near (all_polys (d_map f T) l) (pw_poly u) (pw_poly (f u))).
  { intros u U. destruct (H u U) as (_ & E & j & c & d & J & C & D & Co). split; [exact E|]. exists j, c, d. split; [exact J|]. split; [exact C|]. split; [|exact Co]. exact (rspan_mono n _ _ _ _ d Inc (fun _ x => x) D). }
  refine (cinv_move T l (d_map f T) l _ _ _ Ci).
  - intros s Ss. apply in_map_iff in Ss. destruct Ss as (w & <- & W). apply in_app_iff in W. destruct W as [W|W].
    + destruct (Sp (pw_poly w) (in_map pw_poly _ _ W)) as [M R]. split; [exact M|]. exact (rspan_mono n _ _ _ _ _ Inc (fun _ x => x) R).
    + pose proof (proj1 (Fl w W)) as Gw. assert (M : pmono n k (lmon (pw_poly w))) by (rewrite (good_lmon o n k w Gw); exact (good_pmono o n k w Gw)). split; [exact M|]. apply (rspan_self o n k); [exact (Inl w W)|exact M|exact (good_monos o n k w Gw)].
  - intros g' v G' V D. right. rewrite d_map_elems in G'. apply in_map_iff in G'. destruct G' as (g & <- & G). destruct (Em g G) as [E1 E2]. exists g. split; [exact G|]. unfold done in *. rewrite E2 in D. split; [exact D|]. split; [exact (proj1 (Fi g G))|]. split; [exact E1|]. split; [exact (Nr g G)|].
    unfold nm, exps. rewrite E1, (lm_comp_eq _ _ El). auto.
  - intros g v s u G V Nm Ss Lu Eu Lx. apply in_map_iff in Ss. destruct Ss as (w & <- & W). apply in_app_iff in W. destruct W as [W|W].
    + exists (pw_poly (f w)), (repeat 0 n). pose proof (proj1 (Fi w W)) as Gw. assert (W' : In (f w) (d_elems (d_map f T))) by (rewrite d_map_elems; now apply in_map). pose proof (proj1 (Fi' _ W')) as Gw'.
      split; [apply Inc; unfold polys; now apply in_map|]. split; [apply near_follows; [rewrite (good_lmon o n k w Gw); exact (good_pmono o n k w Gw)|exact (good_monos o n k _ Gw')|exact (Nr w W)]|].
      rewrite (good_lmon o n k _ Gw'), (proj1 (Em w W)). rewrite (good_lmon o n k w Gw) in Lx. exact Lx.
    + exists (pw_poly w), (repeat 0 n). split; [exact (Inl w W)|]. split; [|exact Lx]. apply (follow_self T l (d_map f T) l w (proj1 (Fl w W))); [apply in_app_iff; now right|exact (Inl w W)].
Qed.
End Min.
