(** The rounds of ginvMin. *)
From Coq Require Import ZArith List Bool Arith Lia Permutation.
From Verif Require Import Outcome MonomModel MonomSpec MonomProofs PolyModel PolySpec PolyProofs PolyNfProofs PolyRedProofs IdealProofs JanetSpec JanetPolySpec JanetPolyProofs CompletionProofs
  PyMonomModel PyMonomSpec PyMonomProofs PyPolyModel PyPolySpec PyPolyProofs PyRedProofs PyJanetModel PyJanetSpec PyJanetProofs PyJanetTop PyJanetProlong
  PyHPModel PyForestModel PyForestProofs PyQueueModel PyQueueProofs PyDivProofs PySpan PyGinvModel PyGinvBase PyGinvSweep PyGinvRound PyGinvCover PyGinvMin.
Import ListNotations.
Local Open Scope nat_scope.

Section Loop.
Variables (o : py_order) (n : nat) (k : Z) (F : ppoly -> Prop).
Hypothesis K : (0 <= k)%Z.
Hypothesis N : 0 < n.
Local Notation good := (good o n k).
Local Notation fine := (fine o n k F).
Local Notation treeok := (treeok o n k F).
Local Notation cinv := (cinv o n k F).

Definition sinv (T : pdiv) (l : list pwrap) (id : nat) : Prop :=
  treeok T /\ (forall w, In w l -> fine T w) /\ NoDup (map pw_id (d_elems T ++ l)) /\ forall x, In x (map pw_id (d_elems T ++ l)) -> x < id.
Definition finv (T : pdiv) (l : list pwrap) : Prop := dfit flags n k T /\ forall w, In w l -> spotless n w \/ ~ irred T w.
Definition tinv (T : pdiv) : Prop := forall u, In u (d_elems T) -> tailed T u.

Lemma perm_ids {a b c d : list pwrap} : Permutation (map pw_id (a ++ b)) (map pw_id (c ++ d)) -> NoDup (map pw_id (c ++ d)) -> NoDup (map pw_id (a ++ b)).
Proof. intros P H. exact (Permutation_NoDup (Permutation_sym P) H). Qed.
Lemma sinv_perm T l l' id : Permutation l' l -> sinv T l id -> sinv T l' id.
Proof.
  intros P (To & Fl & Nd & B). assert (Pi : Permutation (map pw_id (d_elems T ++ l')) (map pw_id (d_elems T ++ l))) by (apply Permutation_map, Permutation_app_head, P).
  split; [exact To|]. split; [intros w W; apply Fl; exact (Permutation_in w P W)|]. split; [exact (perm_ids Pi Nd)|]. intros x X. apply B. exact (Permutation_in x Pi X).
Qed.
Lemma irred_map f T w : irred (d_map f T) w <-> irred T w.
Proof. unfold irred. rewrite d_findWrap_map. destruct (d_findWrap T (pw_lm w)) as [[x|]| | | |]; cbn; split; congruence. Qed.
Lemma tailed_same f T u : pw_poly (f u) = pw_poly u -> tailed T u -> tailed (d_map f T) (f u).
Proof. intros E H. apply (tailed_map f) in H. destruct H as [H P]. split; rewrite E; assumption. Qed.

(* ---- prolongation ---- *)
Definition prolong_by (take : pwrap -> nat -> bool) (s : pstate) : outcome pstate :=
  do x <- d_prolongs o take (ps_tree s) (ps_id s); do q <- q_push o (ps_queue s) (snd (fst x)); Ok (PS (fst (fst x)) q (snd x)).
Definition crits (s : pstate) : nat := pq_crit1 (ps_queue s) + pq_crit2 (ps_queue s).
Notation list_of s := (pq_list (ps_queue s)).

Lemma prolong_by_ok take s : sinv (ps_tree s) (list_of s) (ps_id s) -> exists s' new, prolong_by take s = Ok s' /\ ps_tree s' = d_map (marked take) (ps_tree s) /\ Permutation (list_of s') (new ++ list_of s) /\
  Forall2 (fun j => prolonged o n k (fst j) (snd j)) (jobs take (d_elems (ps_tree s))) new /\
  crits s' = crits s /\ sinv (ps_tree s') (list_of s') (ps_id s') /\ (finv (ps_tree s) (list_of s) -> finv (ps_tree s') (list_of s')) /\ (tinv (ps_tree s) -> tinv (ps_tree s')) /\
  (finv (ps_tree s) (list_of s) -> cinv (ps_tree s) (list_of s) -> cinv (ps_tree s') (list_of s')).
Proof.
  intros (To & Fl & Nd & B). destruct s as [T q id]. cbn [ps_tree ps_queue ps_id] in *. pose proof (treeok_good o n k F T To) as Gt. pose proof To as (_ & Fi & _). rewrite Forall_forall in Fi.
  destruct (prolongs_ok o n k K take T id Gt) as (new & E & Fn & Is). unfold prolong_by. cbn [ps_tree ps_queue ps_id]. rewrite E. cbn [bind fst snd].
  assert (Fnew : forall w, In w new -> fine T w /\ spotless n w).
  { intros w W. destruct (Forall2_in_r _ _ _ w Fn W) as ([g v] & J & P). cbn [fst snd] in P. apply jobs_in in J. destruct J as (G & _). split; [exact (prolong_fine o n k F N T g v w (Fi g G) P)|]. destruct P as (C & _ & _ & _ & _ & _ & R). split; assumption. }
  destruct (push_ok o n k new q (fun w W => proj1 (proj1 (Fnew w W)))) as (q' & Eq & P & C1 & C2). rewrite Eq. cbn [bind]. exists (PS (d_map (marked take) T) q' (id + length new)), new. cbn [ps_tree ps_queue ps_id].
  split; [reflexivity|]. split; [reflexivity|]. split; [exact P|]. split; [exact Fn|]. split; [unfold crits; cbn [ps_queue]; lia|].
  assert (To' : treeok (d_map (marked take) T)) by (apply prolongs_tree; exact To).
  assert (Ei : map pw_id (d_elems (d_map (marked take) T)) = map pw_id (d_elems T)) by (rewrite d_map_elems, map_map; apply map_ext; intro w; apply (marked_fields take w)).
  split; [|split; [|split]].
  - assert (Pi : Permutation (map pw_id (d_elems (d_map (marked take) T) ++ pq_list q')) (seq id (length new) ++ map pw_id (d_elems T ++ pq_list q))).
    { rewrite !map_app, Ei, (Permutation_map pw_id P), map_app, Is. rewrite Permutation_app_swap_app. reflexivity. }
    split; [exact To'|]. split; [intros w W; apply (fine_kind o n k F T); [apply d_map_kind|]; apply (Permutation_in w P), in_app_iff in W; destruct W as [W|W]; [exact (proj1 (Fnew w W))|exact (Fl w W)]|]. split.
    + apply (Permutation_NoDup (Permutation_sym Pi)). apply NoDup_app_intro; [apply seq_NoDup|exact Nd|]. intros x X Y. apply in_seq in X. specialize (B x Y). lia.
    + intros x X. apply (Permutation_in x Pi), in_app_iff in X. destruct X as [X|X]; [apply in_seq in X; lia|specialize (B x X); lia].
  - intros (Df & Sq). split; [apply d_map_fit; [|exact Df]; intros w W; unfold flags; destruct (marked_fields take w) as (_ & _ & _ & -> & -> & _); reflexivity|].
    intros w W. rewrite irred_map. apply (Permutation_in w P), in_app_iff in W. destruct W as [W|W]; [left; exact (proj2 (Fnew w W))|exact (Sq w W)].
  - intros H u U. rewrite d_map_elems in U. apply in_map_iff in U. destruct U as (x & <- & X). apply tailed_same; [apply (marked_fields take x)|exact (H x X)].
  - intros (Df & _) Ci. exact (prolong_cinv o n k F K N take T (pq_list q) new To Df Fl Fn Ci (pq_list q') P).
Qed.

(* ---- reduceAll ---- *)
Lemma reduceAll_ok nf T q id : sinv T (pq_list q) id -> q_reduceAll nf o T q = OutOfFuel \/ exists T2 q' r, q_reduceAll nf o T q = Ok (T2, q', r) /\ anc_step T T2 /\
  pq_crit1 q + pq_crit2 q <= pq_crit1 q' + pq_crit2 q' /\ (r = None -> pq_list q' = []) /\ let l := match r with Some w => w :: pq_list q' | None => pq_list q' end in
  sinv T2 l id /\ (forall w, In w l -> irred T2 w) /\ (finv T (pq_list q) -> dfit flags n k T2 /\ forall w, In w l -> spotless n w) /\ (tinv T -> tinv T2) /\
  (pq_crit1 q' + pq_crit2 q' = 0 -> cinv T (pq_list q) -> cinv T2 l).
Proof.
  intros (To & Fq & Nd & B). unfold q_reduceAll. destruct (reduce_loop_ok o n k F K N nf (pq_list q) T To Fq) as [E|(T2 & q2 & c1 & c2 & E & A & R)]; rewrite E; [now left|]. right. cbn [bind].
  pose proof (heapify_perm (w_lt o) q2) as Ph. pose proof (heap_pop_perm (w_lt o) (heapify (w_lt o) q2)) as Pp.
  set (r := match heap_pop (w_lt o) (heapify (w_lt o) q2) with Some (w, h) => Some w | None => None end). set (h := match heap_pop (w_lt o) (heapify (w_lt o) q2) with Some (w, h) => h | None => [] end).
  exists T2, (PQ h (pq_crit1 q + c1) (pq_crit2 q + c2)), r. split; [unfold r, h; destruct (heap_pop _ _) as [[w h']|]; reflexivity|]. split; [exact A|]. cbn [pq_list pq_crit1 pq_crit2]. split; [lia|].
  split; [unfold r, h; destruct (heap_pop _ _) as [[w h']|]; [discriminate|reflexivity]|]. cbv zeta. set (l := match r with Some w => w :: h | None => h end).
  assert (Pl : Permutation l q2) by (unfold l, r, h; destruct (heap_pop _ _) as [[w h']|]; [rewrite <- Pp; exact Ph|rewrite Pp in Ph; exact Ph]). clearbody l. clear r h Pp Ph E.
  pose proof (reduced_in o n k F T (pq_list q) q2 c1 c2 R Fq) as Rin. pose proof (treeok_anc o n k F T T2 A To) as To2. pose proof (reduced_ids o n k F T _ q2 c1 c2 R) as Si.
  split; [|split; [|split; [|split]]].
  - assert (Pi : Permutation (map pw_id (d_elems T2 ++ l)) (map pw_id (d_elems T) ++ map pw_id q2)) by (rewrite map_app, (anc_step_ids T T2 A); apply Permutation_app_head, Permutation_map, Pl).
    pose proof (sublist_app _ _ (map pw_id (d_elems T)) Si) as Sa. rewrite map_app in Nd. split; [exact To2|]. split; [|split].
    + intros w W. apply (fine_kind o n k F T); [exact (anc_step_kind T T2 A)|]. exact (proj1 (Rin w (Permutation_in w Pl W))).
    + apply (Permutation_NoDup (Permutation_sym Pi)). exact (sublist_nodup _ _ Sa Nd).
    + intros x X. apply (Permutation_in x Pi) in X. apply B. rewrite map_app. exact (sublist_in _ _ x Sa X).
  - intros w W. apply (anc_step_findWrap T T2 (pw_lm w) A). exact (proj1 (proj2 (Rin w (Permutation_in w Pl W)))).
  - intros (Df & Sq). split; [exact (anc_step_fit flags n k T T2 flags_anc A Df)|]. intros w W. destruct (Rin w (Permutation_in w Pl W)) as (_ & I & [Q|Q]); [|exact Q]. destruct (Sq w Q) as [S|S]; [exact S|contradiction].
  - intros H u U. destruct (Forall2_in_r _ _ _ u (anc_step_elems T T2 A) U) as (x & X & (_ & Ep & _)). destruct (H x X) as [H1 H2]. split; rewrite Ep; [|exact H2]. revert H1. apply Forall_impl. intros y Y. apply (anc_step_findWrap T T2 (fst y) A). exact Y.
  - intros C Ci. assert (c1 = 0) as -> by lia. assert (c2 = 0) as -> by lia. exact (reduce_cinv o n k F K N T T2 (pq_list q) q2 To Fq A R Ci l Pl).
Qed.

(* ---- insertion and sweep ---- *)
Lemma sweep_sinv nf T l id : sinv T l id -> sweep nf o T (d_elems T) = OutOfFuel \/ exists T', sweep nf o T (d_elems T) = Ok T' /\ sinv T' l id /\ tinv T' /\ (finv T l -> finv T' l) /\ (cinv T l -> cinv T' l).
Proof.
  intros (To & Fl & Nd & B). destruct (sweep_ok o n k F K N nf (d_elems T) T To (incl_refl _)) as [E|(T' & E & Re & To' & Ta)]; [apply To|intros u U; now left|now left|right]. exists T'. split; [exact E|].
  assert (Ei : map pw_id (d_elems T') = map pw_id (d_elems T)) by (destruct Re as (f & -> & H); rewrite d_map_elems, map_map; apply map_ext_in; intros u U; destruct (H u U) as ((p & ->) & _); reflexivity).
  split; [|split; [exact Ta|split]].
  - split; [exact To'|]. rewrite map_app, Ei, <- map_app. split; [|auto]. intros w W. apply (fine_kind o n k F T); [destruct Re as (f & -> & _); apply d_map_kind|exact (Fl w W)].
  - intros (Df & Sq). split; [apply (retail_fit o n k flags T T'); auto|]. destruct Re as (f & -> & _). intros w W. rewrite irred_map. exact (Sq w W).
  - apply (sweep_cinv o n k F K N T T' l To To' Fl Re).
Qed.
Lemma insert_sinv T w h id : sinv T (w :: h) id -> irred T w -> exists T' lst, d_insert T [w] = Ok (T', lst) /\ (forall l', Permutation l' (lst ++ h) -> sinv T' l' id /\
  (dfit flags n k T -> (forall x, In x (w :: h) -> spotless n x) -> finv T' l' /\ (cinv T (w :: h) -> cinv T' l'))) /\ (forall u, In u lst -> good u).
Proof.
  intros (To & Fl & Nd & B) I. pose proof (Fl w (or_introl eq_refl)) as Fw. pose proof (proj1 To) as Db.
  destruct (insert_any o n k F N bare T w bare_eraser Db (bare_fresh n w (proj1 (proj1 Fw))) Db Fw I) as (T' & lst & E & D' & In').
  assert (Nw : ~ In (pw_id w) (map pw_id (d_elems T))). { intro X. rewrite map_app in Nd. cbn [map] in Nd. apply NoDup_remove_2 in Nd. apply Nd, in_app_iff. now left. }
  destruct (insert_tree o n k F T w T' lst To Fw Nw D' In') as (To' & Fl' & Nd' & Pp & Or). exists T', lst. split; [exact E|]. split; [|intros u U; exact (proj1 (Fl' u U))]. intros l' Pl.
  pose proof In' as (Kd & Pc & Rm & _). pose proof (perm_core pw_id _ _ (fun _ => eq_refl) Pc) as Pi. cbn [map] in Pi.
  assert (Pi' : Permutation (map pw_id (d_elems T' ++ l')) (map pw_id (d_elems T ++ w :: h))) by (rewrite (map_app pw_id _ l'), (Permutation_map pw_id Pl), map_app, app_assoc, <- map_app, Pi, (map_app pw_id (d_elems T)); cbn [map app]; apply Permutation_middle).
  split.
  - split; [exact To'|]. split; [|split; [exact (perm_ids Pi' Nd)|intros x X; apply B; exact (Permutation_in x Pi' X)]]. intros u U. apply (Permutation_in u Pl), in_app_iff in U. destruct U as [U|U]; [exact (Fl' u U)|]. apply (fine_kind o n k F T _ _ Kd). apply Fl. now right.
  - intros Df Sp. destruct (insert_any o n k F N flags T w flags_eraser Df (flags_fresh n w (proj1 (Sp w (or_introl eq_refl)))) Db Fw I) as (T1 & lst1 & E1 & Df1 & _). rewrite E in E1. injection E1 as <- <-. split.
    + split; [exact Df1|]. intros u U. apply (Permutation_in u Pl), in_app_iff in U. destruct U as [U|U]; [right|left; apply Sp; now right]. intro Iu. destruct (Rm u U) as [Pu Jd]. rewrite <- Pu in Jd. exact (irred_spec o n k F N T' u D' (Fl' u U) Iu _ Jd).
    + intro Ci. apply (insert_cinv o n k F K N T w T' lst h To Fw (Sp w (or_introl eq_refl))); auto. intros u U. apply Fl. now right.
Qed.

(* ---- one round ---- *)
Definition no_pending (T : pdiv) : Prop := forall g v, In g (d_elems T) -> v < n -> nm T g v -> done g v.
Definition kept (s s' : pstate) : Prop :=
  sinv (ps_tree s') (list_of s') (ps_id s') /\ crits s <= crits s' /\ (tinv (ps_tree s) -> tinv (ps_tree s')) /\
  (finv (ps_tree s) (list_of s) -> finv (ps_tree s') (list_of s') /\ (crits s' = 0 -> cinv (ps_tree s) (list_of s) -> cinv (ps_tree s') (list_of s'))).
Lemma kept_refl s : sinv (ps_tree s) (list_of s) (ps_id s) -> kept s s.
Proof. intro H. split; [exact H|]. split; [lia|]. split; [auto|]. intro Hf. auto. Qed.
Lemma kept_trans a b c : kept a b -> kept b c -> kept a c.
Proof.
  intros (A1 & A2 & A3 & A4) (B1 & B2 & B3 & B4). split; [exact B1|]. split; [lia|]. split; [auto|]. intro H. destruct (A4 H) as [H1 H2]. destruct (B4 H1) as [H3 H4]. split; [exact H3|]. intros Z Ci. apply H4; [exact Z|]. apply H2; [lia|exact Ci].
Qed.
Lemma prolong_kept take s : sinv (ps_tree s) (list_of s) (ps_id s) -> exists s', prolong_by take s = Ok s' /\ kept s s' /\ (list_of s' = [] -> ps_tree s' = d_map (marked take) (ps_tree s) /\ list_of s = [] /\ jobs take (d_elems (ps_tree s)) = []).
Proof.
  intro H. destruct (prolong_by_ok take s H) as (s' & new & E & Et & P & Fn & C & S' & Ff & Ft & Fc). exists s'. split; [exact E|]. split; [split; [exact S'|]; split; [lia|]; split; [exact Ft|]; intro Hf; split; [exact (Ff Hf)|intros _; exact (Fc Hf)]|].
  intro Z. split; [exact Et|]. rewrite Z in P. apply Permutation_nil, app_eq_nil in P. destruct P as [-> Pl]. split; [exact Pl|]. inversion Fn. reflexivity.
Qed.
Lemma min_round_ok nf level s : sinv (ps_tree s) (list_of s) (ps_id s) -> min_round nf o level s = OutOfFuel \/ exists s' b, min_round nf o level s = Ok (s', b) /\ kept s s' /\
  (b = false -> list_of s' = [] /\ (level = true -> dfit flags n k (ps_tree s) -> no_pending (ps_tree s'))).
Proof.
  intro Si. unfold min_round.
  assert (H : exists s1, (if level then min_prolong o s else Ok s) = Ok s1 /\ kept s s1 /\ (level = true -> list_of s1 = [] -> dfit flags n k (ps_tree s) -> no_pending (ps_tree s1))).
  { destruct level; [|exists s; split; [reflexivity|]; split; [now apply kept_refl|discriminate]]. unfold min_prolong. set (take := match list_of s with [] => take_all | w :: _ => if py_bool (pw_lm w) then take_monom o (pw_lm w) else take_all end).
    destruct (prolong_kept take s Si) as (s1 & E & Kp & Z). exists s1. split; [exact E|]. split; [exact Kp|]. intros _ Z1 Df g v G V Nm. destruct (Z Z1) as (Et & El & Ej). rewrite Et, d_map_elems in G. apply in_map_iff in G. destruct G as (x & <- & X).
    destruct Si as (To & _). pose proof (treeok_good o n k F _ To x X) as Gx. apply (marked_done o n k take x v Gx V). destruct (marked_fields take x) as (_ & _ & _ & Em & _).
    assert (Nx : nm (ps_tree s) x v). { unfold nm, exps in *. rewrite Em, Et in Nm. rewrite (lm_comp_eq (ps_tree s) (d_map (marked take) (ps_tree s))) in Nm; [exact Nm|]. rewrite d_map_elems, map_map. apply map_ext. intro y. apply (marked_fields take y). }
    apply (dfit_flags n k _ x v N Df X V) in Nx. right. unfold done. destruct (nth v (pw_prolong x) true) eqn:Q; [reflexivity|exfalso].
    assert (J : In (x, v) (jobs take (d_elems (ps_tree s)))) by (apply jobs_in; split; [exact X|]; split; [split; assumption|unfold take; rewrite El; reflexivity]). rewrite Ej in J. destruct J. }
  destruct H as (s1 & E1 & K1 & Z1). rewrite E1. cbn [bind]. destruct (list_of s1) as [|w0 l0] eqn:El; [right; exists s1, false; split; [reflexivity|]; split; [exact K1|]; intros _; split; [exact El|intro L; exact (Z1 L eq_refl)]|]. clear Z1.
  assert (Si1 : sinv (ps_tree s1) (list_of s1) (ps_id s1)) by apply K1.
  destruct (reduceAll_ok nf (ps_tree s1) (ps_queue s1) (ps_id s1) Si1) as [E|(T2 & q' & r & E & A & Cr & Rn & R)]; rewrite E; [now left|]. cbn [bind]. cbv zeta in R. destruct R as (S2 & I2 & F2 & Ta2 & C2). destruct r as [w|].
  - destruct (insert_sinv T2 w (pq_list q') (ps_id s1) S2 (I2 w (or_introl eq_refl))) as (T3 & lst & Ei & H3 & Gl). rewrite Ei. cbn [bind fst snd].
    destruct (push_ok o n k lst q' Gl) as (q3 & Eq & Pq & Q1 & Q2). rewrite Eq. cbn [bind]. destruct (H3 (pq_list q3) Pq) as [S3 F3].
    destruct (sweep_sinv nf T3 (pq_list q3) (ps_id s1) S3) as [Es|(T4 & Es & S4 & Ta4 & F4 & C4)]; rewrite Es; [now left|]. cbn [bind]. right. exists (PS T4 q3 (ps_id s1)), true. split; [reflexivity|]. split; [|discriminate].
    apply (kept_trans s s1); [exact K1|]. split; [exact S4|]. unfold crits. cbn [ps_queue ps_tree]. split; [lia|]. split; [auto|]. intro Hf. destruct (F2 Hf) as [Df2 Sp2]. destruct (F3 Df2 Sp2) as [Ff3 Cf3]. split; [exact (F4 Ff3)|]. intros Z Ci. apply C4, Cf3, C2; [lia|exact Ci].
  - right. exists (PS T2 q' (ps_id s1)), true. split; [reflexivity|]. split; [|discriminate]. apply (kept_trans s s1); [exact K1|]. split; [exact S2|]. unfold crits. cbn [ps_queue ps_tree]. split; [lia|]. split; [exact Ta2|]. intro Hf. destruct (F2 Hf) as [Df2 Sp2]. split; [split; [exact Df2|intros w W; left; exact (Sp2 w W)]|exact C2].
Qed.
Lemma min_loop_ok nf level : forall fuel s, sinv (ps_tree s) (list_of s) (ps_id s) -> min_loop fuel nf o level s = OutOfFuel \/ exists s', min_loop fuel nf o level s = Ok s' /\ kept s s' /\ list_of s' = [] /\
  (level = true -> finv (ps_tree s) (list_of s) -> no_pending (ps_tree s')).
Proof.
  induction fuel as [|fuel IH]; intros s Si; [now left|]. cbn [min_loop]. destruct (min_round_ok nf level s Si) as [E|(s1 & b & E & K1 & Z)]; rewrite E; [now left|]. cbn [bind fst snd]. destruct b.
  - destruct (IH s1 (proj1 K1)) as [E2|(s2 & E2 & K2 & Z2 & P2)]; rewrite E2; [now left|]. right. exists s2. split; [reflexivity|]. split; [exact (kept_trans s s1 s2 K1 K2)|]. split; [exact Z2|]. intros L Hf. apply P2; [exact L|]. apply K1. exact Hf.
  - destruct (Z eq_refl) as [Z1 P1]. right. exists s1. split; [reflexivity|]. split; [exact K1|]. split; [exact Z1|]. intros L Hf. exact (P1 L (proj1 Hf)).
Qed.
End Loop.
