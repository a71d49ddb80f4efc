(** The steps of ginvMin and ginvBlockLow of pyginv: reduction of a Wrap of the queue, push, prolongations, the sweep over
    the tree. *)
From Coq Require Import ZArith List Bool Arith Lia Permutation.
From Verif Require Import Outcome MonomModel MonomSpec MonomProofs PolyModel PolySpec PolyProofs PolyNfProofs PolyRedProofs IdealProofs JanetSpec JanetPolySpec JanetPolyProofs
  PyMonomModel PyMonomSpec PyMonomProofs PyPolyModel PyPolySpec PyPolyProofs PyRedProofs PyJanetModel PyJanetSpec PyJanetProofs PyJanetTop PyJanetProlong
  PyHPModel PyForestModel PyForestProofs PyQueueModel PyQueueProofs PyDivProofs PySpan PyGinvModel.
Import ListNotations.
Local Open Scope nat_scope.

(* ---- maps on a tree ---- *)
Lemma d_map_comp f g T : d_map f (d_map g T) = d_map (fun w => f (g w)) T.
Proof. destruct T as [J|F]; cbn [d_map]; f_equal; [apply j_map_comp|]. rewrite map_map. apply map_ext. intro J. apply j_map_comp. Qed.
Lemma d_map_id T : d_map (fun w => w) T = T.
Proof.
  assert (Ht : forall t, tmap (fun w => w) t = t).
  { intro t. induction t as [w|l IH] using ptree_ind'; cbn [tmap]; [reflexivity|]. f_equal. induction IH as [|t l E _ IH]; cbn [map]; [reflexivity|]. now rewrite E, IH. }
  assert (Hj : forall J, j_map (fun w => w) J = J). { intros [r p c]. rewrite j_map_eq. cbn. f_equal. rewrite <- (map_id r) at 2. now apply map_ext. }
  destruct T as [J|F]; cbn [d_map]; f_equal; [apply Hj|]. rewrite <- (map_id F) at 2. now apply map_ext.
Qed.
Lemma d_findWrap_map f T m : d_findWrap (d_map f T) m = omap (option_map f) (d_findWrap T m).
Proof.
  destruct T as [J|F]; cbn [d_map d_findWrap]; [apply findWrap_map|]. unfold pf_findWrap. destruct (0 <=? pos m)%Z; [|reflexivity]. rewrite map_length. destruct (py_index (length F) (pos m)) as [i|]; [|reflexivity].
  change pj_empty with (j_map f pj_empty) at 1. rewrite map_nth. apply findWrap_map.
Qed.
Lemma d_find_eq T m : d_find T m = omap (option_map pw_poly) (d_findWrap T m).
Proof.
  assert (H : forall J, pj_find J m = omap (option_map pw_poly) (pj_findWrap J m)) by (intro J; unfold pj_find, omap; destruct (pj_findWrap J m) as [[w|]| | | |]; reflexivity).
  destruct T as [J|F]; cbn [d_find d_findWrap]; [apply H|]. unfold pf_find, pf_findWrap. destruct (0 <=? pos m)%Z; [|reflexivity]. destruct (py_index (length F) (pos m)); [apply H|reflexivity].
Qed.

(** nothing but the ancestor differs *)
Definition anc_only (u u' : pwrap) : Prop :=
  pw_id u' = pw_id u /\ pw_poly u' = pw_poly u /\ pw_lm u' = pw_lm u /\ pw_prolong u' = pw_prolong u /\ pw_nonmult u' = pw_nonmult u.
Definition anc_step (T T' : pdiv) : Prop := exists f, T' = d_map f T /\ forall u, In u (d_elems T) -> anc_only u (f u).
Lemma anc_only_refl u : anc_only u u.
Proof. repeat split. Qed.
Lemma anc_only_trans a b c : anc_only a b -> anc_only b c -> anc_only a c.
Proof. intros (A1 & A2 & A3 & A4 & A5) (B1 & B2 & B3 & B4 & B5). repeat split; congruence. Qed.
Lemma anc_step_refl T : anc_step T T.
Proof. exists (fun w => w). split; [now rewrite d_map_id|]. intros; apply anc_only_refl. Qed.
Lemma anc_step_trans a b c : anc_step a b -> anc_step b c -> anc_step a c.
Proof.
  intros (f & -> & F) (g & -> & G). exists (fun w => g (f w)). split; [apply d_map_comp|]. intros u U. apply (anc_only_trans u (f u)); [exact (F u U)|]. apply G. rewrite d_map_elems. now apply in_map.
Qed.
Lemma anc_step_elems T T' : anc_step T T' -> Forall2 anc_only (d_elems T) (d_elems T').
Proof.
  intros (f & -> & F). rewrite d_map_elems. induction (d_elems T) as [|u l IH]; cbn [map]; constructor; [apply F; now left|]. apply IH. intros x X. apply F. now right.
Qed.
Lemma anc_only_map {A} (g : pwrap -> A) l l' : (forall u u', anc_only u u' -> g u' = g u) -> Forall2 anc_only l l' -> map g l' = map g l.
Proof. intros H F. induction F as [|u u' l l' X F IH]; [reflexivity|]. cbn [map]. now rewrite (H u u' X), IH. Qed.
Lemma anc_step_polys T T' : anc_step T T' -> map pw_poly (d_elems T') = map pw_poly (d_elems T).
Proof. intro A. apply (anc_only_map pw_poly); [intros u u' H; apply H|exact (anc_step_elems T T' A)]. Qed.
Lemma anc_step_lms T T' : anc_step T T' -> map pw_lm (d_elems T') = map pw_lm (d_elems T).
Proof. intro A. apply (anc_only_map pw_lm); [intros u u' H; apply H|exact (anc_step_elems T T' A)]. Qed.
Lemma anc_step_ids T T' : anc_step T T' -> map pw_id (d_elems T') = map pw_id (d_elems T).
Proof. intro A. apply (anc_only_map pw_id); [intros u u' H; apply H|exact (anc_step_elems T T' A)]. Qed.
Lemma anc_step_kind T T' : anc_step T T' -> same_kind T T'.
Proof. intros (f & -> & F). apply d_map_kind. Qed.
Lemma anc_step_fit e n k T T' : (forall u u', anc_only u u' -> e u' = e u) -> anc_step T T' -> dfit e n k T -> dfit e n k T'.
Proof. intros E (f & -> & F). apply d_map_fit. intros w W. apply E. auto. Qed.
Lemma bare_anc u u' : anc_only u u' -> bare u' = bare u.
Proof. intros (_ & _ & E & _). unfold bare. now rewrite E. Qed.
Lemma flags_anc u u' : anc_only u u' -> flags u' = flags u.
Proof. intros (_ & _ & E & _ & E'). unfold flags. now rewrite E, E'. Qed.
Lemma anc_step_findWrap T T' m : anc_step T T' -> (d_findWrap T' m = Ok None <-> d_findWrap T m = Ok None).
Proof. intros (f & -> & F). rewrite d_findWrap_map. destruct (d_findWrap T m) as [[w|]| | | |]; cbn; split; intro H; congruence. Qed.
Lemma d_findWrap_in T m w : d_findWrap T m = Ok (Some w) -> In w (d_elems T).
Proof.
  destruct T as [J|F]; cbn [d_findWrap d_elems]; [apply findWrap_in|]. unfold pf_findWrap. destruct (0 <=? pos m)%Z; [|discriminate]. destruct (py_index (length F) (pos m)) as [i|]; [|discriminate].
  intro H. apply findWrap_in in H. destruct (le_lt_dec (length F) i) as [L|L]; [rewrite nth_overflow in H by exact L; destruct H|]. unfold pf_elems. apply in_flat_map. exists (nth i F pj_empty). split; [now apply nth_In|exact H].
Qed.
Lemma anc_step_find T T' m : anc_step T T' -> d_find T' m = d_find T m.
Proof.
  intros (f & -> & F). rewrite !d_find_eq, d_findWrap_map. destruct (d_findWrap T m) as [[w|]| | | |] eqn:E; cbn; try reflexivity. apply d_findWrap_in in E. destruct (F w E) as (_ & P & _). now rewrite P.
Qed.

Lemma pp_fst o p r : py_pp o p = Ok r -> map fst r = map fst p.
Proof.
  destruct p as [|[m c] p]; [discriminate|]. cbn [py_pp]. destruct (py_content c p) as [g|]; [|intro E; injection E as <-; reflexivity].
  unfold py_checked, assert_. destruct (true && negb _); [discriminate|]. intro E. injection E as <-. cbn [map fst]. f_equal. rewrite map_map. reflexivity.
Qed.
Lemma lmon_fst p r : map fst p = map fst r -> lmon p = lmon r.
Proof. destruct p as [|[m c] p], r as [|[u d] r]; cbn; intro E; try discriminate E; [reflexivity|]. now injection E as -> _. Qed.

Section Base.
Variables (o : py_order) (n : nat) (k : Z) (F : ppoly -> Prop).
Hypothesis K : (0 <= k)%Z.
Hypothesis N : 0 < n.
Local Notation good := (good o n k).
Local Notation mul u := (mprod (Mon (-1) u)).

(** all monomials belong to the functions the tree is for *)
Definition pure (T : pdiv) (p : ppoly) : Prop := Forall (fun x => zone T (fst x)) p.
Definition sound (p : ppoly) : Prop := rspan n F everything p.
Definition fine (T : pdiv) (w : pwrap) : Prop := good w /\ pure T (pw_poly w) /\ sound (pw_poly w).

Lemma pure_coef T p m : pure T p -> coef p m <> 0%Z -> zone T m.
Proof. intros P C. apply coef_nz_in in C. apply in_map_iff in C. destruct C as (x & <- & X). unfold pure in P. rewrite Forall_forall in P. exact (P x X). Qed.
Lemma coef_pure T p : py_canonical o n k p -> (forall m, coef p m <> 0%Z -> zone T m) -> pure T p.
Proof.
  intros C H. unfold pure. apply Forall_forall. intros [m c] X. apply H. apply py_canonical_iff in C as (S & M & Z). pose proof (pcoef_in o n k m c p S M X) as Q. unfold nz in Z. rewrite Forall_forall in Z. intro Y. apply (Z _ X). cbn [snd]. etransitivity; [symmetry; exact Q|exact Y].
Qed.
Lemma zone_mul T u x : zone T (mul u x) <-> zone T x.
Proof. destruct T; reflexivity. Qed.
Lemma pure_kind T T' p : same_kind T T' -> pure T p -> pure T' p.
Proof. intros S. unfold pure. apply Forall_impl. intros x H. exact (proj1 (same_kind_zone T T' _ S) H). Qed.
Lemma fine_kind T T' w : same_kind T T' -> fine T w -> fine T' w.
Proof. intros S (G & P & R). split; [exact G|]. split; [exact (pure_kind T T' _ S P)|exact R]. Qed.
Lemma span_pure T (G : ppoly -> Prop) B p : (forall g, G g -> pure T g) -> span n G B p -> forall m, coef p m <> 0%Z -> zone T m.
Proof.
  intros H S. induction S as [p Z|p q u g c S IH Gg L _ E]; intros m C; [now rewrite Z in C|]. rewrite E in C. destruct (Z.eq_dec (coef q m) 0) as [Q|Q]; [|exact (IH m Q)].
  assert (X : coef (shift u g) m <> 0%Z) by (intro X; rewrite X, Q in C; lia). apply coef_nz_in in X. unfold shift in X. rewrite map_map in X. apply in_map_iff in X. destruct X as (x & <- & X). cbn [fst]. apply zone_mul.
  pose proof (H g Gg) as P. unfold pure in P. rewrite Forall_forall in P. exact (P x X).
Qed.
Lemma span_sound (G : ppoly -> Prop) B p : (forall g, G g -> sound g) -> span n G B p -> sound p.
Proof.
  intros H S. unfold sound. apply (rspan_trans n G F B); [|now apply rspan_of]. intros u g Gg L _. apply (rspan_shift n F everything everything u g L); [intros; exact I|]. exact (H g Gg).
Qed.
Lemma sound_lin p q r j a b : (j <> 0)%Z -> sound q -> sound r -> (forall m, j * coef p m = a * coef q m + b * coef r m)%Z -> sound p.
Proof. unfold sound. apply rspan_lin. Qed.
(** l p' = j p + d with d from fine polynomials *)
Lemma derived T (G : ppoly -> Prop) B p r d j l : (forall g, G g -> pure T g /\ sound g) -> pure T p -> sound p -> span n G B d -> py_canonical o n k r -> (l <> 0)%Z ->
  (forall m, l * coef r m = j * coef p m + coef d m)%Z -> pure T r /\ sound r.
Proof.
  intros H P S D C L E. split.
  - apply coef_pure; [exact C|]. intros m X. destruct (Z.eq_dec (coef d m) 0) as [Q|Q].
    + apply (pure_coef T p m P). intro Z. specialize (E m). rewrite Z, Q in E. nia.
    + apply (span_pure T G B d); auto. intros g Gg. apply H, Gg.
  - apply (sound_lin r p d l j 1 L S); [apply (span_sound G B d); auto; intros g Gg; apply H, Gg|]. intro m. rewrite E. ring.
Qed.

(* ---- the polynomials of a tree as reducers ---- *)
Definition polys (l : list pwrap) (p : ppoly) : Prop := In p (map pw_poly l).
Definition treeok (T : pdiv) : Prop := dfit bare n k T /\ Forall (fine T) (d_elems T) /\ NoDup (map pw_id (d_elems T)).

Lemma leads_lmon w : leads w -> lmon (pw_poly w) = pw_lm w.
Proof. intros (c & l & ->). reflexivity. Qed.
Lemma good_pmono w : good w -> pmono n k (pw_lm w).
Proof. intros (_ & _ & _ & (c & l & E) & C). rewrite E in C. exact (pcanonical_mono o n k [] _ _ _ C). Qed.
Lemma jd_mdivides U u m : length (vars u) = n -> length (vars m) = n -> pos u = pos m -> janet_divides n U (vars u) (vars m) -> mdivides u m.
Proof.
  intros Lu Lm P (_ & D & _). split; [now right|]. split; [congruence|]. intro i. destruct (le_lt_dec n i) as [L|L]; [|exact (D i L)]. unfold expo. rewrite nth_overflow by (rewrite Lu; exact L). lia.
Qed.
Lemma find_good T : dfit bare n k T -> (forall u, In u (d_elems T) -> good u) -> py_good_find o n k (polys (d_elems T)) (d_find T).
Proof.
  intros D G m M. destruct (d_find_ok bare n k bare_eraser N T m D M) as ((r & E) & H & _). exists (option_map pw_poly r). rewrite d_find_eq, E. split; [reflexivity|].
  intros q Q. destruct r as [u|]; [|discriminate Q]. injection Q as <-. destruct (H u E) as (U & _ & P & J). destruct (G u U) as (L & _ & _ & (c & l & Ep) & C). split; [exact C|]. split; [now apply in_map|].
  exists (pw_lm u), c, l. split; [exact Ep|]. split; [exact P|]. destruct M as [[Lm _] _]. exact (jd_mdivides _ (pw_lm u) m L Lm P J).
Qed.

Lemma fine_anc T u u' : anc_only u u' -> fine T u -> fine T u'.
Proof.
  intros (_ & P & L & R & M) ((G1 & G2 & G3 & G4 & G5) & Pu & S). split; [|rewrite P; auto]. unfold PyJanetProlong.good, exps, leads in *. rewrite P, L, R, M. auto.
Qed.
Lemma treeok_anc T T' : anc_step T T' -> treeok T -> treeok T'.
Proof.
  intros A (D & Fi & Nd). split; [exact (anc_step_fit bare n k T T' bare_anc A D)|]. split; [|rewrite (anc_step_ids T T' A); exact Nd].
  pose proof (anc_step_elems T T' A) as E. pose proof (anc_step_kind T T' A) as Kd. clear D Nd A. induction E as [|u u' l l' X E IH]; [constructor|]. inversion Fi; subst. constructor; [|auto]. apply (fine_kind T T' u' Kd). apply (fine_anc T u u' X). assumption.
Qed.
Lemma treeok_good T : treeok T -> forall u, In u (d_elems T) -> good u.
Proof. intros (_ & Fi & _) u U. rewrite Forall_forall in Fi. apply (Fi u U). Qed.
Lemma treeok_polys T : treeok T -> forall g, polys (d_elems T) g -> pure T g /\ sound g.
Proof. intros (_ & Fi & _) g G. apply in_map_iff in G. destruct G as (u & <- & U). rewrite Forall_forall in Fi. apply (Fi u U). Qed.

(** w = (multiple of an element g of the tree with the same leading monomial) + smaller multiples + r, up to factors *)
Definition step_eq (T : pdiv) (w : pwrap) (r : ppoly) : Prop :=
  exists g j l c u d, In g (d_elems T) /\ length u = n /\ mul u (pw_lm g) = pw_lm w /\ janet_divides n (d_comp T (pos (pw_lm w))) (exps g) (exps w) /\ pos (pw_lm g) = pos (pw_lm w) /\
    (j <> 0)%Z /\ (l <> 0)%Z /\ span n (polys (d_elems T)) (blt o n k (pw_lm w)) d /\
    forall m, (j * coef (pw_poly w) m = l * coef r m + c * coef (shift u (pw_poly g)) m + coef d m)%Z.

Lemma refresh_ok w g : good w -> exists g', w_refresh o w g = Ok g' /\ anc_only g g'.
Proof.
  intros (L & _ & _ & (c & l & E) & C). unfold w_refresh. rewrite E. assert (M : pmono n k (pw_lm w)) by (rewrite E in C; exact (pcanonical_mono o n k [] _ _ _ C)).
  rewrite (proj2 (py_eq_true o n (pw_lm w) (pw_lm w) (proj1 M) (proj1 M)) eq_refl). cbn [assert_ andb negb]. eexists. split; [reflexivity|]. destruct (py_divisible_true _ _); repeat split.
Qed.
Lemma d_set_step T g g' : NoDup (map pw_id (d_elems T)) -> In g (d_elems T) -> anc_only g g' -> anc_step T (d_set T g').
Proof.
  intros Nd G A. exists (fun u => if Nat.eqb (pw_id u) (pw_id g') then g' else u). split; [reflexivity|]. intros u U. destruct (Nat.eqb_spec (pw_id u) (pw_id g')) as [E|_]; [|apply anc_only_refl].
  destruct A as (A & A'). rewrite A in E. assert (u = g) as ->; [|split; [exact A|exact A']]. clear A A'. induction (d_elems T) as [|x l IH]; [destruct U|]. cbn [map] in Nd. inversion Nd as [|? ? X Nd']; subst.
  destruct U as [->|U], G as [->|G]; auto; exfalso; apply X; [rewrite E; now apply in_map|rewrite <- E; now apply in_map].
Qed.
Lemma false_map (l : list bool) : map (fun _ => false) l = repeat false (length l).
Proof. induction l; cbn; congruence. Qed.
Lemma set_poly_fields w p : pw_id (set_poly w p) = pw_id w /\ pw_lm (set_poly w p) = pw_lm w /\ pw_anc (set_poly w p) = pw_anc w /\ pw_poly (set_poly w p) = p /\ pw_nonmult (set_poly w p) = pw_nonmult w /\ pw_prolong (set_poly w p) = pw_prolong w.
Proof. repeat split. Qed.
(** pp for the value of a Wrap *)
Lemma pp_good p : py_canonical o n k p -> p <> [] -> exists r g, py_pp o p = Ok r /\ py_canonical o n k r /\ r <> [] /\ lmon r = lmon p /\ map fst r = map fst p /\ (g <> 0)%Z /\ (forall m, coef p m = g * coef r m)%Z /\ primitive r.
Proof.
  intros C Np. destruct (py_pp_ok o n k p C Np) as (r & g & E & Cr & G & Co & P & _). exists r, g. pose proof (pp_fst o p r E) as Ef. split; [exact E|]. split; [exact Cr|]. split; [intros ->; destruct p; [congruence|discriminate Ef]|].
  split; [exact (lmon_fst r p Ef)|]. auto.
Qed.

Lemma reduce1_ok nf T w : treeok T -> fine T w ->
  q_reduce1 nf o T w = OutOfFuel \/ exists T1 v, q_reduce1 nf o T w = Ok (T1, v) /\ anc_step T T1 /\
    match v with
    | Kept true w' => w' = w /\ d_findWrap T (pw_lm w) = Ok None
    | Kept false w' => fine T w' /\ clean n w' /\ pw_prolong w' = repeat false n /\ pw_anc w' = pw_lm w' /\ pw_id w' = pw_id w /\ blt o n k (pw_lm w) (pw_lm w') /\
        d_findWrap T (pw_lm w') = Ok None /\ primitive (pw_poly w') /\ step_eq T w (pw_poly w')
    | Zero => step_eq T w []
    | Crit1 | Crit2 => d_findWrap T (pw_lm w) <> Ok None
    end.
Proof.
  intros To Fw. destruct Fw as (Gw & Pw & Sw). pose proof (good_pmono w Gw) as M. pose proof To as (D & Fi & Nd). unfold q_reduce1.
  destruct (d_find_ok bare n k bare_eraser N T (pw_lm w) D M) as ((r & E) & H & _). rewrite E. cbn [bind]. destruct r as [g|].
  2:{ right. exists T, (Kept true w). split; [reflexivity|]. split; [apply anc_step_refl|]. auto. }
  destruct (w_crit1 w g); [right; exists T, Crit1; split; [reflexivity|]; split; [apply anc_step_refl|discriminate]|].
  destruct (w_crit2 w g); [right; exists T, Crit2; split; [reflexivity|]; split; [apply anc_step_refl|discriminate]|].
  destruct (refresh_ok w g Gw) as (g' & Er & Ag). rewrite Er. cbn [bind]. destruct (H g E) as (Ig & Z & Pg & Jg).
  pose proof (d_set_step T g g' Nd Ig Ag) as St. set (T1 := d_set T g') in *.
  assert (Ff : py_good_find o n k (polys (d_elems T)) (d_find T)) by (apply find_good; [exact D|exact (treeok_good T To)]).
  assert (Ef : py_nfhead nf o (d_find T1) (pw_poly w) = py_nfhead nf o (d_find T) (pw_poly w)).
  { apply nfhead_ext. intro m. exact (anc_step_find T T1 m St). }
  rewrite Ef. destruct Gw as (L1 & L2 & L3 & Lw & C). destruct (nfhead_total o n k K (polys (d_elems T)) (d_find T) Ff nf (pw_poly w) C) as [X|(p & X)]; rewrite X; [now left|]. right. cbn [bind].
  assert (Np : pw_poly w <> []) by (destruct Lw as (c & l & ->); discriminate). pose proof (leads_lmon w Lw) as El.
  assert (Efg : d_find T (lmon (pw_poly w)) = Ok (Some (pw_poly g))) by (rewrite El, d_find_eq, E; reflexivity).
  destruct (nfhead_span o n k K (polys (d_elems T)) (d_find T) Ff nf (pw_poly w) p C X) as (Cp & Hp & _).
  destruct (nfhead_strict o n k K (polys (d_elems T)) (d_find T) Ff nf (pw_poly w) (pw_poly g) p C Np Efg X) as (Hs & j & l & c & u & d & J & L & Lu & Eu & Sd & Co).
  rewrite El in *. assert (Lg : leads g) by (destruct (treeok_good T To g Ig) as (_ & _ & _ & Lg & _); exact Lg). rewrite (leads_lmon g Lg) in Eu.
  destruct p as [|[m e] p].
  { exists T1, Zero. split; [reflexivity|]. split; [exact St|]. exists g, j, l, c, u, d. auto 10. }
  destruct Hs as [Hs|Hs]; [discriminate Hs|]. destruct Hp as [Hp|[Hp _]]; [discriminate Hp|]. cbn [lmon] in Hs, Hp. unfold w_update. cbn [set_poly pw_poly pw_lm pw_id pw_prolong pw_nonmult].
  destruct (py_eq o (pw_lm w) m) eqn:Q.
  { exfalso. apply (py_eq_true o n) in Q; [|apply M|apply Hs]. subst m. destruct Hs as [_ Hs]. exact (pgt_irrefl o n _ (proj1 M) Hs). }
  cbn [bind]. destruct (pp_good _ Cp ltac:(discriminate)) as (r & a & Ep & Cr & Nr & Lr & Fr & A & Ca & Pr). rewrite Ep. cbn [bind]. exists T1. eexists. split; [reflexivity|]. split; [exact St|].
  cbn [lmon] in Lr. cbn [pw_poly pw_lm pw_id pw_anc pw_prolong pw_nonmult set_poly].
  assert (Lm : length (vars m) = n) by apply Hs.
  assert (Cr' : forall x, (l * a * coef r x = j * coef (pw_poly w) x + coef (scale (- c) (shift u (pw_poly g)) ++ scale (-1) d) x)%Z).
  { intro x. specialize (Co x). rewrite coef_app, !coef_scale. pose proof (Ca x) as Ca'. set (P := coef ((m, e) :: p) x) in *. rewrite <- Z.mul_assoc, <- Ca'. lia. }
  assert (Sd' : span n (polys (d_elems T)) everything (scale (- c) (shift u (pw_poly g)) ++ scale (-1) d)).
  { apply (span_lin n _ _ _ (shift u (pw_poly g)) d (- c) (-1)); [apply span_single; [now apply in_map|exact Lu|exact I]|apply (span_mono n _ _ _ _ d (fun _ x => x) (fun _ _ => I) Sd)|]. intro x. rewrite coef_app, !coef_scale. ring. }
  destruct (derived T (polys (d_elems T)) everything (pw_poly w) r _ j (l * a)%Z (treeok_polys T To) Pw Sw Sd' Cr ltac:(nia) Cr') as [Pr' Sr'].
  split; [|split; [|split; [|split; [|split; [|split; [|split; [|split]]]]]]]; auto.
  - split; [|split; assumption]. split; [exact Lm|]. cbn [set_poly pw_nonmult pw_prolong pw_poly pw_lm]. rewrite !map_length. split; [exact L2|]. split; [exact L3|]. split; [|exact Cr].
    destruct r as [|[m' e'] r]; [congruence|]. cbn [lmon] in Lr. subst m'. exists e', r. reflexivity.
  - split; [exact Lm|]. cbn [set_poly pw_nonmult pw_prolong]. rewrite !false_map, L2, repeat_length. auto.
  - rewrite false_map, L3. reflexivity.
  - rewrite d_find_eq in Hp. destruct (d_findWrap T m) as [[x|]| | | |]; cbn in Hp; congruence.
  - exists g, j, (l * a)%Z, c, u, d. split; [exact Ig|]. split; [exact Lu|]. split; [exact Eu|]. split; [exact Jg|]. split; [exact Pg|]. split; [exact J|]. split; [nia|]. split; [exact Sd|]. intro x. rewrite Co. pose proof (Ca x) as Ca'. rewrite <- Z.mul_assoc, <- Ca'. reflexivity.
Qed.

(* ---- push ---- *)
Lemma cancel_ok w : good w -> q_cancel o w = Ok tt.
Proof. intros (_ & _ & _ & (c & l & E) & C). unfold q_cancel. rewrite E in *. pose proof (py_checked_ok o n k _ C) as X. match goal with |- bind ?x _ = _ => replace x with (Ok ((pw_lm w, c) :: l) : outcome ppoly) by (symmetry; exact X) end. reflexivity. Qed.
Lemma push_ok l : forall q, (forall w, In w l -> good w) -> exists q', q_push o q l = Ok q' /\ Permutation (pq_list q') (l ++ pq_list q) /\ pq_crit1 q' = pq_crit1 q /\ pq_crit2 q' = pq_crit2 q.
Proof.
  induction l as [|w l IH]; intros q G; cbn [q_push]; [exists q; auto|]. rewrite (cancel_ok w (G w (or_introl eq_refl))). cbn [bind].
  destruct (IH (PQ (heap_push (w_lt o) (pq_list q) w) (pq_crit1 q) (pq_crit2 q)) (fun u U => G u (or_intror U))) as (q' & E & P & C1 & C2). exists q'. split; [exact E|]. split; [|auto].
  cbn [pq_list] in P. transitivity (l ++ w :: pq_list q); [rewrite P; apply Permutation_app_head, heap_push_perm|]. symmetry. apply (Permutation_cons_app l (pq_list q) w). reflexivity.
Qed.
Lemma new_ok l : (forall w, In w l -> good w) -> exists q, q_new o l = Ok q /\ Permutation (pq_list q) l /\ pq_crit1 q = 0 /\ pq_crit2 q = 0.
Proof.
  intro G. unfold q_new. pose proof (heapify_perm (w_lt o) l) as P. assert (X : q_cancels o (heapify (w_lt o) l) = Ok tt).
  { assert (G' : forall w, In w (heapify (w_lt o) l) -> good w) by (intros w W; apply G; exact (Permutation_in w P W)). induction (heapify (w_lt o) l) as [|w h IH] in G' |- *; cbn [q_cancels]; [reflexivity|]. rewrite (cancel_ok w (G' w (or_introl eq_refl))). cbn [bind]. apply IH. intros u U. apply G'. now right. }
  rewrite X. cbn [bind]. eexists. split; [reflexivity|]. auto.
Qed.

(* ---- prolongations ---- *)
Lemma prolong_shift w v x : prolonged o n k w v x -> forall m, coef (pw_poly x) m = coef (shift (incr v (repeat 0 n)) (pw_poly w)) m.
Proof.
  intros (_ & _ & _ & _ & _ & H & _) m. rewrite H, prod_coef_sumc, coef_sumc, sumc_shift. cbn [sumc]. lia.
Qed.
Lemma prolong_lm w v x : length (exps w) = n -> prolonged o n k w v x -> v < n -> pw_lm x = mul (incr v (repeat 0 n)) (pw_lm w).
Proof.
  intros L (_ & _ & _ & E & _) V. rewrite E. unfold mprod. cbn [pos vars Z.eqb]. f_equal. rewrite vsum_addv. unfold exps in L. rewrite <- L. clear. revert v. induction (vars (pw_lm w)) as [|a l IH]; intros [|v]; cbn; try reflexivity; f_equal; try lia.
  - clear IH. induction l as [|b l IH]; cbn; [reflexivity|]. f_equal. exact IH.
  - exact (IH v).
Qed.
Lemma prolong_fine T w v x : fine T w -> prolonged o n k w v x -> fine T x.
Proof.
  intros (G & P & S) X. pose proof (prolong_shift w v x X) as Co. destruct X as ((C1 & C2 & C3) & Le & C & _). split; [|split].
  - split; [exact C1|]. split; [rewrite C2; apply repeat_length|]. auto.
  - apply coef_pure; [exact C|]. intros m H. rewrite Co in H. apply coef_nz_in in H. unfold shift in H. rewrite map_map in H. apply in_map_iff in H. destruct H as (y & <- & Y). cbn [fst]. apply zone_mul. unfold pure in P. rewrite Forall_forall in P. exact (P y Y).
  - apply (rspan_ext n F everything (shift (incr v (repeat 0 n)) (pw_poly w))); [|intro m; now rewrite Co]. apply (rspan_shift n F everything everything _ _ ltac:(rewrite incr_length; apply repeat_length) (fun _ _ => I) S).
Qed.
Lemma pj_prolongs_ok take J id : (forall w, In w (elems J) -> good w) ->
  exists new, pj_prolongs o take J id = Ok (j_map (marked take) J, new, id + length new) /\ Forall2 (fun j => prolonged o n k (fst j) (snd j)) (jobs take (elems J)) new /\ map pw_id new = seq id (length new).
Proof.
  intro G. destruct (t_prolongs_ok o n k K take (PList (pj_root J)) id) as (new & E & Fn & Is); [rewrite telems_list; exact G|]. exists new. rewrite telems_list in Fn. split; [|auto]. unfold pj_prolongs. rewrite E. cbn [bind fst snd tmap]. now rewrite j_map_eq.
Qed.
Lemma prolongs_ok take T : forall id, (forall w, In w (d_elems T) -> good w) ->
  exists new, d_prolongs o take T id = Ok (d_map (marked take) T, new, id + length new) /\ Forall2 (fun j => prolonged o n k (fst j) (snd j)) (jobs take (d_elems T)) new /\ map pw_id new = seq id (length new).
Proof.
  destruct T as [J|Fo]; intros id G; cbn [d_prolongs d_elems d_map] in *.
  - destruct (pj_prolongs_ok take J id G) as (new & E & H). exists new. rewrite E. auto.
  - assert (X : exists new, pf_prolongs (pj_prolongs o take) Fo id = Ok (map (j_map (marked take)) Fo, new, id + length new) /\ Forall2 (fun j => prolonged o n k (fst j) (snd j)) (jobs take (pf_elems Fo)) new /\ map pw_id new = seq id (length new)).
    { revert id G. induction Fo as [|J Fo IH]; intros id G; [exists []; cbn; rewrite Nat.add_0_r; auto|]. change (pf_elems (J :: Fo)) with (elems J ++ pf_elems Fo) in *. cbn [pf_prolongs map].
      destruct (pj_prolongs_ok take J id) as (n1 & E1 & F1 & I1); [intros w W; apply G, in_app_iff; auto|]. rewrite E1. cbn [bind fst snd].
      destruct (IH (id + length n1)) as (n2 & E2 & F2 & I2); [intros w W; apply G, in_app_iff; auto|]. rewrite E2. cbn [bind fst snd]. exists (n1 ++ n2). split; [|split].
      - rewrite app_length, Nat.add_assoc. reflexivity.
      - rewrite jobs_app. now apply Forall2_app.
      - rewrite map_app, I1, I2, app_length, seq_app. reflexivity. }
    destruct X as (new & E & H). exists new. rewrite E. auto.
Qed.
Lemma marked_fields take w : pw_id (marked take w) = pw_id w /\ pw_poly (marked take w) = pw_poly w /\ pw_anc (marked take w) = pw_anc w /\ pw_lm (marked take w) = pw_lm w /\ pw_nonmult (marked take w) = pw_nonmult w /\ length (pw_prolong (marked take w)) = length (pw_prolong w).
Proof. unfold marked. destruct (fold_marks (filter (take w) (w_pending w)) w) as (A & B & C & D & E). rewrite fold_marks_length. auto 10. Qed.
Lemma marked_fine T take w : fine T w -> fine T (marked take w).
Proof.
  destruct (marked_fields take w) as (_ & P & _ & L & M & R). intros ((G1 & G2 & G3 & (c & l & G4) & G5) & Pu & S). split; [|rewrite P; auto]. unfold PyJanetProlong.good, exps, leads. rewrite P, L, M, R. split; [exact G1|]. split; [exact G2|]. split; [exact G3|]. split; [exists c, l; exact G4|exact G5].
Qed.
Lemma map_fine T f : treeok T -> (forall w, pw_lm (f w) = pw_lm w /\ pw_id (f w) = pw_id w) -> (forall w, In w (d_elems T) -> fine T (f w)) -> treeok (d_map f T).
Proof.
  intros (D & Fi & Nd) H G. split; [|split].
  - apply d_map_fit; [|exact D]. intros w _. unfold bare. now rewrite (proj1 (H w)).
  - rewrite d_map_elems. apply Forall_forall. intros u U. apply in_map_iff in U. destruct U as (w & <- & W). apply (fine_kind T); [apply d_map_kind|exact (G w W)].
  - rewrite d_map_elems, map_map. rewrite (map_ext _ pw_id); [exact Nd|]. intro w. apply H.
Qed.
Lemma prolongs_tree take T : treeok T -> treeok (d_map (marked take) T).
Proof.
  intro To. apply map_fine; [exact To| |].
  - intro w. destruct (marked_fields take w) as (A & _ & _ & B & _). auto.
  - intros w W. apply marked_fine. destruct To as (_ & Fi & _). rewrite Forall_forall in Fi. exact (Fi w W).
Qed.
End Base.
