(** The sweep of ginvMin and ginvBlockLow over the tree: NFtail and pp for each of its elements. *)
From Coq Require Import ZArith List Bool Arith Lia Permutation.
From Verif Require Import Outcome MonomModel MonomSpec MonomProofs PolyModel PolySpec PolyProofs PolyNfProofs PolyRedProofs IdealProofs JanetSpec JanetPolySpec JanetPolyProofs
  PyMonomModel PyMonomSpec PyMonomProofs PyPolyModel PyPolySpec PyPolyProofs PyRedProofs PyJanetModel PyJanetSpec PyJanetProofs PyJanetTop PyJanetProlong
  PyHPModel PyForestModel PyForestProofs PyQueueModel PyQueueProofs PyDivProofs PySpan PyGinvModel PyGinvBase.
Import ListNotations.
Local Open Scope nat_scope.

Section Sweep.
Variables (o : py_order) (n : nat) (k : Z) (F : ppoly -> Prop).
Hypothesis K : (0 <= k)%Z.
Hypothesis N : 0 < n.
Local Notation good := (good o n k).
Local Notation fine := (fine o n k F).
Local Notation treeok := (treeok o n k F).
Local Notation blt := (blt o n k).
Local Notation ble := (ble o n k).
Local Notation mul u := (mprod (Mon (-1) u)).

(** a multiple is not smaller *)
Lemma mul_ge u x : length u = n -> pmono n k x -> ~ blt x (mul u x).
Proof.
  intros L M [M' H]. destruct (list_eq_dec Nat.eq_dec u (repeat 0 n)) as [->|Nu].
  - rewrite (mul_unit n k) in H by exact M. exact (pgt_irrefl o n x (proj1 M) H).
  - assert (P1 : pmono n k (Mon (-1) u)) by (split; [split; [exact L|cbn; lia]|cbn; lia]).
    assert (U : pgt o (Mon (-1) u) (py_unit n)). { apply py_unit_min; [apply P1|]. intro E. apply Nu. injection E as ->. reflexivity. }
    assert (X : pgt o (mul u x) x).
    { assert (P0 : pmono n k (py_unit n)) by (split; [split; [apply repeat_length|cbn; lia]|cbn; lia]).
      pose proof (pgt_mprod o n k x (Mon (-1) u) (py_unit n) M P1 P0 (or_intror (conj eq_refl eq_refl)) U) as H1.
      rewrite (mprod_comm n x (Mon (-1) u)), (mprod_comm n x (py_unit n)) in H1; [|apply M|apply P0|now right|apply M|apply P1|now right].
      unfold py_unit in H1. rewrite (mul_unit n k x M) in H1. exact H1. }
    apply (pgt_irrefl o n x (proj1 M)). exact (pgt_trans o n x (mul u x) x (proj1 M) (proj1 M') (proj1 M) H X).
Qed.

Lemma quotient v m : length (vars m) = n -> pos v = pos m -> mdivides v m -> exists s, length s = n /\ mul s v = m.
Proof.
  intros Lm P (_ & L & D). exists (subv (vars m) (vars v)). split; [rewrite subv_length; [exact Lm|symmetry; exact L]|]. unfold mprod. cbn [pos vars]. change (if (-1 =? -1)%Z then pos v else (-1)%Z) with (pos v).
  rewrite vsum_addv, addv_subv; [rewrite P; destruct m; reflexivity|symmetry; exact L|]. apply gev_spec; [symmetry; exact L|]. intros i _. exact (D i).
Qed.

(** p and q have the same leading monomial and are equal up to factors and smaller multiples of elements of G *)
Definition near (G : ppoly -> Prop) (p q : ppoly) : Prop :=
  lmon q = lmon p /\ exists j l d, (j <> 0)%Z /\ (l <> 0)%Z /\ rspan n G (blt (lmon p)) d /\ forall m, (l * coef q m = j * coef p m + coef d m)%Z.
Lemma near_refl G p : near G p p.
Proof. split; [reflexivity|]. exists 1%Z, 1%Z, []. split; [lia|]. split; [lia|]. split; [now apply rspan_zero|]. intro m. cbn [coef]. ring. Qed.
Lemma near_through (G G' : ppoly -> Prop) p q : pmono n k (lmon p) -> (forall g, G g -> pmono n k (lmon g) /\ rspan n G' (ble (lmon g)) g) -> near G p q -> near G' p q.
Proof.
  intros M H (E & j & l & d & J & L & D & Co). split; [exact E|]. exists j, l, d. split; [exact J|]. split; [exact L|]. split; [|exact Co].
  apply (rspan_through o n k K G G'); [|exact H|exact D]. intros mu x B Mm X. exact (blt_trans o n k _ mu x M B X).
Qed.
Lemma near_trans G p q r : near G p q -> near G q r -> near G p r.
Proof.
  intros (E & j & l & d & J & L & D & Co) (E' & j' & l' & d' & J' & L' & D' & Co'). split; [congruence|]. rewrite E in D'.
  exists (j' * j)%Z, (l * l')%Z, (scale j' d ++ scale l d'). split; [nia|]. split; [nia|]. split.
  - apply (rspan_lin n G _ _ d d' 1 j' l); [lia|exact D|exact D'|]. intro m. rewrite coef_app, !coef_scale. ring.
  - intro m. rewrite coef_app, !coef_scale. specialize (Co m). specialize (Co' m). nia.
Qed.
Lemma near_span (G : ppoly -> Prop) p q : G q -> pmono n k (lmon p) -> PyPolyProofs.pmonos n k q -> near G p q -> rspan n G (ble (lmon p)) p.
Proof.
  intros Gq M Mq (E & j & l & d & J & L & D & Co). apply (rspan_lin n G _ p q d j l (-1) J); [rewrite <- E; apply rspan_self; auto; rewrite E; exact M| |intro m; specialize (Co m); lia].
  apply (rspan_mono n G G (blt (lmon p)) _ d (fun _ x => x)); [|exact D]. intros x. apply blt_ble.
Qed.

Lemma good_lmon w : good w -> lmon (pw_poly w) = pw_lm w.
Proof. intros (_ & _ & _ & L & _). exact (leads_lmon w L). Qed.
Lemma good_monos w : good w -> PyPolyProofs.pmonos n k (pw_poly w).
Proof. intros (_ & _ & _ & _ & C). apply py_canonical_iff in C as (_ & M & _). exact M. Qed.

(** T' is T with other polynomials: each is near the old one *)
Definition retail (T T' : pdiv) : Prop :=
  exists f, T' = d_map f T /\ forall u, In u (d_elems T) -> (exists p, f u = set_poly u p) /\ near (polys (d_elems T')) (pw_poly u) (pw_poly (f u)).
Lemma set_poly_same u : set_poly u (pw_poly u) = u.
Proof. destruct u; reflexivity. Qed.
Lemma retail_refl T : retail T T.
Proof. exists (fun w => w). split; [now rewrite d_map_id|]. intros u U. split; [exists (pw_poly u); symmetry; apply set_poly_same|apply near_refl]. Qed.
Lemma retail_span T T' : treeok T -> treeok T' -> retail T T' -> forall g, polys (d_elems T) g -> pmono n k (lmon g) /\ rspan n (polys (d_elems T')) (ble (lmon g)) g.
Proof.
  intros To To' (f & -> & H) g G. apply in_map_iff in G. destruct G as (u & <- & U). destruct (H u U) as (_ & Nr). pose proof (treeok_good o n k F T To u U) as Gu. pose proof (good_pmono o n k u Gu) as M. rewrite <- (good_lmon u Gu) in M. split; [exact M|].
  assert (U' : In (f u) (d_elems (d_map f T))) by (rewrite d_map_elems; now apply in_map). apply (near_span _ _ (pw_poly (f u))); [now apply in_map|exact M| |exact Nr]. apply good_monos. exact (treeok_good o n k F _ To' _ U').
Qed.
Lemma retail_trans T1 T2 T3 : treeok T1 -> treeok T2 -> treeok T3 -> retail T1 T2 -> retail T2 T3 -> retail T1 T3.
Proof.
  intros O1 O2 O3 R1 R2. pose proof (retail_span T2 T3 O2 O3 R2) as Th. destruct R1 as (f & -> & H1), R2 as (g & -> & H2). exists (fun w => g (f w)). split; [apply d_map_comp|]. intros u U.
  assert (U' : In (f u) (d_elems (d_map f T1))) by (rewrite d_map_elems; now apply in_map).
  destruct (H1 u U) as ((p & E1) & N1), (H2 (f u) U') as ((q & E2) & N2). split; [exists q; rewrite E2, E1; reflexivity|].
  apply (near_trans _ _ (pw_poly (f u))); [|exact N2]. apply (near_through (polys (d_elems (d_map f T1)))); [|exact Th|exact N1].
  pose proof (treeok_good o n k F T1 O1 u U) as Gu. rewrite (good_lmon u Gu). exact (good_pmono o n k u Gu).
Qed.
Lemma retail_fit e T T' : (forall u p, e (set_poly u p) = e u) -> retail T T' -> dfit e n k T -> dfit e n k T'.
Proof. intros E (f & -> & H). apply d_map_fit. intros w W. destruct (H w W) as ((p & ->) & _). apply E. Qed.

(** the other terms of u are irreducible; [u] has no content *)
Definition tailed (T : pdiv) (u : pwrap) : Prop := Forall (fun x => d_findWrap T (fst x) = Ok None) (skipn 1 (pw_poly u)) /\ primitive (pw_poly u).
Lemma tailed_map f T u : tailed T u -> tailed (d_map f T) u.
Proof. intros [H P]. split; [|exact P]. revert H. apply Forall_impl. intros x X. now rewrite d_findWrap_map, X. Qed.
Lemma ids_unique l (u v : pwrap) : NoDup (map pw_id l) -> In u l -> In v l -> pw_id u = pw_id v -> u = v.
Proof.
  intros Nd U V E. induction l as [|x l IH]; [destruct U|]. cbn [map] in Nd. inversion Nd as [|? ? X Nd']; subst.
  destruct U as [->|U], V as [->|V]; auto; exfalso; apply X; [rewrite E; now apply in_map|rewrite <- E; now apply in_map].
Qed.

Lemma sweep_step nf T w : treeok T -> In w (d_elems T) ->
  py_nftail nf o (other_find T w) (pw_poly w) = OutOfFuel \/ exists p p', py_nftail nf o (other_find T w) (pw_poly w) = Ok p /\ py_pp o p = Ok p' /\
    treeok (d_set T (set_poly w p')) /\ retail T (d_set T (set_poly w p')) /\ tailed T (set_poly w p').
Proof.
  intros To W. pose proof To as (D & Fi & Nd). pose proof (treeok_good o n k F T To) as Gt. pose proof (Gt w W) as Gw. pose proof (good_lmon w Gw) as El. pose proof (good_pmono o n k w Gw) as M.
  assert (Ff : py_good_find o n k (polys (d_elems T)) (d_find T)) by (apply find_good; assumption).
  assert (C : py_canonical o n k (pw_poly w)) by apply Gw. assert (Np : pw_poly w <> []) by (destruct Gw as (_ & _ & _ & (c & l & ->) & _); discriminate).
  assert (Div : forall u m, d_findWrap T m = Ok (Some u) -> blt (pw_lm w) m -> In u (d_elems T) /\ pw_id u <> pw_id w).
  { intros u m E B. destruct (d_find_ok bare n k bare_eraser N T m D (proj1 B)) as (_ & H & _). destruct (H u E) as (U & _ & P & J). split; [exact U|]. intro Ei.
    pose proof (ids_unique _ _ _ Nd U W Ei) as ->. destruct (Ff m (proj1 B)) as (q & Eq & Hq). rewrite d_find_eq, E in Eq. injection Eq as <-. destruct (Hq _ eq_refl) as (_ & _ & v & d & q' & Ev & Pv & Dv).
    assert (pw_lm w = v) as <- by (rewrite <- El, Ev; reflexivity). destruct B as [Bm Bg]. destruct (quotient (pw_lm w) m (proj1 (proj1 Bm)) Pv Dv) as (s & Ls & Es).
    apply (mul_ge s (pw_lm w) Ls M). rewrite Es. split; assumption. }
  rewrite (nftail_agree o n k K (polys (d_elems T)) (d_find T) Ff (other_find T w) nf (pw_poly w) C).
  2:{ intros m B. rewrite El in B. unfold other_find. rewrite d_find_eq. destruct (d_findWrap T m) as [[u|]| | | |] eqn:E; cbn; try reflexivity. destruct (Div u m E B) as [_ X]. apply Nat.eqb_neq in X. now rewrite X. }
  destruct (nftail_total o n k K (polys (d_elems T)) (d_find T) Ff nf (pw_poly w) C Np) as [X|(p & X)]; rewrite X; [now left|]. right.
  destruct (nftail_span o n k K (polys (d_elems T)) (d_find T) Ff nf (pw_poly w) p C Np X) as (Cp & Npp & Elp & Se & j & d & J & Sd & Co). rewrite El in *.
  destruct (pp_good o n k p Cp Npp) as (r & a & Ep & Cr & Nr & Lr & Fr & A & Ca & Pr). exists p, r. split; [reflexivity|]. split; [exact Ep|].
  assert (Cr' : forall x, (a * coef r x = j * coef (pw_poly w) x + coef d x)%Z) by (intro x; rewrite <- Ca; apply Co).
  pose proof Fi as Fi'. rewrite Forall_forall in Fi'. pose proof (Fi' w W) as (_ & Pw & Sw).
  destruct (derived o n k F N T (polys (d_elems T)) _ (pw_poly w) r d j a (treeok_polys o n k F T To) Pw Sw Sd Cr A Cr') as [Pr' Sr'].
  set (w' := set_poly w r). assert (Gw' : good w').
  { destruct Gw as (G1 & G2 & G3 & _ & _). split; [exact G1|]. split; [exact G2|]. split; [exact G3|]. split; [|exact Cr]. destruct r as [|[m c] r]; [congruence|]. cbn [lmon] in Lr. exists c, r. cbn [w' set_poly pw_poly pw_lm]. rewrite <- Elp, <- Lr. reflexivity. }
  assert (Gf : forall u, In u (d_elems T) -> (if Nat.eqb (pw_id u) (pw_id w') then w' else u) = if Nat.eqb (pw_id u) (pw_id w) then w' else u) by reflexivity.
  assert (To' : treeok (d_set T w')).
  { split; [|split].
    - apply d_map_fit; [|exact D]. intros u U. destruct (Nat.eqb_spec (pw_id u) (pw_id w')) as [E|_]; [|reflexivity]. rewrite (ids_unique _ u w Nd U W E). reflexivity.
    - unfold d_set. rewrite d_map_elems. apply Forall_forall. intros u U. apply in_map_iff in U. destruct U as (x & <- & Ix). apply (fine_kind o n k F T); [apply d_map_kind|]. destruct (Nat.eqb (pw_id x) (pw_id w')); [|exact (Fi' x Ix)]. split; [exact Gw'|]. split; [exact Pr'|exact Sr'].
    - unfold d_set. rewrite d_map_elems, map_map. rewrite (map_ext _ pw_id); [exact Nd|]. intro u. destruct (Nat.eqb_spec (pw_id u) (pw_id w')); auto. }
  split; [exact To'|]. split.
  2:{ split; [|exact Pr]. cbn [w' set_poly pw_poly]. unfold settled in Se. apply Forall_forall. intros x Ix. assert (Y : In (fst x) (map fst (skipn 1 p))).
      { replace (map fst (skipn 1 p)) with (map fst (skipn 1 r)); [now apply in_map|]. clear - Fr. destruct r as [|? r], p as [|? p]; cbn in *; try discriminate Fr; [reflexivity|]. now injection Fr. }
      apply in_map_iff in Y. destruct Y as (y & Ey & Y). rewrite Forall_forall in Se. specialize (Se y Y). rewrite d_find_eq in Se. rewrite <- Ey. destruct (d_findWrap T (fst y)) as [[z|]| | | |]; cbn in Se; congruence. }
  exists (fun u => if Nat.eqb (pw_id u) (pw_id w') then w' else u). split; [reflexivity|]. intros u U. destruct (Nat.eqb_spec (pw_id u) (pw_id w')) as [E|E]; [|split; [exists (pw_poly u); symmetry; apply set_poly_same|apply near_refl]].
  rewrite (ids_unique _ u w Nd U W E). split; [exists r; reflexivity|]. split; [cbn [w' set_poly pw_poly]; rewrite El, Lr; exact Elp|]. exists j, a, d. split; [exact J|]. split; [exact A|]. split; [|exact Cr'].
  rewrite El. apply rspan_of. clear - Sd To' M Nd W K N Gw Fi D.
  induction Sd as [d Z|d q v g c S IH Gg L Bg E]; [now apply span_zero|]. refine (span_add n _ _ d q v g c IH _ L Bg E).
  apply in_map_iff in Gg. destruct Gg as (y & <- & Y). unfold d_set, polys. rewrite d_map_elems, map_map. apply in_map_iff. exists y. split; [|exact Y].
  destruct (Nat.eqb_spec (pw_id y) (pw_id w')) as [Ey|Ey]; [|reflexivity]. exfalso. rewrite (ids_unique _ y w Nd Y W Ey), (good_lmon w Gw) in Bg. exact (mul_ge v (pw_lm w) L M Bg).
Qed.

Lemma sweep_ok nf : forall l T, treeok T -> incl l (d_elems T) -> NoDup (map pw_id l) -> (forall u, In u (d_elems T) -> In u l \/ tailed T u) ->
  sweep nf o T l = OutOfFuel \/ exists T', sweep nf o T l = Ok T' /\ retail T T' /\ treeok T' /\ forall u, In u (d_elems T') -> tailed T' u.
Proof.
  induction l as [|w l IH]; intros T To Il Nd H; cbn [sweep].
  - right. exists T. split; [reflexivity|]. split; [apply retail_refl|]. split; [exact To|]. intros u U. destruct (H u U) as [[]|X]. exact X.
  - destruct (sweep_step nf T w To (Il w (or_introl eq_refl))) as [E|(p & p' & E1 & E2 & To1 & Re & Ta)]; [rewrite E; now left|]. rewrite E1. cbn [bind]. rewrite E2. cbn [bind].
    inversion Nd as [|? ? Nw Nd']; subst. pose proof To as (_ & _ & Ni). destruct (IH (d_set T (set_poly w p')) To1) as [X|(T' & X & R & O & Tl)].
    + intros u U. unfold d_set. rewrite d_map_elems. apply in_map_iff. exists u. split; [|apply Il; now right]. destruct (Nat.eqb_spec (pw_id u) (pw_id (set_poly w p'))) as [Ei|_]; [|reflexivity]. exfalso. apply Nw. cbn in Ei. rewrite <- Ei. now apply in_map.
    + exact Nd'.
    + intros u U. unfold d_set in U. rewrite d_map_elems in U. apply in_map_iff in U. destruct U as (x & <- & Ix). destruct (Nat.eqb_spec (pw_id x) (pw_id (set_poly w p'))) as [Ei|Ei]; [right; now apply tailed_map|].
      destruct (H x Ix) as [[->|L]|Tx]; [now contradiction Ei|now left|]. right. now apply tailed_map.
    + left. exact X.
    + right. exists T'. split; [exact X|]. split; [exact (retail_trans T _ T' To To1 O Re R)|]. auto.
Qed.
End Sweep.
