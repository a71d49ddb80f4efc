(** Proofs for C101: every edit computes the value of PolyModel.v and keeps the cells of the monomials it keeps. *)
From Coq Require Import ZArith List Bool Arith Lia Sorted.
From Verif Require Import Outcome MonomModel MonomSpec MonomProofs PolyModel PolySpec PolyProofs PolyRedProofs PolyNfProofs CellModel CellPyModel CellSpec CellProofs.
Import ListNotations.
Local Open Scope Z_scope.

Lemma checked_cells dbg p q : checked dbg (plain p) = Ok q -> c_checked dbg p = Ok p /\ q = plain p.
Proof.
  unfold checked, c_checked, assert_. destruct dbg; [destruct (assertValid (plain p))|]; cbn; intro H; try discriminate; injection H as <-; auto.
Qed.
Definition simulated (p : cpoly) (q : poly) (r : outcome cpoly) : Prop :=
  exists p', r = Ok p' /\ plain p' = q /\ kept (fresh p) (cells p) (cells p') (fresh p').
Lemma simulated_checked dbg p q l k : checked dbg (with_terms (plain p) (map snd l)) = Ok q -> kept (fresh p) (cells p) l k ->
  simulated p q (c_checked dbg (with_cells p l k)).
Proof.
  intros C K. change (with_terms (plain p) (map snd l)) with (plain (with_cells p l k)) in C.
  apply checked_cells in C as [C1 C2]. exists (with_cells p l k). split; [exact C1|]. split; [congruence|exact K].
Qed.
Lemma kept_refl k p : kept k p p k.
Proof. now apply kept_same_mons. Qed.
Lemma simulated_same p : simulated p (plain p) (Ok p).
Proof. exists p. split; [reflexivity|]. split; [reflexivity|apply kept_refl]. Qed.

Section Edit.
Variables (dbg : bool) (p : cpoly).
Hypothesis (V : valid_poly (plain p)).
Let t := cto p.
Let o := cbo p.
Let n := csize p.
Lemma can : canonical t o n (map snd (cells p)).
Proof. exact V. Qed.

Lemma same_can a : valid_poly a -> same_ring (plain p) a -> canonical t o n (terms a).
Proof. intros A (E1 & E2 & E3). cbn [psize pto pbo plain] in *. unfold valid_poly in A. rewrite <- E1, <- E2, <- E3 in A. exact A. Qed.

Lemma add_cells a : canonical t o n a -> let r := c_add t o (cells p) (fresh p) a in
  map snd (fst r) = add_terms t o (map snd (cells p)) a /\ kept (fresh p) (cells p) (fst r) (snd r).
Proof.
  intros A r. split; [apply c_add_terms|]. apply canonical_iff in A as (S & M & _). assert (C := can). apply canonical_iff in C as (S' & M' & _).
  apply (c_add_kept t o n); assumption.
Qed.
Lemma edit_add a q : valid_poly a -> same_ring (plain p) a -> p_add dbg (plain p) a = Ok q -> simulated p q (c_edit dbg p (EAdd a)).
Proof.
  intros A R. unfold p_add, c_edit. unfold assert_. destruct (dbg && negb (comparable (plain p) a)); [discriminate|]. intro H.
  destruct (add_cells (terms a) (same_can a A R)) as [E K]. unfold t, o in *.
  destruct (c_add (cto p) (cbo p) (cells p) (fresh p) (terms a)) as [l k]. cbn [fst snd] in *.
  apply simulated_checked; [|exact K]. rewrite E. exact H.
Qed.
Lemma neg_can a : canonical t o n a -> canonical t o n (neg_terms a).
Proof.
  intro A. replace (neg_terms a) with (scale (-1) a); [apply scale_canonical; [lia|exact A]|].
  unfold neg_terms, scale. apply map_ext. intros [m c]. cbn. f_equal. lia.
Qed.
Lemma edit_sub a q : valid_poly a -> same_ring (plain p) a -> p_sub dbg (plain p) a = Ok q -> simulated p q (c_edit dbg p (ESub a)).
Proof.
  intros A R. unfold p_sub, c_edit. rewrite c_sub_neg, sub_terms_neg. unfold assert_. destruct (dbg && negb (comparable (plain p) a)); [discriminate|]. intro H.
  destruct (add_cells (neg_terms (terms a)) (neg_can _ (same_can a A R))) as [E K]. unfold t, o in *.
  destruct (c_add (cto p) (cbo p) (cells p) (fresh p) (neg_terms (terms a))) as [l k]. cbn [fst snd] in *.
  apply simulated_checked; [|exact K]. rewrite E. exact H.
Qed.

Lemma add_const_cells c : forall l k, sorted t o (map snd l) -> monos n (map snd l) ->
  let r := c_add_const n l k c in
  map snd (fst r) = add_const_terms n (map snd l) c /\
  (o <> OAlex -> kept k l (fst r) (snd r)).
Proof.
  induction l as [|[i [m d]] l IH]; intros k S M; cbn [c_add_const map snd add_const_terms].
  - split; [reflexivity|]. intros _. apply kept_insert; [apply kept_refl|intros []].
  - cbn [map snd] in S, M. apply sorted_below in S as [B S]. apply Forall_cons_iff in M as [Hm M]. cbn [fst] in *.
    assert (Nm : ~ In m (mons l)) by (rewrite <- mons_map; apply (below_notin t o n); assumption).
    destruct (Nat.ltb 0 (deg m) || (0 <=? pos m)).
    + specialize (IH k S M). destruct (c_add_const n l k c) as [r k']. cbn [fst snd] in *. destruct IH as [IH1 IH2].
      split; [cbn [map snd]; now rewrite IH1|]. intro O. apply kept_keep; auto.
    + destruct (d + c =? 0); (split; [reflexivity|]); intros _; [apply kept_drop|apply kept_keep]; auto using kept_refl.
Qed.
Lemma c_sub_const_add c : forall l k, c_sub_const n l k c = c_add_const n l k (- c).
Proof.
  induction l as [|[i [m d]] l IH]; intro k; cbn [c_sub_const c_add_const]; [reflexivity|]. rewrite IH.
  replace (d - c) with (d + - c) by lia. reflexivity.
Qed.
Lemma edit_add_const c q : pbo (plain p) <> OAlex -> p_add_const dbg (plain p) c = Ok q -> simulated p q (c_edit dbg p (EAddConst c)).
Proof.
  intro O. unfold p_add_const, c_edit. cbn [plain terms]. assert (C := can). apply canonical_iff in C as (S & M & _).
  assert (A := add_const_cells c (cells p) (fresh p) S M).
  destruct (cells p) as [|[i [m d]] l] eqn:E; [destruct dbg; discriminate|]. cbn [map snd]. rewrite <- E in *.
  assert (Hm : size m = n).
  { rewrite E in M. cbn [map snd] in M. apply Forall_cons_iff in M as [[Hm _] _]. exact Hm. }
  rewrite Hm. destruct (c_add_const n (cells p) (fresh p) c) as [r k']. cbn [fst snd] in A. destruct A as [A1 A2].
  intro H. apply simulated_checked; [|apply A2; exact O]. rewrite A1. rewrite E. exact H.
Qed.
Lemma edit_sub_const c q : pbo (plain p) <> OAlex -> p_sub_const dbg (plain p) c = Ok q -> simulated p q (c_edit dbg p (ESubConst c)).
Proof.
  intros O H. rewrite p_sub_const_add in H. assert (X := edit_add_const (- c) q O H). unfold c_edit in *.
  destruct (cells p) as [|[i [m d]] l] eqn:E; [exact X|]. rewrite <- E in *.
  assert (Hm : size m = n).
  { assert (C := can). apply canonical_iff in C as (_ & M & _). rewrite E in M. cbn [map snd] in M. apply Forall_cons_iff in M as [[Hm _] _]. exact Hm. }
  rewrite Hm in *. rewrite c_sub_const_add. exact X.
Qed.
Lemma edit_minus q : p_minus dbg (plain p) = Ok q -> simulated p q (c_edit dbg p EMinus).
Proof.
  intro H. cbn [c_edit]. apply simulated_checked.
  - unfold c_neg. rewrite map_map. unfold p_minus, neg_terms in H. cbn [plain terms] in H. rewrite map_map in H. exact H.
  - apply kept_same_mons. unfold c_neg. rewrite map_map. reflexivity.
Qed.
Lemma edit_mult_const c q : p_mult_const dbg (plain p) c = Ok q -> simulated p q (c_edit dbg p (EMultConst c)).
Proof.
  unfold p_mult_const, c_edit. cbn [plain terms]. destruct (cells p) as [|x l] eqn:E; cbn [map].
  - intro H. destruct (checked_cells dbg p q H) as [H1 H2]. rewrite H1, H2. apply simulated_same.
  - rewrite <- E. change (snd x :: map snd l) with (map snd (x :: l)). rewrite <- E. destruct (c =? 0).
    + intro H. apply simulated_checked; [exact H|]. constructor; [lia|intros i m d []|intros i m d _ []|intros; constructor].
    + intro H. apply simulated_checked; [rewrite scale_plain; exact H|apply scale_kept].
Qed.

Lemma div_cells g : forall l l', div_terms dbg g (map snd l) = Ok l' -> exists r, c_div dbg g l = Ok r /\ map snd r = l' /\
  map (fun x : cell => (fst x, fst (snd x))) r = map (fun x : cell => (fst x, fst (snd x))) l.
Proof.
  induction l as [|[i [m c]] l IH]; intros l' H; cbn [map snd div_terms c_div] in *.
  - injection H as <-. exists []. auto.
  - destruct (int_div dbg c g) as [k| | | |]; try discriminate. cbn [bind] in *.
    destruct (div_terms dbg g (map snd l)) as [r| | | |]; try discriminate. cbn [bind] in *. injection H as <-.
    destruct (IH r eq_refl) as (s & E1 & E2 & E3). rewrite E1. cbn [bind]. exists ((i, (m, k)) :: s).
    split; [reflexivity|]. cbn [map fst snd]. now rewrite E2, E3.
Qed.
Lemma edit_pp q : p_pp dbg (plain p) = Ok q -> simulated p q (c_pp dbg p).
Proof.
  unfold p_pp, c_pp. cbn [plain terms]. destruct (cells p) as [|[i [m c]] l] eqn:E; cbn [map snd].
  - intro H. injection H as <-. apply simulated_same.
  - destruct (Z.abs c =? 1).
    { intro H. injection H as <-. apply simulated_same. }
    destruct (gcd_loop dbg c (map snd l)) as [[g|]| | | |]; cbn [bind]; try discriminate.
    2:{ intro H. injection H as <-. apply simulated_same. }
    change ((m, c) :: map snd l) with (map snd ((i, (m, c)) :: l)).
    destruct (div_terms dbg g (map snd ((i, (m, c)) :: l))) as [l'| | | |] eqn:D; cbn [bind]; try discriminate.
    destruct (div_cells g _ _ D) as (r & E1 & E2 & E3). rewrite E1. cbn [bind].
    change (plain (with_cells p r (fresh p))) with (with_terms (plain p) (map snd r)). rewrite E2.
    change (Poly (cto p) (cbo p) (csize p) (map snd ((i, (m, c)) :: l))) with (with_terms (plain p) (map snd ((i, (m, c)) :: l))).
    unfold with_terms at 1 3. cbn [pto pbo psize plain].
    destruct (p_isPp dbg (with_terms (plain p) l')) as [b| | | |] eqn:Pp; unfold with_terms in Pp; cbn [pto pbo psize plain] in Pp; rewrite Pp; cbn [bind]; try discriminate.
    unfold assert_. destruct (dbg && negb b); [discriminate|]. intro H. injection H as <-.
    exists (with_cells p r (fresh p)). split; [reflexivity|]. split; [cbn; unfold plain; cbn; now rewrite E2|].
    rewrite E. apply kept_same_mons. exact E3.
Qed.

(** A reduction of the part from a term on. *)
Lemma red_cells i m c rest v d a k : canonical t o n (map snd ((i, (m, c)) :: rest)) -> canonical t o n ((v, d) :: a) -> mdivides v m ->
  reducer dbg m ((v, d) :: a) ->
  exists k1 k2 r k', red_factors dbg m c v d = Ok (div m v, k1, k2) /\ k1 <> 0 /\
    red_terms dbg t o k1 k2 (div m v) (map snd rest) a = Ok (map snd r) /\ c_red dbg t o k1 k2 (div m v) rest k a = Ok (r, k') /\
    kept k ((i, (m, c)) :: rest) r k' /\ canonical t o n (map snd r) /\ below t o m (map snd r).
Proof.
  intros Cp Ca D R. cbn [map snd] in Cp. destruct (reduce_step dbg t o n m c (map snd rest) v d a Cp Ca D R) as (k1 & k2 & l & E1 & E2 & K1 & K2 & _ & _ & Cl & B & _).
  exists k1, k2. apply canonical_iff in Cp as (Sp & Mp & Np). apply canonical_iff in Ca as (Sa & Ma & Na).
  apply sorted_below in Sp as [Bp Sp]. apply sorted_below in Sa as [Ba Sa].
  apply Forall_cons_iff in Mp as [Hm Mp]. apply Forall_cons_iff in Ma as [Hv Ma]. cbn [fst snd] in *.
  apply Forall_cons_iff in Np as [_ Np]. apply Forall_cons_iff in Na as [_ Na].
  destruct R as [I Rd]. apply Forall_cons_iff in I as [Iv I]. cbn [fst] in Iv.
  assert (D' : dbg = true -> pos (div m v) = -1 \/ a = []).
  { intro X. destruct (Rd X) as [Y|Y]; [left; exact Y|right]. destruct a; [reflexivity|discriminate Y]. }
  assert (Hw := div_mono n m v Hm Hv).
  assert (C := c_red_eq t o n dbg k1 k2 (div m v) Hw rest a Mp Ma I D' k).
  assert (T := c_add_terms t o (c_scale k1 rest) (mulp (div m v) k2 a) k).
  assert (K := c_add_kept t o n (c_scale k1 rest) (mulp (div m v) k2 a)).
  destruct (c_add t o (c_scale k1 rest) k (mulp (div m v) k2 a)) as [r k'] eqn:E. exists r, k'. cbn [fst snd] in *.
  rewrite scale_plain in T. rewrite (red_terms_eq dbg t o n k1 k2 (div m v) Hw (map snd rest) a Mp Ma I D') in E2. injection E2 as E2.
  rewrite <- E2, <- T in Cl, B.
  split; [exact E1|]. split; [exact K1|]. split; [now rewrite (red_terms_eq dbg t o n k1 k2 (div m v) Hw (map snd rest) a Mp Ma I D'), T|]. split; [exact C|].
  split; [|split; [exact Cl|exact B]].
  apply kept_drop.
  - apply kept_after_scale with (c := k1). rewrite scale_plain in K. specialize (K (scale_monos n k1 _ Mp)).
    assert (U : uniform (div m v) a) by (right; exists (pos m); exact I).
    specialize (K (mulp_monos n (div m v) k2 a Hw Ma) (scale_sorted t o k1 _ Sp) (mulp_sorted t o n (div m v) k2 a Hw Ma U Sa) k).
    rewrite E in K. exact K.
  - rewrite <- mons_map. apply (below_notin t o n); [exact Hm| |exact B]. apply canonical_iff in Cl as (_ & M & _). exact M.
Qed.

Lemma edit_reduction a m c l v d l' q : valid_poly a -> same_ring (plain p) a -> terms (plain p) = (m, c) :: l -> terms a = (v, d) :: l' ->
  mdivides v m -> reducer dbg m (terms a) -> p_reduction dbg (plain p) a = Ok q -> simulated p q (c_reduction dbg p a).
Proof.
  intros A R Ep Ea D Rd. unfold p_reduction, c_reduction. rewrite Ep, Ea. cbn [plain terms] in Ep.
  unfold assert_. destruct (dbg && negb (comparable (plain p) a)); [discriminate|].
  assert (C := can). destruct (cells p) as [|[i [m' c']] rest] eqn:E; [discriminate|]. cbn [map snd] in Ep. injection Ep as -> -> <-.
  rewrite Ea in Rd. assert (Ca := same_can a A R). rewrite Ea in Ca.
  destruct (red_cells i m c rest v d l' (fresh p) C Ca D Rd) as (k1 & k2 & r & k' & E1 & _ & E2 & E3 & K & _).
  rewrite E1. cbn [bind]. unfold t, o in *. cbn [pto pbo plain]. rewrite E2, E3. cbn [bind fst snd]. intro H.
  apply simulated_checked; [exact H|]. rewrite E. exact K.
Qed.

Lemma skip_cells m : forall rest pre,
  skip_gt t o m (map snd pre) (map snd rest) = (map snd (fst (c_skip_gt t o m pre rest)), map snd (snd (c_skip_gt t o m pre rest))) /\
  fst (c_skip_gt t o m pre rest) ++ snd (c_skip_gt t o m pre rest) = pre ++ rest.
Proof.
  induction rest as [|[i x] rest IH]; intro pre; cbn [map snd skip_gt c_skip_gt].
  - split; [reflexivity|reflexivity].
  - destruct (0 <? cmp1 t o (fst x) m); [|split; reflexivity].
    specialize (IH (pre ++ [(i, x)])). rewrite map_app in IH. cbn [map snd] in IH. destruct IH as [H1 H2]. split; [exact H1|].
    rewrite H2. rewrite <- app_assoc. reflexivity.
Qed.
Lemma edit_redMaybe a q : valid_poly a -> same_ring (plain p) a -> terms (plain p) <> [] -> terms a <> [] ->
  ring_poly (terms (plain p)) -> ring_poly (terms a) -> p_redMaybe dbg (plain p) a = Ok q -> simulated p q (c_redMaybe dbg p a).
Proof.
  intros A R Np Na Rp Ra. unfold p_redMaybe, c_redMaybe. assert (Ca := same_can a A R).
  destruct (terms a) as [|[v d] l'] eqn:Ea; [congruence|].
  destruct (skip_cells v (cells p) []) as [S1 S2]. cbn [map app] in S1, S2. unfold t, o in S1.
  cbn [plain terms pto pbo] in *. assert (C := can).
  destruct (cells p) as [|x0 l0] eqn:E; [destruct Np; reflexivity|]. rewrite <- E in *.
  assert (X : exists x1 l1, map snd (cells p) = x1 :: l1) by (rewrite E; exists (snd x0), (map snd l0); reflexivity). destruct X as (x1 & l1 & X). rewrite X. rewrite <- X.
  rewrite S1. unfold t, o in S2. destruct (c_skip_gt (cto p) (cbo p) v [] (cells p)) as [pre rest] eqn:Sk. cbn [fst snd] in *.
  destruct rest as [|[i [m c]] rest]; cbn [map snd].
  { intro H. injection H as <-. apply simulated_same. }
  destruct (eqm m v) eqn:Q.
  2:{ intro H. injection H as <-. apply simulated_same. }
  rewrite <- S2 in C, Rp. rewrite map_app in C, Rp. apply canonical_iff in C as (Sf & Mf & Nf).
  apply sorted_app in Sf as (Sf1 & Sf2 & Sf3). apply Forall_app in Mf as [M1 M2]. apply Forall_app in Nf as [N1 N2].
  assert (Cr : canonical t o n (map snd ((i, (m, c)) :: rest))) by (apply canonical_iff; auto).
  apply Forall_app in Rp as [_ Rp]. cbn [map snd] in Rp. assert (Pm := Forall_inv Rp). assert (Pv := Forall_inv Ra). cbn [fst] in Pm, Pv.
  assert (Hm : mono n m) by exact (Forall_inv M2).
  assert (Hv : mono n v) by (apply canonical_iff in Ca as (_ & M & _); exact (Forall_inv M)).
  assert (mv : m = v).
  { apply (eqm_spec n m v Hm Hv) in Q. destruct m as [pm vm], v as [pv vv]. cbn in *. congruence. }
  subst v.
  assert (Dv : mdivides m m) by (split; [right; reflexivity|split; [reflexivity|intro; lia]]).
  assert (Rd : reducer dbg m ((m, d) :: l')).
  { split; [|intros _; left; exact Pm]. unfold in_component. rewrite Pm. exact Ra. }
  destruct (red_cells i m c rest m d l' (fresh p) Cr Ca Dv Rd) as (k1 & k2 & r & k' & E1 & K1 & E2 & E3 & K & Cl & B).
  unfold red_tail. rewrite Ea. unfold assert_. change (Poly (cto p) (cbo p) (csize p) (map snd (cells p))) with (plain p).
  destruct (dbg && negb (comparable (plain p) a)); [discriminate|]. rewrite E1. cbn [bind]. cbn [pto pbo plain].
  unfold t, o in E2, E3. rewrite E2, E3. cbn [bind fst snd]. rewrite <- scale_plain, <- map_app.
  destruct (checked dbg (with_terms (plain p) (map snd (c_scale k1 pre ++ r)))) as [q'| | | |] eqn:Ck; cbn [bind]; try discriminate.
  intro H. injection H as <-. assert (Sm := simulated_checked dbg p q' (c_scale k1 pre ++ r) k' Ck).
  assert (Eq : q' = with_terms (plain p) (map snd (c_scale k1 pre ++ r))).
  { revert Ck. unfold checked, assert_. destruct (dbg && negb _); [discriminate|]. intro Z. now injection Z as <-. }
  rewrite <- map_app. rewrite <- Eq. apply Sm.
  assert (Ba : forall u, In u (mons (c_scale k1 pre)) -> In u (mons pre)).
  { unfold mons, c_scale. intro u. rewrite map_map. auto. }
  assert (Gt : forall u, In u (mons pre) -> mono n u /\ cmp1 t o u m = 1 /\ below t o u (map snd ((i, (m, c)) :: rest))).
  { intros u Hu. apply in_map_iff in Hu as ((j & w & e) & Z & Hu). cbn in Z. subst w.
    rewrite Forall_forall in Sf3, M1. assert (Hj : In (u, e) (map snd pre)) by (apply in_map_iff; exists (j, (u, e)); auto).
    specialize (Sf3 _ Hj). specialize (M1 _ Hj). split; [exact M1|]. split; [exact (Forall_inv Sf3)|exact Sf3]. }
  rewrite <- S2. apply kept_after_scale with (c := k1).
  replace (c_scale k1 (pre ++ (i, (m, c)) :: rest)) with (c_scale k1 pre ++ c_scale k1 ((i, (m, c)) :: rest)) by (unfold c_scale; now rewrite map_app).
  assert (K' : kept (fresh p) (c_scale k1 ((i, (m, c)) :: rest)) r k').
  { assert (Xq : forall j u, (exists e, In (j, (u, e)) (c_scale k1 ((i, (m, c)) :: rest))) <-> (exists e, In (j, (u, e)) ((i, (m, c)) :: rest))).
    { intros j u. split; intros [e He].
      - apply in_map_iff in He as ((j' & u' & e') & Z & He). cbn in Z. injection Z as <- <- <-. eauto.
      - exists (e * k1). apply in_map_iff. exists (j, (u, e)). auto. }
    constructor.
    - apply (k_le _ _ _ _ K).
    - intros j u e He. destruct (k_from _ _ _ _ K _ _ _ He) as [Z|Z]; [left; apply Xq; exact Z|right; exact Z].
    - intros j u e He I. destruct (proj1 (Xq j u) (ex_intro _ e He)) as [e' He']. apply (k_stay _ _ _ _ K _ _ _ He' I).
    - assert (Z : adr (c_scale k1 ((i, (m, c)) :: rest)) = adr ((i, (m, c)) :: rest)) by (unfold adr, c_scale; rewrite map_map; reflexivity).
      rewrite Z. apply (k_nodup _ _ _ _ K). }
  apply kept_app; [exact K'| |].
  - intros u Hu. apply Ba in Hu. destruct (Gt u Hu) as (G1 & G2 & G3). rewrite <- mons_map. apply (below_notin t o n); [exact G1| |].
    + apply canonical_iff in Cl as (_ & M & _). exact M.
    + apply (below_trans t o n _ m); auto. apply canonical_iff in Cl as (_ & M & _). exact M.
  - intros u Hu. apply Ba in Hu. destruct (Gt u Hu) as (G1 & G2 & G3).
    replace (mons (c_scale k1 ((i, (m, c)) :: rest))) with (mons ((i, (m, c)) :: rest)) by (unfold mons, c_scale; rewrite map_map; reflexivity).
    rewrite <- mons_map. apply (below_notin t o n); assumption.
Qed.

Lemma edit_ok e q : allowed dbg (plain p) e -> value dbg (plain p) e = Ok q -> simulated p q (c_edit dbg p e).
Proof.
  intros A H. destruct A; cbn [value] in H.
  - apply edit_minus; assumption.
  - apply edit_add; assumption.
  - apply edit_sub; assumption.
  - apply edit_add_const; assumption.
  - apply edit_sub_const; assumption.
  - apply edit_mult_const; assumption.
  - apply edit_pp; assumption.
  - eapply edit_reduction; eassumption.
  - apply edit_redMaybe; assumption.
Qed.
End Edit.
