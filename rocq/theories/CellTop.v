(** Proofs for C101: references through any sequence of edits, and sessions with generators. *)
From Coq Require Import ZArith List Bool Arith Lia Sorted.
From Verif Require Import Outcome MonomModel MonomSpec MonomProofs PolyModel PolySpec PolyProofs PolyRedProofs PolyNfProofs PolyTopProofs.
From Verif Require IdealProofs.
From Verif Require Import CellModel CellPyModel CellSpec CellProofs CellEditProofs.
Import ListNotations.
Local Open Scope Z_scope.

Lemma at_addr_in i x l : NoDup (adr l) -> In (i, x) l -> at_addr i l = Some x.
Proof.
  unfold at_addr. induction l as [|[j y] l IH]; intros N I; [destruct I|]. cbn [find fst]. cbn in N. inversion N; subst.
  destruct (Nat.eqb_spec j i).
  - subst j. destruct I as [I|I]; [injection I as <-; reflexivity|]. destruct H1. eapply in_adr; eauto.
  - destruct I as [I|I]; [injection I as <- <-; congruence|]. apply IH; assumption.
Qed.
Lemma at_addr_out i l : ~ In i (adr l) -> at_addr i l = None.
Proof.
  unfold at_addr. induction l as [|[j y] l IH]; intro N; [reflexivity|]. cbn [find fst]. cbn in N.
  destruct (Nat.eqb_spec j i); [tauto|]. apply IH. tauto.
Qed.
Lemma nodup_same i (x y : term) l : NoDup (adr l) -> In (i, x) l -> In (i, y) l -> x = y.
Proof. intros N H1 H2. apply (at_addr_in i x l N) in H1. apply (at_addr_in i y l N) in H2. congruence. Qed.
Lemma has_mons m p : has m (plain p) <-> In m (mons (cells p)).
Proof. unfold has. cbn [plain terms]. rewrite mons_map. reflexivity. Qed.
Lemma has_b_ok m p : has_b m p = true <-> has m p.
Proof.
  unfold has_b, has. rewrite existsb_exists. split.
  - intros (x & I & E). destruct (monom_eq_dec (fst x) m) as [<-|]; [|discriminate]. apply in_map. exact I.
  - intro I. apply in_map_iff in I as (x & E & I). exists x. split; [exact I|]. destruct (monom_eq_dec (fst x) m); congruence.
Qed.

Lemma simulated_memory p q p' : in_memory p -> plain p' = q -> kept (fresh p) (cells p) (cells p') (fresh p') -> in_memory p'.
Proof. intros [N F] _ K. split; [apply (k_nodup _ _ _ _ K); assumption|]. eapply kept_below; eauto. Qed.

Lemma allowed_operation dbg p e : allowed dbg p e -> operation dbg p (value dbg p e).
Proof. intros []; cbn [value]; econstructor; eassumption. Qed.
Lemma value_ok dbg p e : valid_poly p -> allowed dbg p e -> exists q, value dbg p e = Ok q /\ valid_poly q /\ same_ring p q.
Proof. intros V A. apply (c09_operation dbg p _ V). apply allowed_operation. exact A. Qed.

Lemma last_any (x : poly) : forall l d e, last (x :: l) d = last (x :: l) e.
Proof. intro l. revert x. induction l as [|y l IH]; intros x d e; [reflexivity|]. exact (IH y d e). Qed.

(** An address that is not in use, or not for this monomial any more, stays so. *)
Lemma lost_stays dbg : forall es p ps i, in_memory p -> valid_poly (plain p) -> values dbg (plain p) es ps ->
  ~ In i (adr (cells p)) -> (i < fresh p)%nat ->
  exists p', c_edits dbg p es = Ok p' /\ ~ In i (adr (cells p')).
Proof.
  induction es as [|e es IH]; intros p ps i M V H N L; inversion H; subst; cbn [c_edits].
  - exists p. auto.
  - destruct (value_ok dbg (plain p) e V H2) as (q' & E & Vq & _). assert (q' = q) by congruence. subst q'.
    destruct (edit_ok dbg p V e q H2 E) as (p1 & E1 & E2 & K). rewrite E1. cbn [bind].
    assert (M1 := simulated_memory p q p1 M E2 K). subst q.
    apply (IH p1 ps0 i M1 Vq H6).
    + intro I. destruct (kept_adr _ _ _ _ K i I) as [X|X]; [contradiction|lia].
    + assert (X := k_le _ _ _ _ K). lia.
Qed.

Lemma references_ok dbg : forall es p ps, in_memory p -> valid_poly (plain p) -> values dbg (plain p) es ps ->
  exists p', c_edits dbg p es = Ok p' /\ plain p' = last ps (plain p) /\ in_memory p' /\
    forall i m c, In (i, (m, c)) (cells p) ->
      (Forall (has m) ps -> at_addr i (cells p') = Some (m, coef (terms (plain p')) m)) /\
      (~ Forall (has m) ps -> at_addr i (cells p') = None).
Proof.
  induction es as [|e es IH]; intros p ps M V H; inversion H; subst; cbn [c_edits].
  - exists p. split; [reflexivity|]. split; [reflexivity|]. split; [exact M|]. intros i m c I.
    assert (Hm : has m (plain p)) by (apply has_mons; eapply in_mons; eauto). split.
    + intros _. rewrite (at_addr_in i (m, c)); [|apply M|exact I]. do 2 f_equal. symmetry.
      assert (C := V). apply canonical_iff in C as (S & Mo & _). apply (coef_in (pto (plain p)) (pbo (plain p)) (psize (plain p))); auto.
      cbn [plain terms]. apply in_map_iff. exists (i, (m, c)). auto.
    + intro X. destruct X. constructor; auto.
  - destruct (value_ok dbg (plain p) e V H2) as (q' & E & Vq & _). assert (q' = q) by congruence. subst q'.
    destruct (edit_ok dbg p V e q H2 E) as (p1 & E1 & E2 & K). rewrite E1. cbn [bind].
    assert (M1 := simulated_memory p q p1 M E2 K). subst q.
    destruct (IH p1 ps0 M1 Vq H6) as (p' & F1 & F2 & F3 & F4). exists p'. split; [exact F1|].
    split.
    { rewrite F2. destruct H6; [reflexivity|]. change (last (plain p :: p0 :: ps) (plain p)) with (last (p0 :: ps) (plain p)). apply last_any. }
    split; [exact F3|]. intros i m c I.
    assert (Hm : has m (plain p)) by (apply has_mons; eapply in_mons; eauto).
    destruct (has_b m (plain p1)) eqn:B.
    + apply has_b_ok in B. assert (B' := B). apply has_mons in B'. destruct (k_stay _ _ _ _ K _ _ _ I B') as [c' I'].
      destruct (F4 i m c' I') as [G1 G2]. split.
      * intro X. apply G1. now inversion X.
      * intro X. apply G2. intro Y. apply X. constructor; assumption.
    + assert (B' : ~ has m (plain p1)) by (intro X; apply has_b_ok in X; congruence).
      assert (P1 : exists ps1, ps0 = plain p1 :: ps1) by (destruct H6; eauto). destruct P1 as [ps1 ->].
      split; [intro X; inversion X; subst; inversion H5; subst; contradiction|]. intros _. apply at_addr_out.
      assert (N : ~ In i (adr (cells p1))).
      { intro X. apply in_map_iff in X as ((j & u & d) & Ej & X). cbn in Ej. subst j.
        destruct (k_from _ _ _ _ K _ _ _ X) as [[d' Y]|Y].
        - assert (Z := nodup_same i _ _ _ (proj1 M) I Y). injection Z as <- <-. apply B'. apply has_mons. eapply in_mons; eauto.
        - destruct M as [_ F]. rewrite Forall_forall in F. assert (Z := F i (in_adr _ _ _ I)). lia. }
      destruct (lost_stays dbg es p1 _ i M1 Vq H6 N) as (p2 & G1 & G2); [|congruence].
      destruct M as [_ F]. rewrite Forall_forall in F. assert (Z := F i (in_adr _ _ _ I)). assert (L := k_le _ _ _ _ K). lia.
Qed.

(** New terms are at new addresses. *)
Lemma begin_memory p k : in_memory (begin p k) /\ plain (begin p k) = p.
Proof.
  unfold in_memory, begin. cbn [cells fresh]. rewrite fst_combine. split.
  - split; [apply seq_NoDup|]. apply Forall_forall. intros i H. apply in_seq in H. lia.
  - unfold plain. cbn. rewrite snd_combine. destruct p; reflexivity.
Qed.

(* ------------------------------------------------------------------------------------------ *)
(** * Sessions *)

Definition pref (p : cpoly) (i : addr) (r : ref) : Prop :=
  match r with Here m => exists c, In (i, (m, c)) (cells p) | Lost => ~ In i (adr (cells p)) /\ (i < fresh p)%nat end.
Definition gref (f : addr -> ref -> Prop) (g : gen) (h : sgen) : Prop :=
  match g, h with
  | GNew, SNew => True
  | GAt None, SAt None => True
  | GAt (Some i), SAt (Some r) => f i r
  | GEnded, SEnded => True
  | GDropped, SDropped => True
  | _, _ => False
  end.
Definition related (n : nat) (t : pos_order) (o : base_order) (s : session) (w : world) : Prop :=
  named s = wnamed w /\
  match object s, wp w with
  | Some p, Some q => in_memory p /\ plain p = q /\ valid_poly q /\ ring_poly (terms q) /\ psize q = n /\ pto q = t /\ pbo q = o /\
      Forall2 (gref (pref p)) (gens s) (wgens w) /\ Forall2 (pref p) (pairs s) (wpairs w)
  | None, None => Forall2 (gref (fun _ _ => True)) (gens s) (wgens w) /\ Forall2 (fun _ _ => True) (pairs s) (wpairs w)
  | _, _ => False
  end.

Lemma keep_pref p p' i r : in_memory p -> kept (fresh p) (cells p) (cells p') (fresh p') -> pref p i r -> pref p' i (keep (plain p') r).
Proof.
  intros [N F] K H. assert (L := k_le _ _ _ _ K). destruct r as [m|]; cbn [keep pref] in *.
  - destruct H as [c I]. assert (Li : (i < fresh p)%nat) by (rewrite Forall_forall in F; apply F; eapply in_adr; eauto).
    destruct (has_b m (plain p')) eqn:B.
    + apply has_b_ok, has_mons in B. apply (k_stay _ _ _ _ K _ _ _ I B).
    + split; [|lia]. intro X. apply in_map_iff in X as ((j & u & d) & Ej & X). cbn in Ej. subst j.
      destruct (k_from _ _ _ _ K _ _ _ X) as [[d' Y]|Y]; [|lia].
      assert (Z := nodup_same i _ _ _ N I Y). injection Z as <- <-.
      assert (W : has_b m (plain p') = true) by (apply has_b_ok, has_mons; eapply in_mons; eauto). congruence.
  - destruct H as [H Li]. split; [|lia]. intro X. destruct (kept_adr _ _ _ _ K i X) as [Y|Y]; [contradiction|lia].
Qed.
Lemma keep_gref p p' g h : in_memory p -> kept (fresh p) (cells p) (cells p') (fresh p') -> gref (pref p) g h -> gref (pref p') g (keep_gen (plain p') h).
Proof.
  intros M K. destruct g as [|[i|]| |], h as [|[r|]| |]; cbn [gref keep_gen]; auto. intro H. eapply keep_pref; eauto.
Qed.
Lemma f2_map_r {A B C} (R : A -> B -> Prop) (S : A -> C -> Prop) (f : B -> C) l l' : (forall x y, R x y -> S x (f y)) ->
  Forall2 R l l' -> Forall2 S l (map f l').
Proof. intros H F. induction F; cbn; constructor; auto. Qed.
Lemma f2_impl {A B} (R S : A -> B -> Prop) l l' : (forall x y, R x y -> S x y) -> Forall2 R l l' -> Forall2 S l l'.
Proof. intros H F. induction F; constructor; auto. Qed.
Lemma f2_nth {A B} (R : A -> B -> Prop) l l' k : Forall2 R l l' ->
  match nth_error l k, nth_error l' k with Some x, Some y => R x y | None, None => True | _, _ => False end.
Proof. intro F. revert k. induction F as [|x y l l' H F IH]; intros [|k]; cbn; auto. apply IH. Qed.
Lemma f2_set {A B} (R : A -> B -> Prop) l l' k x y : Forall2 R l l' -> R x y -> Forall2 R (set_nth k x l) (set_nth k y l').
Proof. intros F H. revert k. induction F as [|a b l l' Hab F IH]; intros [|k]; cbn; constructor; auto. Qed.
Lemma f2_snoc {A B} (R : A -> B -> Prop) l l' x y : Forall2 R l l' -> R x y -> Forall2 R (l ++ [x]) (l' ++ [y]).
Proof. intros F H. apply Forall2_app; [exact F|]. constructor; [exact H|constructor]. Qed.

Section Session.
Variables (fuel : nat) (dbg : bool) (n : nat) (t : pos_order) (o : base_order).
Notation rel := (related n t o).

Lemma becomes_rel s w p p' : rel s w -> object s = Some p -> kept (fresh p) (cells p) (cells p') (fresh p') ->
  valid_poly (plain p') -> ring_poly (terms (plain p')) -> csize p' = n -> cto p' = t -> cbo p' = o ->
  rel (Session (Some p') (named s) (gens s) (pairs s)) (becomes w (plain p')).
Proof.
  intros [Na H] E K V R E1 E2 E3. rewrite E in H. split; [exact Na|]. cbn [object becomes wp].
  destruct (wp w) as [q|]; [|destruct H]. destruct H as (M & _ & _ & _ & _ & _ & _ & G & P).
  split; [eapply simulated_memory; eauto|]. split; [reflexivity|]. split; [exact V|]. split; [exact R|].
  split; [exact E1|]. split; [exact E2|]. split; [exact E3|]. split.
  - eapply f2_map_r; [|exact G]. intros x y. apply keep_gref; assumption.
  - eapply f2_map_r; [|exact P]. intros x y. apply keep_pref; assumption.
Qed.

Lemma settle_rel s w : rel s w -> rel (collect s) (settle w).
Proof.
  intros [Na H]. assert (E : named s || existsb running (gens s) = alive w).
  { unfold alive. rewrite Na. f_equal. assert (F : exists f, Forall2 (gref f) (gens s) (wgens w)).
    { destruct (object s), (wp w); try contradiction; [exists (pref c); tauto|exists (fun _ _ => True); tauto]. }
    destruct F as [f F]. clear H Na. induction F as [|g h l l' Hgh F IH]; [reflexivity|]. cbn [existsb]. rewrite IH. f_equal.
    destruct g as [|[i|]| |], h as [|[r|]| |]; cbn in *; tauto. }
  unfold collect, settle. rewrite E. destruct (alive w); [split; assumption|]. split; [exact Na|]. cbn.
  destruct (object s) as [p|], (wp w) as [q|]; try contradiction; [|exact H].
  destruct H as (_ & _ & _ & _ & _ & _ & _ & G & P). split.
  - eapply f2_impl; [|exact G]. intros g h. destruct g as [|[i|]| |], h as [|[r|]| |]; cbn; tauto.
  - eapply f2_impl; [|exact P]. auto.
Qed.

Lemma ring_reducer m a : ring_poly (terms a) -> pos m = -1 -> reducer dbg m (terms a).
Proof. intros R E. split; [unfold in_component; rewrite E; exact R|intros _; left; exact E]. Qed.

(** One reduction. *)
Lemma reduction_rel s w p m c l a v d l' : rel s w -> object s = Some p -> terms (plain p) = (m, c) :: l ->
  valid_poly a -> ring_poly (terms a) -> same_ring (plain p) a -> terms a = (v, d) :: l' -> mdivides v m ->
  exists p' , c_reduction dbg p a = Ok p' /\ p_reduction dbg (plain p) a = Ok (plain p') /\
    rel (Session (Some p') (named s) (gens s) (pairs s)) (becomes w (plain p')).
Proof.
  intros H E Et A Ra S Ea D. assert (H0 := H). destruct H0 as [_ H0]. rewrite E in H0.
  destruct (wp w) as [q|]; [|destruct H0]. destruct H0 as (M & Ep & V & R & En & Eto & Eo & _). subst q.
  assert (Pm : pos m = -1) by (rewrite Et in R; exact (Forall_inv R)).
  assert (Rd := ring_reducer m a Ra Pm).
  destruct (p_reduction_ok dbg (plain p) a m c l v d l') as (r & k1 & k2 & u & E1 & C & Vr & K1 & K2 & _ & Lu & Hu & Co & _); auto.
  { apply comparable_eq. exact S. }
  destruct (edit_reduction dbg p V a m c l v d l' r A S Et Ea D Rd E1) as (p' & F1 & F2 & K). subst r.
  exists p'. split; [exact F1|]. split; [exact E1|].
  apply comparable_eq in C as (C1 & C2 & C3). cbn [plain psize pto pbo] in C1, C2, C3, En, Eto, Eo.
  apply (becomes_rel s w p p' H E K Vr); try congruence.
  eapply IdealProofs.ring_of_coef; [exact Vr|]. intros x Nx. rewrite Co, (IdealProofs.coef_ring _ x R Nx), (IdealProofs.coef_ring _ x (IdealProofs.ring_shift u _ Ra) Nx). lia.
Qed.

(** Outcomes that correspond. *)
Inductive agree : outcome (session * obs) -> outcome (world * obs) -> Prop :=
| agree_ok s w v : rel s w -> agree (Ok (s, v)) (Ok (w, v))
| agree_undef : agree Undef Undef
| agree_fuel : agree OutOfFuel OutOfFuel.

Lemma becomes_same s w : rel s w -> rel s w. Proof. auto. Qed.

Lemma nf_rel find : good_find dbg t o n ring_poly find -> forall f s w p, rel s w -> object s = Some p ->
  agree (change s (c_nf f dbg find p)) (do w' <- means_nf f dbg find w (plain p); Ok (w', VNone)).
Proof.
  intro GF. induction f as [|f IH]; intros s w p H E.
  - cbn [c_nf means_nf]. assert (H0 := H). destruct H0 as [_ H0]. rewrite E in H0.
    destruct (wp w) as [q|] eqn:Ew; [|destruct H0]. destruct H0 as (M & Ep & V & R & En & Eto & Eo & _). subst q.
    assert (Hs : rel (Session (Some p) (named s) (gens s) (pairs s)) w).
    { destruct s as [ob na ge pa]. cbn in *. subst ob. exact H. }
    cbn [plain terms] in *. destruct (cells p) as [|[i [m c]] rest] eqn:Ec; cbn [map snd].
    { cbn [change bind]. now apply agree_ok. }
    assert (Hm : mono n m).
    { apply canonical_iff in V as (_ & Mo & _). cbn [plain psize terms] in *. rewrite Ec in Mo. rewrite En in Mo. exact (Forall_inv Mo). }
    destruct (GF m Hm) as (r & Er & Hr). rewrite Er. cbn [bind]. destruct r as [a|]; cbn [change bind]; [apply agree_fuel|now apply agree_ok].
  - cbn [c_nf means_nf]. assert (H0 := H). destruct H0 as [_ H0]. rewrite E in H0.
    destruct (wp w) as [q|] eqn:Ew; [|destruct H0]. destruct H0 as (M & Ep & V & R & En & Eto & Eo & _). subst q.
    assert (Hs : rel (Session (Some p) (named s) (gens s) (pairs s)) w).
    { destruct s as [ob na ge pa]. cbn in *. subst ob. exact H. }
    assert (Et : terms (plain p) = map snd (cells p)) by reflexivity.
    destruct (cells p) as [|[i [m c]] rest] eqn:Ec; cbn [map snd] in Et; rewrite Et.
    { cbn [change bind]. now apply agree_ok. }
    assert (Hm : mono n m).
    { apply canonical_iff in V as (_ & Mo & _). rewrite Et, En in Mo. exact (Forall_inv Mo). }
    destruct (GF m Hm) as (r & Er & Hr). rewrite Er. cbn [bind]. destruct r as [a|]; [|cbn [change bind]; now apply agree_ok].
    destruct (Hr a eq_refl) as (Va & A1 & A2 & A3 & Ga & Ra & v & d & a' & Ea & D).
    assert (Sr : same_ring (plain p) a) by (split; [|split]; congruence).
    destruct (reduction_rel s w p m c (map snd rest) a v d a' H E Et Va Ga Sr Ea D) as (p' & F1 & F2 & F3).
    rewrite F1, F2. cbn [bind]. specialize (IH _ _ p' F3 eq_refl). unfold change in *. cbn [named gens pairs] in *.
    exact IH.
Qed.

Lemma next_cell p i m c : NoDup (adr (cells p)) -> NoDup (mons (cells p)) -> In (i, (m, c)) (cells p) ->
  exists j, cell_after i (cells p) = Some j /\
    match j with
    | None => next_monom m (map snd (cells p)) = None
    | Some j => exists m' c', next_monom m (map snd (cells p)) = Some m' /\ In (j, (m', c')) (cells p)
    end.
Proof.
  induction (cells p) as [|[j [u d]] l IH]; intros N N' I; [destruct I|]. cbn [cell_after fst map snd next_monom]. cbn in N, N'. inversion N; inversion N'; subst.
  destruct I as [I|I].
  - injection I as -> -> ->. rewrite Nat.eqb_refl. destruct (monom_eq_dec m m); [|congruence]. eexists. split; [reflexivity|].
    destruct l as [|[j' [u' d']] l]; cbn; [reflexivity|]. exists u', d'. split; [reflexivity|]. right. left. reflexivity.
  - destruct (Nat.eqb_spec j i); [subst j; destruct H1; eapply in_adr; eauto|].
    destruct (monom_eq_dec u m); [subst u; destruct H5; eapply in_mons; eauto|].
    destruct (IH H2 H6 I) as (k & E & Hk). exists k. split; [exact E|]. destruct k as [k|]; [|exact Hk].
    destruct Hk as (m' & c' & E' & I'). exists m', c'. split; [exact E'|right; exact I'].
Qed.
Lemma mons_nodup p : valid_poly (plain p) -> NoDup (mons (cells p)).
Proof.
  intro V. apply canonical_iff in V as (S & M & _). rewrite <- mons_map. cbn [plain terms pto pbo psize] in *.
  induction (map snd (cells p)) as [|x l IH]; [constructor|]. apply sorted_below in S as [B S]. apply Forall_cons_iff in M as [Hx M].
  cbn. constructor; [apply (below_notin (cto p) (cbo p) (csize p)); assumption|auto].
Qed.
Lemma cell_after_out i l : ~ In i (adr l) -> cell_after i l = None.
Proof.
  induction l as [|[j x] l IH]; intro N; [reflexivity|]. cbn [cell_after fst]. cbn in N. destruct (Nat.eqb_spec j i); [tauto|]. apply IH. tauto.
Qed.

Lemma step_rel s w c : rel s w -> reducers n t o dbg c -> agree (step fuel dbg s c) (means fuel dbg w c).
Proof.
  intros H Rc. assert (H0 := H). destruct H0 as [Na H0].
  assert (OP : forall k h, (forall p, object s = Some p -> agree (k p) (h (plain p))) -> agree (with_p s k) (on_p w h)).
  { intros k h X. unfold with_p, on_p. rewrite <- Na. destruct (named s); [|now apply agree_ok].
    destruct (object s) as [p|] eqn:E, (wp w) as [q|] eqn:Ew; try contradiction; [|apply agree_undef].
    destruct H0 as (_ & <- & _). apply X. reflexivity. }
  destruct c as [|g|g|v|q| |find| ]; cbn [step means].
  - apply OP. intros p E. apply agree_ok. split; [exact Na|]. cbn [object wp gens wgens pairs wpairs].
    destruct (object s) as [p0|], (wp w) as [q|]; try contradiction.
    + destruct H0 as (X1 & X2 & X3 & X4 & X5 & X6 & X7 & G & P). do 7 (split; [assumption|]). split; [|exact P].
      apply f2_snoc; [exact G|exact Logic.I].
    + discriminate.
  - (* next *)
    destruct (object s) as [p|] eqn:E, (wp w) as [q|] eqn:Ew; try contradiction.
    2:{ assert (F := f2_nth _ _ _ g (proj1 H0)). destruct (nth_error (gens s) g) as [x|], (nth_error (wgens w) g) as [y|]; try contradiction; [|now apply agree_ok].
        destruct x as [|[i|]| |], y as [|[r|]| |]; cbn in F; try contradiction; try (now apply agree_ok); apply agree_undef. }
    destruct H0 as (M & <- & V & R & En & Eto & Eo & G & P).
    assert (F := f2_nth _ _ _ g G).
    assert (Fin : forall x y, gref (pref p) x y -> rel (Session (Some p) (named s) (set_nth g x (gens s)) (pairs s)) (World (Some (plain p)) (wnamed w) (set_nth g y (wgens w)) (wpairs w))).
    { intros x y Hxy. split; [exact Na|]. cbn. split; [exact M|]. split; [reflexivity|]. split; [exact V|]. split; [exact R|]. split; [exact En|].
      split; [exact Eto|]. split; [exact Eo|]. split; [|exact P]. apply f2_set; assumption. }
    assert (Yield : forall i m, pref p i (Here m) ->
       agree (match cell_after i (cells p) with None => Undef | Some j => Ok (Session (Some p) (named s) (set_nth g (GAt j) (gens s)) (pairs s ++ [i]), VPair) end)
         (Ok (World (Some (plain p)) (wnamed w) (set_nth g (SAt (here (next_monom m (terms (plain p))))) (wgens w)) (wpairs w ++ [Here m]), VPair))).
    { intros i m [c I]. destruct (next_cell p i m c (proj1 M) (mons_nodup p V) I) as (j & Ej & Hj). rewrite Ej. apply agree_ok.
      split; [exact Na|]. cbn [object wp gens wgens pairs wpairs]. split; [exact M|]. split; [reflexivity|]. split; [exact V|]. split; [exact R|]. split; [exact En|].
      split; [exact Eto|]. split; [exact Eo|]. split.
      - apply f2_set; [exact G|]. cbn [plain terms]. destruct j as [j|]; [|rewrite Hj; exact Logic.I].
        destruct Hj as (m' & c' & -> & I'). cbn. eauto.
      - apply f2_snoc; [exact P|]. cbn. eauto. }
    destruct (nth_error (gens s) g) as [x|], (nth_error (wgens w) g) as [y|]; try contradiction; [|now apply agree_ok].
    destruct x as [|[i|]| |], y as [|[r|]| |]; cbn [gref] in F; try contradiction; try (now apply agree_ok).
    + (* first *) cbn [plain terms]. destruct (cells p) as [|[i [m c]] rest] eqn:Ec; cbn [first_cell map fst snd hd_error here].
      * apply agree_ok. apply settle_rel. apply Fin. exact Logic.I.
      * assert (Y : pref p i (Here m)) by (exists c; rewrite Ec; left; reflexivity). specialize (Yield i m Y).
        change ((m, c) :: map snd rest) with (map snd ((i, (m, c)) :: rest)). rewrite <- Ec in *. exact Yield.
    + destruct r as [m|].
      * apply Yield. exact F.
      * destruct F as [F _]. rewrite (cell_after_out i _ F). apply agree_undef.
    + apply agree_ok. apply settle_rel. apply Fin. exact Logic.I.
  - (* del g *)
    assert (F : exists f, Forall2 (gref f) (gens s) (wgens w)).
    { destruct (object s), (wp w); try contradiction; [exists (pref c); tauto|exists (fun _ _ => True); tauto]. }
    destruct F as [f F]. assert (Fn := f2_nth _ _ _ g F).
    destruct (nth_error (gens s) g) as [x|], (nth_error (wgens w) g) as [y|]; try contradiction; [|now apply agree_ok].
    assert (Z : rel (Session (object s) (named s) (set_nth g GDropped (gens s)) (pairs s)) (World (wp w) (wnamed w) (set_nth g SDropped (wgens w)) (wpairs w))).
    { split; [exact Na|]. cbn [object wp gens wgens pairs wpairs]. destruct (object s) as [p|], (wp w) as [q|]; try contradiction.
      - destruct H0 as (X1 & X2 & X3 & X4 & X5 & X6 & X7 & G & P). do 7 (split; [assumption|]). split; [|exact P]. apply f2_set; [exact G|exact Logic.I].
      - destruct H0 as [G P]. split; [|exact P]. apply f2_set; [exact G|exact Logic.I]. }
    apply settle_rel in Z.
    destruct x as [|[i|]| |], y as [|[r|]| |]; cbn [gref] in Fn; try contradiction; (apply agree_ok; assumption).
  - (* look *)
    destruct (object s) as [p|] eqn:E, (wp w) as [q|] eqn:Ew; try contradiction.
    + destruct H0 as (M & <- & V & _ & _ & _ & _ & _ & P). assert (F := f2_nth _ _ _ v P).
      destruct (nth_error (pairs s) v) as [i|], (nth_error (wpairs w) v) as [r|]; try contradiction; [|now apply agree_ok].
      destruct r as [m|]; cbn [pref] in F.
      * destruct F as [c I]. rewrite (at_addr_in i (m, c) _ (proj1 M) I).
        replace (coef (terms (plain p)) m) with c; [now apply agree_ok|]. symmetry. apply canonical_iff in V as (S & Mo & _).
        apply (coef_in (pto (plain p)) (pbo (plain p)) (psize (plain p))); auto. cbn [plain terms]. apply in_map_iff. exists (i, (m, c)). auto.
      * rewrite (at_addr_out i _ (proj1 F)). apply agree_undef.
    + assert (F := f2_nth _ _ _ v (proj2 H0)).
      destruct (nth_error (pairs s) v) as [i|], (nth_error (wpairs w) v) as [r|]; try contradiction; [|now apply agree_ok].
      destruct r; apply agree_undef.
  - (* reduction *)
    apply OP. intros p E. rewrite E in H0. destruct (wp w) as [q0|] eqn:Ew; [|destruct H0].
    destruct H0 as (M & <- & V & R & En & Eto & Eo & _). destruct Rc as [Vq Rq].
    assert (Et : terms (plain p) = map snd (cells p)) by reflexivity.
    destruct (cells p) as [|[i [m c]] rest] eqn:Ec; cbn [map snd] in Et; rewrite Et; [now apply agree_ok|].
    destruct (terms q) as [|[v d] l'] eqn:Eq; [now apply agree_ok|].
    destruct (comparable (plain p) q && divisiable m v) eqn:B; [|now apply agree_ok].
    apply andb_true_iff in B as [B1 B2]. apply comparable_eq in B1 as S.
    assert (Hm : mono n m) by (apply canonical_iff in V as (_ & Mo & _); rewrite Et, En in Mo; exact (Forall_inv Mo)).
    assert (Hv : mono n v).
    { apply canonical_iff in Vq as (_ & Mo & _). rewrite Eq in Mo. destruct S as (S1 & _). rewrite <- S1, En in Mo. exact (Forall_inv Mo). }
    apply (divisiable_mdivides n m v Hm Hv) in B2. rewrite <- Eq in Rq.
    destruct (reduction_rel s w p m c (map snd rest) q v d l' H E Et Vq Rq S Eq B2) as (p' & F1 & F2 & F3).
    rewrite F1, F2. unfold change. cbn [bind]. now apply agree_ok.
  - (* pp *)
    apply OP. intros p E. rewrite E in H0. destruct (wp w) as [q0|] eqn:Ew; [|destruct H0].
    destruct H0 as (M & <- & V & R & En & Eto & Eo & _).
    destruct (p_isPp_ok dbg (plain p) V) as (b & Eb & _). rewrite Eb. cbn [bind]. destruct b; [now apply agree_ok|].
    destruct (p_pp_ok dbg (plain p) V) as (r & g & Er & C & Vr & _ & Em & _). rewrite Er. cbn [bind].
    destruct (edit_pp dbg p r Er) as (p' & F1 & F2 & K). subst r. rewrite F1. unfold change. cbn [bind]. apply agree_ok.
    apply comparable_eq in C as (C1 & C2 & C3). cbn [plain psize pto pbo] in C1, C2, C3, En, Eto, Eo.
    apply (becomes_rel s w p p' H E K Vr); try congruence.
    unfold ring_poly in *. rewrite Forall_forall in *. intros x Hx. assert (Y : In (fst x) (map fst (terms (plain p)))) by (rewrite <- Em; apply in_map; exact Hx).
    apply in_map_iff in Y as (y & Ey & Y). rewrite <- Ey. apply R. exact Y.
  - (* nf *)
    apply OP. intros p E. apply nf_rel; assumption.
  - (* del p *)
    rewrite <- Na. destruct (named s); [|now apply agree_ok]. apply agree_ok. apply settle_rel. split; [reflexivity|]. exact H0.
Qed.
End Session.

Lemma sessions_ok fuel dbg p cs : valid_poly p -> ring_poly (terms p) -> Forall (reducers (psize p) (pto p) (pbo p) dbg) cs ->
  run fuel dbg (start p) cs = means_run fuel dbg (new_world p) cs.
Proof.
  intros V R F. assert (H : related (psize p) (pto p) (pbo p) (start p) (new_world p)).
  { destruct (begin_memory p 0%nat) as [M E]. split; [reflexivity|]. cbn. split; [exact M|]. split; [exact E|]. split; [exact V|]. split; [exact R|]. repeat split; constructor. }
  revert H. generalize (start p) (new_world p). induction F as [|c cs Hc F IH]; intros s w H; [reflexivity|].
  cbn [run means_run]. destruct (step_rel fuel dbg _ _ _ s w c H Hc) as [s' w' v H'| |]; cbn [bind fst snd]; try reflexivity.
  rewrite (IH s' w' H'). reflexivity.
Qed.

(* ------------------------------------------------------------------------------------------ *)
(** * list(p) *)

Definition points (g : gen) (pre suf : list cell) : Prop :=
  match g with GAt a => a = first_cell suf | GNew => pre = [] | _ => False end.
Lemma after_split i x : forall pre suf, ~ In i (adr pre) -> cell_after i (pre ++ (i, x) :: suf) = Some (first_cell suf).
Proof.
  induction pre as [|[j y] pre IH]; intros suf N; cbn [app cell_after fst].
  - rewrite Nat.eqb_refl. destruct suf as [|[j y] suf]; reflexivity.
  - cbn in N. destruct (Nat.eqb_spec j i); [tauto|]. apply IH. tauto.
Qed.
Lemma nexts_run fuel dbg cp nm rest : NoDup (adr (cells cp)) -> forall suf pre g, cells cp = pre ++ suf -> points g pre suf ->
  exists g', points g' (cells cp) [] /\
  run fuel dbg (Session (Some cp) nm [g] (adr pre)) (repeat (CNext 0) (length suf) ++ rest) =
  (do os <- run fuel dbg (Session (Some cp) nm [g'] (adr (cells cp))) rest; Ok (repeat VPair (length suf) ++ os)).
Proof.
  intro N. induction suf as [|[i x] suf IH]; intros pre g E P.
  - rewrite app_nil_r in E. subst pre. exists g. split; [exact P|]. cbn [length repeat app]. destruct (run _ _ _ rest); reflexivity.
  - cbn [length repeat app run step gens nth_error].
    assert (St : match match g with GAt a => a | _ => first_cell (cells cp) end with None => None | Some i => Some i end = Some i).
    { destruct g as [|a| |]; cbn in P; try contradiction.
      - subst pre. rewrite E. reflexivity.
      - subst a. reflexivity. }
    assert (Ni : ~ In i (adr pre)).
    { rewrite E in N. unfold adr in N. rewrite map_app in N. cbn in N. apply NoDup_remove_2 in N. intro X. apply N. apply in_or_app. left. exact X. }
    assert (Ca : cell_after i (cells cp) = Some (first_cell suf)) by (rewrite E; apply after_split; exact Ni).
    destruct (IH (pre ++ [(i, x)]) (GAt (first_cell suf))) as (g' & P' & R); [rewrite E, <- app_assoc; reflexivity|reflexivity|].
    exists g'. split; [exact P'|]. unfold adr in R at 1. rewrite map_app in R. cbn [map fst] in R.
    assert (Go : bind (match g with
        | GEnded => Ok (Session (Some cp) nm [g] (adr pre), VStopIteration)
        | GDropped => Ok (Session (Some cp) nm [g] (adr pre), VNameError)
        | _ => match match g with GAt a => a | _ => first_cell (cells cp) end with
               | None => Ok (collect (Session (Some cp) nm [GEnded] (adr pre)), VStopIteration)
               | Some i => match cell_after i (cells cp) with
                           | None => Undef
                           | Some j => Ok (Session (Some cp) nm [GAt j] (adr pre ++ [i]), VPair) end end end)
        (fun r => do os <- run fuel dbg (fst r) (repeat (CNext 0) (length suf) ++ rest); Ok (snd r :: os))
      = (do os <- run fuel dbg (Session (Some cp) nm [g'] (adr (cells cp))) rest; Ok (VPair :: repeat VPair (length suf) ++ os))).
    { destruct g as [|a| |]; cbn in P; try contradiction.
      - subst pre. cbn [app] in E. assert (F : first_cell (cells cp) = Some i) by (rewrite E; reflexivity). rewrite F, Ca. cbn [bind fst snd].
        unfold adr at 1. rewrite R. destruct (run _ _ _ rest); reflexivity.
      - subst a. cbn [first_cell fst]. rewrite Ca. cbn [bind fst snd]. unfold adr at 1. rewrite R. destruct (run _ _ _ rest); reflexivity. }
    rewrite <- Go. destruct g as [|a| |]; reflexivity.
Qed.
Lemma stop_run fuel dbg cp nm g ps rest : points g (cells cp) [] ->
  run fuel dbg (Session (Some cp) nm [g] ps) (CNext 0 :: rest) =
  (do os <- run fuel dbg (Session (if nm then Some cp else None) nm [GEnded] ps) rest; Ok (VStopIteration :: os)).
Proof.
  intro P. cbn [run step gens nth_error object named pairs]. destruct g as [|a| |]; cbn in P; try contradiction.
  - rewrite P. cbn. unfold collect. cbn. destruct nm; reflexivity.
  - subst a. cbn. unfold collect. cbn. destruct nm; reflexivity.
Qed.
Lemma looks_run fuel dbg cp gs rest : NoDup (adr (cells cp)) -> forall suf pre, cells cp = pre ++ suf ->
  run fuel dbg (Session (Some cp) true gs (adr (cells cp))) (map CLook (seq (length pre) (length suf)) ++ rest) =
  (do os <- run fuel dbg (Session (Some cp) true gs (adr (cells cp))) rest; Ok (map (fun x : cell => VTerm (fst (snd x)) (snd (snd x))) suf ++ os)).
Proof.
  intro N. induction suf as [|[i [m c]] suf IH]; intros pre E; [cbn; destruct (run _ _ _ rest); reflexivity|].
  cbn [length seq map app run step pairs object].
  assert (Nt : nth_error (adr (cells cp)) (length pre) = Some i).
  { rewrite E. unfold adr. rewrite map_app, nth_error_app2; rewrite map_length; [|lia]. now rewrite Nat.sub_diag. }
  rewrite Nt. rewrite (at_addr_in i (m, c)); [|exact N|rewrite E; apply in_or_app; right; left; reflexivity]. cbn [bind fst snd].
  specialize (IH (pre ++ [(i, (m, c))])). rewrite app_length in IH. cbn [length] in IH. rewrite Nat.add_1_r in IH.
  rewrite IH by (rewrite E, <- app_assoc; reflexivity). destruct (run _ _ _ rest); reflexivity.
Qed.

Lemma iteration_ok fuel dbg p : 
  run fuel dbg (start p) (CIter :: repeat (CNext 0) (length (terms p)) ++ CNext 0 :: map CLook (seq 0 (length (terms p)))) =
  Ok (VNone :: repeat VPair (length (terms p)) ++ VStopIteration :: map (fun x => VTerm (fst x) (snd x)) (terms p)).
Proof.
  destruct (begin_memory p 0%nat) as [[N _] E]. cbn [run step start with_p named object gens pairs bind fst snd app].
  set (cp := begin p 0%nat) in *. assert (L : length (terms p) = length (cells cp)) by (rewrite <- E; cbn; apply map_length).
  rewrite L. destruct (nexts_run fuel dbg cp true (CNext 0 :: map CLook (seq 0 (length (cells cp)))) N (cells cp) [] GNew eq_refl eq_refl) as (g' & P & R).
  change (adr []) with (@nil addr) in R. rewrite R. rewrite (stop_run fuel dbg cp true g' _ _ P).
  rewrite <- (app_nil_r (map CLook _)). assert (Lk := looks_run fuel dbg cp [GEnded] [] N (cells cp) [] eq_refl). cbn [length] in Lk. rewrite Lk.
  cbn [run bind]. rewrite app_nil_r. do 3 f_equal. do 2 f_equal. rewrite <- E. cbn [plain terms]. now rewrite map_map.
Qed.
Lemma temporary_ok fuel dbg p v : (v < length (terms p))%nat ->
  run fuel dbg (start p) (CIter :: CDel :: repeat (CNext 0) (length (terms p)) ++ [CNext 0; CLook v]) = Undef.
Proof.
  intro Lv. destruct (begin_memory p 0%nat) as [[N _] E]. cbn [run step start with_p named object gens pairs bind fst snd app].
  set (cp := begin p 0%nat) in *. assert (L : length (terms p) = length (cells cp)) by (rewrite <- E; cbn; apply map_length).
  rewrite L in *. unfold collect. cbn [named gens existsb running orb object pairs fst snd].
  destruct (nexts_run fuel dbg cp false [CNext 0; CLook v] N (cells cp) [] GNew eq_refl eq_refl) as (g' & P & R).
  change (adr []) with (@nil addr) in R. rewrite R. rewrite (stop_run fuel dbg cp false g' _ _ P).
  cbn [run step pairs object]. assert (X : exists i, nth_error (adr (cells cp)) v = Some i).
  { destruct (nth_error (adr (cells cp)) v) as [i|] eqn:X; [eauto|]. apply nth_error_None in X. unfold adr in X. rewrite map_length in X. lia. }
  destruct X as [i ->]. reflexivity.
Qed.

(* ------------------------------------------------------------------------------------------ *)
(** * p.add(p), p.sub(p) *)

Lemma set_coeff_split i m c c' pre suf : ~ In i (adr pre) -> ~ In i (adr suf) ->
  set_coeff i c' (pre ++ (i, (m, c)) :: suf) = pre ++ (i, (m, c')) :: suf.
Proof.
  intros N1 N2. unfold set_coeff. rewrite map_app. cbn [map fst snd]. rewrite Nat.eqb_refl.
  assert (Id : forall l, ~ In i (adr l) -> map (fun x : cell => if Nat.eqb (fst x) i then (fst x, (fst (snd x), c')) else x) l = l).
  { induction l as [|[j y] l IH]; intro N; [reflexivity|]. cbn [map fst snd]. cbn in N. destruct (Nat.eqb_spec j i); [tauto|]. rewrite IH by tauto. reflexivity. }
  f_equal; [exact (Id pre N1)|]. f_equal. exact (Id suf N2).
Qed.
Lemma at_addr_split i x pre suf : ~ In i (adr pre) -> at_addr i (pre ++ (i, x) :: suf) = Some x.
Proof.
  unfold at_addr. induction pre as [|[j y] pre IH]; intro N; cbn [app find fst].
  - now rewrite Nat.eqb_refl.
  - cbn in N. destruct (Nat.eqb_spec j i); [tauto|]. apply IH. tauto.
Qed.
Lemma add_self_loop t o : forall suf pre fuel, NoDup (adr (pre ++ suf)) -> nz (map snd suf) -> (length suf <= fuel)%nat ->
  self_loop fuel t o 1 (pre ++ suf) (first_cell suf) (first_cell suf) = Ok (pre ++ c_scale 2 suf).
Proof.
  induction suf as [|[i [m c]] suf IH]; intros pre fuel N Nz L; cbn [first_cell fst].
  - destruct fuel; reflexivity.
  - destruct fuel as [|fuel]; [cbn in L; lia|]. cbn [self_loop].
    assert (N1 : ~ In i (adr pre) /\ ~ In i (adr suf)).
    { unfold adr in N. rewrite map_app in N. cbn in N. apply NoDup_remove_2 in N. split; intro X; apply N; apply in_or_app; auto. }
    destruct N1 as [N1 N2]. rewrite (at_addr_split i (m, c)) by exact N1.
    assert (Z : cmp1 t o m m = 0) by (apply cmp1_eq; reflexivity). rewrite Z. cbn [Z.eqb negb].
    apply Forall_cons_iff in Nz as [Hc Nz]. cbn [snd] in Hc. destruct (Z.eqb_spec (c + 1 * c) 0); [lia|].
    rewrite (set_coeff_split i m c) by assumption. rewrite after_split by exact N1.
    replace (c + 1 * c) with (c * 2) by lia.
    replace (pre ++ (i, (m, c * 2)) :: suf) with ((pre ++ [(i, (m, c * 2))]) ++ suf) by (rewrite <- app_assoc; reflexivity).
    rewrite IH; [now rewrite <- app_assoc| |exact Nz|cbn in L; lia].
    unfold adr in *. rewrite !map_app in *. cbn in *. rewrite <- app_assoc. exact N.
Qed.
Lemma add_self_ok fuel dbg p : in_memory p -> valid_poly (plain p) -> (length (cells p) <= fuel)%nat ->
  exists r, c_self fuel dbg 1 p = Ok r /\ in_memory r /\ map fst (cells r) = map fst (cells p) /\ value dbg (plain p) (EAdd (plain p)) = Ok (plain r).
Proof.
  intros M V L. assert (Nz : nz (map snd (cells p))) by (apply canonical_iff in V as (_ & _ & Nz); exact Nz).
  unfold c_self. assert (X := add_self_loop (cto p) (cbo p) (cells p) [] fuel (proj1 M) Nz L). cbn [app] in X. rewrite X. cbn [bind].
  assert (Ad : map fst (c_scale 2 (cells p)) = map fst (cells p)) by (unfold c_scale; rewrite map_map; reflexivity).
  assert (Vr : canonical (cto p) (cbo p) (csize p) (scale 2 (map snd (cells p)))) by (apply scale_canonical; [lia|exact V]).
  assert (Ck : c_checked dbg (with_cells p (c_scale 2 (cells p)) (fresh p)) = Ok (with_cells p (c_scale 2 (cells p)) (fresh p))).
  { eapply checked_cells. apply checked_ok. unfold plain. cbn. rewrite scale_plain. exact Vr. }
  eexists. split; [exact Ck|]. split.
  { destruct M as [N F]. split; cbn; rewrite Ad; assumption. }
  split; [exact Ad|]. cbn [value]. unfold p_add. rewrite assert_true by apply comparable_refl.
  assert (D : add_terms (pto (plain p)) (pbo (plain p)) (terms (plain p)) (terms (plain p)) = scale 2 (terms (plain p))).
  { apply (canonical_unique (pto (plain p)) (pbo (plain p)) (psize (plain p))); [apply add_canonical; exact V|exact Vr|].
    intro u. rewrite !coef_sumc. apply canonical_iff in V as (_ & Mo & _). rewrite (add_sumc _ _ (psize (plain p))) by exact Mo. rewrite sumc_scale. lia. }
  rewrite D. rewrite checked_ok by exact Vr. unfold plain at 3. cbn [cells with_cells cto cbo csize]. rewrite scale_plain. reflexivity.
Qed.
Lemma sub_self_undef fuel dbg p : in_memory p -> cells p <> [] -> (0 < fuel)%nat -> c_self fuel dbg (-1) p = Undef.
Proof.
  intros [N _] E L. unfold c_self. destruct (cells p) as [|[i [m c]] l] eqn:Ec; [congruence|]. destruct fuel as [|fuel]; [lia|].
  cbn [first_cell fst self_loop]. cbn in N. inversion N; subst.
  assert (At : at_addr i ((i, (m, c)) :: l) = Some (m, c)) by (apply (at_addr_split i (m, c) [] l); auto). rewrite At.
  assert (Z : cmp1 (cto p) (cbo p) m m = 0) by (apply cmp1_eq; reflexivity). rewrite Z. cbn [Z.eqb negb].
  replace (c + -1 * c =? 0) with true by (symmetry; apply Z.eqb_eq; lia).
  rewrite (cell_after_out i (del_cell i _)); [destruct (cell_after i _); reflexivity|].
  unfold del_cell, adr. intro X. apply in_map_iff in X as (x & Ex & X). apply filter_In in X as [_ X]. apply negb_true_iff, Nat.eqb_neq in X. contradiction.
Qed.

(** Calls on, and with, the polynomial without terms. *)
Lemma zero_calls p e : cells p = [] ->
  match e with
  | EAddConst _ | ESubConst _ | EReduction _ => c_edit true p e = AssertFail /\ c_edit false p e = Undef
  | ERedMaybe _ => c_edit true p e = AssertFail /\ c_edit false p e = Ok p
  | _ => True
  end.
Proof.
  intro E. destruct e; try exact Logic.I; cbn [c_edit]; unfold c_reduction, c_redMaybe, assert_; rewrite E; cbn [andb]; (split; [|reflexivity]); try reflexivity.
  destruct (negb (comparable (plain p) a)); reflexivity.
Qed.
Lemma zero_arguments p a : cells p <> [] -> terms a = [] ->
  c_edit true p (EReduction a) = AssertFail /\ c_edit false p (EReduction a) = Undef /\ c_edit true p (ERedMaybe a) = AssertFail /\ c_edit false p (ERedMaybe a) = Undef.
Proof.
  intros N E. cbn [c_edit]. unfold c_reduction, c_redMaybe, assert_. rewrite E. destruct (cells p) as [|[i [m c]] l]; [congruence|]. cbn [andb].
  repeat split; try reflexivity. destruct (negb (comparable (plain p) a)); reflexivity.
Qed.
