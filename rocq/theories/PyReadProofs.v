(** Proofs about diff2poly. *)
From Coq Require Import ZArith List Bool Arith Lia.
From Verif Require Import Outcome MonomModel MonomSpec MonomProofs PolySpec PyMonomModel PyMonomSpec PyMonomProofs PyPolyProofs PyDiffModel PyDiffSpec PyDiffProofs PyReadModel PyReadSpec.
Import ListNotations.
Local Open Scope Z_scope.

Section Read.
Variable C : coefs.
Hypothesis H : good_coefs C.
Variables (o : py_order) (n : nat) (k : Z).
Notation term := (monom * ck C)%type.
Notation dpoly := (list term).
Notation canonical := (dp_canonical C o n k).
Local Notation dsorted := (dsorted C o).
Local Notation dmonos := (dmonos C n k).
Local Notation dnz := (dnz C).
Local Notation dbelow := (dbelow C o).

Lemma dict_add_new m c t : mono n m -> Forall (fun x => mono n (fst x)) t -> ~ In m (map fst t) -> dp_dict_add C o m c t = t ++ [(m, c)].
Proof.
  intros M T N. induction T as [|[u d] t U T IH]; [reflexivity|]. cbn [dp_dict_add app]. cbn [map fst In] in N. destruct (py_eq o u m) eqn:E.
  - apply (py_eq_true o n) in E; [|exact U|exact M]. exfalso. auto.
  - f_equal. apply IH. auto.
Qed.
(** the rows for a coefficient on the left and on the right *)
Lemma row_unit c q : dmonos q -> NoDup (map fst q) -> forall t, Forall (fun x => mono n (fst x)) t -> (forall m, In m (map fst q) -> ~ In m (map fst t)) ->
  dp_dict_row C o (py_unit n) c q t = Ok (t ++ map (fun x => (fst x, c_mul C c (snd x))) q).
Proof.
  induction q as [|[m d] q IH]; intros M N t T D; [cbn; now rewrite app_nil_r|]. apply dmonos_cons in M as [Mm M]. cbn [fst] in Mm. inversion N as [|? ? N1 N2]; subst. cbn [dp_dict_row].
  assert (Em : py_mul (py_unit n) m = Ok m) by (apply py_unit_mul; apply Mm). rewrite Em. cbn [bind]. rewrite dict_add_new; [|apply Mm|exact T|apply D; now left]. rewrite IH; auto.
  - cbn [map fst snd]. rewrite <- app_assoc. reflexivity.
  - apply Forall_app. split; [exact T|]. repeat constructor; apply Mm.
  - intros x X. rewrite map_app, in_app_iff. cbn [map fst In]. intros [Y|[<-|[]]]; [exact (D x (or_intror X) Y)|contradiction].
Qed.
Lemma rows_unit c p : dmonos p -> NoDup (map fst p) -> forall t, Forall (fun x => mono n (fst x)) t -> (forall m, In m (map fst p) -> ~ In m (map fst t)) ->
  dp_dict C o p [(py_unit n, c)] t = Ok (t ++ map (fun x => (fst x, c_mul C (snd x) c)) p).
Proof.
  induction p as [|[m d] p IH]; intros M N t T D; [cbn; now rewrite app_nil_r|]. apply dmonos_cons in M as [Mm M]. cbn [fst] in Mm. inversion N as [|? ? N1 N2]; subst. cbn [dp_dict dp_dict_row].
  assert (Em : py_mul m (py_unit n) = Ok m) by (apply py_mul_unit; apply Mm). rewrite Em. cbn [bind]. rewrite dict_add_new; [|apply Mm|exact T|apply D; now left]. rewrite IH; auto.
  - cbn [map fst snd]. rewrite <- app_assoc. reflexivity.
  - apply Forall_app. split; [exact T|]. repeat constructor; apply Mm.
  - intros x X. rewrite map_app, in_app_iff. cbn [map fst In]. intros [Y|[<-|[]]]; [exact (D x (or_intror X) Y)|contradiction].
Qed.
Lemma nil_rows p : dp_dict C o p [] [] = Ok [].
Proof. induction p as [|[m c] p IH]; [reflexivity|exact IH]. Qed.

Lemma sorted_same l : dsorted l -> dmonos l -> dp_sorted C o l = l.
Proof.
  induction l as [|[m c] l IH]; intros S M; [reflexivity|]. apply dsorted_cons in S as [B S]. apply dmonos_cons in M as [Mm M]. unfold dp_sorted in *. cbn [fold_right]. rewrite IH by assumption.
  destruct l as [|[u d] l]; [reflexivity|]. cbn [dp_insert fst]. apply dbelow_cons in B as [B _]. cbn [fst] in *. unfold py_lt. unfold pgt in B. rewrite B. reflexivity.
Qed.
Lemma filter_same (l : dpoly) : dnz l -> filter (fun x => negb (c_is0 C (snd x))) l = l.
Proof. induction l as [|[m c] l IH]; intro N; [reflexivity|]. apply dnz_cons in N as [Nc N]. cbn [filter snd] in *. rewrite (is0_false C H c Nc). cbn [negb]. now rewrite IH. Qed.
Lemma sorted_nodup (l : dpoly) : dsorted l -> dmonos l -> NoDup (map fst l).
Proof.
  induction l as [|[m c] l IH]; intros S M; [constructor|]. apply dsorted_cons in S as [B S]. apply dmonos_cons in M as [Mm M]. cbn [map fst] in *. constructor; [|now apply IH].
  intro X. apply in_map_iff in X as (x & E & X). unfold PyDiffProofs.dbelow in B. rewrite Forall_forall in B. specialize (B x X). rewrite E in B. apply (pgt_irrefl o n m); [apply Mm|exact B].
Qed.
Lemma map_same (l : dpoly) (f : ck C -> ck C) : dsorted l -> dmonos l -> (forall a, a <> c_zero C -> f a <> c_zero C) -> dnz l -> canonical (map (fun x => (fst x, f (snd x))) l).
Proof.
  intros S M F N. apply dp_canonical_iff. split; [|split].
  - clear M F N. induction l as [|[m c] l IH]; [constructor|]. apply dsorted_cons in S as [B S]. cbn [map fst snd]. apply dsorted_cons. split; [|auto]. cbn [fst]. unfold PyDiffProofs.dbelow in *. rewrite Forall_map. exact B.
  - unfold PyDiffProofs.dmonos in *. rewrite Forall_map. exact M.
  - unfold PyDiffProofs.dnz in *. rewrite Forall_map. eapply Forall_impl; [|exact N]. intros x X. cbn [snd]. auto.
Qed.
Definition scaled_by (c : ck C) (p : dpoly) : dpoly := if c_is0 C c then [] else map (fun x => (fst x, c_mul C (snd x) c)) p.
Lemma times_l c p : canonical p -> dp_times C o (dp_of_coef C n c) p = Ok (scaled_by c p).
Proof.
  intro P. pose proof P as P'. apply dp_canonical_iff in P' as (S & M & N). unfold dp_times, dp_of_coef, scaled_by. destruct (c_is0 C c) eqn:Z; [reflexivity|].
  assert (Nc : c <> c_zero C) by (intro X; apply (gc_is0 C H) in X; congruence). cbn [dp_dict]. rewrite row_unit; [|exact M|exact (sorted_nodup p S M)|constructor|auto]. cbn [bind app].
  assert (E : map (fun x : term => (fst x, c_mul C c (snd x))) p = map (fun x => (fst x, c_mul C (snd x) c)) p) by (apply map_ext; intro x; now rewrite (gc_mul_comm C H)).
  rewrite E. assert (R : canonical (map (fun x => (fst x, c_mul C (snd x) c)) p)) by (apply (map_same p (fun a => c_mul C a c)); auto; intros a A; apply (c_mul_nz C H); auto).
  apply dp_canonical_iff in R as R'. destruct R' as (S' & M' & N'). rewrite sorted_same, filter_same by assumption. apply (dp_checked_ok C H o n k). exact R.
Qed.
Lemma times_r c p : canonical p -> dp_times C o p (dp_of_coef C n c) = Ok (scaled_by c p).
Proof.
  intro P. pose proof P as P'. apply dp_canonical_iff in P' as (S & M & N). unfold dp_times, dp_of_coef, scaled_by. destruct (c_is0 C c) eqn:Z; [rewrite nil_rows; reflexivity|].
  assert (Nc : c <> c_zero C) by (intro X; apply (gc_is0 C H) in X; congruence). rewrite rows_unit; [|exact M|exact (sorted_nodup p S M)|constructor|auto]. cbn [bind app].
  assert (R : canonical (map (fun x => (fst x, c_mul C (snd x) c)) p)) by (apply (map_same p (fun a => c_mul C a c)); auto; intros a A; apply (c_mul_nz C H); auto).
  apply dp_canonical_iff in R as R'. destruct R' as (S' & M' & N'). rewrite sorted_same, filter_same by assumption. apply (dp_checked_ok C H o n k). exact R.
Qed.
Lemma scaled_canonical c p : canonical p -> canonical (scaled_by c p).
Proof.
  intro P. apply dp_canonical_iff in P as (S & M & N). unfold scaled_by. destruct (c_is0 C c) eqn:Z; [apply dp_canonical_iff; repeat split; constructor|].
  apply (map_same p (fun a => c_mul C a c)); auto. intros a A. apply (c_mul_nz C H); auto. intro X. apply (gc_is0 C H) in X. congruence.
Qed.
Lemma scaled_value F (HF : good_space C F) u c p : value F u (scaled_by c p) = f_mul F c (value F u p).
Proof.
  unfold scaled_by. destruct (c_is0 C c) eqn:Z; [|apply (value_scaled C H F HF)]. apply (gc_is0 C H) in Z. rewrite Z, (gs_mul_zero C F HF). reflexivity.
Qed.
Hypothesis K : 0 <= k.
Lemma unit_canonical c : canonical (dp_of_coef C n c).
Proof.
  unfold dp_of_coef. destruct (c_is0 C c) eqn:Z; [apply dp_canonical_iff; repeat split; constructor|]. apply dp_canonical_iff. split; [repeat constructor|]. split.
  - apply dmonos_cons. split; [|constructor]. cbn [fst]. split; [|reflexivity]. split; [apply unit_mono|cbn; lia].
  - apply dnz_cons. split; [|constructor]. cbn [snd]. intro X. apply (gc_is0 C H) in X. congruence.
Qed.
Lemma unit_value F (HF : good_space C F) u c : value F u (dp_of_coef C n c) = f_mul F c (f_one F).
Proof.
  unfold dp_of_coef. destruct (c_is0 C c) eqn:Z.
  - apply (gc_is0 C H) in Z. rewrite Z, (gs_mul_zero C F HF). reflexivity.
  - cbn [value fold_right fst snd]. rewrite (f_add_0_r C F HF). reflexivity.
Qed.
Lemma scaled_unit c d : scaled_by d (dp_of_coef C n c) = dp_of_coef C n (c_mul C c d).
Proof.
  unfold scaled_by, dp_of_coef. destruct (c_is0 C d) eqn:D.
  - apply (gc_is0 C H) in D. rewrite D, (gc_mul_comm C H), (c_mul_0_l C H). replace (c_is0 C (c_zero C)) with true by (symmetry; now apply (gc_is0 C H)). reflexivity.
  - destruct (c_is0 C c) eqn:E.
    + apply (gc_is0 C H) in E. rewrite E, (c_mul_0_l C H). replace (c_is0 C (c_zero C)) with true by (symmetry; now apply (gc_is0 C H)). reflexivity.
    + rewrite (is0_false C H (c_mul C c d)); [reflexivity|]. apply (c_mul_nz C H); intro X; apply (gc_is0 C H) in X; congruence.
Qed.
Lemma add_unit c d : dp_add C o (dp_of_coef C n c) (dp_of_coef C n d) = Ok (dp_of_coef C n (c_add C c d)).
Proof.
  assert (X : dp_merge C o (dp_of_coef C n c) (dp_of_coef C n d) = dp_of_coef C n (c_add C c d)).
  { unfold dp_of_coef. destruct (c_is0 C c) eqn:Ec.
    - apply (gc_is0 C H) in Ec. rewrite Ec, (gc_add_0 C H). reflexivity.
    - destruct (c_is0 C d) eqn:Ed.
      + apply (gc_is0 C H) in Ed. rewrite Ed, (gc_add_comm C H), (gc_add_0 C H), Ec. reflexivity.
      + rewrite dp_merge_cons. replace (py_cmp o (py_unit n) (py_unit n)) with 0 by (symmetry; apply (py_total o n); [apply unit_mono|apply unit_mono|reflexivity]).
        cbn [Z.ltb Z.compare]. destruct (c_is0 C (c_add C c d)); reflexivity. }
  unfold dp_add. rewrite X. apply (dp_checked_ok C H o n k). apply unit_canonical.
Qed.
Lemma read_coef a c : coefficient a c -> diff2poly C o n k a = Ok (dp_of_coef C n c).
Proof.
  intro A. induction A as [c|a b c d A IHa B IHb|a b c d A IHa B IHb|b d c A IH]; cbn [diff2poly].
  - apply (dp_checked_ok C H o n k). apply unit_canonical.
  - rewrite IHa, IHb. cbn [bind]. apply add_unit.
  - rewrite IHa, IHb. cbn [bind]. rewrite times_r by apply unit_canonical. now rewrite scaled_unit.
  - clear IH A. assert (E : dp_of_monom C (py_unit n) = dp_of_coef C n (c_one C)) by (unfold dp_of_coef; rewrite (is0_false C H _ (gc_one C H)); reflexivity).
    rewrite E, times_r by apply unit_canonical. rewrite scaled_unit, (gc_mul_1 C H). reflexivity.
Qed.
Lemma coefficient_fun a c d : coefficient a c -> @coefficient C a d -> c = d.
Proof. intros A. revert d. induction A; intros d0 B; inversion B; subst; auto; f_equal; auto. Qed.

(** derivatives *)
Lemma set_at_iter v d : forall e, nth v e 0%nat = 0%nat -> (v < length e)%nat -> set_at v d e = Nat.iter d (incr v) e.
Proof.
  assert (X : forall v d x e, Nat.iter d (incr (S v)) (x :: e) = x :: Nat.iter d (incr v) e).
  { intros v0 d0 x e. induction d0 as [|d0 IH]; [reflexivity|]. rewrite !iter_S, IH. reflexivity. }
  assert (Y : forall d x e, Nat.iter d (incr 0) (x :: e) = (d + x)%nat :: e).
  { intros d0 x e. induction d0 as [|d0 IH]; [reflexivity|]. rewrite iter_S, IH. reflexivity. }
  induction v as [|v IH]; intros [|x e] N L; cbn [length] in L; try lia.
  - cbn [nth] in N. subst x. rewrite Y. cbn [set_at]. now rewrite Nat.add_0_r.
  - cbn [nth set_at] in *. rewrite X. f_equal. apply IH; [exact N|lia].
Qed.
Lemma set_at_nth v d e w : v <> w -> nth w (set_at v d e) 0%nat = nth w e 0%nat.
Proof. revert v w. induction e as [|x e IH]; intros [|v] [|w] E; cbn; try reflexivity; try congruence. apply IH. congruence. Qed.
Lemma set_at_length v d e : length (set_at v d e) = length e.
Proof. revert v. induction e as [|x e IH]; intros [|v]; cbn; congruence. Qed.
Lemma read_der_ok l : NoDup (map fst l) -> Forall (fun x => (fst x < n)%nat) l -> forall e, length e = n -> (forall v, In v (map fst l) -> nth v e 0%nat = 0%nat) ->
  exists e', read_der l e = Ok e' /\ length e' = n /\
    forall F (HF : good_space C F) f, derive F 0 e' f = fold_left (fun f x => der_times F (snd x) (fst x) f) l (derive F 0 e f).
Proof.
  induction l as [|[v d] l IH]; intros N V e L Z; [exists e; cbn; auto|]. cbn [map fst] in *. inversion N as [|? ? N1 N2]; subst. inversion V as [|? ? V1 V2]; subst. cbn [fst] in *.
  destruct (IH N2 V2 (set_at v d e)) as (e' & E & L' & D); [now rewrite set_at_length| |].
  - intros w W. rewrite set_at_nth; [apply Z; now right|]. intros ->. contradiction.
  - exists e'. split; [|split; [exact L'|]].
    + cbn [read_der]. destruct (Nat.ltb_spec v (length e)); [exact E|lia].
    + intros F HF f. rewrite (D F HF). cbn [fold_left fst snd]. f_equal. rewrite set_at_iter; [|apply Z; now left|exact V1]. apply (derive_iter C F HF). exact V1.
Qed.
Lemma monom_canonical i e : 0 <= i < k -> length e = n -> canonical (dp_of_monom C (Mon i e)).
Proof.
  intros I L. apply dp_canonical_iff. split; [repeat constructor|]. split; [|apply dnz_cons; split; [apply (gc_one C H)|constructor]].
  apply dmonos_cons. split; [|constructor]. repeat split; cbn; try lia.
Qed.
Lemma monom_value F (HF : good_space C F) u i e : 0 <= i -> value F u (dp_of_monom C (Mon i e)) = derive F 0 e (u i).
Proof.
  intro I. cbn [dp_of_monom value fold_right fst snd]. rewrite (f_add_0_r C F HF), (gs_mul_one C F HF). unfold mono_value. cbn [pos vars]. destruct (Z.eqb_spec i (-1)); [lia|reflexivity].
Qed.
Lemma check_range i : 0 <= i < k -> (0 <=? i) && (i <? k) = true.
Proof. intro I. apply andb_true_intro. split; [apply Z.leb_le|apply Z.ltb_lt]; lia. Qed.

Theorem read_linear a : linear n k a ->
  exists p, diff2poly C o n k a = Ok p /\ canonical p /\ forall F, good_space C F -> forall u f, linear_value F n k u a f -> value F u p = f.
Proof.
  assert (X : linear n k a -> exists p, diff2poly C o n k a = Ok p /\ canonical p).
  { intro L. induction L as [a c A|i I|i l I N V|a b La (p & Ep & Cp) Lb (q & Eq & Cq)|a b c A Lb (q & Eq & Cq)|a b c La (p & Ep & Cp) B]; cbn [diff2poly].
    - exists (dp_of_coef C n c). split; [now apply read_coef|apply unit_canonical].
    - rewrite (check_range i I). cbn [assert_ andb negb]. eexists. split; [reflexivity|]. apply monom_canonical; [exact I|apply repeat_length].
    - rewrite (check_range i I). cbn [assert_ andb negb]. destruct (read_der_ok l N V (repeat 0%nat n) (repeat_length _ _)) as (e & E & Le & _); [intros v _; apply nth_repeat|].
      rewrite E. cbn [bind]. eexists. split; [reflexivity|]. now apply monom_canonical.
    - rewrite Ep, Eq. cbn [bind]. destruct (add_ok C H o n k p q Cp Cq) as (r & Er & Cr & _). eauto.
    - rewrite (read_coef a c A), Eq. cbn [bind]. rewrite times_l by exact Cq. eexists. split; [reflexivity|now apply scaled_canonical].
    - rewrite Ep, (read_coef b c B). cbn [bind]. rewrite times_r by exact Cp. eexists. split; [reflexivity|now apply scaled_canonical]. }
  intro L. destruct (X L) as (p & E & Cp). exists p. split; [exact E|]. split; [exact Cp|]. clear L. intros F HF u f V. revert p E Cp.
  assert (Lin : forall b g, linear_value F n k u b g -> linear n k b) by (intros b g B; induction B; econstructor; eauto).
  assert (Y : forall b g, linear_value F n k u b g -> exists q, diff2poly C o n k b = Ok q /\ canonical q /\ value F u q = g).
  { intros b g B. induction B as [b c A|i I|i l I N W|a1 a2 f1 f2 A1 (p1 & E1 & C1 & V1) A2 (p2 & E2 & C2 & V2)|a1 a2 c f2 A1 A2 (p2 & E2 & C2 & V2)|a1 a2 c f1 A1 (p1 & E1 & C1 & V1) A2]; cbn [diff2poly].
    - exists (dp_of_coef C n c). split; [now apply read_coef|]. split; [apply unit_canonical|now apply unit_value].
    - rewrite (check_range i I). cbn [assert_ andb negb]. eexists. split; [reflexivity|]. split; [apply monom_canonical; [exact I|apply repeat_length]|]. rewrite (monom_value F HF) by lia. apply derive_zero.
    - rewrite (check_range i I). cbn [assert_ andb negb]. destruct (read_der_ok l N W (repeat 0%nat n) (repeat_length _ _)) as (e & E & Le & D); [intros v _; apply nth_repeat|].
      rewrite E. cbn [bind]. eexists. split; [reflexivity|]. split; [now apply monom_canonical|]. rewrite (monom_value F HF) by lia. rewrite (D F HF), derive_zero. reflexivity.
    - rewrite E1, E2. cbn [bind]. destruct (add_ok C H o n k p1 p2 C1 C2) as (r & Er & Cr & Vr). exists r. split; [exact Er|]. split; [exact Cr|]. rewrite (Vr F HF u). congruence.
    - rewrite (read_coef a1 c A1), E2. cbn [bind]. rewrite times_l by exact C2. eexists. split; [reflexivity|]. split; [now apply scaled_canonical|]. rewrite (scaled_value F HF). congruence.
    - rewrite E1, (read_coef a2 c A2). cbn [bind]. rewrite times_r by exact C1. eexists. split; [reflexivity|]. split; [now apply scaled_canonical|]. rewrite (scaled_value F HF). congruence. }
  intros p E _. destruct (Y a f V) as (q & Eq & _ & Vq). congruence.
Qed.

(** products of two expressions with unknown functions *)
Lemma d_row_fails m c q : pos m <> -1 -> (exists y, In y q /\ pos (fst y) <> -1) -> forall t, dp_dict_row C o m c q t = AssertFail.
Proof.
  intro M. induction q as [|[u d] q IH]; intros (y & Y & P) t; [destruct Y|]. cbn [dp_dict_row].
  unfold py_mul at 1, assert_. destruct (Z.eqb_spec (pos m) (-1)); [contradiction|]. cbn [orb fst] in *.
  destruct (Z.eqb_spec (pos u) (-1)) as [E|E]; cbn [negb andb bind]; [|reflexivity].
  apply IH. exists y. destruct Y as [<-|Y]; [cbn in P; congruence|auto].
Qed.
Lemma d_row_unit m c q : pos m = -1 -> forall t, exists t', dp_dict_row C o m c q t = Ok t'.
Proof.
  intro M. induction q as [|[u d] q IH]; intro t; [cbn; eauto|]. cbn [dp_dict_row]. unfold py_mul at 1, assert_. rewrite M. cbn [Z.eqb Pos.eqb orb negb andb bind]. apply IH.
Qed.
Lemma dict_fails p q : (exists x, In x p /\ pos (fst x) <> -1) -> (exists y, In y q /\ pos (fst y) <> -1) -> forall t, dp_dict C o p q t = AssertFail.
Proof.
  intros X Y. induction p as [|[m c] p IH]; intro t; [destruct X as (x & [] & _)|]. cbn [dp_dict]. destruct (Z.eq_dec (pos m) (-1)) as [E|E].
  - destruct (d_row_unit m c q E t) as (t' & ->). cbn [bind]. apply IH. destruct X as (x & [<-|X] & P); [cbn in P; contradiction|eauto].
  - rewrite d_row_fails by assumption. reflexivity.
Qed.
Theorem times_rejected p q : mentions p -> mentions q -> dp_times C o p q = AssertFail.
Proof.
  intros (x & X & Px) (y & Y & Py). unfold dp_times. rewrite dict_fails; [reflexivity| |]; [exists x|exists y]; split; auto; lia.
Qed.
Theorem read_product a b p q : diff2poly C o n k a = Ok p -> diff2poly C o n k b = Ok q -> mentions p -> mentions q -> diff2poly C o n k (EMul a b) = AssertFail.
Proof. intros A B P Q. cbn [diff2poly]. rewrite A, B. cbn [bind]. now apply times_rejected. Qed.

(** powers are coefficients, whatever their base *)
Theorem read_power b c : diff2poly C o n k (EPow b c) = Ok (dp_of_coef C n c).
Proof.
  cbn [diff2poly]. assert (E : dp_of_monom C (py_unit n) = dp_of_coef C n (c_one C)) by (unfold dp_of_coef; rewrite (is0_false C H _ (gc_one C H)); reflexivity).
  rewrite E, times_r by apply unit_canonical. rewrite scaled_unit, (gc_mul_1 C H). reflexivity.
Qed.
(** whatever is accepted is a valid polynomial *)
Lemma silent p : canonical p -> ~ mentions p -> exists c, p = dp_of_coef C n c.
Proof.
  intros P N. apply dp_canonical_iff in P as (S & M & Z). 
  assert (U : forall x, In x p -> fst x = py_unit n).
  { intros [m c] X. unfold PyDiffProofs.dmonos in M. rewrite Forall_forall in M. destruct (M _ X) as [[Lm Pm] E]. cbn [fst] in *. 
    assert (P : pos m = -1).
    { destruct (Z_lt_dec (pos m) 0); [|exfalso; apply N; exists (m, c); split; [exact X|cbn [fst]; lia]]. destruct Lm; lia. }
    specialize (E P). exact E. }
  destruct p as [|[m c] p].
  - exists (c_zero C). unfold dp_of_coef. replace (c_is0 C (c_zero C)) with true by (symmetry; now apply (gc_is0 C H)). reflexivity.
  - assert (E := U _ (or_introl eq_refl)). cbn [fst] in E. subst m. exists c. unfold dp_of_coef. apply dnz_cons in Z as [Zc _]. cbn [snd] in Zc. rewrite (is0_false C H c Zc).
    destruct p as [|[m d] p]; [reflexivity|]. assert (E := U _ (or_intror (or_introl eq_refl))). cbn [fst] in E. subst m. apply dsorted_cons in S as [B _]. apply dbelow_cons in B as [B _]. cbn [fst] in B. exfalso. apply (pgt_irrefl o n (py_unit n)); [apply unit_mono|exact B].
Qed.
Lemma mentions_dec (p : dpoly) : {mentions p} + {~ mentions p}.
Proof.
  induction p as [|x p [M|M]]; [right; intros (x & [] & _)| |].
  - left. destruct M as (y & Y & P). exists y. split; [now right|exact P].
  - destruct (Z_le_dec 0 (pos (fst x))) as [L|L]; [left; exists x; split; [now left|exact L]|]. right. intros (y & [<-|Y] & P); [contradiction|]. apply M. exists y. auto.
Qed.
Lemma read_der_length l : forall e e', read_der l e = Ok e' -> length e' = length e.
Proof.
  induction l as [|[v d] l IH]; intros e e' E; cbn [read_der] in E; [congruence|]. destruct (Nat.ltb v (length e)); [|discriminate]. rewrite (IH _ _ E). apply set_at_length.
Qed.
Theorem read_canonical a : forall p, diff2poly C o n k a = Ok p -> canonical p.
Proof.
  induction a as [c|a IHa b IHb|a IHa b IHb|b IH c|i|i l|]; intros r E.
  - rewrite (read_coef (EAtom c) c) in E by constructor. injection E as <-. apply unit_canonical.
  - cbn [diff2poly] in E. destruct (diff2poly C o n k a) as [p| | | |]; try discriminate. cbn [bind] in E. destruct (diff2poly C o n k b) as [q| | | |]; try discriminate. cbn [bind] in E.
    destruct (add_ok C H o n k p q (IHa p eq_refl) (IHb q eq_refl)) as (s & Es & Cs & _). congruence.
  - cbn [diff2poly] in E. destruct (diff2poly C o n k a) as [p| | | |]; try discriminate. cbn [bind] in E. destruct (diff2poly C o n k b) as [q| | | |]; try discriminate. cbn [bind] in E.
    specialize (IHa p eq_refl). specialize (IHb q eq_refl). destruct (mentions_dec p) as [P|P]; [destruct (mentions_dec q) as [Q|Q]|].
    + rewrite times_rejected in E by assumption. discriminate.
    + destruct (silent q IHb Q) as (c & ->). rewrite times_r in E by exact IHa. injection E as <-. now apply scaled_canonical.
    + destruct (silent p IHa P) as (c & ->). rewrite times_l in E by exact IHb. injection E as <-. now apply scaled_canonical.
  - rewrite read_power in E. injection E as <-. apply unit_canonical.
  - cbn [diff2poly assert_] in E. unfold assert_ in E. destruct ((0 <=? i) && (i <? k)) eqn:B; cbn [negb andb] in E; [|discriminate]. injection E as <-. apply andb_true_iff in B as [B1 B2]. apply Z.leb_le in B1. apply Z.ltb_lt in B2. apply monom_canonical; [lia|apply repeat_length].
  - cbn [diff2poly] in E. unfold assert_ in E. destruct ((0 <=? i) && (i <? k)) eqn:B; cbn [negb andb] in E; [|discriminate]. apply andb_true_iff in B as [B1 B2]. apply Z.leb_le in B1. apply Z.ltb_lt in B2.
    destruct (read_der l (repeat 0%nat n)) as [e| | | |] eqn:R; try discriminate. cbn [bind] in E. injection E as <-. apply monom_canonical; [lia|]. rewrite (read_der_length _ _ _ R). apply repeat_length.
  - discriminate.
Qed.
End Read.

Lemma linear_has_value (C : coefs) (n : nat) (k : Z) a : linear n k a -> forall (F : space C) u, exists f, linear_value F n k u a f.
Proof.
  intros L F u. induction L as [a c A|i I|i l I N V|a b La (f & Vf) Lb (g & Vg)|a b c A Lb (g & Vg)|a b c La (f & Vf) B];
    [eexists; eapply lv_coef; eauto|eexists; apply lv_fun; auto|eexists; apply lv_der; auto|eexists; apply lv_add; eauto|eexists; eapply lv_mul_l; eauto|eexists; eapply lv_mul_r; eauto].
Qed.
Lemma other_rejected (C : coefs) (o : py_order) (n : nat) (k : Z) a : has_other a -> forall p, diff2poly C o n k a <> Ok p.
Proof.
  intro A. induction A as [|a b A IH|a b A IH|a b A IH|a b A IH]; intros p E; cbn [diff2poly] in E; try discriminate.
  - destruct (diff2poly C o n k a); try discriminate. eapply IH; reflexivity.
  - destruct (diff2poly C o n k a); try discriminate. cbn [bind] in E. destruct (diff2poly C o n k b); try discriminate. eapply IH; reflexivity.
  - destruct (diff2poly C o n k a); try discriminate. eapply IH; reflexivity.
  - destruct (diff2poly C o n k a); try discriminate. cbn [bind] in E. destruct (diff2poly C o n k b); try discriminate. eapply IH; reflexivity.
Qed.
