(** Proofs about PyDiffModel.v. *)
From Coq Require Import ZArith List Bool Arith Lia Sorted Wellfounded.
From Verif Require Import Outcome MonomModel MonomSpec MonomProofs PolySpec PolyProofs PyMonomModel PyMonomSpec PyMonomProofs
  PyPolyModel PyPolySpec PyPolyProofs PyRedProofs PyDiffModel PyDiffSpec.
Import ListNotations.
Local Open Scope Z_scope.

Lemma merge2_ind {X : Type} (P : list X -> list X -> Prop) :
  (forall a, P [] a) -> (forall p, P p []) ->
  (forall x p y a, P p (y :: a) -> P (x :: p) a -> P p a -> P (x :: p) (y :: a)) ->
  forall p a, P p a.
Proof.
  intros H1 H2 H3. induction p as [|x p IHp]; [apply H1|]. induction a as [|y a IHa]; [apply H2|].
  apply H3; auto.
Qed.

Lemma unit_mono n : mono n (py_unit n).
Proof. split; [apply repeat_length|cbn; lia]. Qed.

Definition xvar (n v : nat) : monom := Mon (-1) (incr v (repeat 0%nat n)).
Lemma xvar_mono n v : mono n (xvar n v).
Proof. split; [cbn; now rewrite incr_length, repeat_length|cbn; lia]. Qed.

Lemma py_mul_xvar n m v : mono n m -> py_mul m (xvar n v) = Ok (mul_var v m).
Proof.
  intros [L P]. rewrite py_mul_ok by (right; reflexivity). rewrite py_zip_add. cbn [xvar pos vars]. rewrite Z.max_l by lia.
  unfold mul_var. f_equal. f_equal. rewrite <- L. clear. destruct m as [q e]. cbn [vars pos]. revert v.
  induction e as [|a e IH]; intros [|v]; cbn; try reflexivity.
  - f_equal; [lia|]. clear. induction e; cbn; [reflexivity|]. rewrite Nat.add_0_r. congruence.
  - rewrite Nat.add_0_r. f_equal. apply IH.
Qed.
Lemma py_mul_unit n m : mono n m -> py_mul m (py_unit n) = Ok m.
Proof.
  intros [L P]. rewrite py_mul_ok by (right; reflexivity). rewrite py_zip_add. cbn [py_unit pos vars]. rewrite Z.max_l by lia.
  rewrite <- L. clear. destruct m as [q e]. cbn [vars pos]. f_equal. f_equal. induction e; cbn; [reflexivity|]. rewrite Nat.add_0_r. congruence.
Qed.
Lemma py_unit_mul n m : mono n m -> py_mul (py_unit n) m = Ok m.
Proof.
  intros [L P]. rewrite py_mul_ok by (left; reflexivity). rewrite py_zip_add. cbn [py_unit pos vars]. rewrite Z.max_r by lia.
  rewrite <- L. clear. destruct m as [q e]. cbn [vars pos]. f_equal. f_equal. induction e; cbn; congruence.
Qed.
Lemma py_xvar_mul n m v : mono n m -> py_mul (xvar n v) m = Ok (mul_var v m).
Proof.
  intro M. rewrite <- (py_mul_xvar n m v M). rewrite !py_mul_ok by (try (left; reflexivity); right; reflexivity). f_equal.
  rewrite !py_zip_add, addv_comm, Z.max_comm. reflexivity.
Qed.

(** A derivative of m is greater than m; derivatives keep the order. *)
Lemma pgt_prolong o n m v : mono n m -> (v < n)%nat -> pgt o (mul_var v m) m.
Proof.
  intros M V. unfold pgt. rewrite (py_cmp_mul o n (xvar n v) (py_unit n) m _ _ (xvar_mono n v) (unit_mono n) M (py_xvar_mul n m v M) (py_unit_mul n m M)).
  apply py_unit_min; [apply xvar_mono|]. unfold xvar, py_unit. intro E. injection E as E.
  assert (Y := f_equal degv E). rewrite incr_degv in Y by (rewrite repeat_length; exact V). lia.
Qed.
Lemma pgt_mul_var o n a b v : mono n a -> mono n b -> pgt o a b -> pgt o (mul_var v a) (mul_var v b).
Proof.
  intros A B G. unfold pgt. rewrite (py_cmp_mul o n a b (xvar n v) _ _ A B (xvar_mono n v) (py_mul_xvar n a v A) (py_mul_xvar n b v B)). exact G.
Qed.

Section Diff.
Variables (C : coefs) (H : good_coefs C) (o : py_order) (n : nat) (k : Z).
Notation term := (monom * ck C)%type.
Notation dpoly := (list term).

Definition dmonos (l : dpoly) : Prop := Forall (fun x => diff_mono n k (fst x)) l.
Definition dsorted (l : dpoly) : Prop := StronglySorted (fun x y => pgt o (fst x) (fst y)) l.
Definition dbelow (m : monom) (l : dpoly) : Prop := Forall (fun x => pgt o m (fst x)) l.
Definition dnz (l : dpoly) : Prop := Forall (fun x => snd x <> c_zero C) l.

Lemma diff_mono_mono m : diff_mono n k m -> mono n m.
Proof. intros [[M _] _]. exact M. Qed.

Lemma dp_canonical_iff l : dp_canonical C o n k l <-> dsorted l /\ dmonos l /\ dnz l.
Proof.
  unfold dp_canonical, dsorted, dmonos, dnz. split; intros (S & M & N); (split; [|split; assumption]).
  - clear N. induction S as [|x l S IH F]; constructor; inversion M as [|? ? Mx Ml]; subst; auto.
    rewrite Forall_forall in *. intros y Y. apply (py_meaning o n); [apply diff_mono_mono, Mx|apply diff_mono_mono, (Ml y Y)|auto].
  - clear N. induction S as [|x l S IH F]; constructor; inversion M as [|? ? Mx Ml]; subst; auto.
    rewrite Forall_forall in *. intros y Y. apply (py_meaning o n); [apply diff_mono_mono, Mx|apply diff_mono_mono, (Ml y Y)|apply F, Y].
Qed.

Lemma dsorted_cons x l : dsorted (x :: l) <-> dbelow (fst x) l /\ dsorted l.
Proof. unfold dsorted, dbelow. split; [intro S; inversion S; subst; auto|intros [B S]; constructor; auto]. Qed.

Lemma dmonos_cons x l : dmonos (x :: l) <-> diff_mono n k (fst x) /\ dmonos l.
Proof. apply Forall_cons_iff. Qed.
Lemma dnz_cons x l : dnz (x :: l) <-> snd x <> c_zero C /\ dnz l.
Proof. apply Forall_cons_iff. Qed.
Lemma dbelow_cons m x l : dbelow m (x :: l) <-> pgt o m (fst x) /\ dbelow m l.
Proof. apply Forall_cons_iff. Qed.

Lemma dbelow_trans m m' l : pgt o m m' -> dbelow m' l -> mono n m -> mono n m' -> dmonos l -> dbelow m l.
Proof.
  unfold dbelow, dmonos. rewrite !Forall_forall. intros G B M M' P x X. apply (pgt_trans o n _ m'); auto. apply diff_mono_mono, (P x X).
Qed.

Lemma is0_false a : a <> c_zero C -> c_is0 C a = false.
Proof. intro N. destruct (c_is0 C a) eqn:E; [apply (gc_is0 C H) in E; contradiction|reflexivity]. Qed.

Lemma dp_valid_ok l : dsorted l -> dnz l -> dp_valid C o l = true.
Proof.
  induction l as [|[m c] l IH]; intros S N; [reflexivity|]. apply dsorted_cons in S as [B S]. inversion N as [|? ? Nc Nl]; subst. cbn [snd fst] in *.
  cbn [dp_valid]. rewrite (is0_false c Nc). destruct l as [|[m' c'] l]; [reflexivity|].
  rewrite !andb_true_iff. split; [split|]; [reflexivity| |apply IH; assumption].
  inversion B as [|? ? Bm _]; subst. unfold pgt in Bm. cbn [fst] in Bm. rewrite Bm. reflexivity.
Qed.
Lemma dp_checked_ok l : dp_canonical C o n k l -> dp_checked C o l = Ok l.
Proof. intro P. apply dp_canonical_iff in P as (S & M & N). unfold dp_checked, assert_. now rewrite dp_valid_ok. Qed.

(* ---------------------------------------------------------------- merge *)

Lemma dp_merge_nil_r p : dp_merge C o p [] = p.
Proof. destruct p as [|[m c] p]; reflexivity. Qed.
Lemma dp_merge_cons m c p u d q : dp_merge C o ((m, c) :: p) ((u, d) :: q) =
  let x := py_cmp o m u in
  if 0 <? x then (m, c) :: dp_merge C o p ((u, d) :: q)
  else if x <? 0 then (u, d) :: dp_merge C o ((m, c) :: p) q
  else if c_is0 C (c_add C c d) then dp_merge C o p q else (m, c_add C c d) :: dp_merge C o p q.
Proof. reflexivity. Qed.

Ltac mcase m u Hm Hu :=
  destruct (pcases o n m u (diff_mono_mono m Hm) (diff_mono_mono u Hu)) as [[? E]|[[? E]|[? E]]]; rewrite E; cbn [Z.ltb Z.compare].

Lemma merge_monos p q : dmonos p -> dmonos q -> dmonos (dp_merge C o p q).
Proof.
  revert p q. refine (merge2_ind _ _ _ _); intros; [assumption|rewrite dp_merge_nil_r; assumption|].
  destruct x as [m c], y as [u d]. rewrite dp_merge_cons. cbv zeta.
  pose proof H3 as Pm; pose proof H4 as Qm; apply dmonos_cons in Pm as [Hm M]; apply dmonos_cons in Qm as [Hu A]. cbn [fst] in *.
  mcase m u Hm Hu; [apply dmonos_cons; auto|apply dmonos_cons; auto|]. destruct (c_is0 C (c_add C c d)); [auto|apply dmonos_cons; auto].
Qed.
Lemma merge_below v p q : dmonos p -> dmonos q -> dbelow v p -> dbelow v q -> dbelow v (dp_merge C o p q).
Proof.
  revert p q. refine (merge2_ind _ _ _ _); intros; [assumption|rewrite dp_merge_nil_r; assumption|].
  destruct x as [m c], y as [u d]. rewrite dp_merge_cons. cbv zeta.
  pose proof H3 as Pm; pose proof H4 as Qm; apply dmonos_cons in Pm as [Hm M]; apply dmonos_cons in Qm as [Hu A]; pose proof H5 as B5; pose proof H6 as B6; apply dbelow_cons in B5 as [? ?]; apply dbelow_cons in B6 as [? ?]. cbn [fst] in *.
  mcase m u Hm Hu; [apply dbelow_cons; auto|apply dbelow_cons; auto|]. destruct (c_is0 C (c_add C c d)); [auto|apply dbelow_cons; auto].
Qed.
Lemma merge_nz p q : dnz p -> dnz q -> dnz (dp_merge C o p q).
Proof.
  revert p q. refine (merge2_ind _ _ _ _); intros; [assumption|rewrite dp_merge_nil_r; assumption|].
  destruct x as [m c], y as [u d]. rewrite dp_merge_cons. cbv zeta.
  pose proof H3 as Pm; pose proof H4 as Qm; apply dnz_cons in Pm as [Hm M]; apply dnz_cons in Qm as [Hu A]. cbn [snd] in *.
  destruct (0 <? py_cmp o m u); [apply dnz_cons; auto|]. destruct (py_cmp o m u <? 0); [apply dnz_cons; auto|].
  destruct (c_is0 C (c_add C c d)) eqn:E; [auto|]. apply dnz_cons. split; [|auto]. cbn [snd]. intro Z. apply (gc_is0 C H) in Z. congruence.
Qed.
Lemma merge_sorted p q : dmonos p -> dmonos q -> dsorted p -> dsorted q -> dsorted (dp_merge C o p q).
Proof.
  revert p q. refine (merge2_ind _ _ _ _); intros; [assumption|rewrite dp_merge_nil_r; assumption|].
  destruct x as [m c], y as [u d]. rewrite dp_merge_cons. cbv zeta.
  pose proof H3 as Pm; pose proof H4 as Qm; apply dmonos_cons in Pm as [Hm M]; apply dmonos_cons in Qm as [Hu A]. pose proof H5 as P5; pose proof H6 as P6; apply dsorted_cons in P5 as [B5 S5]; apply dsorted_cons in P6 as [B6 S6]. cbn [fst] in *.
  assert (Mm := diff_mono_mono m Hm). assert (Mu := diff_mono_mono u Hu).
  mcase m u Hm Hu.
  - apply dsorted_cons. split; [|apply H0; auto; now apply dsorted_cons]. cbn [fst]. apply merge_below; auto.
    apply dbelow_cons; split; [assumption|]. apply (dbelow_trans m u); auto.
  - apply dsorted_cons. split; [|apply H1; auto; now apply dsorted_cons]. cbn [fst]. apply merge_below; auto.
    apply dbelow_cons; split; [assumption|]. apply (dbelow_trans u m); auto.
  - subst u. destruct (c_is0 C (c_add C c d)); [auto|]. apply dsorted_cons. split; [|auto]. cbn [fst]. apply merge_below; auto.
Qed.
Lemma merge_canonical p q : dp_canonical C o n k p -> dp_canonical C o n k q -> dp_canonical C o n k (dp_merge C o p q).
Proof.
  intros P Q. apply dp_canonical_iff in P as (S1 & M1 & N1). apply dp_canonical_iff in Q as (S2 & M2 & N2). apply dp_canonical_iff.
  split; [apply merge_sorted; auto|]. split; [apply merge_monos; auto|apply merge_nz; auto].
Qed.

(* ---------------------------------------------------------------- values *)

Section Values.
Variables (F : space C) (HF : good_space C F) (u : Z -> fs F).
Notation "f +f g" := (f_add F f g) (at level 50, left associativity).
Notation mv := (mono_value F u).
Notation val := (value F u).

Lemma f_add_0_r f : f +f f_zero F = f.
Proof. rewrite (gs_add_comm C F HF). apply (gs_add_0 C F HF). Qed.
Lemma f_mul_0 a : f_mul F a (f_zero F) = f_zero F.
Proof.
  rewrite <- (gs_mul_zero C F HF (f_zero F)) at 1. rewrite <- (gs_mul_mul C F HF), (gc_mul_comm C H), (gs_mul_mul C F HF).
  apply (gs_mul_zero C F HF).
Qed.
Lemma f_der_0 v : f_der F v (f_zero F) = f_zero F.
Proof.
  rewrite <- (gs_mul_zero C F HF (f_zero F)) at 1. rewrite (gs_der_mul C F HF), f_mul_0, (gs_mul_zero C F HF). apply (gs_add_0 C F HF).
Qed.
Lemma f_add4 a b c d : (a +f b) +f (c +f d) = (a +f c) +f (b +f d).
Proof.
  rewrite <- !(gs_add_assoc C F HF). f_equal. rewrite !(gs_add_assoc C F HF). f_equal. apply (gs_add_comm C F HF).
Qed.
Lemma f_neg a f : f_mul F a f +f f_mul F (c_neg C a) f = f_zero F.
Proof. rewrite <- (gs_add_coefs C F HF), (gc_add_neg C H). apply (gs_mul_zero C F HF). Qed.
Lemma value_cons m c p : val ((m, c) :: p) = f_mul F c (mv m) +f val p.
Proof. reflexivity. Qed.
Lemma value_app p q : val (p ++ q) = val p +f val q.
Proof.
  induction p as [|[m c] p IH]; cbn [app]; [symmetry; apply (gs_add_0 C F HF)|]. rewrite !value_cons, IH. apply (gs_add_assoc C F HF).
Qed.

Lemma merge_value p q : dmonos p -> dmonos q -> val (dp_merge C o p q) = val p +f val q.
Proof.
  revert p q. refine (merge2_ind _ _ _ _); intros.
  - symmetry. apply (gs_add_0 C F HF).
  - rewrite dp_merge_nil_r. symmetry. apply f_add_0_r.
  - destruct x as [m c], y as [w d]. rewrite dp_merge_cons. cbv zeta.
    pose proof H3 as Pm; pose proof H4 as Qm; apply dmonos_cons in Pm as [Hm M]; apply dmonos_cons in Qm as [Hu A]. cbn [fst] in *.
    mcase m w Hm Hu.
    + rewrite !value_cons, H0, value_cons by auto. apply (gs_add_assoc C F HF).
    + rewrite (value_cons w d), H1 by auto. rewrite (value_cons w d). rewrite !(gs_add_assoc C F HF). f_equal. apply (gs_add_comm C F HF).
    + subst w. rewrite !value_cons, f_add4, <- (gs_add_coefs C F HF), <- H2 by auto.
      destruct (c_is0 C (c_add C c d)) eqn:E0; [|reflexivity]. apply (gc_is0 C H) in E0. rewrite E0, (gs_mul_zero C F HF).
      symmetry. apply (gs_add_0 C F HF).
Qed.

Lemma value_scaled a p : val (map (fun x => (fst x, c_mul C (snd x) a)) p) = f_mul F a (val p).
Proof.
  induction p as [|[m c] p IH]; cbn [map fst snd]; [symmetry; apply f_mul_0|]. rewrite !value_cons, IH, (gs_mul_add C F HF). f_equal.
  rewrite (gc_mul_comm C H). apply (gs_mul_mul C F HF).
Qed.

(** Derivatives commute with derivatives. *)
Lemma der_times_der d v w f : der_times F d v (f_der F w f) = f_der F w (der_times F d v f).
Proof. induction d; cbn [der_times]; [reflexivity|]. rewrite IHd. apply (gs_der_comm C F HF). Qed.
Lemma derive_incr e f : forall i v, (v < length e)%nat -> derive F i (incr v e) f = f_der F (i + v) (derive F i e f).
Proof.
  induction e as [|a e IH]; intros i v V; cbn [length] in V; [lia|]. destruct v as [|v]; cbn [incr derive].
  - rewrite Nat.add_0_r. reflexivity.
  - rewrite IH by lia. rewrite der_times_der. f_equal. lia.
Qed.
Lemma mv_mul_var m v : mono n m -> (v < n)%nat -> pos m <> -1 -> mv (mul_var v m) = f_der F v (mv m).
Proof.
  intros [L P] V N. unfold mono_value, mul_var. cbn [pos vars]. destruct (Z.eqb_spec (pos m) (-1)); [contradiction|].
  rewrite derive_incr by (rewrite L; exact V). reflexivity.
Qed.
Lemma mv_unit m : pos m = -1 -> mv m = f_one F.
Proof. unfold mono_value. intros ->. reflexivity. Qed.
End Values.

(* ---------------------------------------------------------------- prolong *)

Lemma diff_bool m : diff_mono n k m -> py_bool m = negb (pos m =? -1).
Proof.
  intros [[M _] U]. unfold py_bool. destruct (Z.eqb_spec (pos m) (-1)) as [E|E].
  - rewrite (U E). cbn [pos py_unit Z.leb Z.compare orb]. unfold py_degree. cbn [vars py_unit].
    replace (fold_right Nat.add 0%nat (repeat 0%nat n)) with 0%nat; [reflexivity|]. clear. induction n; cbn; auto.
  - destruct M as [_ P]. destruct (Z.leb_spec 0 (pos m)); [reflexivity|lia].
Qed.
Lemma diff_mono_mul_var m v : diff_mono n k m -> pos m <> -1 -> diff_mono n k (mul_var v m).
Proof.
  intros [[[L P] K] U] N. split; [split; [split|]|]; cbn [mul_var pos vars]; try assumption; [rewrite incr_length; exact L|contradiction].
Qed.

Definition shifted (p : dpoly) (v : nat) : dpoly :=
  map (fun x => (mul_var v (fst x), snd x)) (filter (fun x => negb (pos (fst x) =? -1)) p).
Fixpoint derived (p : dpoly) (v : nat) : dpoly :=
  match p with
  | [] => []
  | (m, c) :: p' => if c_is0 C (c_der C v c) then derived p' v else (m, c_der C v c) :: derived p' v
  end.

Lemma dp_shift_ok p v : dmonos p -> (v < n)%nat -> dp_shift C p v = Ok (shifted p v).
Proof.
  induction p as [|[m c] p IH]; intros M V; [reflexivity|]. apply dmonos_cons in M as [Hm M]. cbn [fst] in Hm. cbn [dp_shift].
  rewrite (diff_bool m Hm), (IH M V). unfold shifted. cbn [filter fst]. destruct (negb (pos m =? -1)); [|reflexivity].
  rewrite (py_prolong_ok n) by (try apply diff_mono_mono, Hm; exact V). reflexivity.
Qed.
Lemma dp_coefs_ok p v : dmonos p -> (v < n)%nat -> dp_coefs C p v = Ok (derived p v).
Proof.
  induction p as [|[m c] p IH]; intros M V; [reflexivity|]. apply dmonos_cons in M as [Hm M]. cbn [fst] in Hm. cbn [dp_coefs derived].
  assert (L := proj1 (diff_mono_mono m Hm)). rewrite L. destruct (Nat.ltb_spec v n); [|lia]. rewrite (IH M V). cbn [bind].
  destruct (c_is0 C (c_der C v c)); reflexivity.
Qed.

Lemma shifted_below v m p : dmonos p -> mono n m -> dbelow m p -> dbelow (mul_var v m) (shifted p v).
Proof.
  intros M Mm B. unfold dbelow, shifted in *. rewrite Forall_map. rewrite Forall_forall in *. intros x X. apply filter_In in X as [X _]. cbn [fst].
  apply (pgt_mul_var o n); auto. apply diff_mono_mono. unfold dmonos in M. rewrite Forall_forall in M. apply M, X.
Qed.
Lemma shifted_cons m c p v : shifted ((m, c) :: p) v = if pos m =? -1 then shifted p v else (mul_var v m, c) :: shifted p v.
Proof. unfold shifted. cbn [filter fst]. destruct (pos m =? -1); reflexivity. Qed.
Lemma shifted_canonical p v : dp_canonical C o n k p -> dp_canonical C o n k (shifted p v).
Proof.
  intro P. apply dp_canonical_iff in P as (S & M & N). apply dp_canonical_iff.
  induction p as [|[m c] p IH]; [repeat split; constructor|].
  apply dsorted_cons in S as [B S]. apply dmonos_cons in M as [Hm M]. apply dnz_cons in N as [Hc N]. cbn [fst snd] in *. rewrite shifted_cons.
  destruct (IH S M N) as (S' & M' & N'). destruct (Z.eqb_spec (pos m) (-1)) as [E|E]; [auto|].
  split; [apply dsorted_cons; split; [cbn [fst]; apply shifted_below; auto; apply diff_mono_mono, Hm|exact S']|].
  split; [apply dmonos_cons; split; [cbn [fst]; apply diff_mono_mul_var; assumption|exact M']|apply dnz_cons; auto].
Qed.
Lemma derived_below m p v : dbelow m p -> dbelow m (derived p v).
Proof.
  induction p as [|[u c] p IH]; intro B; [constructor|]. apply dbelow_cons in B as [G B]. cbn [derived].
  destruct (c_is0 C (c_der C v c)); [auto|]. apply dbelow_cons. auto.
Qed.
Lemma derived_canonical p v : dp_canonical C o n k p -> dp_canonical C o n k (derived p v).
Proof.
  intro P. apply dp_canonical_iff in P as (S & M & N). apply dp_canonical_iff.
  induction p as [|[m c] p IH]; [repeat split; constructor|].
  apply dsorted_cons in S as [B S]. apply dmonos_cons in M as [Hm M]. apply dnz_cons in N as [Hc N]. cbn [fst snd] in *. cbn [derived].
  destruct (IH S M N) as (S' & M' & N'). destruct (c_is0 C (c_der C v c)) eqn:E; [auto|].
  split; [apply dsorted_cons; split; [cbn [fst]; apply derived_below; exact B|exact S']|].
  split; [apply dmonos_cons; split; [exact Hm|exact M']|apply dnz_cons; split; [|exact N']]. cbn [snd]. intro Z. apply (gc_is0 C H) in Z. congruence.
Qed.

Lemma prolong_ok p v : dp_canonical C o n k p -> (v < n)%nat ->
  dp_prolong C o p v = Ok (dp_merge C o (shifted p v) (derived p v)) /\ dp_canonical C o n k (dp_merge C o (shifted p v) (derived p v)).
Proof.
  intros P V. assert (R := merge_canonical _ _ (shifted_canonical p v P) (derived_canonical p v P)). split; [|exact R].
  assert (M : dmonos p) by (apply dp_canonical_iff in P; tauto).
  unfold dp_prolong. rewrite dp_shift_ok, dp_coefs_ok by assumption. cbn [bind]. apply dp_checked_ok. exact R.
Qed.

Lemma prolong_lead m c p v : dp_canonical C o n k ((m, c) :: p) -> (v < n)%nat -> pos m <> -1 ->
  exists r, dp_merge C o (shifted ((m, c) :: p) v) (derived ((m, c) :: p) v) = (mul_var v m, c) :: r.
Proof.
  intros P V E. apply dp_canonical_iff in P as (S & M & N). apply dsorted_cons in S as [B S]. apply dmonos_cons in M as [Hm M]. cbn [fst] in *.
  assert (Mm := diff_mono_mono m Hm).
  assert (Bd : dbelow (mul_var v m) (derived ((m, c) :: p) v)).
  { apply derived_below. apply dbelow_cons. cbn [fst]. split; [apply (pgt_prolong o n); assumption|].
    eapply dbelow_trans; [apply (pgt_prolong o n); eassumption|exact B| |exact Mm|exact M]. apply diff_mono_mono, diff_mono_mul_var; assumption. }
  rewrite shifted_cons. destruct (Z.eqb_spec (pos m) (-1)); [contradiction|].
  destruct (derived ((m, c) :: p) v) as [|[u d] q]; [rewrite dp_merge_nil_r; eauto|].
  rewrite dp_merge_cons. cbv zeta. apply dbelow_cons in Bd as [G _]. unfold pgt in G. cbn [fst] in G. rewrite G. cbn. eauto.
Qed.

Lemma prolong_value F (HF : good_space C F) u p v : dp_canonical C o n k p -> (v < n)%nat ->
  value F u (dp_merge C o (shifted p v) (derived p v)) = f_der F v (value F u p).
Proof.
  intros P V. rewrite (merge_value F HF).
  2:{ assert (X := shifted_canonical p v P). apply dp_canonical_iff in X. tauto. }
  2:{ assert (X := derived_canonical p v P). apply dp_canonical_iff in X. tauto. }
  apply dp_canonical_iff in P as (_ & M & _). induction p as [|[m c] p IH].
  - cbn [shifted derived map filter value fold_right]. rewrite (f_der_0 F HF). apply (gs_add_0 C F HF).
  - apply dmonos_cons in M as [Hm M]. cbn [fst] in Hm. specialize (IH M). rewrite value_cons, (gs_der_add C F HF), (gs_der_mul C F HF), <- IH.
    assert (D : value F u (derived ((m, c) :: p) v) = f_add F (f_mul F (c_der C v c) (mono_value F u m)) (value F u (derived p v))).
    { cbn [derived]. destruct (c_is0 C (c_der C v c)) eqn:E; [|reflexivity]. apply (gc_is0 C H) in E. rewrite E, (gs_mul_zero C F HF).
      symmetry. apply (gs_add_0 C F HF). }
    assert (T : value F u (shifted ((m, c) :: p) v) = f_add F (f_mul F c (f_der F v (mono_value F u m))) (value F u (shifted p v))).
    { rewrite shifted_cons. destruct (Z.eqb_spec (pos m) (-1)) as [E|E].
      - rewrite (mv_unit F u m E), (gs_der_one C F HF), (f_mul_0 F HF). symmetry. apply (gs_add_0 C F HF).
      - rewrite value_cons, (mv_mul_var F HF u m v (diff_mono_mono m Hm) V E). reflexivity. }
    rewrite D, T, (f_add4 F HF). f_equal. apply (gs_add_comm C F HF).
Qed.

(* ---------------------------------------------------------------- several derivatives *)

Definition deriv_all (F : space C) (l : list nat) (f : fs F) : fs F := fold_left (fun f v => f_der F v f) l f.
Definition mul_all (l : list nat) (m : monom) : monom := fold_left (fun m v => mul_var v m) l m.

Lemma prolongs_ok l : Forall (fun v => (v < n)%nat) l -> forall p, dp_canonical C o n k p ->
  exists r, dp_prolongs C o l p = Ok r /\ dp_canonical C o n k r /\
    (forall F (HF : good_space C F) u, value F u r = deriv_all F l (value F u p)) /\
    forall m c p', p = (m, c) :: p' -> pos m <> -1 -> exists r', r = (mul_all l m, c) :: r'.
Proof.
  intro L. induction L as [|v l V L IH]; intros p P.
  - exists p. split; [reflexivity|]. split; [exact P|]. split; [reflexivity|]. intros m c p' -> _. exists p'. reflexivity.
  - destruct (prolong_ok p v P V) as [E P']. destruct (IH _ P') as (r & Er & R & Vr & Lr). exists r.
    split; [cbn [dp_prolongs]; rewrite E; exact Er|]. split; [exact R|]. split.
    + intros F HF u. rewrite (Vr F HF u), (prolong_value F HF u p v P V). reflexivity.
    + intros m c p' -> N. destruct (prolong_lead m c p' v P V N) as (q & Eq). destruct (Lr _ _ _ Eq) as (r' & ->); [exact N|].
      exists r'. reflexivity.
Qed.

Lemma deriv_all_0 F (HF : good_space C F) l : deriv_all F l (f_zero F) = f_zero F.
Proof. unfold deriv_all. induction l as [|v l IH]; cbn [fold_left]; [reflexivity|]. rewrite (f_der_0 F HF). exact IH. Qed.

Lemma mul_all_expo l : Forall (fun v => (v < n)%nat) l -> forall m, mono n m ->
  mono n (mul_all l m) /\ pos (mul_all l m) = pos m /\ forall i, expo (vars (mul_all l m)) i = (expo (vars m) i + count i l)%nat.
Proof.
  intro L. induction L as [|v l V L IH]; intros m M.
  - split; [exact M|]. split; [reflexivity|]. intro i. cbn. lia.
  - unfold mul_all. cbn [fold_left].
    assert (M' : mono n (mul_var v m)) by (split; [cbn; rewrite incr_length; apply M|cbn; apply M]).
    destruct (IH _ M') as (A & B & D). split; [exact A|]. split; [exact B|]. intro i. unfold mul_all in D. rewrite D. cbn [mul_var vars].
    rewrite incr_expo, count_cons. destruct M as [Lm _]. rewrite Lm.
    destruct (Nat.eqb_spec i v) as [->|N]; cbn [andb]; [destruct (Nat.ltb_spec v n); lia|lia].
Qed.

(** The reducer is brought to m. *)
Lemma raise_ok m u d q : diff_mono n k m -> dp_canonical C o n k ((u, d) :: q) -> pos u = pos m -> 0 <= pos m -> mdivides u m ->
  exists r l, dp_raise C o m ((u, d) :: q) = Ok ((m, d) :: r) /\ dp_canonical C o n k ((m, d) :: r) /\
    forall F (HF : good_space C F) w, value F w ((m, d) :: r) = deriv_all F l (value F w ((u, d) :: q)).
Proof.
  intros Hm Q P P0 D. assert (Mm := diff_mono_mono m Hm).
  assert (Hu : diff_mono n k u) by (apply dp_canonical_iff in Q as (_ & M & _); exact (proj1 (proj1 (dmonos_cons _ _) M))).
  assert (Mu := diff_mono_mono u Hu).
  destruct (py_div_same n m u Mm Mu P D) as (_ & s & Es & Ls & Em). unfold dp_raise. rewrite Es. cbn [bind].
  assert (Ms : mono n (Mon (-1) s)) by (split; [exact Ls|cbn; lia]). assert (R := py_expand_range n _ Ms).
  destruct (prolongs_ok _ R _ Q) as (r & Er & Cr & Vr & Lr). destruct (Lr u d q eq_refl) as (r' & ->); [lia|].
  assert (E : mul_all (py_expand (Mon (-1) s)) u = m).
  { destruct (mul_all_expo _ R u Mu) as (A & B & X). destruct (mul_all (py_expand (Mon (-1) s)) u) as [pp vv] eqn:EE. cbn [pos vars] in *.
    rewrite <- Em. unfold mprod. cbn [pos vars]. f_equal.
    - rewrite B. reflexivity.
    - rewrite vsum_addv. destruct A as [A _], Mu as [Lu _]. cbn [vars] in A. apply expo_ext; [rewrite addv_length; congruence|].
      intros i I. rewrite X, py_expand_count. cbn [vars]. rewrite expo_addv by congruence. lia. }
  rewrite E in *. exists r', (py_expand (Mon (-1) s)). auto.
Qed.

(* ---------------------------------------------------------------- arithmetic of coefficients *)

Lemma c_add_0_r a : c_add C a (c_zero C) = a.
Proof. rewrite (gc_add_comm C H). apply (gc_add_0 C H). Qed.
Lemma c_add_cancel a b c : c_add C a b = c_add C a c -> b = c.
Proof.
  intro E. rewrite <- (gc_add_0 C H b), <- (gc_add_0 C H c), <- (gc_add_neg C H a), (gc_add_comm C H a), <- !(gc_add_assoc C H), E. reflexivity.
Qed.
Lemma c_mul_0_l a : c_mul C (c_zero C) a = c_zero C.
Proof.
  apply (c_add_cancel (c_mul C (c_zero C) a)). rewrite <- (gc_distr C H), (gc_add_0 C H). symmetry. apply c_add_0_r.
Qed.
Lemma c_mul_neg a b : c_mul C a (c_neg C b) = c_neg C (c_mul C a b).
Proof.
  apply (c_add_cancel (c_mul C a b)). rewrite (gc_add_neg C H), !(gc_mul_comm C H a), <- (gc_distr C H), (gc_add_neg C H). apply c_mul_0_l.
Qed.
Lemma c_neg_nz a : a <> c_zero C -> c_neg C a <> c_zero C.
Proof. intros N E. apply N. rewrite <- (gc_add_neg C H a), E. symmetry. apply c_add_0_r. Qed.
Lemma c_mul_nz a b : a <> c_zero C -> b <> c_zero C -> c_mul C a b <> c_zero C.
Proof. intros A B E. destruct (gc_domain C H _ _ E); contradiction. Qed.

(* ---------------------------------------------------------------- reduction and redRat *)

Definition kof (k1 : option (ck C)) : ck C := match k1 with Some b => b | None => c_one C end.
Definition oscaled (k1 : option (ck C)) (p : dpoly) : dpoly := map (fun x => (fst x, opt_mul C k1 (snd x))) p.
Definition cscaled (c : ck C) (p : dpoly) : dpoly := map (fun x => (fst x, c_mul C (snd x) c)) p.

Lemma opt_mul_kof k1 a : opt_mul C k1 a = c_mul C a (kof k1).
Proof. destruct k1; cbn [opt_mul kof]; [reflexivity|]. rewrite (gc_mul_comm C H). symmetry. apply (gc_mul_1 C H). Qed.
Lemma oscaled_kof k1 p : oscaled k1 p = cscaled (kof k1) p.
Proof. unfold oscaled, cscaled. apply map_ext. intros [m c]. cbn [fst snd]. now rewrite opt_mul_kof. Qed.
Lemma cscaled_below m c p : dbelow m p -> dbelow m (cscaled c p).
Proof. intro B. unfold dbelow, cscaled in *. rewrite Forall_map. exact B. Qed.
Lemma cscaled_canonical c p : c <> c_zero C -> dp_canonical C o n k p -> dp_canonical C o n k (cscaled c p).
Proof.
  intros N P. apply dp_canonical_iff in P as (S & M & Z). apply dp_canonical_iff. unfold cscaled. split; [|split].
  - clear -S. induction p as [|x l IH]; [constructor|]. apply dsorted_cons in S as [B S]. cbn [map]. apply dsorted_cons. split; [|auto].
    cbn [fst]. unfold dbelow in *. rewrite Forall_map. exact B.
  - unfold dmonos. rewrite Forall_map. exact M.
  - unfold dnz in *. rewrite Forall_map. eapply Forall_impl; [|exact Z]. cbn. intros. apply c_mul_nz; assumption.
Qed.

Lemma dp_tail_ok k2 q : dmonos q -> dp_tail C (py_unit n) k2 q = Ok (cscaled k2 q).
Proof.
  induction q as [|[u d] q IH]; intro Q; [reflexivity|]. apply dmonos_cons in Q as [Hu Q]. cbn [dp_tail fst] in *.
  rewrite (py_mul_unit n u) by (apply diff_mono_mono; exact Hu). cbn [bind]. rewrite (IH Q). reflexivity.
Qed.
Lemma red_merge_ok k1 k2 p q : dmonos q -> dp_red_merge C o k1 k2 (py_unit n) p q = Ok (dp_merge C o (oscaled k1 p) (cscaled k2 q)).
Proof.
  revert p q. refine (merge2_ind _ _ _ _); intros.
  - change (dp_red_merge C o k1 k2 (py_unit n) [] a) with (dp_tail C (py_unit n) k2 a). now rewrite dp_tail_ok.
  - destruct p as [|[m c] p]; reflexivity.
  - destruct x as [m c], y as [u d]. pose proof H3 as Q. apply dmonos_cons in Q as [Hu Q]. cbn [fst] in *.
    change (dp_red_merge C o k1 k2 (py_unit n) ((m, c) :: p) ((u, d) :: a)) with
      (do um <- py_mul u (py_unit n);
       let x := py_cmp o m um in
       if 0 <? x then do r <- dp_red_merge C o k1 k2 (py_unit n) p ((u, d) :: a); Ok ((m, opt_mul C k1 c) :: r)
       else if x <? 0 then do r <- dp_red_merge C o k1 k2 (py_unit n) ((m, c) :: p) a; Ok ((um, c_mul C d k2) :: r)
       else do r <- dp_red_merge C o k1 k2 (py_unit n) p a;
            let s := c_add C (opt_mul C k1 c) (c_mul C d k2) in Ok (if c_is0 C s then r else (m, s) :: r)).
    rewrite (py_mul_unit n u) by (apply diff_mono_mono; exact Hu). cbn [bind]. cbv zeta.
    rewrite (H0 H3), (H1 Q), (H2 Q). cbn [oscaled cscaled map fst snd]. rewrite dp_merge_cons. cbv zeta.
    destruct (0 <? py_cmp o m u); [reflexivity|]. destruct (py_cmp o m u <? 0); [reflexivity|]. cbn [bind].
    destruct (c_is0 C (c_add C (opt_mul C k1 c) (c_mul C d k2))); reflexivity.
Qed.

Lemma dsorted_app l r : dsorted (l ++ r) <-> dsorted l /\ dsorted r /\ Forall (fun x => dbelow (fst x) r) l.
Proof.
  induction l as [|x l IH]; cbn [app].
  - split; [intro X; split; [constructor|split; [exact X|constructor]]|tauto].
  - rewrite !dsorted_cons, IH, Forall_cons_iff. unfold dbelow at 1. rewrite Forall_app. unfold dbelow. tauto.
Qed.
Lemma dmonos_app l r : dmonos (l ++ r) <-> dmonos l /\ dmonos r.
Proof. apply Forall_app. Qed.
Lemma dnz_app l r : dnz (l ++ r) <-> dnz l /\ dnz r.
Proof. apply Forall_app. Qed.
Lemma dcanonical_mono A m c B : dp_canonical C o n k (A ++ (m, c) :: B) -> diff_mono n k m.
Proof. intro P. apply dp_canonical_iff in P as (_ & M & _). apply dmonos_app in M as [_ M]. exact (Forall_inv M). Qed.
Lemma dcanonical_below A m c B : dp_canonical C o n k (A ++ (m, c) :: B) -> dbelow m B.
Proof. intro P. apply dp_canonical_iff in P as (S & _ & _). apply dsorted_app in S as (_ & S & _). apply dsorted_cons in S as [B' _]. exact B'. Qed.
Lemma dcanonical_coef A m c B : dp_canonical C o n k (A ++ (m, c) :: B) -> c <> c_zero C.
Proof. intro P. apply dp_canonical_iff in P as (_ & _ & N). apply dnz_app in N as [_ N]. exact (Forall_inv N). Qed.

Definition red_result (k1 : ck C) (p r q : dpoly) : Prop :=
  forall F (HF : good_space C F) u, value F u q = f_zero F -> value F u r = f_mul F k1 (value F u p).

(** The common part of reduction and redRat. *)
Lemma red_core k1 k2 A m c B d q : dp_canonical C o n k (A ++ (m, c) :: B) -> dp_canonical C o n k ((m, d) :: q) ->
  k1 <> c_zero C -> k2 <> c_zero C -> c_add C (c_mul C c k1) (c_mul C d k2) = c_zero C ->
  let r := cscaled k1 A ++ dp_merge C o (cscaled k1 B) (cscaled k2 q) in
  dp_canonical C o n k r /\ dbelow m (dp_merge C o (cscaled k1 B) (cscaled k2 q)) /\ red_result k1 (A ++ (m, c) :: B) r ((m, d) :: q).
Proof.
  intros P Q K1 K2 E r. pose proof P as P'. pose proof Q as Q'.
  apply dp_canonical_iff in P' as (Sp & Mp & Np). apply dp_canonical_iff in Q' as (Sq & Mq & Nq).
  apply dsorted_app in Sp as (SA & Sm & BA). apply dsorted_cons in Sm as [BB SB]. cbn [fst] in BB.
  apply dmonos_app in Mp as [MA MB]. apply dmonos_cons in MB as [Mm MB]. apply dnz_app in Np as [NA NB]. apply dnz_cons in NB as [Nc NB].
  apply dmonos_cons in Mq as [_ Mq]. apply dnz_cons in Nq as [Nd Nq]. apply dsorted_cons in Sq as [Bq Sq]. cbn [fst snd] in *.
  assert (CA : dp_canonical C o n k A) by (apply dp_canonical_iff; auto). assert (CB : dp_canonical C o n k B) by (apply dp_canonical_iff; auto).
  assert (Cq : dp_canonical C o n k q) by (apply dp_canonical_iff; auto).
  assert (CsA := cscaled_canonical k1 A K1 CA). assert (CsB := cscaled_canonical k1 B K1 CB). assert (Csq := cscaled_canonical k2 q K2 Cq).
  assert (Cr := merge_canonical _ _ CsB Csq). set (r' := dp_merge C o (cscaled k1 B) (cscaled k2 q)) in *.
  assert (MsB : dmonos (cscaled k1 B)) by (apply dp_canonical_iff in CsB; tauto). assert (Msq : dmonos (cscaled k2 q)) by (apply dp_canonical_iff in Csq; tauto).
  assert (Br : dbelow m r') by (apply merge_below; auto using cscaled_below).
  split; [|split; [exact Br|]].
  - apply dp_canonical_iff in Cr as (S1 & S2 & S3). apply dp_canonical_iff in CsA as (T1 & T2 & T3). apply dp_canonical_iff.
    split; [|split; [apply dmonos_app; auto|apply dnz_app; auto]]. apply dsorted_app. split; [exact T1|]. split; [exact S1|].
    unfold cscaled. rewrite Forall_map. rewrite Forall_forall in BA |- *. intros x X. cbn [fst]. specialize (BA x X).
    unfold dmonos in MA. rewrite Forall_forall in MA.
    eapply dbelow_trans; [exact (Forall_inv BA)|exact Br|apply diff_mono_mono, (MA x X)|apply diff_mono_mono, Mm|exact S2].
  - intros F HF u Z. unfold r, r'. rewrite (value_app F HF), (merge_value F HF) by assumption. unfold cscaled.
    rewrite !(value_scaled F HF), (value_app F HF), value_cons, !(gs_mul_add C F HF). f_equal. rewrite (gs_add_comm C F HF). f_equal.
    rewrite value_cons in Z. assert (Z2 := f_equal (f_mul F k2) Z). rewrite (f_mul_0 F HF), (gs_mul_add C F HF), <- (gs_mul_mul C F HF) in Z2.
    rewrite <- (gs_mul_mul C F HF). rewrite <- (f_add_0_r F HF (f_mul F (c_mul C k1 c) _)), <- Z2, (gs_add_assoc C F HF), <- (gs_add_coefs C F HF).
    rewrite (gc_mul_comm C H k1), (gc_mul_comm C H k2), E, (gs_mul_zero C F HF). symmetry. apply (gs_add_0 C F HF).
Qed.

Definition red_good (red : dpoly -> nat -> dpoly -> outcome dpoly) (K : ck C -> Prop) : Prop :=
  forall A m c B d q, dp_canonical C o n k (A ++ (m, c) :: B) -> dp_canonical C o n k ((m, d) :: q) -> exists k1 r',
    red (A ++ (m, c) :: B) (length A) ((m, d) :: q) = Ok (cscaled k1 A ++ r') /\ dp_canonical C o n k (cscaled k1 A ++ r') /\
    dbelow m r' /\ K k1 /\ red_result k1 (A ++ (m, c) :: B) (cscaled k1 A ++ r') ((m, d) :: q).

Lemma div_self m : mono n m -> py_divisible m m = true /\ py_div m m = Ok (py_unit n).
Proof.
  intro M. assert (D : mdivides m m) by (split; [now right|split; [reflexivity|lia]]).
  destruct (py_div_same n m m M M eq_refl D) as (A & s & E & L & X). split; [exact A|]. rewrite E. f_equal. unfold py_unit. f_equal.
  apply expo_ext; [rewrite L; symmetry; apply repeat_length|]. intros i I. rewrite expo_repeat. assert (Y := f_equal (fun m => expo (vars m) i) X).
  unfold mprod in Y. cbn [vars] in Y. rewrite vsum_addv, expo_addv in Y by (rewrite L; symmetry; apply M). lia.
Qed.

Lemma reduction_good : red_good (dp_reduction C o) (fun a => a <> c_zero C).
Proof.
  intros A m c B d q P Q. assert (Mm := diff_mono_mono m (dcanonical_mono _ _ _ _ P)). destruct (div_self m Mm) as [D E].
  assert (Nc := dcanonical_coef _ _ _ _ P). assert (Nd := dcanonical_coef [] _ _ _ Q).
  unfold dp_reduction. rewrite nth_error_app2, Nat.sub_diag by lia. cbn [nth_error]. unfold assert_. rewrite D. cbn [andb negb].
  destruct (c_split C c d) as [x y] eqn:S. destruct (gc_split C H c d x y Nc Nd S) as (R & Nx & Ny). rewrite E. cbn [bind].
  rewrite skipn_mid, firstn_mid, red_merge_ok, oscaled_kof by (apply dp_canonical_iff in Q as (_ & M & _); apply dmonos_cons in M; tauto). cbn [bind kof].
  destruct (red_core y (c_neg C x) A m c B d q P Q Ny (c_neg_nz x Nx)) as (X1 & X2 & X3).
  { rewrite c_mul_neg, R. apply (gc_add_neg C H). }
  eexists y, _. split; [apply dp_checked_ok; exact X1|]. auto.
Qed.

Lemma cscaled_one p : cscaled (c_one C) p = p.
Proof.
  unfold cscaled. rewrite <- (map_id p) at 2. apply map_ext. intros [m c]. cbn [fst snd]. f_equal. rewrite (gc_mul_comm C H). apply (gc_mul_1 C H).
Qed.
Lemma redrat_good : good_quo C -> red_good (dp_redrat C o) (fun a => a = c_one C).
Proof.
  intros HQ A m c B d q P Q. assert (Mm := diff_mono_mono m (dcanonical_mono _ _ _ _ P)). destruct (div_self m Mm) as [D E].
  assert (Nc := dcanonical_coef _ _ _ _ P). assert (Nd := dcanonical_coef [] _ _ _ Q).
  unfold dp_redrat. rewrite nth_error_app2, Nat.sub_diag by lia. cbn [nth_error]. unfold assert_. rewrite D. cbn [andb negb]. rewrite E. cbn [bind].
  rewrite skipn_mid, firstn_mid, red_merge_ok, oscaled_kof by (apply dp_canonical_iff in Q as (_ & M & _); apply dmonos_cons in M; tauto). cbn [bind kof].
  assert (Nq : c_quo C c d <> c_zero C) by (intro X; apply Nc; rewrite <- (HQ c d Nd), X; apply c_mul_0_l).
  destruct (red_core (c_one C) (c_neg C (c_quo C c d)) A m c B d q P Q (gc_one C H) (c_neg_nz _ Nq)) as (X1 & X2 & X3).
  { rewrite c_mul_neg, (gc_mul_comm C H d), (HQ c d Nd), (gc_mul_comm C H), (gc_mul_1 C H). apply (gc_add_neg C H). }
  exists (c_one C), (dp_merge C o (cscaled (c_one C) B) (cscaled (c_neg C (c_quo C c d)) q)).
  split; [|auto]. rewrite (cscaled_one A) in *. apply dp_checked_ok. exact X1.
Qed.

(* ---------------------------------------------------------------- normal forms *)

Section Find.
Variables (G : dpoly -> Prop) (find : monom -> outcome (option dpoly)).
Hypothesis find_ok : dp_good_find C o n k G find.

Definition dsettled (l : dpoly) : Prop := Forall (fun x => find (fst x) = Ok None) l.

Lemma same_refl p : same_on_solutions C G (c_one C) p p.
Proof. intros F HF u _. symmetry. apply (gs_mul_one C F HF). Qed.
Lemma same_trans a b p q r : same_on_solutions C G a p q -> same_on_solutions C G b q r -> same_on_solutions C G (c_mul C b a) p r.
Proof. intros A B F HF u S. rewrite (B F HF u S), (A F HF u S). symmetry. apply (gs_mul_mul C F HF). Qed.

Section Red.
Variables (red : dpoly -> nat -> dpoly -> outcome dpoly) (K : ck C -> Prop).
Hypotheses (red_ok : red_good red K) (K1 : K (c_one C)) (K2 : forall a b, K a -> K b -> K (c_mul C a b)).

Lemma dnf_step A m c B : dp_canonical C o n k (A ++ (m, c) :: B) ->
  find m = Ok None \/
  exists q q' k1 r', find m = Ok (Some q) /\ dp_truthy C (Some q) = Some q /\ dp_raise C o m q = Ok q' /\
    red (A ++ (m, c) :: B) (length A) q' = Ok (cscaled k1 A ++ r') /\
    dp_canonical C o n k (cscaled k1 A ++ r') /\ dbelow m r' /\ K k1 /\
    same_on_solutions C G k1 (A ++ (m, c) :: B) (cscaled k1 A ++ r').
Proof.
  intro P. assert (Hm := dcanonical_mono _ _ _ _ P). destruct (find_ok m Hm) as (w & Ew & X). destruct w as [q|]; [right|left; exact Ew].
  destruct (X q eq_refl) as (Cq & Gq & v & d & q1 & -> & E & E0 & D).
  destruct (raise_ok m v d q1 Hm Cq E E0 D) as (q2 & l & R1 & R2 & R3).
  destruct (red_ok A m c B d q2 P R2) as (k1 & r' & S1 & S2 & S3 & S4 & S5).
  exists ((v, d) :: q1), ((m, d) :: q2), k1, r'. split; [exact Ew|]. split; [reflexivity|]. split; [exact R1|]. split; [exact S1|]. split; [exact S2|].
  split; [exact S3|]. split; [exact S4|]. intros F HF u S. apply (S5 F HF). rewrite (R3 F HF), (S _ Gq). apply deriv_all_0, HF.
Qed.

Definition loop_post (a : nat) (A p : dpoly) (i : nat) : Prop :=
  exists N r kk, (forall fuel, (N <= fuel)%nat -> dp_loop C fuel o red find i p = Ok r) /\ dp_canonical C o n k r /\ K kk /\
    same_on_solutions C G kk p r /\ map fst (firstn a r) = map fst (firstn a A) /\ dsettled (skipn a r).

Lemma dloop_ok B : forall A a, dp_canonical C o n k (A ++ B) -> dsettled (skipn a A) -> (a <= length A)%nat -> loop_post a A (A ++ B) (length A).
Proof.
  assert (Nil : forall A a, dp_canonical C o n k (A ++ []) -> dsettled (skipn a A) -> loop_post a A (A ++ []) (length A)).
  { intros A a P S. exists 1%nat, A, (c_one C). rewrite app_nil_r in *. split; [|split; [exact P|split; [exact K1|split; [apply same_refl|auto]]]].
    intros [|fuel] F; [lia|]. cbn [dp_loop].
    replace (nth_error A (length A)) with (@None term); [reflexivity|]. symmetry. apply nth_error_None. lia. }
  assert (X : forall m c l A a, dp_canonical C o n k (A ++ (m, c) :: l) -> dsettled (skipn a A) -> (a <= length A)%nat ->
    loop_post a A (A ++ (m, c) :: l) (length A)).
  { intro m. induction m as [m IH] using (well_founded_induction (pylt_wf o n k)). intros c l A a P S La.
    assert (Lm := dcanonical_mono _ _ _ _ P).
    assert (Step : forall fuel, dp_loop C (Datatypes.S fuel) o red find (length A) (A ++ (m, c) :: l) =
      do w <- find m;
      match dp_truthy C w with
      | Some q => do q' <- dp_raise C o m q; do p' <- red (A ++ (m, c) :: l) (length A) q'; dp_loop C fuel o red find (length A) p'
      | None => dp_loop C fuel o red find (Datatypes.S (length A)) (A ++ (m, c) :: l)
      end).
    { intro fuel. cbn [dp_loop]. rewrite nth_error_app2, Nat.sub_diag by lia. reflexivity. }
    destruct (dnf_step A m c l P) as [E|(q & q' & k1 & r' & E & T & Ra & Er & P' & Br & Kk & Sm)].
    - assert (Y : loop_post a (A ++ [(m, c)]) ((A ++ [(m, c)]) ++ l) (length (A ++ [(m, c)]))).
      { assert (P1 : dp_canonical C o n k ((A ++ [(m, c)]) ++ l)) by (rewrite <- app_assoc; exact P).
        assert (S1 : dsettled (skipn a (A ++ [(m, c)]))).
        { rewrite skipn_app. replace (a - length A)%nat with 0%nat by lia. apply Forall_app. split; [exact S|]. repeat constructor. exact E. }
        destruct l as [|[m' c'] l']; [apply Nil; assumption|]. apply IH; [|exact P1|exact S1|rewrite app_length; lia].
        split; [apply (dcanonical_mono _ _ _ _ P1)|]. split; [apply Lm|]. exact (Forall_inv (dcanonical_below _ _ _ _ P)). }
      destruct Y as (N & r & kk & H1 & H2 & H3 & H4 & H5 & H6). rewrite app_length, <- !app_assoc in *. cbn [app length] in *. rewrite Nat.add_1_r in H1.
      exists (Datatypes.S N), r, kk. split; [|split; [exact H2|split; [exact H3|split; [exact H4|split; [|exact H6]]]]].
      + intros [|fuel] F; [lia|]. rewrite Step, E. cbn [bind dp_truthy]. apply H1. lia.
      + rewrite H5. rewrite firstn_app. replace (a - length A)%nat with 0%nat by lia. cbn [firstn]. now rewrite app_nil_r.
    - assert (S1 : dsettled (skipn a (cscaled k1 A))).
      { unfold dsettled, cscaled in *. rewrite skipn_map. rewrite Forall_map. exact S. }
      assert (Y : loop_post a (cscaled k1 A) (cscaled k1 A ++ r') (length (cscaled k1 A))).
      { destruct r' as [|[m' c'] l']; [apply Nil; assumption|]. apply IH; [|exact P'|exact S1|unfold cscaled; rewrite map_length; exact La].
        split; [apply (dcanonical_mono _ _ _ _ P')|]. split; [apply Lm|exact (Forall_inv Br)]. }
      destruct Y as (N & r & kk & H1 & H2 & H3 & H4 & H5 & H6).
      replace (length (cscaled k1 A)) with (length A) in H1 by (unfold cscaled; now rewrite map_length).
      exists (Datatypes.S N), r, (c_mul C kk k1). split; [|split; [exact H2|split; [auto|split; [|split; [|exact H6]]]]].
      + intros [|fuel] F; [lia|]. rewrite Step, E. cbn [bind]. rewrite T, Ra. cbn [bind]. rewrite Er. cbn [bind]. apply H1. lia.
      + eapply same_trans; eassumption.
      + rewrite H5. unfold cscaled. rewrite firstn_map, map_map. reflexivity. }
  intros A a P S La. destruct B as [|[m c] l]; [apply Nil; assumption|apply X; assumption].
Qed.
End Red.

Lemma nz_mul a b : a <> c_zero C -> b <> c_zero C -> c_mul C a b <> c_zero C.
Proof. apply c_mul_nz. Qed.

Lemma dnfhead_ok p : dp_canonical C o n k p ->
  exists N r kk, (forall fuel, (N <= fuel)%nat -> dp_nfhead C fuel o find p = Ok r) /\ dp_canonical C o n k r /\ kk <> c_zero C /\
    same_on_solutions C G kk p r /\ (r = [] \/ exists m c l, r = (m, c) :: l /\ find m = Ok None).
Proof.
  assert (Nil : forall N fuel, (Datatypes.S N <= fuel)%nat -> dp_nfhead C fuel o find [] = Ok []).
  { intros N [|fuel] F; [lia|reflexivity]. }
  assert (X : forall m c l, dp_canonical C o n k ((m, c) :: l) ->
    exists N r kk, (forall fuel, (N <= fuel)%nat -> dp_nfhead C fuel o find ((m, c) :: l) = Ok r) /\ dp_canonical C o n k r /\ kk <> c_zero C /\
    same_on_solutions C G kk ((m, c) :: l) r /\ (r = [] \/ exists m c l, r = (m, c) :: l /\ find m = Ok None)).
  { intro m. induction m as [m IH] using (well_founded_induction (pylt_wf o n k)). intros c l P.
    destruct (dnf_step _ _ reduction_good [] m c l P) as [E|(q & q' & k1 & r' & E & T & Ra & Er & P' & Br & Kk & Sm)].
    - exists 1%nat, ((m, c) :: l), (c_one C). split; [intros [|fuel] F; [lia|]; cbn [dp_nfhead]; rewrite E; reflexivity|].
      split; [exact P|]. split; [apply (gc_one C H)|]. split; [apply same_refl|]. right. exists m, c, l. auto.
    - cbn [app cscaled map length] in *. destruct r' as [|[m' c'] l'].
      + exists 2%nat, [], k1. split; [|split; [exact P'|split; [exact Kk|split; [exact Sm|now left]]]].
        intros [|fuel] F; [lia|]. cbn [dp_nfhead]. rewrite E. cbn [bind]. rewrite T, Ra. cbn [bind]. rewrite Er. cbn [bind]. apply (Nil 0%nat). lia.
      + destruct (IH m') with (c := c') (l := l') as (N & r & kk & H1 & H2 & H3 & H4 & H5); [|exact P'|].
        { split; [apply (dcanonical_mono [] _ _ _ P')|]. split; [apply (dcanonical_mono [] _ _ _ P)|exact (Forall_inv Br)]. }
        exists (Datatypes.S N), r, (c_mul C kk k1). split.
        * intros [|fuel] F; [lia|]. cbn [dp_nfhead]. rewrite E. cbn [bind]. rewrite T, Ra. cbn [bind]. rewrite Er. cbn [bind]. apply H1. lia.
        * split; [exact H2|]. split; [apply nz_mul; assumption|]. split; [|exact H5]. eapply same_trans; eassumption. }
  intro P. destruct p as [|[m c] l]; [|apply X; exact P].
  exists 1%nat, [], (c_one C). split; [apply (Nil 0%nat)|]. split; [exact P|]. split; [apply (gc_one C H)|]. split; [apply same_refl|now left].
Qed.

Lemma dnftail_ok m c p : dp_canonical C o n k ((m, c) :: p) ->
  exists N d r kk, (forall fuel, (N <= fuel)%nat -> dp_nftail C fuel o find ((m, c) :: p) = Ok ((m, d) :: r)) /\
    dp_canonical C o n k ((m, d) :: r) /\ kk <> c_zero C /\ same_on_solutions C G kk ((m, c) :: p) ((m, d) :: r) /\ dsettled r.
Proof.
  intro P. destruct (dloop_ok _ _ reduction_good (gc_one C H) nz_mul p [(m, c)] 1 P) as (N & r & kk & H1 & H2 & H3 & H4 & H5 & H6); [constructor|cbn; lia|].
  destruct r as [|[u d] r]; [discriminate H5|]. cbn [firstn map fst] in H5. injection H5 as ->.
  exists N, d, r, kk. cbn [skipn] in H6. auto.
Qed.

Lemma dnf_ok p : good_quo C -> dp_canonical C o n k p ->
  exists N r, (forall fuel, (N <= fuel)%nat -> dp_nf C fuel o find p = Ok r) /\ dp_canonical C o n k r /\
    same_on_solutions C G (c_one C) p r /\ dsettled r.
Proof.
  intros HQ P.
  assert (M : forall a b, a = c_one C -> b = c_one C -> c_mul C a b = c_one C) by (intros ? ? -> ->; apply (gc_mul_1 C H)).
  destruct (dloop_ok _ _ (redrat_good HQ) eq_refl M p [] 0 P) as (N & r & kk & H1 & H2 & H3 & H4 & H5 & H6); [constructor|cbn; lia|].
  subst kk. exists N, r. auto.
Qed.
End Find.

(* ---------------------------------------------------------------- sums, df *)

Lemma add_ok p q : dp_canonical C o n k p -> dp_canonical C o n k q ->
  exists r, dp_add C o p q = Ok r /\ dp_canonical C o n k r /\
    forall F, good_space C F -> forall u, value F u r = f_add F (value F u p) (value F u q).
Proof.
  intros P Q. assert (R := merge_canonical p q P Q). exists (dp_merge C o p q). split; [apply dp_checked_ok; exact R|]. split; [exact R|].
  intros F HF u. apply dp_canonical_iff in P. apply dp_canonical_iff in Q. apply (merge_value F HF); tauto.
Qed.

Lemma neg_ok p : dp_canonical C o n k p ->
  dp_canonical C o n k (dp_neg C p) /\ forall F, good_space C F -> forall u, f_add F (value F u p) (value F u (dp_neg C p)) = f_zero F.
Proof.
  intro P. split.
  - apply dp_canonical_iff in P as (S & M & Z). apply dp_canonical_iff. unfold dp_neg. split; [|split].
    + clear -S. induction p as [|x l IH]; [constructor|]. apply dsorted_cons in S as [B S]. cbn [map]. apply dsorted_cons. split; [|auto].
      cbn [fst]. unfold dbelow in *. rewrite Forall_map. exact B.
    + unfold dmonos. rewrite Forall_map. exact M.
    + unfold dnz in *. rewrite Forall_map. eapply Forall_impl; [|exact Z]. cbn. intros. apply c_neg_nz; assumption.
  - intros F HF u. clear P. induction p as [|[m c] p IH]; [apply (gs_add_0 C F HF)|]. cbn [dp_neg map fst snd]. rewrite !value_cons, (f_add4 F HF), (f_neg F HF).
    change (map _ p) with (dp_neg C p). rewrite IH. apply (gs_add_0 C F HF).
Qed.

Lemma iter_S {X} (f : X -> X) d x : Nat.iter (S d) f x = f (Nat.iter d f x).
Proof. reflexivity. Qed.
Lemma add_at_map v d l : add_at v (Z.of_nat d) (map Z.of_nat l) = map Z.of_nat (Nat.iter d (incr v) l).
Proof.
  revert v. induction l as [|x l IH]; intro v.
  - assert (E : Nat.iter d (incr v) [] = []) by (induction d as [|d IH]; [reflexivity|]; rewrite iter_S, IH; destruct v; reflexivity).
    rewrite E. destruct v; reflexivity.
  - destruct v as [|v]; cbn [map add_at].
    + assert (E : Nat.iter d (incr 0) (x :: l) = (x + d)%nat :: l).
      { clear IH. induction d; [cbn; now rewrite Nat.add_0_r|]. rewrite iter_S, IHd. cbn [incr]. replace (S (x + d)) with (x + S d)%nat by lia. reflexivity. }
      rewrite E. cbn [map]. f_equal. lia.
    + rewrite IH. assert (E : Nat.iter d (incr (S v)) (x :: l) = x :: Nat.iter d (incr v) l) by (clear IH; induction d; [|rewrite iter_S, IHd]; reflexivity).
      rewrite E. reflexivity.
Qed.
Definition df_exps (l : list (nat * nat)) (e : list nat) : list nat := fold_left (fun e x => Nat.iter (snd x) (incr (fst x)) e) l e.

Lemma df_loop_ok args l : df_reads n args l -> forall e, dp_df_loop n args (map Z.of_nat e) = Ok (map Z.of_nat (df_exps l e)).
Proof.
  intro R. induction R as [|v args l V N R IH|v d args l V R IH]; intro e; [reflexivity|..]; cbn [dp_df_loop]; unfold assert_;
    destruct (Nat.ltb_spec v n); try lia; cbn [andb negb].
  - assert (E : add_at v 1 (map Z.of_nat e) = map Z.of_nat (Nat.iter 1 (incr v) e)) by apply (add_at_map v 1).
    destruct args as [|[w|d] args]; [|..|exfalso; apply (N d args); reflexivity]; rewrite E; apply IH.
  - rewrite add_at_map. apply IH.
Qed.
Lemma iter_incr_length d v e : length (Nat.iter d (incr v) e) = length e.
Proof. induction d; [reflexivity|]. rewrite iter_S, incr_length. exact IHd. Qed.
Lemma df_exps_length l : forall e, length (df_exps l e) = length e.
Proof. unfold df_exps. induction l as [|x l IH]; intro e; cbn [fold_left]; [reflexivity|]. rewrite IH. apply iter_incr_length. Qed.

Lemma derive_iter F (HF : good_space C F) e f d v : (v < length e)%nat -> derive F 0 (Nat.iter d (incr v) e) f = der_times F d v (derive F 0 e f).
Proof.
  intro V. induction d; cbn [der_times]; [reflexivity|]. rewrite iter_S, (derive_incr F HF) by (rewrite iter_incr_length; exact V). cbn [Nat.add]. now rewrite <- IHd.
Qed.
Lemma derive_exps F (HF : good_space C F) f args l : df_reads n args l -> forall e, length e = n ->
  derive F 0 (df_exps l e) f = fold_left (fun f x => der_times F (snd x) (fst x) f) l (derive F 0 e f).
Proof.
  intro R. induction R as [|v args l V N R IH|v d args l V R IH]; intros e L; [reflexivity|..]; unfold df_exps; cbn [fold_left fst snd];
    (etransitivity; [apply IH; rewrite iter_incr_length; exact L|]); rewrite (derive_iter F HF) by (rewrite L; exact V); reflexivity.
Qed.
Lemma derive_zero (F : space C) f i j : derive F i (repeat 0%nat j) f = f.
Proof. revert i. induction j; intro i; cbn; auto. Qed.

Lemma df_ok p args l : 0 <= p < k -> df_reads n args l ->
  exists r, dp_df C n k p args = Ok r /\ dp_canonical C o n k r /\
    forall F, good_space C F -> forall u, value F u r = fold_left (fun f x => der_times F (snd x) (fst x) f) l (u p).
Proof.
  intros P R. unfold dp_df, assert_. destruct (Z.leb_spec 0 p); [|lia]. destruct (Z.ltb_spec p k); [|lia]. cbn [andb negb].
  assert (E : repeat 0 n = map Z.of_nat (repeat 0%nat n)) by (clear; induction n; cbn; congruence).
  rewrite E, (df_loop_ok args l R). cbn [bind]. set (e := df_exps l (repeat 0%nat n)).
  assert (Le : length e = n) by (unfold e; rewrite df_exps_length; apply repeat_length).
  replace (forallb (fun x => 0 <=? x) (map Z.of_nat e)) with true.
  2:{ symmetry. apply forallb_forall. intros x X. apply in_map_iff in X as (y & <- & _). apply Z.leb_le. lia. }
  cbn [andb negb]. rewrite map_map. replace (map (fun x => Z.to_nat (Z.of_nat x)) e) with e.
  2:{ clear. induction e; cbn; [reflexivity|]. rewrite Nat2Z.id. congruence. }
  eexists. split; [reflexivity|]. split.
  - apply dp_canonical_iff. unfold dp_of_monom. split; [repeat constructor|]. split; [|repeat constructor; apply (gc_one C H)].
    repeat constructor; cbn [fst pos vars]; try lia.
  - intros F HF u. unfold dp_of_monom. cbn [value fold_right fst snd]. rewrite (f_add_0_r F HF), (gs_mul_one C F HF). unfold mono_value. cbn [pos vars].
    destruct (Z.eqb_spec p (-1)); [lia|]. unfold e. rewrite (derive_exps F HF _ args l R) by apply repeat_length. rewrite derive_zero. reflexivity.
Qed.

(* ---------------------------------------------------------------- statements *)

Lemma prolong_top p v : dp_canonical C o n k p -> (v < n)%nat ->
  exists r, dp_prolong C o p v = Ok r /\ dp_canonical C o n k r /\
    (forall F, good_space C F -> forall u, value F u r = f_der F v (value F u p)) /\
    forall m c p', p = (m, c) :: p' -> 0 <= pos m -> exists r', r = (Mon (pos m) (incr v (vars m)), c) :: r'.
Proof.
  intros P V. destruct (prolong_ok p v P V) as [E R]. eexists. split; [exact E|]. split; [exact R|]. split; [intros F HF u; apply prolong_value; assumption|].
  intros m c p' -> Q. apply prolong_lead; [exact P|exact V|lia].
Qed.
End Diff.

Lemma single_find C o n k u d q : dp_canonical C o n k ((u, d) :: q) -> 0 <= pos u ->
  dp_good_find C o n k (fun p => p = (u, d) :: q) (dp_find C ((u, d) :: q)).
Proof.
  intros Q P m M. unfold dp_find. assert (Mu := diff_mono_mono n k u (dcanonical_mono C o n k [] u d q Q)). assert (Mm := diff_mono_mono n k m M).
  destruct (py_divisible m u) eqn:E; [|exists None; split; [reflexivity|discriminate]].
  exists (Some ((u, d) :: q)). split; [reflexivity|]. intros q' E'. injection E' as <-. split; [exact Q|]. split; [reflexivity|].
  apply (py_divisible_spec n m u Mm Mu) in E as (x & Mx & E). exists u, d, q. split; [reflexivity|].
  destruct (py_mul_mul n x u m Mx Mu E) as (_ & -> & Pos).
  assert (Px : pos x = -1) by lia. destruct Mx as [Lx _], Mu as [Lu _].
  assert (Pm : pos (mul x u) = pos u) by (unfold mul, mul_pos; cbn [pos]; rewrite Px; cbn; destruct (Z.leb_spec 0 (pos u)); lia).
  rewrite Pm. split; [reflexivity|]. split; [exact P|]. split; [now right|]. split; [unfold mul; cbn [vars]; rewrite addv_length; congruence|].
  intro i. unfold mul. cbn [vars]. rewrite expo_addv by congruence. lia.
Qed.
