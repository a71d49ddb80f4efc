(** Proofs about PyGenModel.v. *)
From Coq Require Import ZArith List Bool Arith Lia Sorted Wellfounded.
From Verif Require Import Outcome MonomModel MonomSpec MonomProofs PolySpec PolyProofs PyMonomModel PyMonomSpec PyMonomProofs
  PyPolyModel PyPolySpec PyPolyProofs PyRedProofs PyDiffModel PyDiffSpec PyDiffProofs PyReadModel PyGenModel PyGenSpec.
Import ListNotations.
Local Open Scope Z_scope.

Section Diff.
Variables (C : coefs) (H : good_coefs C) (o : py_order) (n : nat) (k : Z).
Notation term := (monom * ck C)%type.
Notation dpoly := (list term).

Definition dmonos (l : dpoly) : Prop := Forall (fun x => pmono n k (fst x)) l.
Definition dsorted (l : dpoly) : Prop := StronglySorted (fun x y => pgt o (fst x) (fst y)) l.
Definition dbelow (m : monom) (l : dpoly) : Prop := Forall (fun x => pgt o m (fst x)) l.
Definition dnz (l : dpoly) : Prop := Forall (fun x => snd x <> c_zero C) l.

Lemma pmono_mono m : pmono n k m -> mono n m.
Proof. intros [M _]. exact M. Qed.

Lemma sp_canonical_iff l : sp_canonical C o n k l <-> dsorted l /\ dmonos l /\ dnz l.
Proof.
  unfold sp_canonical, dsorted, dmonos, dnz. split; intros (S & M & N); (split; [|split; assumption]).
  - clear N. induction S as [|x l S IH F]; constructor; inversion M as [|? ? Mx Ml]; subst; auto.
    rewrite Forall_forall in *. intros y Y. apply (py_meaning o n); [apply pmono_mono, Mx|apply pmono_mono, (Ml y Y)|auto].
  - clear N. induction S as [|x l S IH F]; constructor; inversion M as [|? ? Mx Ml]; subst; auto.
    rewrite Forall_forall in *. intros y Y. apply (py_meaning o n); [apply pmono_mono, Mx|apply pmono_mono, (Ml y Y)|apply F, Y].
Qed.

Lemma dsorted_cons x l : dsorted (x :: l) <-> dbelow (fst x) l /\ dsorted l.
Proof. unfold dsorted, dbelow. split; [intro S; inversion S; subst; auto|intros [B S]; constructor; auto]. Qed.

Lemma dmonos_cons x l : dmonos (x :: l) <-> pmono n k (fst x) /\ dmonos l.
Proof. apply Forall_cons_iff. Qed.
Lemma dnz_cons x l : dnz (x :: l) <-> snd x <> c_zero C /\ dnz l.
Proof. apply Forall_cons_iff. Qed.
Lemma dbelow_cons m x l : dbelow m (x :: l) <-> pgt o m (fst x) /\ dbelow m l.
Proof. apply Forall_cons_iff. Qed.

Lemma dbelow_trans m m' l : pgt o m m' -> dbelow m' l -> mono n m -> mono n m' -> dmonos l -> dbelow m l.
Proof.
  unfold dbelow, dmonos. rewrite !Forall_forall. intros G B M M' P x X. apply (pgt_trans o n _ m'); auto. apply pmono_mono, (P x X).
Qed.

Lemma is0_false a : a <> c_zero C -> c_is0 C a = false.
Proof. intro N. destruct (c_is0 C a) eqn:E; [apply (gc_is0 C H) in E; contradiction|reflexivity]. Qed.

Lemma dp_valid_ok l : dsorted l -> dnz l -> dp_valid C o l = true.
Proof.
  induction l as [|[m c] l IH]; intros S N; [reflexivity|]. apply dsorted_cons in S as [B S]. inversion N as [|? ? Nc Nl]; subst. cbn [snd fst] in *.
  cbn [dp_valid]. rewrite (is0_false c Nc). destruct l as [|[m' c'] l]; [reflexivity|].
  rewrite !andb_true_iff. split; [split|]; [reflexivity| |apply IH; assumption].
  inversion B as [|? ? Bm _]; subst. unfold pgt in Bm. cbn [fst] in Bm. rewrite Bm. reflexivity.
Qed.
Lemma dp_checked_ok l : sp_canonical C o n k l -> dp_checked C o l = Ok l.
Proof. intro P. apply sp_canonical_iff in P as (S & M & N). unfold dp_checked, assert_. now rewrite dp_valid_ok. Qed.

(* ---------------------------------------------------------------- merge *)

Lemma dp_merge_nil_r p : dp_merge C o p [] = p.
Proof. destruct p as [|[m c] p]; reflexivity. Qed.
Lemma dp_merge_cons m c p u d q : dp_merge C o ((m, c) :: p) ((u, d) :: q) =
  let x := py_cmp o m u in
  if 0 <? x then (m, c) :: dp_merge C o p ((u, d) :: q)
  else if x <? 0 then (u, d) :: dp_merge C o ((m, c) :: p) q
  else if c_is0 C (c_add C c d) then dp_merge C o p q else (m, c_add C c d) :: dp_merge C o p q.
Proof. reflexivity. Qed.

Ltac mcase m u Hm Hu :=
  destruct (pcases o n m u (pmono_mono m Hm) (pmono_mono u Hu)) as [[? E]|[[? E]|[? E]]]; rewrite E; cbn [Z.ltb Z.compare].

Lemma merge_monos p q : dmonos p -> dmonos q -> dmonos (dp_merge C o p q).
Proof.
  revert p q. refine (merge2_ind _ _ _ _); intros; [assumption|rewrite dp_merge_nil_r; assumption|].
  destruct x as [m c], y as [u d]. rewrite dp_merge_cons. cbv zeta.
  pose proof H3 as Pm; pose proof H4 as Qm; apply dmonos_cons in Pm as [Hm M]; apply dmonos_cons in Qm as [Hu A]. cbn [fst] in *.
  mcase m u Hm Hu; [apply dmonos_cons; auto|apply dmonos_cons; auto|]. destruct (c_is0 C (c_add C c d)); [auto|apply dmonos_cons; auto].
Qed.
Lemma merge_below v p q : dmonos p -> dmonos q -> dbelow v p -> dbelow v q -> dbelow v (dp_merge C o p q).
Proof.
  revert p q. refine (merge2_ind _ _ _ _); intros; [assumption|rewrite dp_merge_nil_r; assumption|].
  destruct x as [m c], y as [u d]. rewrite dp_merge_cons. cbv zeta.
  pose proof H3 as Pm; pose proof H4 as Qm; apply dmonos_cons in Pm as [Hm M]; apply dmonos_cons in Qm as [Hu A]; pose proof H5 as B5; pose proof H6 as B6; apply dbelow_cons in B5 as [? ?]; apply dbelow_cons in B6 as [? ?]. cbn [fst] in *.
  mcase m u Hm Hu; [apply dbelow_cons; auto|apply dbelow_cons; auto|]. destruct (c_is0 C (c_add C c d)); [auto|apply dbelow_cons; auto].
Qed.
Lemma merge_nz p q : dnz p -> dnz q -> dnz (dp_merge C o p q).
Proof.
  revert p q. refine (merge2_ind _ _ _ _); intros; [assumption|rewrite dp_merge_nil_r; assumption|].
  destruct x as [m c], y as [u d]. rewrite dp_merge_cons. cbv zeta.
  pose proof H3 as Pm; pose proof H4 as Qm; apply dnz_cons in Pm as [Hm M]; apply dnz_cons in Qm as [Hu A]. cbn [snd] in *.
  destruct (0 <? py_cmp o m u); [apply dnz_cons; auto|]. destruct (py_cmp o m u <? 0); [apply dnz_cons; auto|].
  destruct (c_is0 C (c_add C c d)) eqn:E; [auto|]. apply dnz_cons. split; [|auto]. cbn [snd]. intro Z. apply (gc_is0 C H) in Z. congruence.
Qed.
Lemma merge_sorted p q : dmonos p -> dmonos q -> dsorted p -> dsorted q -> dsorted (dp_merge C o p q).
Proof.
  revert p q. refine (merge2_ind _ _ _ _); intros; [assumption|rewrite dp_merge_nil_r; assumption|].
  destruct x as [m c], y as [u d]. rewrite dp_merge_cons. cbv zeta.
  pose proof H3 as Pm; pose proof H4 as Qm; apply dmonos_cons in Pm as [Hm M]; apply dmonos_cons in Qm as [Hu A]. pose proof H5 as P5; pose proof H6 as P6; apply dsorted_cons in P5 as [B5 S5]; apply dsorted_cons in P6 as [B6 S6]. cbn [fst] in *.
  assert (Mm := pmono_mono m Hm). assert (Mu := pmono_mono u Hu).
  mcase m u Hm Hu.
  - apply dsorted_cons. split; [|apply H0; auto; now apply dsorted_cons]. cbn [fst]. apply merge_below; auto.
    apply dbelow_cons; split; [assumption|]. apply (dbelow_trans m u); auto.
  - apply dsorted_cons. split; [|apply H1; auto; now apply dsorted_cons]. cbn [fst]. apply merge_below; auto.
    apply dbelow_cons; split; [assumption|]. apply (dbelow_trans u m); auto.
  - subst u. destruct (c_is0 C (c_add C c d)); [auto|]. apply dsorted_cons. split; [|auto]. cbn [fst]. apply merge_below; auto.
Qed.
Lemma merge_canonical p q : sp_canonical C o n k p -> sp_canonical C o n k q -> sp_canonical C o n k (dp_merge C o p q).
Proof.
  intros P Q. apply sp_canonical_iff in P as (S1 & M1 & N1). apply sp_canonical_iff in Q as (S2 & M2 & N2). apply sp_canonical_iff.
  split; [apply merge_sorted; auto|]. split; [apply merge_monos; auto|apply merge_nz; auto].
Qed.

(* ---------------------------------------------------------------- values *)

Section Values.
Variables (F : space C) (HF : good_module C F) (u : Z -> fs F).
Notation "f +f g" := (f_add F f g) (at level 50, left associativity).
Notation mv := (mod_mono F u).
Notation val := (mod_value F u).

Lemma f_add_0_r f : f +f f_zero F = f.
Proof. rewrite (gm_add_comm C F HF). apply (gm_add_0 C F HF). Qed.
Lemma f_mul_0 a : f_mul F a (f_zero F) = f_zero F.
Proof.
  rewrite <- (gm_mul_zero C F HF (f_zero F)) at 1. rewrite <- (gm_mul_mul C F HF), (gc_mul_comm C H), (gm_mul_mul C F HF).
  apply (gm_mul_zero C F HF).
Qed.
Lemma f_der_0 v : f_der F v (f_zero F) = f_zero F.
Proof.
  rewrite <- (gm_mul_zero C F HF (f_zero F)) at 1. rewrite (gm_act_mul C F HF). apply (gm_mul_zero C F HF).
Qed.
Lemma f_add4 a b c d : (a +f b) +f (c +f d) = (a +f c) +f (b +f d).
Proof.
  rewrite <- !(gm_add_assoc C F HF). f_equal. rewrite !(gm_add_assoc C F HF). f_equal. apply (gm_add_comm C F HF).
Qed.
Lemma f_cancel a b e x y : x +f y = f_zero F -> a +f (b +f e) = (a +f (x +f b)) +f (y +f e).
Proof. intro E. rewrite <- (gm_add_assoc C F HF a), f_add4, E, (gm_add_0 C F HF). reflexivity. Qed.
Lemma f_neg a f : f_mul F a f +f f_mul F (c_neg C a) f = f_zero F.
Proof. rewrite <- (gm_add_coefs C F HF), (gc_add_neg C H). apply (gm_mul_zero C F HF). Qed.
Lemma value_cons m c p : val ((m, c) :: p) = f_mul F c (mv m) +f val p.
Proof. reflexivity. Qed.
Lemma value_app p q : val (p ++ q) = val p +f val q.
Proof.
  induction p as [|[m c] p IH]; cbn [app]; [symmetry; apply (gm_add_0 C F HF)|]. rewrite !value_cons, IH. apply (gm_add_assoc C F HF).
Qed.

Lemma merge_value p q : dmonos p -> dmonos q -> val (dp_merge C o p q) = val p +f val q.
Proof.
  revert p q. refine (merge2_ind _ _ _ _); intros.
  - symmetry. apply (gm_add_0 C F HF).
  - rewrite dp_merge_nil_r. symmetry. apply f_add_0_r.
  - destruct x as [m c], y as [w d]. rewrite dp_merge_cons. cbv zeta.
    pose proof H3 as Pm; pose proof H4 as Qm; apply dmonos_cons in Pm as [Hm M]; apply dmonos_cons in Qm as [Hu A]. cbn [fst] in *.
    mcase m w Hm Hu.
    + rewrite !value_cons, H0, value_cons by auto. apply (gm_add_assoc C F HF).
    + rewrite (value_cons w d), H1 by auto. rewrite (value_cons w d). rewrite !(gm_add_assoc C F HF). f_equal. apply (gm_add_comm C F HF).
    + subst w. rewrite !value_cons, f_add4, <- (gm_add_coefs C F HF), <- H2 by auto.
      destruct (c_is0 C (c_add C c d)) eqn:E0; [|reflexivity]. apply (gc_is0 C H) in E0. rewrite E0, (gm_mul_zero C F HF).
      symmetry. apply (gm_add_0 C F HF).
Qed.

Lemma value_scaled a p : val (map (fun x => (fst x, c_mul C (snd x) a)) p) = f_mul F a (val p).
Proof.
  induction p as [|[m c] p IH]; cbn [map fst snd]; [symmetry; apply f_mul_0|]. rewrite !value_cons, IH, (gm_mul_add C F HF). f_equal.
  rewrite (gc_mul_comm C H). apply (gm_mul_mul C F HF).
Qed.

(** Derivatives commute with derivatives. *)
Lemma der_times_der d v w f : der_times F d v (f_der F w f) = f_der F w (der_times F d v f).
Proof. induction d; cbn [der_times]; [reflexivity|]. rewrite IHd. apply (gm_act_comm C F HF). Qed.
Lemma derive_incr e f : forall i v, (v < length e)%nat -> derive F i (incr v e) f = f_der F (i + v) (derive F i e f).
Proof.
  induction e as [|a e IH]; intros i v V; cbn [length] in V; [lia|]. destruct v as [|v]; cbn [incr derive].
  - rewrite Nat.add_0_r. reflexivity.
  - rewrite IH by lia. rewrite der_times_der. f_equal. lia.
Qed.
End Values.

(* ---------------------------------------------------------------- arithmetic of coefficients *)

Lemma c_add_0_r a : c_add C a (c_zero C) = a.
Proof. rewrite (gc_add_comm C H). apply (gc_add_0 C H). Qed.
Lemma c_add_cancel a b c : c_add C a b = c_add C a c -> b = c.
Proof.
  intro E. rewrite <- (gc_add_0 C H b), <- (gc_add_0 C H c), <- (gc_add_neg C H a), (gc_add_comm C H a), <- !(gc_add_assoc C H), E. reflexivity.
Qed.
Lemma c_mul_0_l a : c_mul C (c_zero C) a = c_zero C.
Proof.
  apply (c_add_cancel (c_mul C (c_zero C) a)). rewrite <- (gc_distr C H), (gc_add_0 C H). symmetry. apply c_add_0_r.
Qed.
Lemma c_mul_neg a b : c_mul C a (c_neg C b) = c_neg C (c_mul C a b).
Proof.
  apply (c_add_cancel (c_mul C a b)). rewrite (gc_add_neg C H), !(gc_mul_comm C H a), <- (gc_distr C H), (gc_add_neg C H). apply c_mul_0_l.
Qed.
Lemma c_neg_nz a : a <> c_zero C -> c_neg C a <> c_zero C.
Proof. intros N E. apply N. rewrite <- (gc_add_neg C H a), E. symmetry. apply c_add_0_r. Qed.
Lemma c_mul_nz a b : a <> c_zero C -> b <> c_zero C -> c_mul C a b <> c_zero C.
Proof. intros A B E. destruct (gc_domain C H _ _ E); contradiction. Qed.

(* ---------------------------------------------------------------- reduction and redRat *)

Definition kof (k1 : option (ck C)) : ck C := match k1 with Some b => b | None => c_one C end.
Definition oscaled (k1 : option (ck C)) (p : dpoly) : dpoly := map (fun x => (fst x, opt_mul C k1 (snd x))) p.
Definition cscaled (c : ck C) (p : dpoly) : dpoly := map (fun x => (fst x, c_mul C (snd x) c)) p.

Lemma opt_mul_kof k1 a : opt_mul C k1 a = c_mul C a (kof k1).
Proof. destruct k1; cbn [opt_mul kof]; [reflexivity|]. rewrite (gc_mul_comm C H). symmetry. apply (gc_mul_1 C H). Qed.
Lemma oscaled_kof k1 p : oscaled k1 p = cscaled (kof k1) p.
Proof. unfold oscaled, cscaled. apply map_ext. intros [m c]. cbn [fst snd]. now rewrite opt_mul_kof. Qed.
Lemma cscaled_below m c p : dbelow m p -> dbelow m (cscaled c p).
Proof. intro B. unfold dbelow, cscaled in *. rewrite Forall_map. exact B. Qed.
Lemma cscaled_canonical c p : c <> c_zero C -> sp_canonical C o n k p -> sp_canonical C o n k (cscaled c p).
Proof.
  intros N P. apply sp_canonical_iff in P as (S & M & Z). apply sp_canonical_iff. unfold cscaled. split; [|split].
  - clear -S. induction p as [|x l IH]; [constructor|]. apply dsorted_cons in S as [B S]. cbn [map]. apply dsorted_cons. split; [|auto].
    cbn [fst]. unfold dbelow in *. rewrite Forall_map. exact B.
  - unfold dmonos. rewrite Forall_map. exact M.
  - unfold dnz in *. rewrite Forall_map. eapply Forall_impl; [|exact Z]. cbn. intros. apply c_mul_nz; assumption.
Qed.

Lemma dp_tail_ok k2 q : dmonos q -> dp_tail C (py_unit n) k2 q = Ok (cscaled k2 q).
Proof.
  induction q as [|[u d] q IH]; intro Q; [reflexivity|]. apply dmonos_cons in Q as [Hu Q]. cbn [dp_tail fst] in *.
  rewrite (py_mul_unit n u) by (apply pmono_mono; exact Hu). cbn [bind]. rewrite (IH Q). reflexivity.
Qed.
Lemma red_merge_ok k1 k2 p q : dmonos q -> dp_red_merge C o k1 k2 (py_unit n) p q = Ok (dp_merge C o (oscaled k1 p) (cscaled k2 q)).
Proof.
  revert p q. refine (merge2_ind _ _ _ _); intros.
  - change (dp_red_merge C o k1 k2 (py_unit n) [] a) with (dp_tail C (py_unit n) k2 a). now rewrite dp_tail_ok.
  - destruct p as [|[m c] p]; reflexivity.
  - destruct x as [m c], y as [u d]. pose proof H3 as Q. apply dmonos_cons in Q as [Hu Q]. cbn [fst] in *.
    change (dp_red_merge C o k1 k2 (py_unit n) ((m, c) :: p) ((u, d) :: a)) with
      (do um <- py_mul u (py_unit n);
       let x := py_cmp o m um in
       if 0 <? x then do r <- dp_red_merge C o k1 k2 (py_unit n) p ((u, d) :: a); Ok ((m, opt_mul C k1 c) :: r)
       else if x <? 0 then do r <- dp_red_merge C o k1 k2 (py_unit n) ((m, c) :: p) a; Ok ((um, c_mul C d k2) :: r)
       else do r <- dp_red_merge C o k1 k2 (py_unit n) p a;
            let s := c_add C (opt_mul C k1 c) (c_mul C d k2) in Ok (if c_is0 C s then r else (m, s) :: r)).
    rewrite (py_mul_unit n u) by (apply pmono_mono; exact Hu). cbn [bind]. cbv zeta.
    rewrite (H0 H3), (H1 Q), (H2 Q). cbn [oscaled cscaled map fst snd]. rewrite dp_merge_cons. cbv zeta.
    destruct (0 <? py_cmp o m u); [reflexivity|]. destruct (py_cmp o m u <? 0); [reflexivity|]. cbn [bind].
    destruct (c_is0 C (c_add C (opt_mul C k1 c) (c_mul C d k2))); reflexivity.
Qed.

Lemma dsorted_app l r : dsorted (l ++ r) <-> dsorted l /\ dsorted r /\ Forall (fun x => dbelow (fst x) r) l.
Proof.
  induction l as [|x l IH]; cbn [app].
  - split; [intro X; split; [constructor|split; [exact X|constructor]]|tauto].
  - rewrite !dsorted_cons, IH, Forall_cons_iff. unfold dbelow at 1. rewrite Forall_app. unfold dbelow. tauto.
Qed.
Lemma dmonos_app l r : dmonos (l ++ r) <-> dmonos l /\ dmonos r.
Proof. apply Forall_app. Qed.
Lemma dnz_app l r : dnz (l ++ r) <-> dnz l /\ dnz r.
Proof. apply Forall_app. Qed.
Lemma dcanonical_mono A m c B : sp_canonical C o n k (A ++ (m, c) :: B) -> pmono n k m.
Proof. intro P. apply sp_canonical_iff in P as (_ & M & _). apply dmonos_app in M as [_ M]. exact (Forall_inv M). Qed.
Lemma dcanonical_below A m c B : sp_canonical C o n k (A ++ (m, c) :: B) -> dbelow m B.
Proof. intro P. apply sp_canonical_iff in P as (S & _ & _). apply dsorted_app in S as (_ & S & _). apply dsorted_cons in S as [B' _]. exact B'. Qed.
Lemma dcanonical_coef A m c B : sp_canonical C o n k (A ++ (m, c) :: B) -> c <> c_zero C.
Proof. intro P. apply sp_canonical_iff in P as (_ & _ & N). apply dnz_app in N as [_ N]. exact (Forall_inv N). Qed.

(** sums of values of monomials, whatever these are *)
Definition lin (phi : monom -> ck C) (p : dpoly) : ck C := fold_right (fun x s => c_add C (c_mul C (snd x) (phi (fst x))) s) (c_zero C) p.
Lemma lin_cons phi m c p : lin phi ((m, c) :: p) = c_add C (c_mul C c (phi m)) (lin phi p).
Proof. reflexivity. Qed.
Lemma c_add4 a b c d : c_add C (c_add C a b) (c_add C c d) = c_add C (c_add C a c) (c_add C b d).
Proof. rewrite <- !(gc_add_assoc C H). f_equal. rewrite !(gc_add_assoc C H). f_equal. apply (gc_add_comm C H). Qed.
Lemma c_mul_0_r a : c_mul C a (c_zero C) = c_zero C.
Proof. rewrite (gc_mul_comm C H). apply c_mul_0_l. Qed.
Lemma c_distr_l a b c : c_mul C a (c_add C b c) = c_add C (c_mul C a b) (c_mul C a c).
Proof. rewrite !(gc_mul_comm C H a). apply (gc_distr C H). Qed.
Lemma lin_app phi p q : lin phi (p ++ q) = c_add C (lin phi p) (lin phi q).
Proof. induction p as [|[m c] p IH]; cbn [app]; [symmetry; apply (gc_add_0 C H)|]. rewrite !lin_cons, IH. apply (gc_add_assoc C H). Qed.
Lemma lin_cscaled phi a p : lin phi (cscaled a p) = c_mul C a (lin phi p).
Proof.
  induction p as [|[m c] p IH]; [symmetry; apply c_mul_0_r|]. cbn [cscaled map fst snd]. rewrite !lin_cons. change (map _ p) with (cscaled a p). rewrite IH, c_distr_l. f_equal.
  rewrite (gc_mul_assoc C H). f_equal. apply (gc_mul_comm C H).
Qed.
Lemma lin_merge phi p q : dmonos p -> dmonos q -> lin phi (dp_merge C o p q) = c_add C (lin phi p) (lin phi q).
Proof.
  revert p q. refine (merge2_ind _ _ _ _); intros.
  - symmetry. apply (gc_add_0 C H).
  - rewrite dp_merge_nil_r. symmetry. apply c_add_0_r.
  - destruct x as [m c], y as [v d]. rewrite dp_merge_cons. cbv zeta.
    pose proof H3 as Pm; pose proof H4 as Qm; apply dmonos_cons in Pm as [Hm M]; apply dmonos_cons in Qm as [Hu A]. cbn [fst] in *.
    mcase m v Hm Hu.
    + rewrite !lin_cons, H0, lin_cons by auto. apply (gc_add_assoc C H).
    + rewrite (lin_cons phi v d), H1 by auto. rewrite (lin_cons phi v d). rewrite !(gc_add_assoc C H). f_equal. apply (gc_add_comm C H).
    + subst v. rewrite !lin_cons, c_add4, <- (gc_distr C H), <- H2 by auto.
      destruct (c_is0 C (c_add C c d)) eqn:E0; [|reflexivity]. apply (gc_is0 C H) in E0. rewrite E0, c_mul_0_l.
      symmetry. apply (gc_add_0 C H).
Qed.

Definition red_result (k1 k2 : ck C) (p r q : dpoly) : Prop :=
  (forall F (HF : good_module C F) u, mod_value F u r = f_add F (f_mul F k1 (mod_value F u p)) (f_mul F k2 (mod_value F u q))) /\
  forall phi, lin phi r = c_add C (c_mul C k1 (lin phi p)) (c_mul C k2 (lin phi q)).

(** The common part of reduction and redRat. *)
Lemma red_core k1 k2 A m c B d q : sp_canonical C o n k (A ++ (m, c) :: B) -> sp_canonical C o n k ((m, d) :: q) ->
  k1 <> c_zero C -> k2 <> c_zero C -> c_add C (c_mul C c k1) (c_mul C d k2) = c_zero C ->
  let r := cscaled k1 A ++ dp_merge C o (cscaled k1 B) (cscaled k2 q) in
  sp_canonical C o n k r /\ dbelow m (dp_merge C o (cscaled k1 B) (cscaled k2 q)) /\ red_result k1 k2 (A ++ (m, c) :: B) r ((m, d) :: q).
Proof.
  intros P Q K1 K2 E r. pose proof P as P'. pose proof Q as Q'.
  apply sp_canonical_iff in P' as (Sp & Mp & Np). apply sp_canonical_iff in Q' as (Sq & Mq & Nq).
  apply dsorted_app in Sp as (SA & Sm & BA). apply dsorted_cons in Sm as [BB SB]. cbn [fst] in BB.
  apply dmonos_app in Mp as [MA MB]. apply dmonos_cons in MB as [Mm MB]. apply dnz_app in Np as [NA NB]. apply dnz_cons in NB as [Nc NB].
  apply dmonos_cons in Mq as [_ Mq]. apply dnz_cons in Nq as [Nd Nq]. apply dsorted_cons in Sq as [Bq Sq]. cbn [fst snd] in *.
  assert (CA : sp_canonical C o n k A) by (apply sp_canonical_iff; auto). assert (CB : sp_canonical C o n k B) by (apply sp_canonical_iff; auto).
  assert (Cq : sp_canonical C o n k q) by (apply sp_canonical_iff; auto).
  assert (CsA := cscaled_canonical k1 A K1 CA). assert (CsB := cscaled_canonical k1 B K1 CB). assert (Csq := cscaled_canonical k2 q K2 Cq).
  assert (Cr := merge_canonical _ _ CsB Csq). set (r' := dp_merge C o (cscaled k1 B) (cscaled k2 q)) in *.
  assert (MsB : dmonos (cscaled k1 B)) by (apply sp_canonical_iff in CsB; tauto). assert (Msq : dmonos (cscaled k2 q)) by (apply sp_canonical_iff in Csq; tauto).
  assert (Br : dbelow m r') by (apply merge_below; auto using cscaled_below).
  split; [|split; [exact Br|]].
  - apply sp_canonical_iff in Cr as (S1 & S2 & S3). apply sp_canonical_iff in CsA as (T1 & T2 & T3). apply sp_canonical_iff.
    split; [|split; [apply dmonos_app; auto|apply dnz_app; auto]]. apply dsorted_app. split; [exact T1|]. split; [exact S1|].
    unfold cscaled. rewrite Forall_map. rewrite Forall_forall in BA |- *. intros x X. cbn [fst]. specialize (BA x X).
    unfold dmonos in MA. rewrite Forall_forall in MA.
    eapply dbelow_trans; [exact (Forall_inv BA)|exact Br|apply pmono_mono, (MA x X)|apply pmono_mono, Mm|exact S2].
  - split.
    2:{ intro phi. unfold r, r'. rewrite lin_app, lin_merge, !lin_cscaled, lin_app, !lin_cons, !c_distr_l by assumption.
        rewrite <- (gc_add_assoc C H (c_mul C k1 (lin phi A))), c_add4, !(gc_mul_assoc C H), <- (gc_distr C H), (gc_mul_comm C H k1 c), (gc_mul_comm C H k2 d), E, c_mul_0_l, (gc_add_0 C H).
        reflexivity. }
    intros F HF u. unfold r, r'. rewrite (value_app F HF), (merge_value F HF) by assumption. unfold cscaled.
    rewrite !(value_scaled F HF), (value_app F HF), !value_cons, !(gm_mul_add C F HF). apply (f_cancel F HF).
    rewrite <- !(gm_mul_mul C F HF), <- (gm_add_coefs C F HF), (gc_mul_comm C H k1), (gc_mul_comm C H k2), E. apply (gm_mul_zero C F HF).
Qed.

Definition red_good (red : dpoly -> nat -> dpoly -> outcome dpoly) (K : ck C -> Prop) : Prop :=
  forall A m c B d q, sp_canonical C o n k (A ++ (m, c) :: B) -> sp_canonical C o n k ((m, d) :: q) -> exists k1 k2 r',
    red (A ++ (m, c) :: B) (length A) ((m, d) :: q) = Ok (cscaled k1 A ++ r') /\ sp_canonical C o n k (cscaled k1 A ++ r') /\
    dbelow m r' /\ K k1 /\ red_result k1 k2 (A ++ (m, c) :: B) (cscaled k1 A ++ r') ((m, d) :: q).

Lemma reduction_good : red_good (dp_reduction C o) (fun a => a <> c_zero C).
Proof.
  intros A m c B d q P Q. assert (Mm := pmono_mono m (dcanonical_mono _ _ _ _ P)). destruct (div_self n m Mm) as [D E].
  assert (Nc := dcanonical_coef _ _ _ _ P). assert (Nd := dcanonical_coef [] _ _ _ Q).
  unfold dp_reduction. rewrite nth_error_app2, Nat.sub_diag by lia. cbn [nth_error]. unfold assert_. rewrite D. cbn [andb negb].
  destruct (c_split C c d) as [x y] eqn:S. destruct (gc_split C H c d x y Nc Nd S) as (R & Nx & Ny). rewrite E. cbn [bind].
  rewrite skipn_mid, firstn_mid, red_merge_ok, oscaled_kof by (apply sp_canonical_iff in Q as (_ & M & _); apply dmonos_cons in M; tauto). cbn [bind kof].
  destruct (red_core y (c_neg C x) A m c B d q P Q Ny (c_neg_nz x Nx)) as (X1 & X2 & X3).
  { rewrite c_mul_neg, R. apply (gc_add_neg C H). }
  exists y, (c_neg C x), (dp_merge C o (cscaled y B) (cscaled (c_neg C x) q)). split; [apply dp_checked_ok; exact X1|]. auto.
Qed.

Lemma cscaled_one p : cscaled (c_one C) p = p.
Proof.
  unfold cscaled. rewrite <- (map_id p) at 2. apply map_ext. intros [m c]. cbn [fst snd]. f_equal. rewrite (gc_mul_comm C H). apply (gc_mul_1 C H).
Qed.
Lemma redrat_good : good_quo C -> red_good (dp_redrat C o) (fun a => a = c_one C).
Proof.
  intros HQ A m c B d q P Q. assert (Mm := pmono_mono m (dcanonical_mono _ _ _ _ P)). destruct (div_self n m Mm) as [D E].
  assert (Nc := dcanonical_coef _ _ _ _ P). assert (Nd := dcanonical_coef [] _ _ _ Q).
  unfold dp_redrat. rewrite nth_error_app2, Nat.sub_diag by lia. cbn [nth_error]. unfold assert_. rewrite D. cbn [andb negb]. rewrite E. cbn [bind].
  rewrite skipn_mid, firstn_mid, red_merge_ok, oscaled_kof by (apply sp_canonical_iff in Q as (_ & M & _); apply dmonos_cons in M; tauto). cbn [bind kof].
  assert (Nq : c_quo C c d <> c_zero C) by (intro X; apply Nc; rewrite <- (HQ c d Nd), X; apply c_mul_0_l).
  destruct (red_core (c_one C) (c_neg C (c_quo C c d)) A m c B d q P Q (gc_one C H) (c_neg_nz _ Nq)) as (X1 & X2 & X3).
  { rewrite c_mul_neg, (gc_mul_comm C H d), (HQ c d Nd), (gc_mul_comm C H), (gc_mul_1 C H). apply (gc_add_neg C H). }
  exists (c_one C), (c_neg C (c_quo C c d)), (dp_merge C o (cscaled (c_one C) B) (cscaled (c_neg C (c_quo C c d)) q)).
  split; [|auto]. rewrite (cscaled_one A) in *. apply dp_checked_ok. exact X1.
Qed.

(* ---------------------------------------------------------------- multiples *)

Definition mulm (s : list nat) (m : monom) : monom := Mon (pos m) (addv (vars m) s).
Definition mulby (s : list nat) (q : dpoly) : dpoly := map (fun x => (mulm s (fst x), snd x)) q.

Lemma py_mul_s s m : mono n m -> py_mul m (Mon (-1) s) = Ok (mulm s m).
Proof. intros [L P]. rewrite py_mul_ok by (right; reflexivity). rewrite py_zip_add. cbn [pos vars]. rewrite Z.max_l by lia. reflexivity. Qed.
Lemma py_mul_s_l s m : mono n m -> py_mul (Mon (-1) s) m = Ok (mulm s m).
Proof.
  intros [L P]. rewrite py_mul_ok by (left; reflexivity). rewrite py_zip_add. cbn [pos vars]. rewrite Z.max_r by lia. rewrite addv_comm. reflexivity.
Qed.
Lemma mulm_pmono s m : length s = n -> pmono n k m -> pmono n k (mulm s m).
Proof. intros L [[Lm Pm] K]. split; [split|]; cbn [mulm pos vars]; [rewrite addv_length; congruence|exact Pm|exact K]. Qed.
Lemma pgt_mulm s a b : length s = n -> mono n a -> mono n b -> pgt o a b -> pgt o (mulm s a) (mulm s b).
Proof.
  intros L A B G. assert (Ms : mono n (Mon (-1) s)) by (split; [exact L|cbn; lia]). unfold pgt.
  rewrite (py_cmp_mul o n a b (Mon (-1) s) _ _ A B Ms (py_mul_s s a A) (py_mul_s s b B)). exact G.
Qed.
Lemma mulby_cons s m c q : mulby s ((m, c) :: q) = (mulm s m, c) :: mulby s q.
Proof. reflexivity. Qed.
Lemma mulby_below s m q : length s = n -> mono n m -> dmonos q -> dbelow m q -> dbelow (mulm s m) (mulby s q).
Proof.
  intros L M Q B. unfold dbelow, mulby, dmonos in *. rewrite Forall_map, Forall_forall in *. intros x X. cbn [fst].
  apply pgt_mulm; auto. apply pmono_mono, Q, X.
Qed.
Lemma mulby_canonical s q : length s = n -> sp_canonical C o n k q -> sp_canonical C o n k (mulby s q).
Proof.
  intros L Q. apply sp_canonical_iff in Q as (S & M & N). apply sp_canonical_iff. induction q as [|[m c] q IH]; [repeat split; constructor|].
  apply dsorted_cons in S as [B S]. apply dmonos_cons in M as [Hm M]. apply dnz_cons in N as [Hc N]. cbn [fst snd] in *. rewrite mulby_cons.
  destruct (IH S M N) as (S' & M' & N'). split; [apply dsorted_cons; split; [cbn [fst]; apply mulby_below; auto; apply pmono_mono, Hm|exact S']|].
  split; [apply dmonos_cons; split; [cbn [fst]; apply mulm_pmono; assumption|exact M']|apply dnz_cons; auto].
Qed.

Lemma lin_mulby phi s q : lin phi (mulby s q) = lin (fun x => phi (mulm s x)) q.
Proof. unfold lin, mulby. induction q as [|[m c] q IH]; [reflexivity|]. cbn [map fold_right fst snd]. now rewrite IH. Qed.
Definition grid (w : Z -> list nat -> ck C) (i : list nat) (m : monom) : ck C := if pos m =? -1 then c_one C else w (pos m) (vsum i (vars m)).
Lemma scheme_lin w p i : scheme_at w p i = lin (grid w i) p.
Proof. reflexivity. Qed.
Lemma lin_ext f g p : (forall x, In x p -> f (fst x) = g (fst x)) -> lin f p = lin g p.
Proof. induction p as [|[m c] p IH]; intro X; [reflexivity|]. rewrite !lin_cons. f_equal; [f_equal; apply (X (m, c)); now left|]. apply IH. intros x Y. apply X. now right. Qed.
Lemma grid_mulm w i s m : grid w i (mulm s m) = grid w (vsum i s) m.
Proof.
  unfold grid. cbn [mulm pos vars]. destruct (pos m =? -1); [reflexivity|]. f_equal. rewrite !vsum_addv, <- addv_assoc. f_equal. apply addv_comm.
Qed.
Lemma vsum_length a b : length a = length b -> length (vsum a b) = length a.
Proof. intro L. unfold vsum. rewrite map_length, combine_length. lia. Qed.
Section Power.
Variables (F : space C) (HF : good_module C F).
Lemma der_times_add d v f g : der_times F d v (f_add F f g) = f_add F (der_times F d v f) (der_times F d v g).
Proof. induction d; cbn [der_times]; [reflexivity|]. rewrite IHd. apply (gm_act_add C F HF). Qed.
Lemma der_times_mul d v a f : der_times F d v (f_mul F a f) = f_mul F a (der_times F d v f).
Proof. induction d; cbn [der_times]; [reflexivity|]. rewrite IHd. apply (gm_act_mul C F HF). Qed.
Lemma derive_add e f g : forall i, derive F i e (f_add F f g) = f_add F (derive F i e f) (derive F i e g).
Proof. induction e as [|d e IH]; intro i; cbn [derive]; [reflexivity|]. rewrite IH. apply der_times_add. Qed.
Lemma derive_mul e a f : forall i, derive F i e (f_mul F a f) = f_mul F a (derive F i e f).
Proof. induction e as [|d e IH]; intro i; cbn [derive]; [reflexivity|]. rewrite IH. apply der_times_mul. Qed.
Lemma derive_f0 e i : derive F i e (f_zero F) = f_zero F.
Proof. rewrite <- (gm_mul_zero C F HF (f_zero F)) at 1. rewrite derive_mul. apply (gm_mul_zero C F HF). Qed.
Lemma derive_der e v f : forall i, derive F i e (f_der F v f) = f_der F v (derive F i e f).
Proof. induction e as [|d e IH]; intro i; cbn [derive]; [reflexivity|]. rewrite IH. apply (der_times_der F HF). Qed.
Lemma derive_der_times e v d f i : derive F i e (der_times F d v f) = der_times F d v (derive F i e f).
Proof. induction d; cbn [der_times]; [reflexivity|]. rewrite derive_der, IHd. reflexivity. Qed.
Lemma der_times_plus a b v f : der_times F (a + b) v f = der_times F b v (der_times F a v f).
Proof. rewrite Nat.add_comm. induction b; cbn [der_times Nat.add]; [reflexivity|]. now rewrite IHb. Qed.
Lemma derive_addv e s f : length e = length s -> forall i, derive F i (addv e s) f = derive F i s (derive F i e f).
Proof.
  revert s. induction e as [|a e IH]; intros [|b s] L i; cbn [length] in L; try discriminate; [reflexivity|]. cbn [addv derive].
  rewrite IH by lia. rewrite der_times_plus. rewrite derive_der_times. reflexivity.
Qed.
Lemma mv_mulm u s m : length s = n -> mono n m -> mod_mono F u (mulm s m) = power_on F s (mod_mono F u m).
Proof. intros L [Lm _]. unfold mod_mono, power_on. cbn [mulm pos vars]. apply derive_addv. congruence. Qed.
Lemma mulby_value u s q : length s = n -> dmonos q -> mod_value F u (mulby s q) = power_on F s (mod_value F u q).
Proof.
  intros L. induction q as [|[m c] q IH]; intro M; [symmetry; apply derive_f0|]. apply dmonos_cons in M as [Hm M]. cbn [fst] in Hm.
  rewrite mulby_cons, !value_cons, IH by exact M. unfold power_on at 2. rewrite derive_add, derive_mul. f_equal. f_equal.
  apply (mv_mulm u s m L), pmono_mono, Hm.
Qed.
End Power.

Lemma red_merge_s s k1 k2 p q : dmonos q ->
  dp_red_merge C o k1 k2 (Mon (-1) s) p q = Ok (dp_merge C o (oscaled k1 p) (cscaled k2 (mulby s q))).
Proof.
  assert (T : forall q, dmonos q -> dp_tail C (Mon (-1) s) k2 q = Ok (cscaled k2 (mulby s q))).
  { clear. induction q as [|[u d] q IH]; intro Q; [reflexivity|]. apply dmonos_cons in Q as [Hu Q]. cbn [dp_tail fst] in *.
    rewrite (py_mul_s s u) by (apply pmono_mono; exact Hu). cbn [bind]. rewrite (IH Q). reflexivity. }
  revert p q. refine (merge2_ind _ _ _ _); intros.
  - change (dp_red_merge C o k1 k2 (Mon (-1) s) [] a) with (dp_tail C (Mon (-1) s) k2 a). now rewrite T.
  - destruct p as [|[m c] p]; reflexivity.
  - destruct x as [m c], y as [u d]. pose proof H3 as Q. apply dmonos_cons in Q as [Hu Q]. cbn [fst] in *.
    change (dp_red_merge C o k1 k2 (Mon (-1) s) ((m, c) :: p) ((u, d) :: a)) with
      (do um <- py_mul u (Mon (-1) s);
       let x := py_cmp o m um in
       if 0 <? x then do r <- dp_red_merge C o k1 k2 (Mon (-1) s) p ((u, d) :: a); Ok ((m, opt_mul C k1 c) :: r)
       else if x <? 0 then do r <- dp_red_merge C o k1 k2 (Mon (-1) s) ((m, c) :: p) a; Ok ((um, c_mul C d k2) :: r)
       else do r <- dp_red_merge C o k1 k2 (Mon (-1) s) p a;
            let s := c_add C (opt_mul C k1 c) (c_mul C d k2) in Ok (if c_is0 C s then r else (m, s) :: r)).
    rewrite (py_mul_s s u) by (apply pmono_mono; exact Hu). cbn [bind]. cbv zeta.
    rewrite (H0 H3), (H1 Q), (H2 Q). cbn [oscaled cscaled mulby map fst snd]. rewrite dp_merge_cons. cbv zeta.
    destruct (0 <? py_cmp o m (mulm s u)); [reflexivity|]. destruct (py_cmp o m (mulm s u) <? 0); [reflexivity|]. cbn [bind].
    destruct (c_is0 C (c_add C (opt_mul C k1 c) (c_mul C d k2))); reflexivity.
Qed.

(** a reduction by a polynomial whose leading monomial divides m is the reduction by its multiple *)
Lemma div_mulm m v : mono n m -> mono n v -> pos v = pos m -> mdivides v m ->
  py_divisible m v = true /\ exists s, py_div m v = Ok (Mon (-1) s) /\ length s = n /\ mulm s v = m.
Proof.
  intros M V P D. destruct (py_div_same n m v M V P D) as (A & s & E & L & X). split; [exact A|]. exists s. split; [exact E|]. split; [exact L|].
  rewrite <- X. unfold mprod, mulm. cbn [pos vars Z.eqb]. f_equal. rewrite vsum_addv. apply addv_comm.
Qed.
Lemma reduction_mulby p i m c v d q s : nth_error p i = Some (m, c) -> mono n m -> dmonos ((v, d) :: q) -> py_divisible m v = true ->
  py_div m v = Ok (Mon (-1) s) -> mulm s v = m -> dmonos (mulby s ((v, d) :: q)) ->
  dp_reduction C o p i ((v, d) :: q) = dp_reduction C o p i (mulby s ((v, d) :: q)) /\
  dp_redrat C o p i ((v, d) :: q) = dp_redrat C o p i (mulby s ((v, d) :: q)).
Proof.
  intros E Mm Q D Dv X Q'. rewrite mulby_cons, X in *. apply dmonos_cons in Q as [_ Q]. apply dmonos_cons in Q' as [_ Q'].
  destruct (div_self n m Mm) as [D1 D2]. unfold dp_reduction, dp_redrat. rewrite E, D, D1, Dv, D2. cbn [bind].
  rewrite !red_merge_s by exact Q. rewrite !red_merge_ok by exact Q'. split; [|reflexivity].
  destruct (c_split C c d) as [x y]. rewrite red_merge_s by exact Q. rewrite red_merge_ok by exact Q'. reflexivity.
Qed.

(* ---------------------------------------------------------------- normal forms *)

Definition red_mod (red : dpoly -> nat -> dpoly -> outcome dpoly) (K : ck C -> Prop) : Prop :=
  forall A m c B v d q, sp_canonical C o n k (A ++ (m, c) :: B) -> sp_canonical C o n k ((v, d) :: q) -> pos v = pos m -> mdivides v m ->
  exists k1 k2 s r', length s = n /\ mulm s v = m /\
    red (A ++ (m, c) :: B) (length A) ((v, d) :: q) = Ok (cscaled k1 A ++ r') /\ sp_canonical C o n k (cscaled k1 A ++ r') /\
    dbelow m r' /\ K k1 /\
    (forall F (HF : good_module C F) u, mod_value F u (cscaled k1 A ++ r') =
      f_add F (f_mul F k1 (mod_value F u (A ++ (m, c) :: B))) (f_mul F k2 (power_on F s (mod_value F u ((v, d) :: q))))) /\
    forall phi, lin phi (cscaled k1 A ++ r') = c_add C (c_mul C k1 (lin phi (A ++ (m, c) :: B))) (c_mul C k2 (lin (fun x => phi (mulm s x)) ((v, d) :: q))).

Lemma red_mod_of red K : red_good red K -> (forall p i m c v d q s, nth_error p i = Some (m, c) -> mono n m -> dmonos ((v, d) :: q) ->
    py_divisible m v = true -> py_div m v = Ok (Mon (-1) s) -> mulm s v = m -> dmonos (mulby s ((v, d) :: q)) ->
    red p i ((v, d) :: q) = red p i (mulby s ((v, d) :: q))) -> red_mod red K.
Proof.
  intros G X A m c B v d q P Q E D. assert (Hm := dcanonical_mono _ _ _ _ P). assert (Hv := dcanonical_mono [] _ _ _ Q).
  destruct (div_mulm m v (pmono_mono m Hm) (pmono_mono v Hv) E D) as (D1 & s & D2 & L & Em).
  assert (Q' := mulby_canonical s _ L Q).
  assert (Mq : dmonos ((v, d) :: q)) by (apply sp_canonical_iff in Q; tauto). assert (Mq' : dmonos (mulby s ((v, d) :: q))) by (apply sp_canonical_iff in Q'; tauto).
  assert (EX : red (A ++ (m, c) :: B) (length A) ((v, d) :: q) = red (A ++ (m, c) :: B) (length A) (mulby s ((v, d) :: q))).
  { apply (X _ _ m c); auto; [|apply pmono_mono, Hm]. rewrite nth_error_app2, Nat.sub_diag by lia. reflexivity. }
  rewrite mulby_cons, Em in Q', EX. destruct (G A m c B d (mulby s q) P Q') as (k1 & k2 & r' & R1 & R2 & R3 & R4 & R5).
  exists k1, k2, s, r'. split; [exact L|]. split; [exact Em|]. split; [rewrite EX; exact R1|]. split; [exact R2|]. split; [exact R3|]. split; [exact R4|].
  destruct R5 as [R5 R6]. split; [|intro phi; rewrite R6; f_equal; f_equal; rewrite <- lin_mulby, mulby_cons, Em; reflexivity].
  intros F HF u. rewrite (R5 F HF). rewrite <- (mulby_value F HF u s _ L Mq). rewrite mulby_cons, Em. reflexivity.
Qed.
Lemma reduction_mod : red_mod (dp_reduction C o) (fun a => a <> c_zero C).
Proof. apply red_mod_of; [apply reduction_good|]. intros. eapply reduction_mulby; eassumption. Qed.
Lemma redrat_mod : good_quo C -> red_mod (dp_redrat C o) (fun a => a = c_one C).
Proof. intro HQ. apply red_mod_of; [apply redrat_good, HQ|]. intros. eapply reduction_mulby; eassumption. Qed.

Section Find.
Variables (G : dpoly -> Prop) (find : monom -> outcome (option dpoly)).
Hypothesis find_ok : sp_good_find C o n k G find.

Definition dsettled (l : dpoly) : Prop := Forall (fun x => find (fst x) = Ok None) l.

Definition both (a : ck C) (p r : dpoly) : Prop := same_modulo C G a p r /\ same_on_grid C n G a p r.
Lemma same_refl p : both (c_one C) p p.
Proof. split; [intros F HF u _; symmetry; apply (gm_mul_one C F HF)|intros w _ i _; symmetry; apply (gc_mul_1 C H)]. Qed.
Lemma same_trans a b p q r : both a p q -> both b q r -> both (c_mul C b a) p r.
Proof.
  intros [A A'] [B B']. split.
  - intros F HF u S. rewrite (B F HF u S), (A F HF u S). symmetry. apply (gm_mul_mul C F HF).
  - intros w S i I. rewrite (B' w S i I), (A' w S i I). apply (gc_mul_assoc C H).
Qed.

Section Red.
Variables (red : dpoly -> nat -> dpoly -> outcome dpoly) (K : ck C -> Prop).
Hypotheses (red_ok : red_mod red K) (K1 : K (c_one C)) (K2 : forall a b, K a -> K b -> K (c_mul C a b)).

Lemma dnf_step A m c B : sp_canonical C o n k (A ++ (m, c) :: B) ->
  find m = Ok None \/
  exists q k1 r', find m = Ok (Some q) /\ dp_truthy C (Some q) = Some q /\
    red (A ++ (m, c) :: B) (length A) q = Ok (cscaled k1 A ++ r') /\
    sp_canonical C o n k (cscaled k1 A ++ r') /\ dbelow m r' /\ K k1 /\
    both k1 (A ++ (m, c) :: B) (cscaled k1 A ++ r').
Proof.
  intro P. assert (Hm := dcanonical_mono _ _ _ _ P). destruct (find_ok m Hm) as (w & Ew & X). destruct w as [q|]; [right|left; exact Ew].
  destruct (X q eq_refl) as (Cq & Gq & v & d & q1 & -> & E & D).
  destruct (red_ok A m c B v d q1 P Cq E D) as (k1 & k2 & s & r' & Ls & _ & S1 & S2 & S3 & S4 & S5 & S6).
  exists ((v, d) :: q1), k1, r'. split; [exact Ew|]. split; [reflexivity|]. split; [exact S1|]. split; [exact S2|].
  split; [exact S3|]. split; [exact S4|]. split.
  2:{ intros w S i I. rewrite !scheme_lin, S6. rewrite (lin_ext (fun x => grid w i (mulm s x)) (grid w (vsum i s)) ((v, d) :: q1)) by (intros; apply grid_mulm).
      rewrite <- (scheme_lin w ((v, d) :: q1)), (S _ _ Gq), c_mul_0_r by (rewrite vsum_length; congruence). apply c_add_0_r. }
  intros F HF u S. rewrite (S5 F HF), (S _ Gq). unfold power_on. rewrite (derive_f0 F HF), (f_mul_0 F HF). apply (f_add_0_r F HF).
Qed.

Definition loop_post (a : nat) (A p : dpoly) (i : nat) : Prop :=
  exists N r kk, (forall fuel, (N <= fuel)%nat -> sp_loop C fuel red find i p = Ok r) /\ sp_canonical C o n k r /\ K kk /\
    both kk p r /\ map fst (firstn a r) = map fst (firstn a A) /\ dsettled (skipn a r).

Lemma dloop_ok B : forall A a, sp_canonical C o n k (A ++ B) -> dsettled (skipn a A) -> (a <= length A)%nat -> loop_post a A (A ++ B) (length A).
Proof.
  assert (Nil : forall A a, sp_canonical C o n k (A ++ []) -> dsettled (skipn a A) -> loop_post a A (A ++ []) (length A)).
  { intros A a P S. exists 1%nat, A, (c_one C). rewrite app_nil_r in *. split; [|split; [exact P|split; [exact K1|split; [apply same_refl|auto]]]].
    intros [|fuel] F; [lia|]. cbn [sp_loop].
    replace (nth_error A (length A)) with (@None term); [reflexivity|]. symmetry. apply nth_error_None. lia. }
  assert (X : forall m c l A a, sp_canonical C o n k (A ++ (m, c) :: l) -> dsettled (skipn a A) -> (a <= length A)%nat ->
    loop_post a A (A ++ (m, c) :: l) (length A)).
  { intro m. induction m as [m IH] using (well_founded_induction (pylt_wf o n k)). intros c l A a P S La.
    assert (Lm := dcanonical_mono _ _ _ _ P).
    assert (Step : forall fuel, sp_loop C (Datatypes.S fuel) red find (length A) (A ++ (m, c) :: l) =
      do w <- find m;
      match dp_truthy C w with
      | Some q => do p' <- red (A ++ (m, c) :: l) (length A) q; sp_loop C fuel red find (length A) p'
      | None => sp_loop C fuel red find (Datatypes.S (length A)) (A ++ (m, c) :: l)
      end).
    { intro fuel. cbn [sp_loop]. rewrite nth_error_app2, Nat.sub_diag by lia. reflexivity. }
    destruct (dnf_step A m c l P) as [E|(q & k1 & r' & E & T & Er & P' & Br & Kk & Sm)].
    - assert (Y : loop_post a (A ++ [(m, c)]) ((A ++ [(m, c)]) ++ l) (length (A ++ [(m, c)]))).
      { assert (P1 : sp_canonical C o n k ((A ++ [(m, c)]) ++ l)) by (rewrite <- app_assoc; exact P).
        assert (S1 : dsettled (skipn a (A ++ [(m, c)]))).
        { rewrite skipn_app. replace (a - length A)%nat with 0%nat by lia. apply Forall_app. split; [exact S|]. repeat constructor. exact E. }
        destruct l as [|[m' c'] l']; [apply Nil; assumption|]. apply IH; [|exact P1|exact S1|rewrite app_length; lia].
        split; [apply (dcanonical_mono _ _ _ _ P1)|]. split; [apply Lm|]. exact (Forall_inv (dcanonical_below _ _ _ _ P)). }
      destruct Y as (N & r & kk & H1 & H2 & H3 & H4 & H5 & H6). rewrite app_length, <- !app_assoc in *. cbn [app length] in *. rewrite Nat.add_1_r in H1.
      exists (Datatypes.S N), r, kk. split; [|split; [exact H2|split; [exact H3|split; [exact H4|split; [|exact H6]]]]].
      + intros [|fuel] F; [lia|]. rewrite Step, E. cbn [bind dp_truthy]. apply H1. lia.
      + rewrite H5. rewrite firstn_app. replace (a - length A)%nat with 0%nat by lia. cbn [firstn]. now rewrite app_nil_r.
    - assert (S1 : dsettled (skipn a (cscaled k1 A))).
      { unfold dsettled, cscaled in *. rewrite skipn_map. rewrite Forall_map. exact S. }
      assert (Y : loop_post a (cscaled k1 A) (cscaled k1 A ++ r') (length (cscaled k1 A))).
      { destruct r' as [|[m' c'] l']; [apply Nil; assumption|]. apply IH; [|exact P'|exact S1|unfold cscaled; rewrite map_length; exact La].
        split; [apply (dcanonical_mono _ _ _ _ P')|]. split; [apply Lm|exact (Forall_inv Br)]. }
      destruct Y as (N & r & kk & H1 & H2 & H3 & H4 & H5 & H6).
      replace (length (cscaled k1 A)) with (length A) in H1 by (unfold cscaled; now rewrite map_length).
      exists (Datatypes.S N), r, (c_mul C kk k1). split; [|split; [exact H2|split; [auto|split; [|split; [|exact H6]]]]].
      + intros [|fuel] F; [lia|]. rewrite Step, E. cbn [bind]. rewrite T, Er. cbn [bind]. apply H1. lia.
      + eapply same_trans; eassumption.
      + rewrite H5. unfold cscaled. rewrite firstn_map, map_map. reflexivity. }
  intros A a P S La. destruct B as [|[m c] l]; [apply Nil; assumption|apply X; assumption].
Qed.
End Red.

Lemma nfhead_ok p : sp_canonical C o n k p ->
  exists N r kk, (forall fuel, (N <= fuel)%nat -> sp_nfhead C fuel o find p = Ok r) /\ sp_canonical C o n k r /\ kk <> c_zero C /\
    both kk p r /\ (r = [] \/ exists m c l, r = (m, c) :: l /\ find m = Ok None).
Proof.
  assert (Nil : forall N fuel, (Datatypes.S N <= fuel)%nat -> sp_nfhead C fuel o find [] = Ok []).
  { intros N [|fuel] F; [lia|reflexivity]. }
  assert (X : forall m c l, sp_canonical C o n k ((m, c) :: l) ->
    exists N r kk, (forall fuel, (N <= fuel)%nat -> sp_nfhead C fuel o find ((m, c) :: l) = Ok r) /\ sp_canonical C o n k r /\ kk <> c_zero C /\
    both kk ((m, c) :: l) r /\ (r = [] \/ exists m c l, r = (m, c) :: l /\ find m = Ok None)).
  { intro m. induction m as [m IH] using (well_founded_induction (pylt_wf o n k)). intros c l P.
    destruct (dnf_step _ _ reduction_mod [] m c l P) as [E|(q & k1 & r' & E & T & Er & P' & Br & Kk & Sm)].
    - exists 1%nat, ((m, c) :: l), (c_one C). split; [intros [|fuel] F; [lia|]; cbn [sp_nfhead]; rewrite E; reflexivity|].
      split; [exact P|]. split; [apply (gc_one C H)|]. split; [apply same_refl|]. right. exists m, c, l. auto.
    - cbn [app cscaled map length] in *. destruct r' as [|[m' c'] l'].
      + exists 2%nat, [], k1. split; [|split; [exact P'|split; [exact Kk|split; [exact Sm|now left]]]].
        intros [|fuel] F; [lia|]. cbn [sp_nfhead]. rewrite E. cbn [bind]. rewrite T, Er. cbn [bind]. apply (Nil 0%nat). lia.
      + destruct (IH m') with (c := c') (l := l') as (N & r & kk & H1 & H2 & H3 & H4 & H5); [|exact P'|].
        { split; [apply (dcanonical_mono [] _ _ _ P')|]. split; [apply (dcanonical_mono [] _ _ _ P)|exact (Forall_inv Br)]. }
        exists (Datatypes.S N), r, (c_mul C kk k1). split.
        * intros [|fuel] F; [lia|]. cbn [sp_nfhead]. rewrite E. cbn [bind]. rewrite T, Er. cbn [bind]. apply H1. lia.
        * split; [exact H2|]. split; [apply c_mul_nz; assumption|]. split; [|exact H5]. eapply same_trans; eassumption. }
  intro P. destruct p as [|[m c] l]; [|apply X; exact P].
  exists 1%nat, [], (c_one C). split; [apply (Nil 0%nat)|]. split; [exact P|]. split; [apply (gc_one C H)|]. split; [apply same_refl|now left].
Qed.

Lemma nftail_ok m c p : sp_canonical C o n k ((m, c) :: p) ->
  exists N d r kk, (forall fuel, (N <= fuel)%nat -> sp_nftail C fuel o find ((m, c) :: p) = Ok ((m, d) :: r)) /\
    sp_canonical C o n k ((m, d) :: r) /\ kk <> c_zero C /\ both kk ((m, c) :: p) ((m, d) :: r) /\ dsettled r.
Proof.
  intro P. destruct (dloop_ok _ _ reduction_mod (gc_one C H) c_mul_nz p [(m, c)] 1 P) as (N & r & kk & H1 & H2 & H3 & H4 & H5 & H6); [constructor|cbn; lia|].
  destruct r as [|[u d] r]; [discriminate H5|]. cbn [firstn map fst] in H5. injection H5 as ->.
  exists N, d, r, kk. cbn [skipn] in H6. auto.
Qed.

Lemma nf_ok p : good_quo C -> sp_canonical C o n k p ->
  exists N r, (forall fuel, (N <= fuel)%nat -> sp_nf C fuel o find p = Ok r) /\ sp_canonical C o n k r /\
    both (c_one C) p r /\ dsettled r.
Proof.
  intros HQ P.
  assert (M : forall a b, a = c_one C -> b = c_one C -> c_mul C a b = c_one C) by (intros ? ? -> ->; apply (gc_mul_1 C H)).
  destruct (dloop_ok _ _ (redrat_mod HQ) eq_refl M p [] 0 P) as (N & r & kk & H1 & H2 & H3 & H4 & H5 & H6); [constructor|cbn; lia|].
  subst kk. exists N, r. auto.
Qed.
End Find.

(* ---------------------------------------------------------------- sums, differences, multiples by coefficients *)

Lemma same_monos_canonical (f : ck C -> ck C) p : (forall a, a <> c_zero C -> f a <> c_zero C) -> sp_canonical C o n k p ->
  sp_canonical C o n k (map (fun x => (fst x, f (snd x))) p).
Proof.
  intros Hf P. apply sp_canonical_iff in P as (S & M & N). apply sp_canonical_iff. split; [|split].
  - clear -S. induction p as [|x l IH]; [constructor|]. apply dsorted_cons in S as [B S]. cbn [map]. apply dsorted_cons. split; [|auto].
    cbn [fst]. unfold dbelow in *. rewrite Forall_map. exact B.
  - unfold dmonos. rewrite Forall_map. exact M.
  - unfold dnz in *. rewrite Forall_map. eapply Forall_impl; [|exact N]. cbn. auto.
Qed.

Lemma add_ok p q : sp_canonical C o n k p -> sp_canonical C o n k q ->
  exists r, dp_add C o p q = Ok r /\ sp_canonical C o n k r /\
    forall F, good_module C F -> forall u, mod_value F u r = f_add F (mod_value F u p) (mod_value F u q).
Proof.
  intros P Q. assert (R := merge_canonical p q P Q). exists (dp_merge C o p q). split; [apply dp_checked_ok; exact R|]. split; [exact R|].
  intros F HF u. apply sp_canonical_iff in P. apply sp_canonical_iff in Q. apply (merge_value F HF); tauto.
Qed.
Lemma neg_canonical p : sp_canonical C o n k p -> sp_canonical C o n k (dp_neg C p).
Proof. apply same_monos_canonical. apply c_neg_nz. Qed.
Lemma neg_value F (HF : good_module C F) u p : f_add F (mod_value F u p) (mod_value F u (dp_neg C p)) = f_zero F.
Proof.
  induction p as [|[m c] p IH]; [apply (gm_add_0 C F HF)|]. cbn [dp_neg map fst snd]. rewrite !value_cons, (f_add4 F HF), (f_neg F HF).
  change (map _ p) with (dp_neg C p). rewrite IH. apply (gm_add_0 C F HF).
Qed.
Lemma sub_merge_neg p q : sp_sub_merge C o p q = dp_merge C o p (dp_neg C q).
Proof.
  revert p q. refine (merge2_ind _ _ _ _); intros.
  - reflexivity.
  - destruct p as [|[m c] p]; reflexivity.
  - destruct x as [m c], y as [u d]. cbn [dp_neg map fst snd] in *. rewrite dp_merge_cons.
    change (sp_sub_merge C o ((m, c) :: p) ((u, d) :: a)) with
      (let x := py_cmp o m u in
       if 0 <? x then (m, c) :: sp_sub_merge C o p ((u, d) :: a)
       else if x <? 0 then (u, c_neg C d) :: sp_sub_merge C o ((m, c) :: p) a
       else let s := c_add C c (c_neg C d) in if c_is0 C s then sp_sub_merge C o p a else (m, s) :: sp_sub_merge C o p a).
    cbv zeta. rewrite H0, H1, H2. reflexivity.
Qed.
Lemma sub_ok p q : sp_canonical C o n k p -> sp_canonical C o n k q ->
  exists r, sp_sub C o p q = Ok r /\ sp_canonical C o n k r /\ r = dp_merge C o p (dp_neg C q) /\
    forall F, good_module C F -> forall u, f_add F (mod_value F u r) (mod_value F u q) = mod_value F u p.
Proof.
  intros P Q. assert (Qn := neg_canonical q Q). assert (R := merge_canonical p _ P Qn). exists (dp_merge C o p (dp_neg C q)).
  unfold sp_sub. rewrite sub_merge_neg. split; [apply dp_checked_ok; exact R|]. split; [exact R|]. split; [reflexivity|].
  intros F HF u. apply sp_canonical_iff in P. apply sp_canonical_iff in Qn. rewrite (merge_value F HF) by tauto.
  rewrite <- (gm_add_assoc C F HF), (gm_add_comm C F HF (mod_value F u (dp_neg C q))), (neg_value F HF). apply (f_add_0_r F HF).
Qed.
Lemma truediv_ok p c : good_quo C -> c <> c_zero C -> sp_canonical C o n k p ->
  sp_canonical C o n k (sp_truediv C p c) /\ forall F, good_module C F -> forall u, f_mul F c (mod_value F u (sp_truediv C p c)) = mod_value F u p.
Proof.
  intros HQ Nc P. split.
  - apply (same_monos_canonical (fun a => c_quo C a c)); [|exact P]. intros a Na E. apply Na. rewrite <- (HQ a c Nc), E. apply c_mul_0_l.
  - intros F HF u. clear P. induction p as [|[m d] p IH]; [apply (f_mul_0 F HF)|]. unfold sp_truediv in *. cbn [map fst snd]. rewrite !value_cons, (gm_mul_add C F HF), IH. f_equal.
    rewrite <- (gm_mul_mul C F HF), (gc_mul_comm C H), (HQ d c Nc). reflexivity.
Qed.
Lemma diff_ok p v : sp_canonical C o n k p ->
  exists r, sp_diff C o p v = Ok r /\ sp_canonical C o n k r /\
    forall F, good_module C F -> forall u (D : fs F -> fs F), (forall f g, D (f_add F f g) = f_add F (D f) (D g)) ->
      (forall a f, D (f_mul F a f) = f_add F (f_mul F (c_der C v a) f) (f_mul F a (D f))) ->
      (forall m, D (mod_mono F u m) = f_zero F) -> mod_value F u r = D (mod_value F u p).
Proof.
  intro P. exists (sp_diff_loop C p v).
  assert (B : forall m p, dbelow m p -> dbelow m (sp_diff_loop C p v)).
  { clear. intros m p. induction p as [|[w c] p IH]; intro B; [constructor|]. apply dbelow_cons in B as [G B]. cbn [sp_diff_loop].
    destruct (c_is0 C (c_der C v c)); [auto|]. apply dbelow_cons. auto. }
  assert (R : sp_canonical C o n k (sp_diff_loop C p v)).
  { apply sp_canonical_iff in P as (S & M & N). apply sp_canonical_iff. induction p as [|[m c] p IH]; [repeat split; constructor|].
    apply dsorted_cons in S as [Bm S]. apply dmonos_cons in M as [Hm M]. apply dnz_cons in N as [Hc N]. cbn [fst snd] in *. cbn [sp_diff_loop].
    destruct (IH S M N) as (S' & M' & N'). destruct (c_is0 C (c_der C v c)) eqn:E; [auto|].
    split; [apply dsorted_cons; split; [cbn [fst]; apply B; exact Bm|exact S']|].
    split; [apply dmonos_cons; split; [exact Hm|exact M']|apply dnz_cons; split; [|exact N']]. cbn [snd]. intro X. apply (gc_is0 C H) in X. congruence. }
  split; [apply dp_checked_ok; exact R|]. split; [exact R|]. intros F HF u D Da Dm D1. clear P R B.
  assert (D0 : D (f_zero F) = f_zero F).
  { transitivity (D (f_mul F (c_zero C) (mod_mono F u (py_unit n)))); [now rewrite (gm_mul_zero C F HF)|]. rewrite Dm, D1, (f_mul_0 F HF), (f_add_0_r F HF).
    replace (c_der C v (c_zero C)) with (c_zero C); [apply (gm_mul_zero C F HF)|].
    apply (c_add_cancel (c_der C v (c_zero C))). rewrite <- (gc_der_add C H), !c_add_0_r. reflexivity. }
  induction p as [|[m c] p IH]; [symmetry; exact D0|]. cbn [sp_diff_loop]. rewrite value_cons, Da, Dm, D1, (f_mul_0 F HF), (f_add_0_r F HF), <- IH.
  destruct (c_is0 C (c_der C v c)) eqn:E; [|apply value_cons]. apply (gc_is0 C H) in E. rewrite E, (gm_mul_zero C F HF). symmetry. apply (gm_add_0 C F HF).
Qed.

(* ---------------------------------------------------------------- prolong, mult *)

Lemma prolong_loop_ok p v : dmonos p -> (v < n)%nat -> sp_prolong_loop C p v = Ok (map (fun x => (mul_var v (fst x), snd x)) p).
Proof.
  intros M V. induction p as [|[m c] p IH]; [reflexivity|]. apply dmonos_cons in M as [Hm M]. cbn [sp_prolong_loop fst snd] in *.
  rewrite (py_prolong_ok n) by (auto; apply pmono_mono, Hm). cbn [bind]. rewrite IH by exact M. reflexivity.
Qed.
Lemma prolong_ok p v : sp_canonical C o n k p -> (v < n)%nat ->
  exists r, sp_prolong C o p v = Ok r /\ sp_canonical C o n k r /\
    forall F, good_module C F -> forall u, mod_value F u r = f_der F v (mod_value F u p).
Proof.
  intros P V. pose proof P as P'. apply sp_canonical_iff in P' as (S & M & N). unfold sp_prolong. rewrite prolong_loop_ok by assumption. cbn [bind].
  set (r := map (fun x => (mul_var v (fst x), snd x)) p). exists r.
  assert (Hv : forall m, pmono n k m -> pmono n k (mul_var v m)).
  { intros m [[L Pm] K]. split; [split|]; cbn [mul_var pos vars]; [rewrite incr_length; exact L|exact Pm|exact K]. }
  assert (R : sp_canonical C o n k r).
  { apply sp_canonical_iff. unfold r. clear P r. induction p as [|[m c] p IH]; [repeat split; constructor|].
    apply dsorted_cons in S as [B S]. apply dmonos_cons in M as [Hm M]. apply dnz_cons in N as [Hc N]. cbn [fst snd map] in *.
    destruct (IH S M N) as (S' & M' & N'). split; [apply dsorted_cons; split; [cbn [fst]|exact S']|].
    - unfold dbelow in *. rewrite Forall_map. rewrite Forall_forall in *. intros x X. cbn [fst]. apply (pgt_mul_var o n); [apply pmono_mono, Hm| |auto].
      unfold dmonos in M. rewrite Forall_forall in M. apply pmono_mono, M, X.
    - split; [apply dmonos_cons; split; [apply Hv, Hm|exact M']|apply dnz_cons; auto]. }
  split; [apply dp_checked_ok; exact R|]. split; [exact R|]. intros F HF u. unfold r. clear -M V HF H.
  induction p as [|[m c] p IH]; [symmetry; apply (f_der_0 F HF)|]. apply dmonos_cons in M as [Hm M]. cbn [map fst snd] in *. rewrite !value_cons, IH by exact M.
  rewrite (gm_act_add C F HF), (gm_act_mul C F HF). f_equal. f_equal. unfold mod_mono, power_on. cbn [mul_var pos vars].
  apply (derive_incr F HF). destruct Hm as [[L _] _]. rewrite L. exact V.
Qed.
Lemma prolong_out p v : dmonos p -> p <> [] -> (n <= v)%nat -> sp_prolong C o p v = AssertFail.
Proof.
  intros M E V. destruct p as [|[m c] p]; [contradiction|]. apply dmonos_cons in M as [[[L _] _] _]. cbn [fst] in L. unfold sp_prolong. cbn [sp_prolong_loop].
  unfold py_prolong, assert_. rewrite L. destruct (Nat.ltb_spec v n); [lia|]. reflexivity.
Qed.

(** products of two monomials one of which has no unknown function *)
Definition mulz (a b : monom) : monom := Mon (Z.max (pos a) (pos b)) (addv (vars a) (vars b)).
Lemma py_mulz a b : pos a = -1 \/ pos b = -1 -> py_mul a b = Ok (mulz a b).
Proof. intro X. rewrite py_mul_ok by exact X. rewrite py_zip_add. reflexivity. Qed.
Lemma mulz_pmono a b : pmono n k a -> pmono n k b -> pmono n k (mulz a b).
Proof.
  intros [[La Pa] Ka] [[Lb Pb] Kb]. split; [split|]; cbn [mulz pos vars]; [rewrite addv_length; congruence|lia|lia].
Qed.
Lemma mulz_comm a b : mulz a b = mulz b a.
Proof. unfold mulz. rewrite Z.max_comm, addv_comm. reflexivity. Qed.
Lemma mulz_value F (HF : good_module C F) u a b : pmono n k a -> pmono n k b -> pos a = -1 -> mod_mono F u (mulz a b) = power_on F (vars a) (mod_mono F u b).
Proof.
  intros [[La Pa] Ka] [[Lb Pb] Kb] E. unfold mod_mono, power_on, mulz. cbn [pos vars]. rewrite E. rewrite Z.max_r by lia. rewrite addv_comm. apply (derive_addv F HF). congruence.
Qed.
Lemma mulz_value_r F (HF : good_module C F) u a b : pmono n k a -> pmono n k b -> pos b = -1 -> mod_mono F u (mulz a b) = power_on F (vars b) (mod_mono F u a).
Proof. intros A B E. rewrite mulz_comm. apply mulz_value; assumption. Qed.

Lemma apply_cons (F : space C) m c p f : apply_poly F ((m, c) :: p) f = f_add F (f_mul F c (power_on F (vars m) f)) (apply_poly F p f).
Proof. reflexivity. Qed.
Lemma apply_add F (HF : good_module C F) p f g : apply_poly F p (f_add F f g) = f_add F (apply_poly F p f) (apply_poly F p g).
Proof.
  induction p as [|[m c] p IH]; [symmetry; apply (gm_add_0 C F HF)|]. rewrite !apply_cons, IH. unfold power_on. rewrite (derive_add F HF), (gm_mul_add C F HF). apply (f_add4 F HF).
Qed.
Lemma apply_mul F (HF : good_module C F) p a f : apply_poly F p (f_mul F a f) = f_mul F a (apply_poly F p f).
Proof.
  induction p as [|[m c] p IH]; [symmetry; apply (f_mul_0 F HF)|]. rewrite !apply_cons, IH. unfold power_on. rewrite (derive_mul F HF), (gm_mul_add C F HF). f_equal.
  rewrite <- !(gm_mul_mul C F HF), (gc_mul_comm C H). reflexivity.
Qed.
Lemma apply_f0 F (HF : good_module C F) p : apply_poly F p (f_zero F) = f_zero F.
Proof. rewrite <- (gm_mul_zero C F HF (f_zero F)) at 1. rewrite (apply_mul F HF). apply (gm_mul_zero C F HF). Qed.

Definition factors_ok (m1 : monom) (q : dpoly) : Prop := pos m1 = -1 \/ plain q.
Lemma factors_tail m1 x q : factors_ok m1 (x :: q) -> (pos m1 = -1 \/ pos (fst x) = -1) /\ factors_ok m1 q.
Proof. intros [X|X]; split; try (now left); right; [exact (Forall_inv X)|exact (Forall_inv_tail X)]. Qed.

Lemma mult_loop_ok m1 k1 p : factors_ok m1 p -> sp_mult_loop C m1 k1 p = Ok (map (fun x => (mulz m1 (fst x), c_mul C k1 (snd x))) p).
Proof.
  induction p as [|[m c] p IH]; intro X; [reflexivity|]. apply factors_tail in X as [X1 X2]. cbn [sp_mult_loop map fst snd] in *.
  rewrite py_mulz by exact X1. cbn [bind]. rewrite IH by exact X2. reflexivity.
Qed.
Lemma pgt_mulz m1 a b : mono n m1 -> mono n a -> mono n b -> pos m1 = -1 \/ pos a = -1 -> pos m1 = -1 \/ pos b = -1 -> pgt o a b -> pgt o (mulz m1 a) (mulz m1 b).
Proof.
  intros M A B X Y G. unfold pgt. rewrite !(mulz_comm m1). rewrite (py_cmp_mul o n a b m1 _ _ A B M (py_mulz a m1 ltac:(tauto)) (py_mulz b m1 ltac:(tauto))). exact G.
Qed.
Lemma mult_canonical m1 k1 p : pmono n k m1 -> k1 <> c_zero C -> factors_ok m1 p -> sp_canonical C o n k p ->
  sp_canonical C o n k (map (fun x => (mulz m1 (fst x), c_mul C k1 (snd x))) p).
Proof.
  intros M1 K1 X P. apply sp_canonical_iff in P as (S & M & N). apply sp_canonical_iff. induction p as [|[m c] p IH]; [repeat split; constructor|].
  pose proof X as Y. apply factors_tail in Y as [X1 X2]. apply dsorted_cons in S as [B S]. apply dmonos_cons in M as [Hm M]. apply dnz_cons in N as [Hc N]. cbn [fst snd map] in *.
  destruct (IH X2 S M N) as (S' & M' & N'). split; [apply dsorted_cons; split; [cbn [fst]|exact S']|].
  - unfold dbelow, dmonos in *. rewrite Forall_map. rewrite Forall_forall in *. intros x Hx. cbn [fst].
    apply pgt_mulz; auto using pmono_mono. destruct X2 as [X2|X2]; [now left|right]. unfold plain in X2. rewrite Forall_forall in X2. auto.
  - split; [apply dmonos_cons; split; [apply mulz_pmono; assumption|exact M']|apply dnz_cons; split; [apply c_mul_nz; assumption|exact N']].
Qed.
Lemma row_value F (HF : good_module C F) u m1 k1 p : pmono n k m1 -> dmonos p ->
  (pos m1 = -1 -> mod_value F u (map (fun x => (mulz m1 (fst x), c_mul C k1 (snd x))) p) = f_mul F k1 (power_on F (vars m1) (mod_value F u p))) /\
  (plain p -> mod_value F u (map (fun x => (mulz m1 (fst x), c_mul C k1 (snd x))) p) = f_mul F k1 (apply_poly F p (mod_mono F u m1))).
Proof.
  intros M1 M. split; intro X.
  - induction p as [|[m c] p IH]; [unfold power_on; cbn [map mod_value fold_right]; rewrite (derive_f0 F HF); symmetry; apply (f_mul_0 F HF)|].
    apply dmonos_cons in M as [Hm M]. cbn [map fst snd] in *. rewrite !value_cons, IH by exact M. unfold power_on. rewrite (derive_add F HF), (derive_mul F HF), (gm_mul_add C F HF). f_equal.
    rewrite (mulz_value F HF u m1 m M1 Hm X). apply (gm_mul_mul C F HF).
  - induction p as [|[m c] p IH]; [symmetry; apply (f_mul_0 F HF)|]. apply dmonos_cons in M as [Hm M]. cbn [map fst snd] in *. rewrite value_cons, IH by (try exact M; exact (Forall_inv_tail X)).
    rewrite apply_cons, (gm_mul_add C F HF). f_equal. rewrite (mulz_value_r F HF u m1 m M1 Hm (Forall_inv X)). apply (gm_mul_mul C F HF).
Qed.
Lemma mult_ok p m1 k1 : sp_canonical C o n k p -> pmono n k m1 -> k1 <> c_zero C -> pos m1 = -1 \/ plain p ->
  exists r, sp_mult C o p m1 k1 = Ok r /\ sp_canonical C o n k r /\ r = map (fun x => (mulz m1 (fst x), c_mul C k1 (snd x))) p /\
    forall F, good_module C F -> forall u,
      (pos m1 = -1 -> mod_value F u r = f_mul F k1 (power_on F (vars m1) (mod_value F u p))) /\
      (plain p -> mod_value F u r = f_mul F k1 (apply_poly F p (mod_mono F u m1))).
Proof.
  intros P M1 K1 X. unfold sp_mult, assert_. rewrite (is0_false k1 K1). cbn [negb andb]. rewrite mult_loop_ok by exact X. cbn [bind].
  assert (R := mult_canonical m1 k1 p M1 K1 X P). eexists. split; [apply dp_checked_ok; exact R|]. split; [exact R|]. split; [reflexivity|].
  intros F HF u. apply (row_value F HF u m1 k1 p M1). apply sp_canonical_iff in P. tauto.
Qed.

(* ---------------------------------------------------------------- products *)

Definition table (t : dpoly) : Prop := dmonos t /\ NoDup (map fst t).
Lemma dict_add_in m c t x : In x (map fst (dp_dict_add C o m c t)) -> x = m \/ In x (map fst t).
Proof.
  induction t as [|[u d] t IH]; cbn [dp_dict_add map fst In]; [intros [X|[]]; auto|]. destruct (py_eq o u m); cbn [map fst In]; [tauto|]. intros [X|X]; [auto|]. destruct (IH X); auto.
Qed.
Lemma dict_add_ok m c t : pmono n k m -> table t -> table (dp_dict_add C o m c t) /\
  forall F, good_module C F -> forall u, mod_value F u (dp_dict_add C o m c t) = f_add F (mod_value F u t) (f_mul F c (mod_mono F u m)).
Proof.
  intros Hm. induction t as [|[w d] t IH]; intros [M N].
  - split; [split; [constructor; [exact Hm|constructor]|repeat constructor; intros []]|]. intros F HF u. cbn [dp_dict_add]. rewrite value_cons, (gm_add_comm C F HF). reflexivity.
  - apply dmonos_cons in M as [Hw M]. cbn [map fst] in N, Hw. inversion N as [|? ? N1 N2]; subst. cbn [dp_dict_add]. destruct (py_eq o w m) eqn:E.
    + apply (py_eq_true o n) in E; [|apply pmono_mono, Hw|apply pmono_mono, Hm]. subst w. split; [split; [apply dmonos_cons; auto|cbn; constructor; assumption]|].
      intros F HF u. rewrite !value_cons, (gm_add_coefs C F HF), <- !(gm_add_assoc C F HF). f_equal. apply (gm_add_comm C F HF).
    + destruct (IH (conj M N2)) as [[M' N'] V]. split; [split; [apply dmonos_cons; auto|]|].
      * cbn [map fst]. constructor; [|exact N']. intro X. destruct (dict_add_in _ _ _ _ X) as [->|X']; [|contradiction].
        assert (Y : py_eq o m m = true) by (apply (py_eq_true o n); auto using pmono_mono). congruence.
      * intros F HF u. rewrite !value_cons, (V F HF u). apply (gm_add_assoc C F HF).
Qed.
Lemma dict_row_ok m1 k1 q : pmono n k m1 -> factors_ok m1 q -> dmonos q -> forall t, table t ->
  exists t', dp_dict_row C o m1 k1 q t = Ok t' /\ table t' /\
    forall F, good_module C F -> forall u, mod_value F u t' = f_add F (mod_value F u t) (mod_value F u (map (fun x => (mulz m1 (fst x), c_mul C k1 (snd x))) q)).
Proof.
  intros M1. induction q as [|[m c] q IH]; intros X M t T.
  - exists t. split; [reflexivity|]. split; [exact T|]. intros F HF u. symmetry. apply (f_add_0_r F HF).
  - apply factors_tail in X as [X1 X2]. apply dmonos_cons in M as [Hm M]. cbn [fst] in *. cbn [dp_dict_row]. rewrite py_mulz by exact X1. cbn [bind].
    destruct (dict_add_ok (mulz m1 m) (c_mul C k1 c) t (mulz_pmono _ _ M1 Hm) T) as [T' V]. destruct (IH X2 M _ T') as (t' & E & T2 & V2).
    exists t'. split; [exact E|]. split; [exact T2|]. intros F HF u. rewrite (V2 F HF), (V F HF). cbn [map fst snd]. rewrite value_cons. symmetry. apply (gm_add_assoc C F HF).
Qed.
Definition rows (F : space C) u (p q : dpoly) : fs F :=
  fold_right (fun x s => f_add F (mod_value F u (map (fun y => (mulz (fst x) (fst y), c_mul C (snd x) (snd y))) q)) s) (f_zero F) p.
Lemma dict_ok p q : dmonos p -> dmonos q -> plain p \/ plain q -> forall t, table t ->
  exists t', dp_dict C o p q t = Ok t' /\ table t' /\ forall F, good_module C F -> forall u, mod_value F u t' = f_add F (mod_value F u t) (rows F u p q).
Proof.
  intros M Mq X. induction p as [|[m c] p IH]; intros t T.
  - exists t. split; [reflexivity|]. split; [exact T|]. intros F HF u. symmetry. apply (f_add_0_r F HF).
  - apply dmonos_cons in M as [Hm M]. cbn [fst] in *. destruct (dict_row_ok m c q Hm) with (t := t) as (t1 & E1 & T1 & V1); auto.
    { destruct X as [X|X]; [left; exact (Forall_inv X)|right; exact X]. }
    destruct (IH M) with (t := t1) as (t2 & E2 & T2 & V2); auto. { destruct X as [X|X]; [left; exact (Forall_inv_tail X)|right; exact X]. }
    exists t2. split; [cbn [dp_dict]; rewrite E1; exact E2|]. split; [exact T2|]. intros F HF u. rewrite (V2 F HF), (V1 F HF). cbn [rows fold_right fst snd]. symmetry. apply (gm_add_assoc C F HF).
Qed.
Lemma rows_value F (HF : good_module C F) u p q : dmonos p -> dmonos q ->
  (plain p -> rows F u p q = apply_poly F p (mod_value F u q)) /\ (plain q -> rows F u p q = apply_poly F q (mod_value F u p)).
Proof.
  intros M Mq. split; intro X.
  - induction p as [|[m c] p IH]; [reflexivity|]. apply dmonos_cons in M as [Hm M]. cbn [rows fold_right fst snd] in *. rewrite apply_cons.
    change (fold_right _ _ p) with (rows F u p q). rewrite IH by (try exact M; exact (Forall_inv_tail X)). f_equal. apply (row_value F HF u m c q Hm Mq). exact (Forall_inv X).
  - induction p as [|[m c] p IH]; [symmetry; apply (apply_f0 F HF)|]. apply dmonos_cons in M as [Hm M]. cbn [rows fold_right fst snd] in *. rewrite value_cons, (apply_add F HF), (apply_mul F HF).
    change (fold_right _ _ p) with (rows F u p q). rewrite IH by exact M. f_equal. apply (row_value F HF u m c q Hm Mq). exact X.
Qed.

Lemma insert_value F (HF : good_module C F) u x l : mod_value F u (dp_insert C o x l) = mod_value F u (x :: l).
Proof.
  induction l as [|y l IH]; [reflexivity|]. cbn [dp_insert]. destruct (py_lt o (fst x) (fst y)); [|reflexivity]. destruct x as [a b], y as [c d]. rewrite !value_cons in *. rewrite IH.
  rewrite !(gm_add_assoc C F HF). f_equal. apply (gm_add_comm C F HF).
Qed.
Lemma insert_fst x l y : In y (map fst (dp_insert C o x l)) <-> y = fst x \/ In y (map fst l).
Proof.
  induction l as [|z l IH]; cbn [dp_insert map In]; [split; intros [X|X]; auto|]. destruct (py_lt o (fst x) (fst z)); cbn [map In]; [rewrite IH; tauto|split; intros [X|X]; auto].
Qed.
Lemma in_forall_fst (P : monom -> Prop) (l : dpoly) : Forall (fun x => P (fst x)) l <-> forall y, In y (map fst l) -> P y.
Proof. rewrite <- Forall_forall, Forall_map. reflexivity. Qed.
Lemma insert_sorted x l : pmono n k (fst x) -> ~ In (fst x) (map fst l) -> dmonos l -> dsorted l -> dsorted (dp_insert C o x l) /\ dmonos (dp_insert C o x l).
Proof.
  intros Hx N M S. split; [|apply in_forall_fst; intros y Y; apply insert_fst in Y as [->|Y]; [exact Hx|]; revert y Y; apply in_forall_fst; exact M].
  induction l as [|y l IH]; [repeat constructor|]. apply dmonos_cons in M as [Hy M]. apply dsorted_cons in S as [B S]. cbn [dp_insert map In] in *.
  destruct (pcases o n (fst x) (fst y) (pmono_mono _ Hx) (pmono_mono _ Hy)) as [[G E]|[[G E]|[G E]]]; unfold py_lt; rewrite E; cbn [Z.ltb Z.compare].
  - apply dsorted_cons. split; [|now apply dsorted_cons]. apply dbelow_cons. split; [exact G|]. apply (dbelow_trans _ (fst y)); auto using pmono_mono.
  - apply dsorted_cons. split; [|apply IH; tauto]. apply in_forall_fst. intros z Z. apply insert_fst in Z as [->|Z]; [exact G|]. revert z Z. apply in_forall_fst. exact B.
  - exfalso. apply N. left. symmetry. exact G.
Qed.
Lemma sorted_ok t : table t -> dsorted (dp_sorted C o t) /\ dmonos (dp_sorted C o t) /\ (forall y, In y (map fst (dp_sorted C o t)) <-> In y (map fst t)) /\
  forall F, good_module C F -> forall u, mod_value F u (dp_sorted C o t) = mod_value F u t.
Proof.
  unfold dp_sorted. induction t as [|x t IH]; intros [M N]; cbn [fold_right].
  - split; [constructor|]. split; [constructor|]. split; [tauto|reflexivity].
  - apply dmonos_cons in M as [Hx M]. cbn [map] in N. inversion N as [|? ? N1 N2]; subst. destruct (IH (conj M N2)) as (S & M' & I' & V).
    destruct (insert_sorted x (fold_right (dp_insert C o) [] t) Hx) as [S1 S2]; auto. { rewrite I'. exact N1. }
    split; [exact S1|]. split; [exact S2|]. split; [intro y; rewrite insert_fst, I'; cbn [map In]; split; intros [X|X]; auto|].
    intros F HF u. rewrite (insert_value F HF). destruct x as [m c]. rewrite !value_cons, (V F HF u). reflexivity.
Qed.
Lemma filter_canonical l : dsorted l -> dmonos l -> sp_canonical C o n k (filter (fun x => negb (c_is0 C (snd x))) l) /\
  forall F, good_module C F -> forall u, mod_value F u (filter (fun x => negb (c_is0 C (snd x))) l) = mod_value F u l.
Proof.
  intros S M. split.
  - apply sp_canonical_iff. induction l as [|[m c] l IH]; [repeat split; constructor|]. apply dsorted_cons in S as [B S]. apply dmonos_cons in M as [Hm M]. cbn [fst] in *.
    destruct (IH S M) as (S' & M' & N'). cbn [filter snd]. destruct (c_is0 C c) eqn:E; cbn [negb]; [auto|]. split; [apply dsorted_cons; split; [|exact S']|split; [apply dmonos_cons; auto|apply dnz_cons; split; [|exact N']]].
    + cbn [fst]. unfold dbelow in *. rewrite Forall_forall in *. intros x X. apply filter_In in X as [X _]. auto.
    + cbn [snd]. intro X. apply (gc_is0 C H) in X. congruence.
  - intros F HF u. clear S M. induction l as [|[m c] l IH]; [reflexivity|]. cbn [filter snd]. destruct (c_is0 C c) eqn:E; cbn [negb]; rewrite !value_cons, IH; [|reflexivity].
    apply (gc_is0 C H) in E. rewrite E, (gm_mul_zero C F HF). symmetry. apply (gm_add_0 C F HF).
Qed.
Lemma times_ok p q : sp_canonical C o n k p -> sp_canonical C o n k q -> plain p \/ plain q ->
  exists r, dp_times C o p q = Ok r /\ sp_canonical C o n k r /\
    forall F, good_module C F -> forall u,
      (plain p -> mod_value F u r = apply_poly F p (mod_value F u q)) /\ (plain q -> mod_value F u r = apply_poly F q (mod_value F u p)).
Proof.
  intros P Q X. apply sp_canonical_iff in P as (_ & M & _). apply sp_canonical_iff in Q as (_ & Mq & _).
  destruct (dict_ok p q M Mq X []) as (t & E & T & V); [split; constructor|]. unfold dp_times. rewrite E. cbn [bind].
  destruct (sorted_ok t T) as (S & M' & _ & V'). destruct (filter_canonical _ S M') as [R V2]. eexists. split; [apply dp_checked_ok; exact R|]. split; [exact R|].
  intros F HF u. rewrite (V2 F HF), (V' F HF), (V F HF). cbn [mod_value fold_right]. rewrite (gm_add_0 C F HF). apply (rows_value F HF u p q M Mq).
Qed.
Lemma times_module p q a c p' b d q' : p = (a, c) :: p' -> q = (b, d) :: q' -> 0 <= pos a -> 0 <= pos b -> dp_times C o p q = AssertFail.
Proof.
  intros -> -> A B. unfold dp_times. cbn [dp_dict dp_dict_row]. unfold py_mul, assert_.
  destruct (Z.eqb_spec (pos a) (-1)); [lia|]. destruct (Z.eqb_spec (pos b) (-1)); [lia|]. reflexivity.
Qed.

(* ---------------------------------------------------------------- reduce, S *)

Lemma seek_split lm p : dsorted p -> dmonos p -> mono n lm ->
  let i := sp_seek C o lm p in
  (exists A c B, p = A ++ (lm, c) :: B /\ i = length A) \/ (~ In lm (map fst p) /\ match nth_error p i with Some (m, _) => py_cmp o m lm =? 0 | None => false end = false).
Proof.
  induction p as [|[m c] p IH]; intros S M L i; [right; split; [intros []|reflexivity]|]. apply dsorted_cons in S as [B S]. apply dmonos_cons in M as [Hm M]. cbn [fst] in *.
  assert (Mm := pmono_mono m Hm). unfold i. cbn [sp_seek]. destruct (pcases o n m lm Mm L) as [[G E]|[[G E]|[G E]]]; rewrite E; cbn [Z.ltb Z.compare].
  - destruct (IH S M L) as [(A & d & B' & -> & Ei)|[N Ei]]; [left|right].
    + exists ((m, c) :: A), d, B'. split; [reflexivity|]. cbn [length]. congruence.
    + split; [|exact Ei]. cbn [map fst In]. intros [->|X]; [|contradiction]. apply (pgt_irrefl o n lm L). exact G.
  - right. cbn [nth_error]. rewrite E. split; [|reflexivity]. cbn [map fst In]. intros [->|X]; [apply (pgt_irrefl o n lm L); exact G|].
    apply in_map_iff in X as ((m2 & c2) & E2 & X). cbn [fst] in E2. subst m2. unfold dbelow in B. rewrite Forall_forall in B. specialize (B _ X). cbn [fst] in B.
    apply (pgt_irrefl o n lm L). apply (pgt_trans o n _ m); auto.
  - subst m. left. exists [], c, p. split; reflexivity.
Qed.
Lemma below_notin m (l : dpoly) : mono n m -> dbelow m l -> ~ In m (map fst l).
Proof.
  intros M B X. apply in_map_iff in X as ((m2 & c2) & E2 & X). cbn [fst] in E2. subst m2. unfold dbelow in B. rewrite Forall_forall in B. specialize (B _ X). apply (pgt_irrefl o n m M). exact B.
Qed.
Lemma reduce_ok p lm d q : sp_canonical C o n k p -> p <> [] -> sp_canonical C o n k ((lm, d) :: q) ->
  exists r k1 k2, sp_reduce C o p ((lm, d) :: q) = Ok r /\ sp_canonical C o n k r /\ k1 <> c_zero C /\ ~ In lm (map fst r) /\
    forall F, good_module C F -> forall u, mod_value F u r = f_add F (f_mul F k1 (mod_value F u p)) (f_mul F k2 (mod_value F u ((lm, d) :: q))).
Proof.
  intros P E Q. assert (Hl := dcanonical_mono [] _ _ _ Q). assert (Ml := pmono_mono lm Hl). pose proof P as P'. apply sp_canonical_iff in P' as (S & M & N).
  assert (Red : sp_reduce C o p ((lm, d) :: q) = match nth_error p (sp_seek C o lm p) with Some (m, _) => if py_cmp o m lm =? 0 then dp_reduction C o p (sp_seek C o lm p) ((lm, d) :: q) else Ok p | None => Ok p end).
  { destruct p; [contradiction|reflexivity]. }
  rewrite Red. destruct (seek_split lm p S M Ml) as [(A & c & B & -> & Ei)|[Nl Ei]].
  - rewrite Ei. rewrite nth_error_app2, Nat.sub_diag by lia. cbn [nth_error]. replace (py_cmp o lm lm =? 0) with true by (symmetry; apply Z.eqb_eq, (py_total o n); auto).
    destruct (reduction_good A lm c B d q P Q) as (k1 & k2 & r' & R1 & R2 & R3 & R4 & R5). exists (cscaled k1 A ++ r'), k1, k2. split; [exact R1|]. split; [exact R2|]. split; [exact R4|]. split.
    + rewrite map_app, in_app_iff. intros [X|X]; [|exact (below_notin lm r' Ml R3 X)]. unfold cscaled in X. rewrite map_map in X. cbn [fst] in X.
      apply in_map_iff in X as (x & E2 & X). apply dsorted_app in S as (_ & _ & S). rewrite Forall_forall in S. specialize (S x X). apply dbelow_cons in S as [S _]. cbn [fst] in S. rewrite E2 in S.
      apply (pgt_irrefl o n lm Ml). exact S.
    + intros F HF u. exact (proj1 R5 F HF u).
  - exists p, (c_one C), (c_zero C). split; [|split; [exact P|split; [apply (gc_one C H)|split; [exact Nl|]]]].
    + destruct (nth_error p (sp_seek C o lm p)) as [[m c]|]; [rewrite Ei|]; reflexivity.
    + intros F HF u. rewrite (gm_mul_one C F HF), (gm_mul_zero C F HF). symmetry. apply (f_add_0_r F HF).
Qed.
Lemma reduce_nil_l q : sp_reduce C o [] q = AssertFail.
Proof. reflexivity. Qed.
Lemma reduce_nil_r p : sp_reduce C o p [] = AssertFail.
Proof. destruct p; reflexivity. Qed.

Lemma mdivides_lcm a b c : length (vars a) = n -> pos a = -1 -> mono n c -> (forall i, (i < n)%nat -> expo (vars c) i = Nat.max (expo (vars a) i) (expo (vars b) i)) -> mdivides a c.
Proof.
  intros L E [Lc _] X. split; [now left|]. split; [congruence|]. intro i. destruct (Nat.lt_ge_cases i n) as [I|I]; [rewrite X by exact I; lia|].
  unfold expo. rewrite nth_overflow by lia. lia.
Qed.
Lemma S_ok a c p b d q : sp_canonical C o n k ((a, c) :: p) -> sp_canonical C o n k ((b, d) :: q) -> pos a = -1 -> pos b = -1 ->
  exists r m e f k1 k2, sp_S C o ((a, c) :: p) ((b, d) :: q) = Ok r /\ sp_canonical C o n k r /\
    vars m = addv (vars a) e /\ vars m = addv (vars b) f /\ (forall i, (i < n)%nat -> expo (vars m) i = Nat.max (expo (vars a) i) (expo (vars b) i)) /\
    pos m = -1 /\ k1 <> c_zero C /\ k2 <> c_zero C /\ Forall (fun x => pgt o m (fst x)) r /\
    (forall F, good_module C F -> forall u, f_add F (mod_value F u r) (f_mul F k2 (power_on F f (mod_value F u ((b, d) :: q)))) = f_mul F k1 (power_on F e (mod_value F u ((a, c) :: p)))) /\ mono n m.
Proof.
  intros P Q Pa Pb. assert (Ha := dcanonical_mono [] _ _ _ P). assert (Hb := dcanonical_mono [] _ _ _ Q). assert (Ma := pmono_mono a Ha). assert (Mb := pmono_mono b Hb).
  assert (Nc := dcanonical_coef [] _ _ _ P). assert (Nd := dcanonical_coef [] _ _ _ Q).
  destruct (py_lcm_ok n a b Ma Mb (or_introl Pa)) as (m & Em & Mm & Pm & Xm).
  assert (Da : mdivides a m) by (eapply mdivides_lcm; eauto; apply Ma). assert (Db : mdivides b m).
  { apply (mdivides_lcm b a m); [apply Mb|exact Pb|exact Mm|]. intros i I. rewrite Xm by exact I. lia. }
  destruct (div_mulm m a Mm Ma ltac:(congruence) Da) as (_ & e & De & Le & Ee). destruct (div_mulm m b Mm Mb ltac:(congruence) Db) as (_ & f & Df & Lf & Ef).
  unfold sp_S. unfold assert_. rewrite Pa, Pb. cbn [Z.eqb negb andb]. rewrite Em. cbn [bind].
  destruct (c_split C c d) as [x y] eqn:Sp. destruct (gc_split C H c d x y Nc Nd Sp) as (R & Nx & Ny). rewrite De, Df. cbn [bind].
  assert (Hk : pmono n k (Mon (-1) e)) by (split; [split; [exact Le|cbn; lia]|cbn; destruct Ha as [_ Ka]; lia]).
  assert (Hf : pmono n k (Mon (-1) f)) by (split; [split; [exact Lf|cbn; lia]|cbn; destruct Ha as [_ Ka]; lia]).
  destruct (mult_ok _ (Mon (-1) e) y P Hk Ny (or_introl eq_refl)) as (p' & Ep & Cp & Fp & Vp).
  destruct (mult_ok _ (Mon (-1) f) x Q Hf Nx (or_introl eq_refl)) as (q' & Eq & Cq & Fq & Vq). rewrite Ep, Eq. cbn [bind].
  destruct (sub_ok p' q' Cp Cq) as (r & Er & Cr & Fr & Vr). exists r, m, e, f, y, x. split; [exact Er|]. split; [exact Cr|].
  split; [rewrite <- Ee; reflexivity|]. split; [rewrite <- Ef; reflexivity|]. split; [exact Xm|]. split; [exact Pm|]. split; [exact Ny|]. split; [exact Nx|]. split.
  - rewrite Fr, Fp, Fq. cbn [map fst snd dp_neg].
    assert (Z1 : forall g w, mono n w -> mulz (Mon (-1) g) w = mulm g w).
    { intros g w [_ W]. unfold mulz, mulm. cbn [pos vars]. rewrite Z.max_r by lia. rewrite addv_comm. reflexivity. }
    rewrite (Z1 e a Ma), (Z1 f b Mb), Ee, Ef. rewrite dp_merge_cons. cbv zeta.
    replace (py_cmp o m m) with 0 by (symmetry; apply (py_total o n); auto). cbn [Z.ltb Z.compare].
    replace (c_is0 C (c_add C (c_mul C y c) (c_neg C (c_mul C x d)))) with true.
    2:{ symmetry. apply (gc_is0 C H). rewrite (gc_mul_comm C H y), R, (gc_mul_comm C H d). apply (gc_add_neg C H). }
    rewrite Fp in Cp. rewrite Fq in Cq. cbn [map fst snd] in Cp, Cq. rewrite (Z1 e a Ma), Ee in Cp. rewrite (Z1 f b Mb), Ef in Cq.
    apply neg_canonical in Cq. cbn [dp_neg map fst snd] in Cq.
    pose proof (dcanonical_below [] _ _ _ Cp) as B1. pose proof (dcanonical_below [] _ _ _ Cq) as B2. apply sp_canonical_iff in Cp as (_ & M1 & _). apply sp_canonical_iff in Cq as (_ & M2 & _).
    apply dmonos_cons in M1 as [_ M1]. apply dmonos_cons in M2 as [_ M2]. apply merge_below; assumption.
  - split; [|exact Mm]. intros F HF u. assert (X1 := proj1 (Vq F HF u) eq_refl). assert (X2 := proj1 (Vp F HF u) eq_refl). cbn [vars] in X1, X2. rewrite <- X1, <- X2. apply (Vr F HF u).
Qed.

(* ---------------------------------------------------------------- difference schemes *)

Lemma derive_iter F (HF : good_module C F) e f d v : (v < length e)%nat -> derive F 0 (Nat.iter d (incr v) e) f = der_times F d v (derive F 0 e f).
Proof.
  intro V. induction d; cbn [der_times]; [reflexivity|]. rewrite iter_S, (derive_incr F HF) by (rewrite iter_incr_length; exact V). cbn [Nat.add]. now rewrite <- IHd.
Qed.
Lemma derive_exps F (HF : good_module C F) f args l : df_reads n args l -> forall e, length e = n ->
  derive F 0 (df_exps l e) f = fold_left (fun f x => der_times F (snd x) (fst x) f) l (derive F 0 e f).
Proof.
  intro R. induction R as [|v args l V N R IH|v d args l V R IH]; intros e L; [reflexivity|..]; unfold df_exps; cbn [fold_left fst snd];
    (etransitivity; [apply IH; rewrite iter_incr_length; exact L|]); rewrite (derive_iter F HF) by (rewrite L; exact V); reflexivity.
Qed.
Lemma vsum_incr v : forall a b, (v < length b)%nat -> length a = length b -> vsum a (incr v b) = incr v (vsum a b).
Proof.
  induction v as [|v IH]; intros [|x a] [|y b] V L; cbn [length] in *; try lia; unfold vsum; cbn [incr combine map fst snd].
  - f_equal. lia.
  - f_equal. apply IH; lia.
Qed.
Lemma vsum_comm a b : vsum a b = vsum b a.
Proof. rewrite !vsum_addv. apply addv_comm. Qed.
Lemma vsum_iter d v a b : (v < length b)%nat -> length a = length b -> vsum a (Nat.iter d (incr v) b) = Nat.iter d (incr v) (vsum a b).
Proof.
  intros V L. induction d; [reflexivity|]. rewrite !iter_S, vsum_incr, IHd by (rewrite iter_incr_length; assumption). reflexivity.
Qed.
Lemma vsum_exps args l : df_reads n args l -> forall i e, length e = n -> length i = n -> vsum i (df_exps l e) = shifted_by l (vsum i e).
Proof.
  intro R. induction R as [|v args l V N R IH|v d args l V R IH]; intros i e L Li; [reflexivity|..]; unfold df_exps, shifted_by; cbn [fold_left fst snd];
    (etransitivity; [apply IH; [rewrite iter_incr_length; exact L|exact Li]|]); rewrite vsum_iter by congruence; reflexivity.
Qed.
Lemma vsum_zero i : vsum i (repeat 0%nat (length i)) = i.
Proof. induction i as [|x i IH]; [reflexivity|]. unfold vsum in *. cbn [length repeat combine map fst snd]. rewrite IH, Nat.add_0_r. reflexivity. Qed.

Lemma T_ok p args l : 0 <= p < k -> df_reads n args l ->
  exists r, sp_T C n k p args = Ok r /\ sp_canonical C o n k r /\
    (forall F, good_module C F -> forall u, mod_value F u r = fold_left (fun f x => der_times F (snd x) (fst x) f) l (u p)) /\
    forall w i, length i = n -> scheme_at w r i = w p (shifted_by l i).
Proof.
  intros P R. unfold sp_T, dp_df, assert_. destruct (Z.leb_spec 0 p); [|lia]. destruct (Z.ltb_spec p k); [|lia]. cbn [andb negb].
  assert (E : repeat 0 n = map Z.of_nat (repeat 0%nat n)) by (clear; induction n; cbn; congruence).
  rewrite E, (df_loop_ok n args l R). cbn [bind]. set (e := df_exps l (repeat 0%nat n)).
  assert (Le : length e = n) by (unfold e; rewrite df_exps_length; apply repeat_length).
  replace (forallb (fun x => 0 <=? x) (map Z.of_nat e)) with true.
  2:{ symmetry. apply forallb_forall. intros x X. apply in_map_iff in X as (y & <- & _). apply Z.leb_le. lia. }
  cbn [andb negb]. rewrite map_map. replace (map (fun x => Z.to_nat (Z.of_nat x)) e) with e.
  2:{ clear. induction e; cbn; [reflexivity|]. rewrite Nat2Z.id. congruence. }
  assert (Np : (p =? -1) = false) by lia.
  eexists. split; [reflexivity|]. unfold dp_of_monom. split; [|split].
  - apply sp_canonical_iff. split; [repeat constructor|]. split; [|repeat constructor; apply (gc_one C H)].
    repeat constructor; cbn [fst pos vars]; try lia.
  - intros F HF u. rewrite value_cons. unfold mod_mono, power_on. cbn [pos vars]. rewrite Np. cbn [mod_value fold_right]. rewrite (f_add_0_r F HF), (gm_mul_one C F HF). unfold e.
    rewrite (derive_exps F HF _ args l R) by apply repeat_length. now rewrite derive_zero.
  - intros w i Li. unfold scheme_at. cbn [fold_right fst snd pos vars]. rewrite Np, c_add_0_r, (gc_mul_1 C H). f_equal. unfold e.
    rewrite (vsum_exps args l R) by (try apply repeat_length; exact Li). replace (repeat 0%nat n) with (repeat 0%nat (length i)) by (now rewrite Li). now rewrite vsum_zero.
Qed.
Lemma prolong_at p v w : sp_canonical C o n k p -> (v < n)%nat ->
  exists r, sp_prolong C o p v = Ok r /\ forall i, length i = n -> scheme_at w r i = scheme_at w p (incr v i).
Proof.
  intros P V. destruct (prolong_ok p v P V) as (r & E & _). exists r. split; [exact E|]. intros i Li. apply sp_canonical_iff in P as (_ & M & _).
  unfold sp_prolong in E. rewrite prolong_loop_ok in E by assumption. cbn [bind] in E. unfold dp_checked, assert_ in E. destruct (dp_valid C o _); [|discriminate]. injection E as <-.
  induction p as [|[m c] p IH]; [reflexivity|]. apply dmonos_cons in M as [Hm M]. cbn [map fst snd scheme_at fold_right]. fold (scheme_at w p (incr v i)). rewrite <- (IH M). f_equal. f_equal. cbn [mul_var pos vars].
  destruct (pos m =? -1); [reflexivity|]. f_equal. destruct Hm as [[Lm _] _]. cbn [fst] in Lm. rewrite (vsum_comm (incr v i)), !vsum_incr, (vsum_comm i) by congruence. reflexivity.
Qed.
Lemma add_at_points p q : sp_canonical C o n k p -> sp_canonical C o n k q -> forall w, exists r, dp_add C o p q = Ok r /\
  forall i, scheme_at w r i = c_add C (scheme_at w p i) (scheme_at w q i).
Proof.
  intros P Q w. destruct (add_ok p q P Q) as (r & E & _). exists r. split; [exact E|]. intro i.
  unfold dp_add, dp_checked, assert_ in E. destruct (dp_valid C o _); [|discriminate]. injection E as <-.
  apply sp_canonical_iff in P as (_ & Mp & _). apply sp_canonical_iff in Q as (_ & Mq & _). rewrite !scheme_lin. apply lin_merge; assumption.
Qed.
End Diff.
