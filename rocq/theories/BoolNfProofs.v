(** Lemmas for the normal form of Boolean polynomials (bpoly.h) and the remaining operations. *)
From Coq Require Import ZArith List Bool Arith Sorted Lia Permutation.
From Verif Require Import Outcome BoolModel BoolSpec BoolProofs BoolPolyProofs.
Import ListNotations.
Local Open Scope Z_scope.

(** An object for every set. *)
Definition obj (l : list Z) : BM := mkBM (length l) (length l) l.
Lemma polys_obj : forall A, (forall l, In l A -> decreasing l) -> polys (map obj A) A.
Proof.
  induction A as [|a A IH]; intros D; constructor; [apply shows_mk; [apply D; left; reflexivity|lia]|]. apply IH. intros; apply D; right; assumption.
Qed.

(** The product with a monomial disjoint from the first one starts with the product of the first one. *)
Lemma times_head : forall c l lh F' R, decreasing c -> decreasing l -> decreasing lh -> (forall y, In y F' -> decreasing y) -> canon (lh :: F') ->
  (forall y, In y R -> decreasing y) ->
  (forall x, In x l <-> In x lh \/ In x c) -> (forall x, In x lh -> ~ In x c) -> times c (lh :: F') R ->
  exists R', R = l :: R' /\ canon (l :: R').
Proof.
  intros c l lh F' R Dc Dl Dh DF HF DR Hl Hdis (HcR & U & HU & HiR & HvR). inversion HU as [|? u ? U' [Du Hu] HU']; subst.
  assert (u = l) by (apply dec_ext; [exact Du|exact Dl|]; intros x; rewrite Hu, Hl; reflexivity). subst u.
  apply canon_cons in HF as [HF Hh].
  assert (HU2 : forall y, In y U' -> decreasing y /\ larger l y).
  { intros y Hy. clear HU HiR HvR. revert Hy DF Hh. induction HU' as [|f w F U'' [Dw Hw] HU' IH]; [intros []|]. intros [<-|Hy] DF Hh.
    - split; [exact Dw|]. apply (larger_mul lh f c l w Dh); try assumption; [apply DF; left; reflexivity|]. apply Hh; left; reflexivity.
    - apply canon_cons in HF as [HF _]. apply (IH HF Hy); intros; [apply DF|apply Hh]; right; assumption. }
  destruct (canonicalize_ok true (map obj U') U' (polys_obj U' (fun y Hy => proj1 (HU2 y Hy)))) as (r' & R' & _ & HR' & HcR' & HiR' & HvR').
  exists R'. assert (Hc : canon (l :: R')) by (apply canon_cons; split; [exact HcR'|intros y Hy; apply HU2, HiR', Hy]). split; [|exact Hc].
  apply canon_unique; [exact HcR|exact Hc|exact DR| |].
  - intros y [<-|Hy]; [exact Dl|apply HU2, HiR', Hy].
  - intros s. rewrite HvR. cbn [pval]. rewrite HvR'. reflexivity.
Qed.

Lemma add1_prefix : forall done D p q P l G', polys done D -> polys p P -> polys q (l :: G') -> (forall y, In y D -> larger y l) ->
  forall r, bp_add1_loop p q = Ok r -> bp_add1_loop (done ++ p) q = Ok (done ++ r).
Proof.
  intros done D p q P l G' HD HP HQ Hl r Hr. induction HD as [|x d done D Hx HD IH]; [exact Hr|]. cbn [app]. rewrite add1_eq.
  inversion HQ as [|y ? u ? Hy Hu]; subst. destruct (compare_cases x y d l Hx Hy) as [[_ ->]|[[-> _]|[_ H]]].
  - destruct (larger_irrefl l (Hl l (or_introl eq_refl))).
  - cbn [bind Z.ltb Z.compare]. rewrite IH by (intros; apply Hl; right; assumption). reflexivity.
  - destruct (larger_asym _ _ H (Hl d (or_introl eq_refl))).
Qed.
Lemma add_prefix : forall dbg done D p q P l G', polys done D -> polys p P -> polys q (l :: G') -> (forall y, In y D -> larger y l) ->
  forall r, bp_add_loop dbg p q = Ok r -> bp_add_loop dbg (done ++ p) q = Ok (done ++ r).
Proof.
  intros dbg done D p q P l G' HD HP HQ Hl r Hr. induction HD as [|x d done D Hx HD IH]; [exact Hr|]. cbn [app]. rewrite add_eq.
  inversion HQ as [|y ? u ? Hy Hu]; subst. destruct (compare_cases x y d l Hx Hy) as [[_ ->]|[[-> _]|[_ H]]].
  - destruct (larger_irrefl l (Hl l (or_introl eq_refl))).
  - cbn [bind Z.ltb Z.compare]. rewrite IH by (intros; apply Hl; right; assumption). reflexivity.
  - destruct (larger_asym _ _ H (Hl d (or_introl eq_refl))).
Qed.

(** The sum of [D ++ l :: T] and [l :: G'] *)
Lemma cancel_canon : forall D l T G' R, canon (D ++ l :: T) -> canon (l :: G') -> sum_of T G' R ->
  canon (D ++ R) /\ (forall y, In y R -> larger l y).
Proof.
  intros D l T G' R HP HG (HcR & HiR & _). apply canon_app in HP as (HD & HlT & HDl). apply canon_cons in HlT as [HT Hl]. apply canon_cons in HG as [HG Hg].
  assert (Hs : forall y, In y R -> larger l y) by (intros y Hy; destruct (HiR y Hy); auto). split; [|exact Hs].
  apply canon_app. split; [exact HD|]. split; [exact HcR|]. intros x y Hx Hy. apply (larger_trans _ l); [apply HDl; [exact Hx|left; reflexivity]|auto].
Qed.
Lemma add1_cancel : forall dbg done D m l t T q G', polys done D -> shows m l -> polys t T -> polys q (l :: G') -> canon (D ++ l :: T) -> canon (l :: G') ->
  exists r R, bp_add1 dbg (done ++ m :: t) q = Ok (done ++ r) /\ polys r R /\ sum_of T G' R /\ canon (D ++ R) /\ (forall y, In y R -> larger l y).
Proof.
  intros dbg done D m l t T q G' HD Hm HT HQ HP HG. inversion HQ as [|y ? u ? Hy Hu]; subst.
  assert (HcT : canon T) by (apply canon_app in HP as (_ & HP & _); apply canon_cons in HP; tauto).
  assert (HcG : canon G') by (apply canon_cons in HG; tauto).
  destruct (add1_loop_ok _ t u T G' (le_n _) HT Hu HcT HcG) as (r & R & Hr & HR & Hs). destruct (cancel_canon D l T G' R HP HG Hs) as [Hc Hl].
  exists r, R. split; [|auto]. unfold bp_add1.
  rewrite (add1_prefix done D (m :: t) (y :: u) (l :: T) l G' HD) with (r := r).
  - cbn [bind]. apply (pcheck_ok dbg _ (D ++ R)); [apply polys_app; assumption|exact Hc].
  - constructor; assumption.
  - exact HQ.
  - intros z Hz. apply canon_app in HP as (_ & _ & HP). apply HP; [exact Hz|left; reflexivity].
  - rewrite add1_eq. destruct (compare_cases m y l l Hm Hy) as [[-> _]|[[_ H]|[_ H]]]; [exact Hr|destruct (larger_irrefl _ H)..].
Qed.
Lemma add_cancel : forall dbg done D m l t T q G', polys done D -> shows m l -> polys t T -> polys q (l :: G') -> canon (D ++ l :: T) -> canon (l :: G') ->
  exists r R, bp_add dbg (done ++ m :: t) q = Ok (done ++ r) /\ polys r R /\ sum_of T G' R /\ canon (D ++ R) /\ (forall y, In y R -> larger l y).
Proof.
  intros dbg done D m l t T q G' HD Hm HT HQ HP HG. inversion HQ as [|y ? u ? Hy Hu]; subst.
  assert (HcT : canon T) by (apply canon_app in HP as (_ & HP & _); apply canon_cons in HP; tauto).
  assert (HcG : canon G') by (apply canon_cons in HG; tauto).
  destruct (add_loop_ok dbg _ t u T G' (le_n _) HT Hu HcT HcG) as (r & R & Hr & HR & Hs). destruct (cancel_canon D l T G' R HP HG Hs) as [Hc Hl].
  exists r, R. split; [|auto]. unfold bp_add.
  rewrite (add_prefix dbg done D (m :: t) (y :: u) (l :: T) l G' HD) with (r := r).
  - cbn [bind]. apply (pcheck_ok dbg _ (D ++ R)); [apply polys_app; assumption|exact Hc].
  - constructor; assumption.
  - exact HQ.
  - intros z Hz. apply canon_app in HP as (_ & _ & HP). apply HP; [exact Hz|left; reflexivity].
  - rewrite add_eq. destruct (compare_cases m y l l Hm Hy) as [[-> _]|[[_ H]|[_ H]]]; [exact Hr|destruct (larger_irrefl _ H)..].
Qed.

Lemma cancel_ok : forall dbg done D m l t T f F h tf lh, polys done D -> shows m l -> polys t T -> canon (D ++ l :: T) ->
  polys f F -> canon F -> f = h :: tf -> shows h lh -> incl lh l ->
  exists r R, bp_cancel dbg (done ++ m :: t) m f = Ok (done ++ r) /\ polys r R /\ canon (D ++ R) /\ (forall y, In y R -> larger l y) /\
    (forall s, pval s F = false -> pval s (D ++ R) = pval s (D ++ l :: T)) /\
    (forall lo, bounded lo (D ++ l :: T) -> bounded lo F -> bounded lo (D ++ R)).
Proof.
  intros dbg done D m l t T f F h tf lh HD Hm HT HP Hf HF -> Hh Hin.
  inversion Hf as [|? lh' ? F' Hh' HF']; subst. assert (lh' = lh) by (apply (shows_fun h); assumption). subst lh'.
  destruct (div_ok dbg m h l lh Hm Hh Hin) as (q & c & Hq & Hc & Hci). cbn [bp_cancel]. rewrite Hq. cbn [bind].
  destruct (shows_read _ _ Hc) as (Hrc & Hlc & Hdc).
  assert (Hll : forall x, In x l <-> In x lh \/ In x c).
  { intros x. rewrite Hci. split; [|intros [H|[H _]]; auto]. intros Hx. destruct (in_dec Z.eq_dec x lh); auto. }
  assert (Hdis : forall x, In x lh -> ~ In x c) by (intros x Hx Hxc; apply Hci in Hxc; tauto).
  assert (Hdl : decreasing l) by exact (proj1 Hm). assert (Hdh : decreasing lh) by exact (proj1 Hh).
  assert (DF : forall y, In y F' -> decreasing y) by (apply (polys_dec tf), HF').
  assert (Hval : forall R G', sum_of T G' R -> (forall s, pval s (l :: G') = pval s (lh :: F') && mval s c) ->
    forall s, pval s (lh :: F') = false -> pval s (D ++ R) = pval s (D ++ l :: T)).
  { intros R G' (_ & _ & Hv) Hg s Hs. rewrite !pval_app, Hv. f_equal. specialize (Hg s). rewrite Hs in Hg. cbn [pval andb] in *.
    destruct (mval s l), (pval s T), (pval s G'); try reflexivity; discriminate. }
  assert (Hbd : forall R G', sum_of T G' R -> (forall y, In y G' -> exists f, In f (lh :: F') /\ forall x, In x y -> In x f \/ In x c) ->
    forall lo, bounded lo (D ++ l :: T) -> bounded lo (lh :: F') -> bounded lo (D ++ R)).
  { intros R G' (_ & Hi & _) Hg lo Hb HbF y Hy x Hx. apply in_app_or in Hy as [Hy|Hy]; [apply (Hb y); [apply in_or_app; auto|exact Hx]|].
    destruct (Hi y Hy) as [H|H]; [apply (Hb y); [apply in_or_app; right; right; exact H|exact Hx]|].
    destruct (Hg y H) as (g & Hg1 & Hg2). destruct (Hg2 x Hx) as [Hx'|Hx']; [apply (HbF g Hg1 x Hx')|].
    apply (Hb l); [apply in_or_app; right; left; reflexivity|]. apply Hll. auto. }
  assert (Htimes : forall q' G, polys q' G -> times c (lh :: F') G -> exists G', G = l :: G' /\ canon (l :: G') /\
    (forall s, pval s (l :: G') = pval s (lh :: F') && mval s c) /\ (forall y, In y G' -> exists f, In f (lh :: F') /\ forall x, In x y -> In x f \/ In x c)).
  { intros q' G Hq' HG. destruct (times_head c l lh F' G Hdc Hdl Hdh DF HF (polys_dec _ _ Hq') Hll Hdis HG) as (G' & -> & HcG). exists G'.
    split; [reflexivity|]. split; [exact HcG|]. split; [intros s; apply times_val, HG|]. intros y Hy.
    destruct HG as (_ & U & HU & HiU & _). specialize (HiU y (or_intror Hy)). clear -HU HiU. induction HU as [|f u F U [_ Hu] HU IH]; [destruct HiU|].
    destruct HiU as [<-|Hi]; [exists f; split; [left; reflexivity|apply Hu]|]. destruct (IH Hi) as (g & Hg & Hx). exists g. split; [right; exact Hg|exact Hx]. }
  rewrite Hlc. destruct (Nat.eqb_spec (length c) 0) as [H0|H0].
  - assert (c = []) by (destruct c; [reflexivity|cbn in H0; lia]). subst c.
    assert (lh = l) by (apply dec_ext; [exact Hdh|exact Hdl|]; intros x; rewrite Hll; cbn [In]; tauto). subst lh.
    destruct (add_cancel dbg done D m l t T (h :: tf) F' HD Hm HT Hf HP HF) as (r & R & Hr & HR & Hs & HcR & HlR).
    exists r, R. split; [exact Hr|]. split; [exact HR|]. split; [exact HcR|]. split; [exact HlR|]. split.
    + apply (Hval R F' Hs). intros s. cbn [mval forallb]. rewrite andb_true_r. reflexivity.
    + apply (Hbd R F' Hs). intros y Hy. exists y. split; [right; exact Hy|auto].
  - destruct (Nat.eqb_spec (length c) 1) as [H1|H1].
    + destruct c as [|v [|? ?]]; cbn [length] in H1; try lia.
      replace (bm_get dbg q 0) with (Ok v).
      2:{ destruct Hc as (_ & Hb & _ & Hg). specialize (Hg 0%nat v eq_refl). unfold bm_get, assert_ in *. unfold bm_degree in Hb. rewrite Hb in *. cbn in *.
          destruct dbg; cbn; destruct (bcells q); congruence. }
      cbn [bind]. unfold bp_addmulvar. destruct (mulvar_poly_ok dbg (h :: tf) (lh :: F') v Hf) as (q' & G & -> & HG & Htm). cbn [bind].
      destruct (Htimes q' G HG Htm) as (G' & -> & HcG & Hgv & Hgb).
      destruct (add1_cancel dbg done D m l t T q' G' HD Hm HT HG HP HcG) as (r & R & Hr & HR & Hs & HcR & HlR).
      exists r, R. split; [exact Hr|]. split; [exact HR|]. split; [exact HcR|]. split; [exact HlR|]. split; [apply (Hval R G' Hs Hgv)|apply (Hbd R G' Hs Hgb)].
    + unfold bp_addmulmon. destruct (mulmon_poly_ok dbg (h :: tf) (lh :: F') q c Hf Hc) as (q' & G & -> & HG & Htm). cbn [bind].
      destruct (Htimes q' G HG Htm) as (G' & -> & HcG & Hgv & Hgb).
      destruct (add1_cancel dbg done D m l t T q' G' HD Hm HT HG HP HcG) as (r & R & Hr & HR & Hs & HcR & HlR).
      exists r, R. split; [exact Hr|]. split; [exact HR|]. split; [exact HcR|]. split; [exact HlR|]. split; [apply (Hval R G' Hs Hgv)|apply (Hbd R G' Hs Hgb)].
Qed.

(** ** The order is well-founded on monomials in variables bounded below *)
Section Wf.
Variable lo : Z.
Definition allge (l : list Z) : Prop := forall x, In x l -> lo <= x.
Definition back_lt (n : nat) (a b : list Z) : Prop := length a = n /\ length b = n /\ allge a /\ bback a b = -1.
Lemma back_acc : forall n l, length l = n -> allge l -> Acc (back_lt n) l.
Proof.
  induction n as [|n IH]; intros l Hl Hg.
  { destruct l; [|cbn in Hl; lia]. constructor. intros y (Hy & _ & _ & Hb). destruct y; cbn [length] in Hy; [cbn in Hb; discriminate|lia]. }
  assert (H : forall k x, (Z.to_nat (x - lo) < k)%nat -> lo <= x -> forall t, Acc (back_lt n) t -> length t = n -> allge t -> Acc (back_lt (S n)) (x :: t)).
  { induction k as [|k IHk]; intros x Hk Hx; [lia|]. intros t Ht. induction Ht as [t _ IHt]. intros Hlt Hgt. constructor.
    intros y (Hy & _ & Hgy & Hb). destruct y as [|z y]; cbn [length] in Hy; [lia|]. cbn [bback] in Hb.
    assert (Hz : lo <= z) by (apply Hgy; left; reflexivity). assert (Hgy' : allge y) by (intros w Hw; apply Hgy; right; exact Hw).
    destruct (Z.eqb_spec z x) as [->|Hne].
    - apply IHt; [|lia|exact Hgy']. split; [lia|]. split; [exact Hlt|]. split; [exact Hgy'|exact Hb].
    - destruct (Z.ltb_spec x z) as [H1|H1]; [discriminate|]. apply IHk; [lia|exact Hz|apply IH; [lia|exact Hgy']|lia|exact Hgy']. }
  destruct l as [|x t]; [cbn in Hl; lia|]. cbn [length] in Hl. assert (Hgt : allge t) by (intros w Hw; apply Hg; right; exact Hw).
  apply (H (S (Z.to_nat (x - lo)))); [lia|apply Hg; left; reflexivity|apply IH; [lia|exact Hgt]|lia|exact Hgt].
Qed.
Definition below (a b : list Z) : Prop := decreasing a /\ decreasing b /\ allge a /\ larger b a.
Lemma below_acc : forall l, decreasing l -> allge l -> Acc below l.
Proof.
  assert (H : forall n l, (length l < n)%nat -> decreasing l -> allge l -> Acc below l).
  { induction n as [|n IH]; intros l Hn Hd Hg; [lia|].
    assert (Hr : Acc (back_lt (length l)) (rev l)) by (apply back_acc; [apply rev_length|intros x Hx; apply Hg, in_rev, Hx]).
    remember (rev l) as rl eqn:E. remember (length l) as k eqn:Ek. revert l E Ek Hn Hd Hg. induction Hr as [rl _ IHr]. intros l -> Ek Hn Hd Hg.
    constructor. intros y (Hdy & _ & Hgy & Hl). destruct (Nat.eq_dec (length y) (length l)) as [El|El].
    - apply (IHr (rev y)); try assumption; try reflexivity; try lia.
      split; [rewrite rev_length; lia|]. split; [rewrite rev_length; lia|]. split; [intros x Hx; apply Hgy, in_rev, Hx|].
      destruct Hl as [H|(_ & v & Q1 & Q2 & Q3)]; [lia|].
      destruct (bback_cases (rev y) (rev l) ltac:(rewrite !rev_length; lia) (asc_rev _ Hdy) (asc_rev _ Hd)) as [[_ E]|[(_ & w & W1 & W2 & W3)|(E & _)]]; [| |exact E].
      + exfalso. assert (y = l) by (rewrite <- (rev_involutive y), E, rev_involutive; reflexivity). subst y. auto.
      + exfalso. rewrite <- in_rev in W1, W2. assert (W3' : forall u, u < w -> (In u y <-> In u l)) by (intros u Hu; specialize (W3 u Hu); rewrite <- !in_rev in W3; exact W3).
        apply (larger_asym y l); right; (split; [lia|]); [exists w|exists v]; auto.
    - apply IH; [|exact Hdy|exact Hgy]. destruct Hl as [H|(H & _)]; lia. }
  intros l Hd Hg. apply (H (S (length l))); [lia|exact Hd|exact Hg].
Qed.
End Wf.

(** ** nf *)
Lemma nf_ok : forall dbg a G lo, finds a G -> (forall f F, G f -> polys f F -> bounded lo F) ->
  forall p P, polys p P -> canon P -> bounded lo P ->
  exists n r R, (forall fuel, (n <= fuel)%nat -> bp_nf_loop dbg fuel a p = Ok r) /\ polys r R /\ canon R /\ bounded lo R /\
    match r with [] => True | m :: _ => a m = None end /\
    match P, R with l :: _, y :: _ => l = y \/ larger l y | [], _ :: _ => False | _, [] => True end /\
    forall s, zero_of s G -> pval s R = pval s P.
Proof.
  intros dbg a G lo (HG & Hfind) HGb.
  assert (Hmain : forall l, Acc (below lo) l -> forall m t T, shows m l -> polys t T -> canon (l :: T) -> bounded lo (l :: T) ->
    exists n r R, (forall fuel, (n <= fuel)%nat -> bp_nf_loop dbg fuel a (m :: t) = Ok r) /\ polys r R /\ canon R /\ bounded lo R /\
    match r with [] => True | m :: _ => a m = None end /\ match R with y :: _ => l = y \/ larger l y | [] => True end /\
    forall s, zero_of s G -> pval s R = pval s (l :: T)).
  { intros l Hacc. induction Hacc as [l _ IH]. intros m t T Hm HT Hc Hb. destruct (a m) as [f|] eqn:Ea.
    - destruct (Hfind m l f Hm Ea) as (HGf & h & tf & lh & -> & Hh & Hin). destruct (HG _ HGf) as (F & HF & HcF).
      destruct (cancel_ok dbg [] [] m l t T (h :: tf) F h tf lh ltac:(constructor) Hm HT Hc HF HcF eq_refl Hh Hin) as (p' & P' & Hp' & HP' & HcP' & HlP' & Hv & HbP').
      cbn [app] in *. specialize (HbP' lo Hb (HGb _ _ HGf HF)).
      assert (Hv' : forall s, zero_of s G -> pval s P' = pval s (l :: T)) by (intros s Hs; apply Hv, (Hs _ _ HGf HF)).
      inversion HP' as [|m' l' t' T' Hm' HT']; subst.
      + exists 1%nat, [], []. split; [|split; [constructor|split; [constructor|split; [exact HbP'|split; [exact I|split; [exact I|exact Hv']]]]]].
        intros [|fuel] Hf; [lia|]. cbn [bp_nf_loop]. rewrite Ea, Hp'. cbn [bind]. destruct fuel; reflexivity.
      + destruct (IH l') with (m := m') (t := t') (T := T') as (n & r & R & Hn & HR & HcR & HbR & Hr & Hhd & HvR).
        * split; [exact (proj1 Hm')|]. split; [exact (proj1 Hm)|]. split; [intros x Hx; apply (HbP' l'); [left; reflexivity|exact Hx]|]. apply HlP'; left; reflexivity.
        * exact Hm'.
        * exact HT'.
        * exact HcP'.
        * exact HbP'.
        * exists (S n), r, R. split; [|split; [exact HR|split; [exact HcR|split; [exact HbR|split; [exact Hr|split]]]]].
          -- intros [|fuel] Hf; [lia|]. cbn [bp_nf_loop]. rewrite Ea, Hp'. cbn [bind]. apply Hn. lia.
          -- destruct R as [|y R]; [exact I|]. right. assert (Hl : larger l l') by (apply HlP'; left; reflexivity). destruct Hhd as [<-|H]; [exact Hl|apply (larger_trans _ l'); assumption].
          -- intros s Hs. rewrite HvR by exact Hs. apply Hv', Hs.
    - exists 0%nat, (m :: t), (l :: T). split; [intros fuel _; destruct fuel; cbn [bp_nf_loop]; rewrite Ea; reflexivity|].
      split; [constructor; assumption|]. split; [exact Hc|]. split; [exact Hb|]. split; [exact Ea|]. split; [left; reflexivity|reflexivity]. }
  intros p P Hp HcP HbP. inversion Hp as [|m l t T Hm HT]; subst.
  - exists 0%nat, [], []. split; [intros [|fuel] _; reflexivity|]. split; [constructor|]. split; [constructor|]. split; [exact HbP|]. split; [exact I|]. split; [exact I|reflexivity].
  - apply (Hmain l); try assumption. apply below_acc; [exact (proj1 Hm)|]. intros x Hx. apply (HbP l); [left; reflexivity|exact Hx].
Qed.

Lemma bm_same_refl : forall m, bm_same m m = true.
Proof. intros m. unfold bm_same. rewrite !Nat.eqb_refl. destruct (list_eq_dec Z.eq_dec (bcells m) (bcells m)); [reflexivity|contradiction]. Qed.
Lemma drop_app : forall done r, bp_drop done (done ++ r) = Some r.
Proof. induction done as [|m t IH]; intros r; [destruct r; reflexivity|]. cbn [app bp_drop]. rewrite bm_same_refl. apply IH. Qed.

(** ** nfTail *)
Lemma tail_ok : forall dbg a G lo, finds a G -> (forall f F, G f -> polys f F -> bounded lo F) ->
  forall l, Acc (below lo) l -> forall m t T done D, shows m l -> polys t T -> polys done D -> canon (D ++ l :: T) -> bounded lo (D ++ l :: T) ->
  exists n r R, (forall fuel, (n <= fuel)%nat -> bp_tail_loop dbg fuel a done (m :: t) = Ok (done ++ r)) /\ polys r R /\ canon (D ++ R) /\
    Forall (fun m => a m = None) r /\ forall s, zero_of s G -> pval s (D ++ R) = pval s (D ++ l :: T).
Proof.
  intros dbg a G lo (HG & Hfind) HGb l Hacc. induction Hacc as [l _ IH]. intros m t T done D Hm HT HD Hc Hb.
  destruct (a m) as [f|] eqn:Ea.
  - destruct (Hfind m l f Hm Ea) as (HGf & h & tf & lh & -> & Hh & Hin). destruct (HG _ HGf) as (F & HF & HcF).
    destruct (cancel_ok dbg done D m l t T (h :: tf) F h tf lh HD Hm HT Hc HF HcF eq_refl Hh Hin) as (p' & P' & Hp' & HP' & HcP' & HlP' & Hv & HbP').
    specialize (HbP' lo Hb (HGb _ _ HGf HF)).
    assert (Hv' : forall s, zero_of s G -> pval s (D ++ P') = pval s (D ++ l :: T)) by (intros s Hs; apply Hv, (Hs _ _ HGf HF)).
    inversion HP' as [|m' l' t' T' Hm' HT']; subst.
    + exists 1%nat, [], []. split; [|split; [constructor|split; [exact HcP'|split; [constructor|exact Hv']]]].
      intros [|fuel] Hf; [lia|]. cbn [bp_tail_loop]. rewrite Ea, Hp'. cbn [bind]. rewrite drop_app. rewrite app_nil_r. destruct fuel; reflexivity.
    + destruct (IH l') with (m := m') (t := t') (T := T') (done := done) (D := D) as (n & r & R & Hn & HR & HcR & Hr & HvR); try assumption.
      * split; [exact (proj1 Hm')|]. split; [exact (proj1 Hm)|]. split; [intros x Hx; apply (HbP' l'); [apply in_or_app; right; left; reflexivity|exact Hx]|]. apply HlP'; left; reflexivity.
      * exists (S n), r, R. split; [|split; [exact HR|split; [exact HcR|split; [exact Hr|]]]].
        -- intros [|fuel] Hf; [lia|]. cbn [bp_tail_loop]. rewrite Ea, Hp'. cbn [bind]. rewrite drop_app. apply Hn. lia.
        -- intros s Hs. rewrite HvR by exact Hs. apply Hv', Hs.
  - inversion HT as [|m' l' t' T' Hm' HT']; subst.
    + exists 1%nat, [m], [l]. split; [|split; [constructor; [exact Hm|constructor]|split; [exact Hc|split; [repeat constructor; exact Ea|reflexivity]]]].
      intros [|fuel] Hf; [lia|]. cbn [bp_tail_loop]. rewrite Ea. destruct fuel; reflexivity.
    + assert (HD' : polys (done ++ [m]) (D ++ [l])) by (apply polys_app; [exact HD|constructor; [exact Hm|constructor]]).
      assert (Eq : (D ++ [l]) ++ l' :: T' = D ++ l :: l' :: T') by (rewrite <- app_assoc; reflexivity).
      destruct (IH l') with (m := m') (t := t') (T := T') (done := done ++ [m]) (D := D ++ [l]) as (n & r & R & Hn & HR & HcR & Hr & HvR); try assumption.
      * split; [exact (proj1 Hm')|]. split; [exact (proj1 Hm)|]. split; [intros x Hx; apply (Hb l'); [apply in_or_app; right; right; left; reflexivity|exact Hx]|].
        apply canon_app in Hc as (_ & Hc & _). apply canon_cons in Hc as [_ Hc]. apply Hc. left; reflexivity.
      * rewrite Eq. exact Hc.
      * rewrite Eq. exact Hb.
      * rewrite <- app_assoc in HcR. cbn [app] in HcR. exists (S n), (m :: r), (l :: R). split; [|split; [constructor; assumption|split; [exact HcR|split; [constructor; assumption|]]]].
        -- intros [|fuel] Hf; [lia|]. cbn [bp_tail_loop]. rewrite Ea. rewrite Hn by lia. rewrite <- app_assoc. reflexivity.
        -- intros s Hs. specialize (HvR s Hs). rewrite Eq, <- app_assoc in HvR. exact HvR.
Qed.
Lemma nfTail_ok : forall dbg a G lo, finds a G -> (forall f F, G f -> polys f F -> bounded lo F) ->
  forall m t l T, shows m l -> polys t T -> canon (l :: T) -> bounded lo (l :: T) ->
  exists n r R, (forall fuel, (n <= fuel)%nat -> bp_nfTail dbg fuel a (m :: t) = Ok (m :: r)) /\ polys r R /\ canon (l :: R) /\
    Forall (fun m => a m = None) r /\ forall s, zero_of s G -> pval s (l :: R) = pval s (l :: T).
Proof.
  intros dbg a G lo HF HGb m t l T Hm HT Hc Hb.
  assert (Hfin : forall r, Forall (fun m => a m = None) r -> forallb (fun m => match a m with None => true | Some _ => false end) r = true).
  { intros r Hr. apply forallb_forall. intros x Hx. rewrite Forall_forall in Hr. rewrite (Hr x Hx). reflexivity. }
  inversion HT as [|m' l' t' T' Hm' HT']; subst.
  - exists 0%nat, [], []. split; [|split; [constructor|split; [exact Hc|split; [constructor|reflexivity]]]].
    intros fuel _. cbn [bp_nfTail]. destruct fuel; cbn [bp_tail_loop bind bp_isNfTail]; destruct dbg; reflexivity.
  - assert (HD : polys [m] [l]) by (constructor; [exact Hm|constructor]).
    destruct (tail_ok dbg a G lo HF HGb l' ltac:(apply below_acc; [exact (proj1 Hm')|intros x Hx; apply (Hb l'); [right; left; reflexivity|exact Hx]]) m' t' T' [m] [l] Hm' HT' HD Hc Hb) as (n & r & R & Hn & HR & HcR & Hr & HvR).
    exists n, r, R. split; [|split; [exact HR|split; [exact HcR|split; [exact Hr|exact HvR]]]].
    intros fuel Hf. cbn [bp_nfTail]. rewrite (Hn fuel Hf). cbn [bind app bp_isNfTail]. rewrite (Hfin r Hr). destruct dbg; reflexivity.
Qed.

(** ** The other operations *)
Lemma addOne_ok : forall p P, polys p P -> canon P -> exists R, polys (bp_addOne p) R /\ canon R /\ (forall s, pval s R = negb (pval s P)) /\
  forall y, In y R -> y = [] \/ In y P.
Proof.
  intros p P Hp. induction Hp as [|m l p P Hm Hp IH]; intros Hc.
  - exists [[]]. split; [constructor; [exact one_ok|constructor]|]. split; [apply canon_cons; split; [constructor|intros ? []]|]. split; [reflexivity|]. intros y [<-|[]]; auto.
  - apply canon_cons in Hc as [Hc Hl]. cbn [bp_addOne]. destruct (shows_read _ _ Hm) as (_ & Hlen & _). rewrite Hlen. destruct (Nat.eqb_spec (length l) 0) as [H0|H0].
    + exists P. split; [exact Hp|]. split; [exact Hc|]. destruct l; [|cbn in H0; lia]. split; [intros s; cbn [pval mval forallb]; destruct (pval s P); reflexivity|]. intros y Hy; right; right; exact Hy.
    + destruct (IH Hc) as (R & HR & HcR & Hv & Hi). exists (l :: R). split; [constructor; assumption|]. split; [|split].
      * apply canon_cons. split; [exact HcR|]. intros y Hy. destruct (Hi y Hy) as [->|H]; [left; cbn [length]; lia|auto].
      * intros s. cbn [pval]. rewrite Hv. destruct (mval s l), (pval s P); reflexivity.
      * intros y [<-|Hy]; [right; left; reflexivity|]. destruct (Hi y Hy); [auto|right; right; assumption].
Qed.
Lemma or_loop_ok : forall dbg v p P, polys p P -> exists r R, bp_or_loop dbg v p = Ok r /\ polys r R /\ forall s, pval s R = pval s P && negb (s v).
Proof.
  intros dbg v p P Hp. induction Hp as [|m l p P Hm Hp IH]; [exists [], []; repeat split; constructor|].
  destruct IH as (r & R & Hr & HR & Hv). destruct (mulvar_ok dbg m l v Hm) as (c & u & Hc & Hu & Hi). cbn [bp_or_loop]. rewrite Hc. cbn [bind]. rewrite Hr. cbn [bind].
  destruct (shows_read _ _ Hm) as (_ & Hlm & Dm). destruct (shows_read _ _ Hu) as (_ & Hlu & Du). rewrite Hlm, Hlu.
  assert (Hmv : forall s, mval s u = mval s l && s v).
  { intros s. rewrite (mval_union s [v] l u) by (intros x; rewrite Hi; cbn [In]; intuition congruence). cbn [mval forallb]. rewrite andb_true_r. apply andb_comm. }
  destruct (Nat.eqb_spec (length l) (length u)) as [He|He].
  - exists r, R. split; [reflexivity|]. split; [exact HR|]. intros s. rewrite Hv. cbn [pval].
    assert (Hvl : In v l). { apply (@NoDup_length_incl Z l u (dec_NoDup _ Dm)); [lia|intros x Hx; apply Hi; auto|apply Hi; auto]. }
    destruct (s v) eqn:Es; [destruct (mval s l), (pval s P); reflexivity|]. replace (mval s l) with false; [destruct (pval s P); reflexivity|].
    symmetry. destruct (mval s l) eqn:E; [|reflexivity]. unfold mval in E. rewrite forallb_forall in E. specialize (E v Hvl). congruence.
  - exists (m :: c :: r), (l :: u :: R). split; [reflexivity|]. split; [repeat (constructor; [assumption|]); exact HR|].
    intros s. cbn [pval]. rewrite Hv, Hmv. destruct (mval s l), (s v), (pval s P); reflexivity.
Qed.
Lemma or_ok : forall dbg p P v neg, polys p P -> exists r R, bp_or dbg p v neg = Ok r /\ polys r R /\ canon R /\
  forall s, pval s R = pval s P || (if neg then negb (s v) else s v).
Proof.
  intros dbg p P v neg Hp. unfold bp_or. destruct neg.
  - destruct (mulvar_list_ok dbg p P v Hp) as (q & U & -> & HU & Hg). cbn [bind].
    destruct (canonicalize_ok dbg (bm_one :: bm_var v :: q) ([] :: [v] :: U)) as (r & R & -> & HR & Hc & _ & Hv); [constructor; [exact one_ok|constructor; [apply var_ok|exact HU]]|].
    exists r, R. split; [reflexivity|]. split; [exact HR|]. split; [exact Hc|]. intros s. rewrite Hv. cbn [pval mval forallb].
    rewrite (pval_union s [v] P U) by (clear -Hg; induction Hg; constructor; tauto). cbn [mval forallb]. destruct (s v), (pval s P); reflexivity.
  - destruct (or_loop_ok dbg v p P Hp) as (q & U & -> & HU & Hq). cbn [bind].
    destruct (canonicalize_ok dbg (bm_var v :: q) ([v] :: U)) as (r & R & -> & HR & Hc & _ & Hv); [constructor; [apply var_ok|exact HU]|].
    exists r, R. split; [reflexivity|]. split; [exact HR|]. split; [exact Hc|]. intros s. rewrite Hv. cbn [pval mval forallb]. rewrite Hq.
    destruct (s v), (pval s P); reflexivity.
Qed.
