(** Lemmas for Boolean polynomials (bpoly). *)
From Coq Require Import ZArith List Bool Arith Sorted Lia Permutation.
From Verif Require Import Outcome BoolModel BoolSpec BoolProofs.
Import ListNotations.
Local Open Scope Z_scope.

Lemma canon_cons : forall x l, canon (x :: l) <-> canon l /\ forall y, In y l -> larger x y.
Proof.
  intros x l. unfold canon. split.
  - intros H. inversion H as [|? ? Hs Hf]; subst. split; [exact Hs|]. rewrite Forall_forall in Hf. exact Hf.
  - intros [Hs Hf]. constructor; [exact Hs|]. rewrite Forall_forall. exact Hf.
Qed.
Lemma canon_app : forall a b, canon (a ++ b) <-> canon a /\ canon b /\ forall x y, In x a -> In y b -> larger x y.
Proof.
  induction a as [|z a IH]; intros b; cbn [app].
  - split; [intros H; split; [constructor|split; [exact H|intros ? ? []]]|intros (_ & H & _); exact H].
  - rewrite !canon_cons, IH. split.
    + intros ((Ha & Hb & Hab) & Hz). split; [split; [exact Ha|intros y Hy; apply Hz, in_or_app; auto]|].
      split; [exact Hb|]. intros x y [<-|Hx] Hy; [apply Hz, in_or_app; auto|eauto].
    + intros ((Ha & Hz) & Hb & Hab). split; [split; [exact Ha|split; [exact Hb|intros x y Hx Hy; apply Hab; [right; exact Hx|exact Hy]]]|].
      intros y Hy. apply in_app_or in Hy as [Hy|Hy]; [auto|]. apply Hab; [left; reflexivity|exact Hy].
Qed.
Lemma pval_app : forall s a b, pval s (a ++ b) = xorb (pval s a) (pval s b).
Proof. induction a as [|x a IH]; intros b; cbn [app pval]; [destruct (pval s b); reflexivity|]. rewrite IH, xorb_assoc. reflexivity. Qed.
Lemma mval_ext : forall s a b, (forall x, In x a <-> In x b) -> mval s a = mval s b.
Proof.
  intros s a b H. unfold mval. apply eq_true_iff_eq. rewrite !forallb_forall. split; intros Q x Hx; apply Q, H, Hx.
Qed.
Lemma mval_union : forall s a b c, (forall x, In x c <-> In x a \/ In x b) -> mval s c = mval s a && mval s b.
Proof.
  intros s a b c H. unfold mval. rewrite <- forallb_app. apply mval_ext. intros x. rewrite H, in_app_iff. reflexivity.
Qed.

Lemma pvalid_ok : forall p ls, polys p ls -> canon ls -> bp_valid p = Ok true.
Proof.
  assert (Hl : forall t ls x l, polys t ls -> shows x l -> canon (l :: ls) -> bp_valid_loop x t = Ok true).
  { induction t as [|m t IH]; intros ls x l Hp Hx Hc; inversion Hp as [|? y ? ys Hm Ht]; subst; cbn [bp_valid_loop]; [reflexivity|].
    apply canon_cons in Hc as [Hc Hlg]. destruct (compare_ok x m l y Hx Hm) as (c & -> & H1 & _ & _). cbn [bind].
    specialize (Hlg y (or_introl eq_refl)). apply H1 in Hlg. destruct (Z.leb_spec c 0); [lia|]. apply (IH ys m y Ht Hm Hc). }
  intros p ls Hp Hc. inversion Hp; subst; [reflexivity|]. cbn [bp_valid]. eapply Hl; eassumption.
Qed.
Lemma pcheck_ok : forall dbg p ls, polys p ls -> canon ls -> bp_check dbg p = Ok p.
Proof. intros dbg p ls Hp Hc. unfold bp_check. destruct dbg; [|reflexivity]. rewrite (pvalid_ok p ls Hp Hc). reflexivity. Qed.

Lemma bp_map_ok : forall (f : BM -> outcome BM) (g : list Z -> list Z -> Prop) p ls,
  (forall m l, shows m l -> exists c u, f m = Ok c /\ shows c u /\ g l u) -> polys p ls ->
  exists r us, bp_map f p = Ok r /\ polys r us /\ Forall2 g ls us.
Proof.
  intros f g p ls Hf Hp. induction Hp as [|m l p ls Hm Hp IH]; [exists [], []; repeat split; constructor|].
  destruct (Hf m l Hm) as (c & u & Hc & Hs & Hg). destruct IH as (r & us & Hr & Hps & Hgs). exists (c :: r), (u :: us).
  cbn [bp_map]. rewrite Hc. cbn [bind]. rewrite Hr. cbn [bind]. split; [reflexivity|]. split; constructor; assumption.
Qed.
Lemma copy_list : forall dbg p ls, polys p ls -> exists r, bp_map (bm_copy dbg) p = Ok r /\ polys r ls.
Proof.
  intros dbg p ls Hp. destruct (bp_map_ok (bm_copy dbg) eq p ls) as (r & us & Hr & Hu & Hg); [|exact Hp|].
  - intros m l Hm. destruct (copy_ok dbg m l Hm) as (c & Hc & Hs). exists c, l. auto.
  - exists r. split; [exact Hr|]. replace ls with us; [exact Hu|]. clear -Hg. induction Hg; congruence.
Qed.

(** ** Sums *)
Lemma add1_eq : forall i ia, bp_add1_loop i ia =
    match i with
    | [] => Ok ia
    | x :: t =>
      match ia with
      | [] => Ok i
      | y :: ta =>
        do c <- bm_compare x y;
        if (0 <? c)%Z then do r <- bp_add1_loop t ia; Ok (x :: r)
        else if (c <? 0)%Z then do r <- bp_add1_loop i ta; Ok (y :: r)
        else bp_add1_loop t ta
      end
    end.
Proof. intros [|x t] [|y ta]; reflexivity. Qed.
Lemma add_eq : forall dbg i ia, bp_add_loop dbg i ia =
    match i with
    | [] => bp_map (bm_copy dbg) ia
    | x :: t =>
      match ia with
      | [] => Ok i
      | y :: ta =>
        do c <- bm_compare x y;
        if (0 <? c)%Z then do r <- bp_add_loop dbg t ia; Ok (x :: r)
        else if (c =? 0)%Z then bp_add_loop dbg t ta
        else do y' <- bm_copy dbg y; do r <- bp_add_loop dbg i ta; Ok (y' :: r)
      end
    end.
Proof. intros dbg [|x t] [|y ta]; reflexivity. Qed.

(** The sum of two canonical sums, as a relation. *)
Definition sum_of (A B R : list (list Z)) : Prop :=
  canon R /\ (forall l, In l R -> In l A \/ In l B) /\ forall s, pval s R = xorb (pval s A) (pval s B).
Lemma sum_nil_l : forall B, canon B -> sum_of [] B B.
Proof. intros B H. split; [exact H|]. split; [auto|]. intros s. cbn [pval]. destruct (pval s B); reflexivity. Qed.
Lemma sum_nil_r : forall A, canon A -> sum_of A [] A.
Proof. intros A H. split; [exact H|]. split; [auto|]. intros s. cbn [pval]. destruct (pval s A); reflexivity. Qed.
Lemma sum_left : forall a A B R, canon (a :: A) -> canon B -> (forall y, In y B -> larger a y) -> sum_of A B R -> sum_of (a :: A) B (a :: R).
Proof.
  intros a A B R Ha HB Hl (Hc & Hi & Hv). apply canon_cons in Ha as [HA Hx]. split; [|split].
  - apply canon_cons. split; [exact Hc|]. intros y Hy. destruct (Hi y Hy); auto.
  - intros l [<-|H]; [left; left; reflexivity|]. destruct (Hi l H); [left; right; assumption|auto].
  - intros s. cbn [pval]. rewrite Hv, xorb_assoc. reflexivity.
Qed.
Lemma sum_right : forall b A B R, canon A -> canon (b :: B) -> (forall y, In y A -> larger b y) -> sum_of A B R -> sum_of A (b :: B) (b :: R).
Proof.
  intros b A B R HA Hb Hl (Hc & Hi & Hv). apply canon_cons in Hb as [HB Hx]. split; [|split].
  - apply canon_cons. split; [exact Hc|]. intros y Hy. destruct (Hi y Hy); auto.
  - intros l [<-|H]; [right; left; reflexivity|]. destruct (Hi l H); [auto|right; right; assumption].
  - intros s. cbn [pval]. rewrite Hv. destruct (mval s b), (pval s A), (pval s B); reflexivity.
Qed.
Lemma sum_both : forall a A B R, sum_of A B R -> sum_of (a :: A) (a :: B) R.
Proof.
  intros a A B R (Hc & Hi & Hv). split; [exact Hc|]. split; [intros l H; destruct (Hi l H); [left|right]; right; assumption|].
  intros s. cbn [pval]. rewrite Hv. destruct (mval s a), (pval s A), (pval s B); reflexivity.
Qed.

Lemma add1_loop_ok : forall n p q A B, (length p + length q <= n)%nat -> polys p A -> polys q B -> canon A -> canon B ->
  exists r R, bp_add1_loop p q = Ok r /\ polys r R /\ sum_of A B R.
Proof.
  induction n as [|n IH]; intros p q A B Hn Hp Hq HA HB.
  { destruct p, q; cbn [length] in Hn; try lia. inversion Hp; inversion Hq; subst. exists [], []. split; [reflexivity|]. split; [constructor|apply sum_nil_l, HB]. }
  rewrite add1_eq. inversion Hp as [|x a t A' Hx Ht]; subst; [exists q, B; split; [reflexivity|split; [exact Hq|apply sum_nil_l, HB]]|].
  inversion Hq as [|y b u B' Hy Hu]; subst; [exists (x :: t), (a :: A'); split; [reflexivity|split; [exact Hp|apply sum_nil_r, HA]]|].
  cbn [length] in Hn. pose proof HA as HA'. pose proof HB as HB'. apply canon_cons in HA' as [HA' Ha]. apply canon_cons in HB' as [HB' Hb].
  destruct (compare_cases x y a b Hx Hy) as [[-> <-]|[[-> Hl]|[-> Hl]]]; cbn [bind]; cbn [Z.ltb Z.compare].
  - destruct (IH t u A' B' ltac:(lia) Ht Hu HA' HB') as (r & R & Hr & HR & Hs). exists r, R. split; [exact Hr|]. split; [exact HR|apply sum_both, Hs].
  - destruct (IH t (y :: u) A' (b :: B') ltac:(cbn [length]; lia) Ht Hq HA' HB) as (r & R & Hr & HR & Hs). rewrite Hr. cbn [bind].
    exists (x :: r), (a :: R). split; [reflexivity|]. split; [constructor; assumption|]. apply sum_left; try assumption.
    intros z [<-|Hz]; [exact Hl|]. apply (larger_trans _ b); auto.
  - destruct (IH (x :: t) u (a :: A') B' ltac:(cbn [length]; lia) Hp Hu HA HB') as (r & R & Hr & HR & Hs). rewrite Hr. cbn [bind].
    exists (y :: r), (b :: R). split; [reflexivity|]. split; [constructor; assumption|]. apply sum_right; try assumption.
    intros z [<-|Hz]; [exact Hl|]. apply (larger_trans _ a); auto.
Qed.
Lemma add_loop_ok : forall dbg n p q A B, (length p + length q <= n)%nat -> polys p A -> polys q B -> canon A -> canon B ->
  exists r R, bp_add_loop dbg p q = Ok r /\ polys r R /\ sum_of A B R.
Proof.
  intros dbg. induction n as [|n IH]; intros p q A B Hn Hp Hq HA HB.
  { destruct p, q; cbn [length] in Hn; try lia. inversion Hp; inversion Hq; subst. exists [], []. split; [reflexivity|]. split; [constructor|apply sum_nil_l, HB]. }
  rewrite add_eq. inversion Hp as [|x a t A' Hx Ht]; subst.
  { destruct (copy_list dbg q B Hq) as (r & Hr & HR). exists r, B. split; [exact Hr|]. split; [exact HR|apply sum_nil_l, HB]. }
  inversion Hq as [|y b u B' Hy Hu]; subst; [exists (x :: t), (a :: A'); split; [reflexivity|split; [exact Hp|apply sum_nil_r, HA]]|].
  cbn [length] in Hn. pose proof HA as HA'. pose proof HB as HB'. apply canon_cons in HA' as [HA' Ha]. apply canon_cons in HB' as [HB' Hb].
  destruct (compare_cases x y a b Hx Hy) as [[-> <-]|[[-> Hl]|[-> Hl]]]; cbn [bind]; cbn [Z.ltb Z.eqb Z.compare].
  - destruct (IH t u A' B' ltac:(lia) Ht Hu HA' HB') as (r & R & Hr & HR & Hs). exists r, R. split; [exact Hr|]. split; [exact HR|apply sum_both, Hs].
  - destruct (IH t (y :: u) A' (b :: B') ltac:(cbn [length]; lia) Ht Hq HA' HB) as (r & R & Hr & HR & Hs). rewrite Hr. cbn [bind].
    exists (x :: r), (a :: R). split; [reflexivity|]. split; [constructor; assumption|]. apply sum_left; try assumption.
    intros z [<-|Hz]; [exact Hl|]. apply (larger_trans _ b); auto.
  - destruct (copy_ok dbg y b Hy) as (y' & Hcy & Hy'). rewrite Hcy. cbn [bind].
    destruct (IH (x :: t) u (a :: A') B' ltac:(cbn [length]; lia) Hp Hu HA HB') as (r & R & Hr & HR & Hs). rewrite Hr. cbn [bind].
    exists (y' :: r), (b :: R). split; [reflexivity|]. split; [constructor; assumption|]. apply sum_right; try assumption.
    intros z [<-|Hz]; [exact Hl|]. apply (larger_trans _ a); auto.
Qed.
Lemma add1_ok : forall dbg p q A B, polys p A -> polys q B -> canon A -> canon B ->
  exists r R, bp_add1 dbg p q = Ok r /\ polys r R /\ sum_of A B R.
Proof.
  intros dbg p q A B Hp Hq HA HB. destruct (add1_loop_ok _ p q A B (le_n _) Hp Hq HA HB) as (r & R & Hr & HR & Hs).
  unfold bp_add1. rewrite Hr. cbn [bind]. rewrite (pcheck_ok dbg r R HR (proj1 Hs)). eauto.
Qed.
Lemma add_ok : forall dbg p q A B, polys p A -> polys q B -> canon A -> canon B ->
  exists r R, bp_add dbg p q = Ok r /\ polys r R /\ sum_of A B R.
Proof.
  intros dbg p q A B Hp Hq HA HB. destruct (add_loop_ok dbg _ p q A B (le_n _) Hp Hq HA HB) as (r & R & Hr & HR & Hs).
  unfold bp_add. rewrite Hr. cbn [bind]. rewrite (pcheck_ok dbg r R HR (proj1 Hs)). eauto.
Qed.

(** ** Sorting *)
Lemma polys_app : forall p q A B, polys p A -> polys q B -> polys (p ++ q) (A ++ B).
Proof. intros. apply Forall2_app; assumption. Qed.
Lemma scan_ok : forall rest pre j mid R P J M, polys rest R -> polys pre P -> shows j J -> polys mid M ->
  (forall y, In y P \/ In y M -> larger y J) ->
  exists o p' L, bp_scan pre j mid rest = Ok (o, p') /\ polys p' L /\ incl L (P ++ J :: M ++ R) /\
    (length p' < length pre + S (length mid) + length rest)%nat /\
    match o with
    | Some k => exists K, shows k K /\ In K (P ++ J :: M ++ R) /\ (forall y, In y L -> larger y K) /\ forall s, pval s (P ++ J :: M ++ R) = xorb (mval s K) (pval s L)
    | None => forall s, pval s (P ++ J :: M ++ R) = pval s L
    end.
Proof.
  induction rest as [|i rest IH]; intros pre j mid R P J M HR HP HJ HM Hl; inversion HR as [|? I ? R' HI HR']; subst; cbn [bp_scan].
  - exists (Some j), (pre ++ mid), (P ++ M). split; [reflexivity|]. split; [apply polys_app; assumption|]. rewrite !app_nil_r. split.
    + intros z Hz. apply in_app_or in Hz as [Hz|Hz]; apply in_or_app; [auto|right; right; exact Hz].
    + split; [rewrite app_length; cbn [length]; lia|]. exists J. split; [exact HJ|]. split; [apply in_or_app; right; left; reflexivity|].
      split; [intros y Hy; apply Hl; apply in_app_or, Hy|]. intros s. rewrite !pval_app. cbn [pval]. destruct (pval s P), (mval s J), (pval s M); reflexivity.
  - destruct (compare_cases j i J I HJ HI) as [[-> <-]|[[-> Hlt]|[-> Hlt]]]; cbn [bind]; cbn [Z.ltb Z.eqb Z.compare].
    + exists None, (pre ++ mid ++ rest), (P ++ M ++ R'). split; [reflexivity|]. split; [repeat apply polys_app; assumption|]. split.
      * intros z Hz. rewrite !in_app_iff in *. cbn [In]. rewrite !in_app_iff. cbn [In]. tauto.
      * split; [rewrite !app_length; cbn [length]; lia|]. intros s. rewrite !pval_app. cbn [pval]. rewrite !pval_app. cbn [pval].
        destruct (pval s P), (mval s J), (pval s M), (pval s R'); reflexivity.
    + assert (Hl' : forall y, In y (P ++ J :: M) \/ In y [] -> larger y I).
      { intros y [Hy|[]]. apply in_app_or in Hy as [Hy|[<-|Hy]]; [|exact Hlt|]; apply (larger_trans _ J); auto. }
      destruct (IH (pre ++ j :: mid) i [] R' (P ++ J :: M) I [] HR' ltac:(apply polys_app; [exact HP|constructor; assumption]) HI ltac:(constructor) Hl') as (o & p' & L & He & HL & Hin & Hlen & Ho).
      exists o, p', L. split; [exact He|]. split; [exact HL|]. cbn [app] in Hin, Ho. rewrite <- app_assoc in Hin, Ho. cbn [app] in Hin, Ho.
      split; [exact Hin|]. split; [rewrite app_length in Hlen; cbn [length] in *; lia|exact Ho].
    + assert (Hl' : forall y, In y P \/ In y (M ++ [I]) -> larger y J).
      { intros y [Hy|Hy]; [auto|]. apply in_app_or in Hy as [Hy|[<-|[]]]; auto. }
      destruct (IH pre j (mid ++ [i]) R' P J (M ++ [I]) HR' HP HJ ltac:(apply polys_app; [exact HM|constructor; [exact HI|constructor]]) Hl') as (o & p' & L & He & HL & Hin & Hlen & Ho).
      exists o, p', L. split; [exact He|]. split; [exact HL|]. rewrite <- app_assoc in Hin, Ho. cbn [app] in Hin, Ho.
      split; [exact Hin|]. split; [rewrite app_length in Hlen; cbn [length] in *; lia|exact Ho].
Qed.
Lemma select_ok : forall fuel p tmp A T, (length p <= fuel)%nat -> polys p A -> polys tmp T -> canon T ->
  (forall x y, In x A -> In y T -> larger x y) ->
  exists r R, bp_select fuel p tmp = Ok r /\ polys r R /\ canon R /\ (forall l, In l R -> In l A \/ In l T) /\
    forall s, pval s R = xorb (pval s A) (pval s T).
Proof.
  induction fuel as [|fuel IH]; intros p tmp A T Hf Hp Ht HT Hl; inversion Hp as [|x a t A' Hx Htt]; subst; cbn [bp_select].
  - exists tmp, T. repeat split; try assumption; [auto|]. intros s. cbn [pval]. destruct (pval s T); reflexivity.
  - cbn [length] in Hf. lia.
  - exists tmp, T. repeat split; try assumption; [auto|]. intros s. cbn [pval]. destruct (pval s T); reflexivity.
  - destruct (scan_ok t [] x [] A' [] a [] Htt ltac:(constructor) Hx ltac:(constructor) ltac:(intros y [[]|[]])) as (o & p' & L & He & HL & Hin & Hlen & Ho).
    rewrite He. cbn [bind]. cbn [app length] in *. destruct o as [k|].
    + destruct Ho as (K & HK & HKin & HKl & HKv).
      destruct (IH p' (k :: tmp) L (K :: T)) as (r & R & Hr & HR & HcR & HiR & HvR).
      * lia.
      * exact HL.
      * constructor; assumption.
      * apply canon_cons. split; [exact HT|]. intros y Hy. apply Hl; assumption.
      * intros z y Hz [<-|Hy]; [auto|]. apply Hl; [apply Hin, Hz|exact Hy].
      * exists r, R. split; [exact Hr|]. split; [exact HR|]. split; [exact HcR|]. split.
        -- intros l H. destruct (HiR l H) as [H1|[<-|H1]]; [left; apply Hin, H1|left; exact HKin|right; exact H1].
        -- intros s. rewrite HvR. specialize (HKv s). cbn [pval] in *. rewrite HKv. destruct (mval s K), (pval s L), (pval s T); reflexivity.
    + destruct (IH p' tmp L T) as (r & R & Hr & HR & HcR & HiR & HvR); [lia|exact HL|exact Ht|exact HT|intros z y Hz Hy; apply Hl; [apply Hin, Hz|exact Hy]|].
      exists r, R. split; [exact Hr|]. split; [exact HR|]. split; [exact HcR|]. split.
      * intros l H. destruct (HiR l H) as [H1|H1]; [left; apply Hin, H1|auto].
      * intros s. rewrite HvR, <- Ho. reflexivity.
Qed.
Lemma canon_ok : forall dbg fuel p A, (length p < fuel)%nat -> polys p A ->
  exists r R, bp_canon dbg fuel p = Ok r /\ polys r R /\ canon R /\ incl R A /\ forall s, pval s R = pval s A.
Proof.
  intros dbg. induction fuel as [|fuel IH]; intros p A Hf Hp; [lia|]. cbn [bp_canon].
  destruct (Nat.leb_spec (length p) 8) as [H8|H8].
  - destruct (select_ok (length p) p [] A [] (le_n _) Hp ltac:(constructor) ltac:(constructor) ltac:(intros ? ? _ [])) as (r & R & Hr & HR & HcR & HiR & HvR).
    rewrite Hr. cbn [bind]. rewrite (pcheck_ok dbg r R HR HcR). exists r, R. split; [reflexivity|]. split; [exact HR|]. split; [exact HcR|]. split.
    + intros l H. destruct (HiR l H) as [H1|[]]. exact H1.
    + intros s. rewrite HvR. cbn [pval]. destruct (pval s A); reflexivity.
  - assert (Hl2 : (4 <= length p / 2)%nat) by (apply Nat.div_le_lower_bound; lia).
    assert (Hl3 : (length p / 2 < length p)%nat) by (apply Nat.div_lt; lia).
    unfold assert_. destruct (Nat.ltb_spec 1 (length p / 2)) as [_|H]; [|lia]. rewrite andb_comm. cbn [negb andb].
    set (k := (length p / 2)%nat) in *. assert (Hs1 : polys (skipn k p) (skipn k A)).
    { clearbody k; clear -Hp. revert k. induction Hp; intros [|k]; cbn [skipn]; first [apply IHHp|constructor; assumption|constructor]. }
    assert (Hs2 : polys (firstn k p) (firstn k A)).
    { clearbody k; clear -Hp. revert k. induction Hp; intros [|k]; cbn [firstn]; constructor; try assumption. apply IHHp. }
    destruct (IH (skipn k p) (skipn k A) ltac:(rewrite skipn_length; lia) Hs1) as (r1 & R1 & -> & HR1 & Hc1 & Hi1 & Hv1). cbn [bind].
    destruct (IH (firstn k p) (firstn k A) ltac:(rewrite firstn_length; lia) Hs2) as (r2 & R2 & -> & HR2 & Hc2 & Hi2 & Hv2). cbn [bind].
    destruct (add1_ok dbg r1 r2 R1 R2 HR1 HR2 Hc1 Hc2) as (r & R & Hr & HR & HcR & HiR & HvR).
    exists r, R. split; [exact Hr|]. split; [exact HR|]. split; [exact HcR|]. split.
    + intros l H. rewrite <- (firstn_skipn k A). apply in_or_app. destruct (HiR l H); [right; auto|left; auto].
    + intros s. rewrite HvR, Hv1, Hv2. rewrite <- (firstn_skipn k A) at 3. rewrite pval_app. apply xorb_comm.
Qed.
Lemma canonicalize_ok : forall dbg p A, polys p A ->
  exists r R, bp_canonicalize dbg p = Ok r /\ polys r R /\ canon R /\ incl R A /\ forall s, pval s R = pval s A.
Proof. intros dbg p A Hp. apply canon_ok; [lia|exact Hp]. Qed.

(** ** Products *)
Lemma pval_union : forall s (c : list Z) A U, Forall2 (fun l u => forall x : Z, In x u <-> In x l \/ In x c) A U ->
  pval s U = pval s A && mval s c.
Proof.
  intros s c A U H. induction H as [|l u A U Hu _ IH]; [reflexivity|]. cbn [pval]. rewrite IH, (mval_union s l c u Hu).
  destruct (mval s l), (mval s c), (pval s A); reflexivity.
Qed.
Definition times (c : list Z) (A R : list (list Z)) : Prop :=
  canon R /\ exists U, Forall2 (fun l u => decreasing u /\ forall x : Z, In x u <-> In x l \/ In x c) A U /\ incl R U /\
  forall s, pval s R = pval s U.
Lemma times_val : forall c A R s, times c A R -> pval s R = pval s A && mval s c.
Proof.
  intros c A R s (_ & U & HU & _ & Hv). rewrite Hv. apply pval_union. clear -HU. induction HU; constructor; tauto.
Qed.
Lemma mulvar_list_ok : forall dbg p A v, polys p A ->
  exists q U, bp_map (fun m => bm_mulvar dbg m v) p = Ok q /\ polys q U /\
    Forall2 (fun l u => decreasing u /\ forall x : Z, In x u <-> In x l \/ In x [v]) A U.
Proof.
  intros dbg p A v Hp. apply bp_map_ok; [|exact Hp]. intros m l Hm. destruct (mulvar_ok dbg m l v Hm) as (c & u & Hc & Hu & Hi).
  exists c, u. split; [exact Hc|]. split; [exact Hu|]. split; [exact (proj1 Hu)|]. intros x. rewrite Hi. cbn [In]. intuition congruence.
Qed.
Lemma mulvar_poly_ok : forall dbg p A v, polys p A ->
  exists r R, bp_mulvar dbg p v = Ok r /\ polys r R /\ times [v] A R.
Proof.
  intros dbg p A v Hp. unfold bp_mulvar. destruct (mulvar_list_ok dbg p A v Hp) as (q & U & -> & HU & Hg). cbn [bind].
  destruct (canonicalize_ok dbg q U HU) as (r & R & -> & HR & Hc & Hi & Hv). cbn [bind]. rewrite (pcheck_ok dbg r R HR Hc).
  exists r, R. split; [reflexivity|]. split; [exact HR|]. split; [exact Hc|]. exists U. auto.
Qed.
Lemma mulmon_poly_ok : forall dbg p A m c, polys p A -> shows m c ->
  exists r R, bp_mulmon dbg p m = Ok r /\ polys r R /\ times c A R.
Proof.
  intros dbg p A m c Hp Hm. unfold bp_mulmon.
  destruct (bp_map_ok (fun x => bm_mul dbg x m) (fun l u => decreasing u /\ forall x : Z, In x u <-> In x l \/ In x c) p A) as (q & U & -> & HU & Hg); [|exact Hp|].
  - intros x l Hx. destruct (mul_ok dbg x m l c Hx Hm) as (y & u & Hy & Hu & Hi). exists y, u. split; [exact Hy|]. split; [exact Hu|]. split; [exact (proj1 Hu)|exact Hi].
  - cbn [bind]. destruct (canonicalize_ok dbg q U HU) as (r & R & -> & HR & Hc & Hi & Hv). cbn [bind]. rewrite (pcheck_ok dbg r R HR Hc).
    exists r, R. split; [reflexivity|]. split; [exact HR|]. split; [exact Hc|]. exists U. auto.
Qed.

(** ** Uniqueness of the canonical form *)
Lemma polys_dec : forall p A, polys p A -> forall l, In l A -> decreasing l.
Proof.
  intros p A H. induction H as [|m l p A Hm _ IH]; [intros k []|]. intros k [<-|Hk]; [exact (proj1 Hm)|auto].
Qed.
(** the characteristic function of a set *)
Definition char (l : list Z) (x : Z) : bool := existsb (Z.eqb x) l.
Lemma char_in : forall l x, char l x = true <-> In x l.
Proof.
  intros l x. unfold char. rewrite existsb_exists. split; [intros (y & H & E); apply Z.eqb_eq in E; subst; exact H|].
  intros H. exists x. split; [exact H|apply Z.eqb_refl].
Qed.
Lemma mval_char : forall l k, mval (char l) k = true <-> incl k l.
Proof. intros l k. unfold mval. rewrite forallb_forall. split; intros H x Hx; apply char_in; auto. Qed.
Lemma canon_nonzero : forall A, canon A -> (forall l, In l A -> decreasing l) -> A <> [] -> exists s, pval s A = true.
Proof.
  intros A HA Hd Hne. destruct (exists_last Hne) as (A' & l & ->). exists (char l). apply canon_app in HA as (_ & _ & Hl).
  rewrite pval_app. cbn [pval]. replace (mval (char l) l) with true by (symmetry; apply mval_char, incl_refl).
  replace (pval (char l) A') with false; [reflexivity|]. symmetry.
  assert (Hz : forall k, In k A' -> mval (char l) k = false).
  { intros k Hk. destruct (mval (char l) k) eqn:E; [|reflexivity]. apply mval_char in E. exfalso.
    assert (Hlk : larger k l) by (apply Hl; [exact Hk|left; reflexivity]).
    assert (Dk : decreasing k) by (apply Hd, in_or_app; auto). assert (Dl : decreasing l) by (apply Hd, in_or_app; right; left; reflexivity).
    pose proof (NoDup_incl_length (dec_NoDup _ Dk) E) as Hlen. destruct Hlk as [H|(H & v & Hv1 & Hv2 & _)]; [lia|].
    apply Hv2. apply (@NoDup_length_incl Z k l (dec_NoDup _ Dk)); [lia|exact E|exact Hv1]. }
  clear -Hz. induction A' as [|k A IH]; [reflexivity|]. cbn [pval]. rewrite (Hz k (or_introl eq_refl)), IH; [reflexivity|]. intros; apply Hz; right; assumption.
Qed.
Lemma canon_unique : forall A B, canon A -> canon B -> (forall l, In l A -> decreasing l) -> (forall l, In l B -> decreasing l) ->
  (forall s, pval s A = pval s B) -> A = B.
Proof.
  induction A as [|a A IH]; intros B HA HB DA DB Hv.
  - destruct B as [|b B]; [reflexivity|]. destruct (canon_nonzero (b :: B) HB DB ltac:(discriminate)) as (s & Hs). rewrite <- Hv in Hs. discriminate.
  - destruct B as [|b B]; [destruct (canon_nonzero (a :: A) HA DA ltac:(discriminate)) as (s & Hs); rewrite Hv in Hs; discriminate|].
    pose proof HA as HA'. pose proof HB as HB'. apply canon_cons in HA' as [HA' Ha]. apply canon_cons in HB' as [HB' Hb].
    assert (Hno : forall a A b B, canon (a :: A) -> canon (b :: B) -> (forall l, In l (a :: A) -> decreasing l) -> (forall l, In l (b :: B) -> decreasing l) ->
      (forall s, pval s (a :: A) = pval s (b :: B)) -> larger a b -> False).
    { clear. intros a A b B HA HB DA DB Hv Hab. apply canon_cons in HA as [HA Ha].
      destruct (add_ok true (map (fun l => mkBM (length l) (length l) l) A) (map (fun l => mkBM (length l) (length l) l) (b :: B)) A (b :: B)) as (r & R & _ & HR & HcR & HiR & HvR).
      - clear -DA. assert (forall l, In l A -> decreasing l) as D by (intros; apply DA; right; assumption). clear DA.
        induction A as [|x A IH]; constructor; [apply shows_mk; [apply D; left; reflexivity|lia]|apply IH; intros; apply D; right; assumption].
      - clear -DB. induction (b :: B) as [|x A IH]; constructor; [apply shows_mk; [apply DB; left; reflexivity|lia]|apply IH; intros; apply DB; right; assumption].
      - exact HA.
      - exact HB.
      - assert (Hc : canon (a :: R)).
        { apply canon_cons. split; [exact HcR|]. intros y Hy. apply canon_cons in HB as [HB Hb]. destruct (HiR y Hy) as [H|[<-|H]]; [auto|exact Hab|].
          apply (larger_trans _ b); auto. }
        destruct (canon_nonzero (a :: R) Hc) as (s & Hs); [|discriminate|].
        + intros l [<-|Hl]; [apply DA; left; reflexivity|]. destruct (HiR l Hl); [apply DA; right; assumption|apply DB; assumption].
        + cbn [pval] in Hs. rewrite HvR, <- Hv in Hs. cbn [pval] in Hs. destruct (mval s a), (pval s A); discriminate. }
    destruct (larger_total a b ltac:(apply DA; left; reflexivity) ltac:(apply DB; left; reflexivity)) as [<-|[H|H]].
    + f_equal. apply IH; [exact HA'|exact HB'|intros; apply DA; right; assumption|intros; apply DB; right; assumption|].
      intros s. specialize (Hv s). cbn [pval] in Hv. destruct (mval s a), (pval s A), (pval s B); try reflexivity; discriminate.
    + destruct (Hno a A b B HA HB DA DB Hv H).
    + destruct (Hno b B a A HB HA DB DA (fun s => eq_sym (Hv s)) H).
Qed.
