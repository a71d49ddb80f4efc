(** The statements about Boolean polynomials, assembled. *)
From Coq Require Import ZArith List Bool Arith Sorted Lia.
From Verif Require Import Outcome BoolModel BoolSpec BoolProofs BoolPolyProofs BoolNfProofs.
Import ListNotations.
Local Open Scope Z_scope.

Lemma c37_order : forall a b c, decreasing a -> decreasing b ->
  ~ larger a a /\ (larger a b -> larger b c -> larger a c) /\ (a = b \/ larger a b \/ larger b a).
Proof. intros a b c Ha Hb. split; [apply larger_irrefl|]. split; [apply larger_trans|apply larger_total; assumption]. Qed.
Lemma c38_add : forall dbg p q f g, means p f -> means q g -> exists r, bp_add dbg p q = Ok r /\ means r (fun s => xorb (f s) (g s)).
Proof.
  intros dbg p q f g (A & HA & HcA & Hf) (B & HB & HcB & Hg). destruct (add_ok dbg p q A B HA HB HcA HcB) as (r & R & Hr & HR & Hc & _ & Hv).
  exists r. split; [exact Hr|]. exists R. split; [exact HR|]. split; [exact Hc|]. intros s. rewrite Hv, Hf, Hg. reflexivity.
Qed.
Lemma c38_mulvar : forall dbg p v f, means p f -> exists r, bp_mulvar dbg p v = Ok r /\ means r (fun s => f s && s v).
Proof.
  intros dbg p v f (A & HA & HcA & Hf). destruct (mulvar_poly_ok dbg p A v HA) as (r & R & Hr & HR & Ht).
  exists r. split; [exact Hr|]. exists R. split; [exact HR|]. split; [exact (proj1 Ht)|]. intros s. rewrite (times_val [v] A R s Ht), Hf. cbn [mval forallb]. rewrite andb_true_r. reflexivity.
Qed.
Lemma c38_mulmon : forall dbg p m l f, means p f -> shows m l -> exists r, bp_mulmon dbg p m = Ok r /\ means r (fun s => f s && mval s l).
Proof.
  intros dbg p m l f (A & HA & HcA & Hf) Hm. destruct (mulmon_poly_ok dbg p A m l HA Hm) as (r & R & Hr & HR & Ht).
  exists r. split; [exact Hr|]. exists R. split; [exact HR|]. split; [exact (proj1 Ht)|]. intros s. rewrite (times_val l A R s Ht), Hf. reflexivity.
Qed.
Lemma c38_addmulvar : forall dbg p q v f g, means p f -> means q g -> exists r, bp_addmulvar dbg p q v = Ok r /\ means r (fun s => xorb (f s) (g s && s v)).
Proof.
  intros dbg p q v f g (A & HA & HcA & Hf) Hq. destruct (c38_mulvar dbg q v g Hq) as (t & Ht & B & HB & HcB & Hg). unfold bp_addmulvar. rewrite Ht. cbn [bind].
  destruct (add1_ok dbg p t A B HA HB HcA HcB) as (r & R & Hr & HR & Hc & _ & Hv). exists r. split; [exact Hr|]. exists R. split; [exact HR|]. split; [exact Hc|].
  intros s. rewrite Hv, Hf, Hg. reflexivity.
Qed.
Lemma c38_addmulmon : forall dbg p q m l f g, means p f -> means q g -> shows m l ->
  exists r, bp_addmulmon dbg p q m = Ok r /\ means r (fun s => xorb (f s) (g s && mval s l)).
Proof.
  intros dbg p q m l f g (A & HA & HcA & Hf) Hq Hm. destruct (c38_mulmon dbg q m l g Hq Hm) as (t & Ht & B & HB & HcB & Hg). unfold bp_addmulmon. rewrite Ht. cbn [bind].
  destruct (add1_ok dbg p t A B HA HB HcA HcB) as (r & R & Hr & HR & Hc & _ & Hv). exists r. split; [exact Hr|]. exists R. split; [exact HR|]. split; [exact Hc|].
  intros s. rewrite Hv, Hf, Hg. reflexivity.
Qed.
Lemma c38_addOne : forall p f, means p f -> means (bp_addOne p) (fun s => negb (f s)).
Proof.
  intros p f (A & HA & HcA & Hf). destruct (addOne_ok p A HA HcA) as (R & HR & Hc & Hv & _). exists R. split; [exact HR|]. split; [exact Hc|]. intros s. rewrite Hv, Hf. reflexivity.
Qed.
Lemma c38_or : forall dbg p v neg f, means p f -> exists r, bp_or dbg p v neg = Ok r /\ means r (fun s => f s || (if neg then negb (s v) else s v)).
Proof.
  intros dbg p v neg f (A & HA & HcA & Hf). destruct (or_ok dbg p A v neg HA) as (r & R & Hr & HR & Hc & Hv). exists r. split; [exact Hr|].
  exists R. split; [exact HR|]. split; [exact Hc|]. intros s. rewrite Hv, Hf. reflexivity.
Qed.
Lemma c38_canonicalize : forall dbg p A, polys p A -> exists r, bp_canonicalize dbg p = Ok r /\ means r (fun s => pval s A).
Proof.
  intros dbg p A HA. destruct (canonicalize_ok dbg p A HA) as (r & R & Hr & HR & Hc & _ & Hv). exists r. split; [exact Hr|]. exists R. auto.
Qed.
Lemma c38_set : forall dbg v neg m l, shows m l ->
  means [] (fun _ => false) /\ means bp_setOne (fun _ => true) /\ means (bp_setVar v neg) (fun s => if neg then negb (s v) else s v) /\
  exists r, bp_setMonom dbg m = Ok r /\ means r (fun s => mval s l).
Proof.
  intros dbg v neg m l Hm. split; [exists []; repeat split; constructor|]. split.
  - exists [[]]. split; [constructor; [exact one_ok|constructor]|]. split; [apply canon_cons; split; [constructor|intros ? []]|reflexivity].
  - split.
    + exists ([v] :: if neg then [[]] else []). split; [constructor; [apply var_ok|destruct neg; [constructor; [exact one_ok|]|]; constructor]|]. split.
      * apply canon_cons. destruct neg; (split; [|intros y Hy; cbn [In] in Hy]); [apply canon_cons; split; [constructor|intros ? []]| |constructor|destruct Hy].
        destruct Hy as [<-|[]]. left; cbn; lia.
      * intros s. destruct neg; cbn [pval mval forallb]; destruct (s v); reflexivity.
    + destruct (copy_ok dbg m l Hm) as (c & Hc & Hs). unfold bp_setMonom. rewrite Hc. cbn [bind]. exists [c]. split; [reflexivity|]. exists [l].
      split; [constructor; [exact Hs|constructor]|]. split; [apply canon_cons; split; [constructor|intros ? []]|]. intros s. cbn [pval]. apply xorb_false_r.
Qed.
Lemma c38_unique : forall p q f g, means p f -> means q g -> ((forall s, f s = g s) <-> exists ls, polys p ls /\ polys q ls).
Proof.
  intros p q f g (A & HA & HcA & Hf) (B & HB & HcB & Hg). split.
  - intros E. exists A. split; [exact HA|]. replace A with B; [exact HB|]. symmetry.
    apply canon_unique; [exact HcA|exact HcB|apply (polys_dec p), HA|apply (polys_dec q), HB|]. intros s. rewrite Hf, Hg. apply E.
  - assert (Hfun : forall p A B, polys p A -> polys p B -> A = B).
    { clear. intros p A B HA. revert B. induction HA as [|m l p A Hm HA IH]; intros B HB; inversion HB; subst; [reflexivity|]. f_equal; [apply (shows_fun m); assumption|auto]. }
    intros (L & HL1 & HL2) s. rewrite (Hfun _ _ _ HL1 HA) in HL2. pose proof (Hfun _ _ _ HL2 HB). subst B. rewrite <- Hf, <- Hg. reflexivity.
Qed.
Lemma c38_tests : forall p f, means p f ->
  (bp_isZero p = true <-> forall s, f s = false) /\ (bp_isOne p = true <-> forall s, f s = true) /\ (bp_tailOne p = f (fun _ => false)).
Proof.
  intros p f (A & HA & HcA & Hf). pose proof (polys_dec p A HA) as Dec. split; [|split].
  - inversion HA as [|m l t T Hm HT]; subst; cbn [bp_isZero].
    + split; [|reflexivity]. intros _ s. rewrite <- Hf. reflexivity.
    + split; [discriminate|]. intros H. destruct (canon_nonzero (l :: T) HcA Dec ltac:(discriminate)) as (s & Hs). rewrite Hf, H in Hs. discriminate.
  - inversion HA as [|m l t T Hm HT]; subst; cbn [bp_isOne].
    + split; [discriminate|]. intros H. specialize (H (fun _ => false)). rewrite <- Hf in H. discriminate.
    + unfold bm_isOne. destruct (shows_read _ _ Hm) as (_ & -> & _). split.
      * intros H s. apply Nat.eqb_eq in H. destruct l; [|cbn in H; lia]. rewrite <- Hf. apply canon_cons in HcA as [_ Hl].
        destruct T as [|y T]; [reflexivity|]. destruct (Hl y (or_introl eq_refl)) as [H1|(_ & v & Hv & _ & Hb)]; [cbn in H1; lia|].
        destruct (Hl y (or_introl eq_refl)) as [H1|(H1 & _)]; [cbn in H1; lia|]. destruct y; [destruct Hv|cbn in H1; lia].
      * intros H. assert (E : l :: T = [[]]).
        { apply canon_unique; [exact HcA|apply canon_cons; split; [constructor|intros ? []]|exact Dec|intros k [<-|[]]; apply dec_nil|]. intros s. rewrite Hf, H. reflexivity. }
        injection E as -> _. reflexivity.
  - rewrite <- Hf. clear Hf f. induction HA as [|m l p T Hm HT IH]; [reflexivity|]. destruct (shows_read _ _ Hm) as (_ & Hlen & _).
    apply canon_cons in HcA as [HcT Hl]. inversion HT as [|m' l' p' T' Hm' HT']; subst.
    + cbn [bp_tailOne pval]. rewrite Hlen, xorb_false_r. destruct l; reflexivity.
    + change (bp_tailOne (m' :: p') = pval (fun _ => false) (l :: l' :: T')). rewrite IH by (first [exact HcT|intros; apply Dec; right; assumption]).
      cbn [pval]. assert (Hne : l <> []) by (intros ->; destruct (Hl l' (or_introl eq_refl)) as [H|(H & v & Hv & _)]; [cbn in H; lia|destruct l'; [destruct Hv|cbn in H; lia]]).
      destruct l; [contradiction|]. cbn [mval forallb andb]. symmetry. apply xorb_false_l.
Qed.

Lemma c38_nf : forall dbg a G lo p ls, finds a G -> (forall f fs, G f -> polys f fs -> bounded lo fs) ->
  polys p ls -> canon ls -> ls <> [] -> bounded lo ls ->
  exists n r rs, (forall fuel, (n <= fuel)%nat -> bp_nf dbg fuel a p = Ok r) /\ polys r rs /\ canon rs /\
    match r with [] => True | m :: _ => a m = None end /\
    match ls, rs with l :: _, y :: _ => l = y \/ larger l y | _, _ => True end /\
    forall s, zero_of s G -> pval s rs = pval s ls.
Proof.
  intros dbg a G lo p ls HF HG Hp Hc Hne Hb. destruct (nf_ok dbg a G lo HF HG p ls Hp Hc Hb) as (n & r & R & Hn & HR & HcR & _ & Hr & Hh & Hv).
  exists n, r, R. split; [|split; [exact HR|split; [exact HcR|split; [exact Hr|split; [|exact Hv]]]]].
  - intros fuel Hfu. inversion Hp; subst; [contradiction|]. apply (Hn fuel Hfu).
  - destruct ls, R; try exact I. exact Hh.
Qed.
Lemma c38_nfTail : forall dbg a G lo p l ls, finds a G -> (forall f fs, G f -> polys f fs -> bounded lo fs) ->
  polys p (l :: ls) -> canon (l :: ls) -> bounded lo (l :: ls) ->
  exists n m r rs, (forall fuel, (n <= fuel)%nat -> bp_nfTail dbg fuel a p = Ok (m :: r)) /\ polys (m :: r) (l :: rs) /\ canon (l :: rs) /\
    (forall x, In x r -> a x = None) /\ forall s, zero_of s G -> pval s (l :: rs) = pval s (l :: ls).
Proof.
  intros dbg a G lo p l ls HF HG Hp Hc Hb. inversion Hp as [|m ? t ? Hm HT]; subst.
  destruct (nfTail_ok dbg a G lo HF HG m t l ls Hm HT Hc Hb) as (n & r & R & Hn & HR & HcR & Hr & Hv).
  exists n, m, r, R. split; [exact Hn|]. split; [constructor; assumption|]. split; [exact HcR|]. split; [rewrite Forall_forall in Hr; exact Hr|exact Hv].
Qed.

(** ** Examples *)
Definition bm (l : list Z) : BM := mkBM (length l) (length l) l.
(** a list of polynomials searched from the front *)
Definition from_list (G : list BP) : finder := fun m =>
  find (fun f => match f with h :: _ => match bm_divisible m h with Ok b => b | _ => false end | [] => false end) G.
Definition G1 : list BP := [[bm [2; 1]; bm []]; [bm [3]; bm [1]]].
Lemma bm_shows : forall l, decreasing l -> shows (bm l) l.
Proof. intros l H. apply shows_mk; [exact H|lia]. Qed.
Ltac dec := repeat (apply dec_cons; split; [|intros ? ?; cbn [In] in *; lia]); apply dec_nil.
Ltac can := repeat (apply canon_cons; split; [|intros ? ?; cbn [In] in *; repeat match goal with H : _ \/ _ |- _ => destruct H as [<-|H] end; try contradiction; left; cbn; lia]); constructor.
Ltac pol := repeat (constructor; [apply bm_shows; dec|]); constructor.
Lemma finds_G1 : finds (from_list G1) (fun f => In f G1).
Proof.
  split.
  - intros f [<-|[<-|[]]]; [exists [[2; 1]; []]|exists [[3]; [1]]]; (split; [pol|]); [can|].
    apply canon_cons. split; [can|]. intros y [<-|[]]. right. split; [reflexivity|]. exists 1. cbn [In]. split; [auto|]. split; [lia|intros; lia].
  - intros m l f Hm Hf. unfold from_list in Hf. apply find_some in Hf as [Hin Hd]. split; [exact Hin|].
    destruct Hin as [<-|[<-|[]]]; do 3 eexists; (split; [reflexivity|]).
    + split; [apply bm_shows; dec|]. destruct (divisible_ok m (bm [2; 1]) l [2; 1] Hm ltac:(apply bm_shows; dec)) as (r & Hr & Hri). rewrite Hr in Hd. apply Hri, Hd.
    + split; [apply bm_shows; dec|]. destruct (divisible_ok m (bm [3]) l [3] Hm ltac:(apply bm_shows; dec)) as (r & Hr & Hri). rewrite Hr in Hd. apply Hri, Hd.
Qed.
Definition P1 : BP := [bm [3; 2; 1]; bm [4; 3]; bm [2]].
Lemma P1_ok : polys P1 [[3; 2; 1]; [4; 3]; [2]] /\ canon [[3; 2; 1]; [4; 3]; [2]].
Proof. split; [pol|can]. Qed.
Lemma G1_bounded : forall f fs, In f G1 -> polys f fs -> bounded 1 fs.
Proof.
  assert (Hfun : forall p A B, polys p A -> polys p B -> A = B).
  { clear. intros p A B HA. revert B. induction HA as [|m l p A Hm HA IH]; intros B HB; inversion HB; subst; [reflexivity|]. f_equal; [apply (shows_fun m); assumption|auto]. }
  intros f fs [<-|[<-|[]]] Hp; [rewrite (Hfun _ fs [[2; 1]; []] Hp ltac:(pol))|rewrite (Hfun _ fs [[3]; [1]] Hp ltac:(pol))];
    intros l Hl x Hx; cbn [In] in Hl; repeat match goal with H : _ \/ _ |- _ => destruct H as [<-|H] end; try contradiction; cbn [In] in Hx; lia.
Qed.
Lemma P1_bounded : bounded 1 [[3; 2; 1]; [4; 3]; [2]].
Proof. intros l Hl x Hx. cbn [In] in Hl. repeat match goal with H : _ \/ _ |- _ => destruct H as [<-|H] end; try contradiction; cbn [In] in Hx; lia. Qed.

(** assertValid() in debug builds: it aborts exactly if the cells, or the monomials, are not strictly decreasing. *)
Lemma bdecr_iff : forall t x, bdecr x t = true <-> decreasing (x :: t).
Proof.
  split; [|apply bdecr_ok]. revert x. induction t as [|y t IH]; intros x H.
  - apply dec_cons. split; [apply dec_nil|intros y []].
  - cbn [bdecr] in H. destruct (Z.leb_spec x y); [discriminate|]. specialize (IH y H). apply dec_cons. split; [exact IH|].
    apply dec_cons in IH as [_ Hy]. intros z [<-|Iz]; [lia|]. specialize (Hy z Iz). lia.
Qed.
Lemma c37_valid : forall m, (bdeg m <= bsize m)%nat -> (bdeg m <= length (bcells m))%nat ->
  (decreasing (firstn (bdeg m) (bcells m)) -> bm_check true m = Ok m) /\ (~ decreasing (firstn (bdeg m) (bcells m)) -> bm_check true m = AssertFail) /\ bm_check false m = Ok m.
Proof.
  intros m H1 H2. unfold bm_check, bm_valid, bread. destruct (Nat.leb_spec (bdeg m) (bsize m)) as [_|]; [|lia]. destruct (Nat.leb_spec (bdeg m) (length (bcells m))) as [_|]; [|lia].
  cbn [bind]. destruct (firstn (bdeg m) (bcells m)) as [|x t].
  - split; [reflexivity|]. split; [|reflexivity]. intro N. destruct N. apply dec_nil.
  - assert (X := bdecr_iff t x). destruct (bdecr x t); cbn [bind assert_ negb andb].
    + split; [reflexivity|]. split; [|reflexivity]. intro N. destruct N. apply X. reflexivity.
    + split; [|split; reflexivity]. intro D. apply X in D. discriminate.
Qed.
Lemma c38_valid : forall p ls, polys p ls -> (canon ls -> bp_check true p = Ok p) /\ (~ canon ls -> bp_check true p = AssertFail) /\ bp_check false p = Ok p.
Proof.
  assert (Hl : forall t ls x l, polys t ls -> shows x l -> exists b, bp_valid_loop x t = Ok b /\ (b = true -> canon (l :: ls))).
  { induction t as [|m t IH]; intros ls x l Hp Hx; inversion Hp as [|? y ? ys Hm Ht]; subst; cbn [bp_valid_loop].
    - exists true. split; [reflexivity|]. intros _. apply canon_cons. split; [constructor|intros y []].
    - destruct (compare_ok x m l y Hx Hm) as (c & -> & H1 & _ & _). cbn [bind]. destruct (Z.leb_spec c 0); [exists false; split; [reflexivity|discriminate]|].
      destruct (IH ys m y Ht Hm) as (b & E & K). exists b. split; [exact E|]. intro T. specialize (K T). assert (Lg : larger l y) by (apply H1; lia).
      apply canon_cons. split; [exact K|]. apply canon_cons in K as [_ K]. intros z [<-|Iz]; [exact Lg|]. eapply larger_trans; [exact Lg|apply K; exact Iz]. }
  intros p ls Hp. split; [intro; eapply pcheck_ok; eassumption|]. split; [|reflexivity]. intro N. unfold bp_check.
  destruct Hp as [|m l p ls Hm Hp]; [destruct N; constructor|]. cbn [bp_valid]. destruct (Hl p ls m l Hp Hm) as (b & E & K). rewrite E. cbn [bind].
  destruct b; [destruct (N (K eq_refl))|reflexivity].
Qed.

(** nf, isNfTail and nfTail need a non-zero polynomial; isNfTail says whether a divisor exists for a monomial behind the first. *)
Lemma c50_zero : forall fuel a,
  (bp_nf true fuel a [] = AssertFail /\ bp_isNfTail true a [] = AssertFail /\ bp_nfTail true fuel a [] = AssertFail) /\
  (bp_nf false fuel a [] = Undef /\ bp_isNfTail false a [] = Undef /\ bp_nfTail false fuel a [] = Undef).
Proof. repeat split. Qed.
Lemma c50_isNfTail : forall dbg a m t, exists b, bp_isNfTail dbg a (m :: t) = Ok b /\ (b = true <-> forall x, In x t -> a x = None).
Proof.
  intros dbg a m t. eexists. split; [reflexivity|]. rewrite forallb_forall. split; intros H x I; specialize (H x I); destruct (a x); congruence.
Qed.
