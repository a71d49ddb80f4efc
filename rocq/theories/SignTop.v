From Coq Require Import ZArith List Bool Arith Lia Permutation.
From Verif Require Import Outcome MonomModel MonomSpec MonomProofs PolyModel PolySpec PolyProofs JanetModel JanetSpec JanetPolyModel TQModel JanetPolySpec JanetPolyProofs JanetPolyTop SignSpec.
Import ListNotations.
Local Open Scope Z_scope.

(** * The order of pushes *)
Section Order.
Variable (dbg : bool) (t : pos_order) (o : base_order) (n : nat).
Definition keyed (p : poly) (m : monom) : Prop := (exists c l, terms p = (m, c) :: l) /\ pto p = t /\ pbo p = o /\ size m = n /\ psize p = n.

Lemma keyed_cmp p m q k : keyed p m -> keyed q k -> p_cmp dbg p q = Ok (cmp1 t o m k).
Proof. intros ((c & l & E) & <- & <- & _) ((d & l' & E') & _). unfold p_cmp, p_lm. now rewrite E, E'. Qed.
Lemma keyed_nz p m : keyed p m -> is_zero p = false.
Proof. intros ((c & l & E) & _). unfold is_zero. now rewrite E. Qed.

Definition okl (l : list wpoly) : Prop := Forall (fun u => exists m, keyed (wpol u) m) l.
Lemma place_spec a m l : keyed (wpol a) m -> okl l -> exists r, place dbg l a = Ok r /\ okl r /\ r <> [].
Proof.
  intros Ha. induction 1 as [|u l (k & Hu) Hl (r & E & R & _)]; cbn [place].
  - exists [a]. split; [reflexivity|]. split; [constructor; [eauto|constructor]|discriminate].
  - rewrite (keyed_cmp _ _ _ _ Ha Hu). cbn [bind]. destruct (0 <? cmp1 t o m k).
    + rewrite E. cbn [bind]. exists (u :: r). split; [reflexivity|]. split; [constructor; eauto|discriminate].
    + exists (a :: u :: l). split; [reflexivity|]. split; [constructor; [eauto|]; constructor; eauto|discriminate].
Qed.
Lemma place_lt a b m k l : keyed (wpol a) m -> keyed (wpol b) k -> cmp1 t o m k = -1 -> okl l ->
  (do r <- place dbg l a; place dbg r b) = (do r <- place dbg l b; place dbg r a).
Proof.
  intros Ha Hb Lt. assert (Gt : cmp1 t o k m = 1).
  { rewrite (cmp1_antisym t o m k), Lt; [reflexivity|]. destruct Ha as (_ & _ & _ & -> & _), Hb as (_ & _ & _ & -> & _). reflexivity. }
  induction 1 as [|u l (j & Hu) Hl IH].
  - cbn [place bind]. rewrite (keyed_cmp _ _ _ _ Ha Hb), (keyed_cmp _ _ _ _ Hb Ha), Lt, Gt. cbn. reflexivity.
  - cbn [place]. rewrite (keyed_cmp _ _ _ _ Ha Hu), (keyed_cmp _ _ _ _ Hb Hu). cbn [bind].
    destruct (0 <? cmp1 t o m j) eqn:Em.
    + assert (Ek : 0 <? cmp1 t o k j = true).
      { apply Z.ltb_lt in Em. apply Z.ltb_lt. destruct (cmp1_range t o m j) as [E|[E|E]]; try lia.
        rewrite (cmp1_trans t o k m j); [lia| | |exact Gt|exact E].
        - destruct Ha as (_ & _ & _ & -> & _), Hb as (_ & _ & _ & -> & _). reflexivity.
        - destruct Ha as (_ & _ & _ & -> & _), Hu as (_ & _ & _ & -> & _). reflexivity. }
      rewrite Ek. destruct (place_spec a m l Ha Hl) as (r1 & E1 & _), (place_spec b k l Hb Hl) as (r2 & E2 & _).
      rewrite E1, E2 in IH |- *. cbn [bind] in *. cbn [place]. rewrite (keyed_cmp _ _ _ _ Ha Hu), (keyed_cmp _ _ _ _ Hb Hu). cbn [bind].
      rewrite Em, Ek, IH. reflexivity.
    + cbn [bind]. destruct (0 <? cmp1 t o k j) eqn:Ek.
      * destruct (place_spec b k l Hb Hl) as (r2 & E2 & _). rewrite E2. cbn [bind]. cbn [place].
        rewrite (keyed_cmp _ _ _ _ Hb Ha), (keyed_cmp _ _ _ _ Ha Hu), (keyed_cmp _ _ _ _ Hb Hu), Gt. cbn [bind].
        rewrite Em, Ek, E2. reflexivity.
      * cbn [bind]. cbn [place]. rewrite (keyed_cmp _ _ _ _ Hb Ha), (keyed_cmp _ _ _ _ Ha Hb), (keyed_cmp _ _ _ _ Hb Hu), Gt, Lt. cbn [bind].
        rewrite Ek. reflexivity.
Qed.
Lemma place_swap a b m k l : keyed (wpol a) m -> keyed (wpol b) k -> m <> k -> okl l ->
  (do r <- place dbg l a; place dbg r b) = (do r <- place dbg l b; place dbg r a).
Proof.
  intros Ha Hb N Hl. assert (Es : size m = size k) by (destruct Ha as (_ & _ & _ & -> & _), Hb as (_ & _ & _ & -> & _); reflexivity).
  destruct (cmp1_range t o m k) as [E|[E|E]].
  - symmetry. apply (place_lt b a k m); try assumption. rewrite (cmp1_antisym t o m k Es), E. reflexivity.
  - apply (cmp1_eq t o m k Es) in E. contradiction.
  - apply (place_lt a b m k); assumption.
Qed.

(** A state in which a push succeeds *)
Definition pushable (J : jpoly) : Prop := okl (jq J) /\ forall a, ring_input t o n a -> dbg = true -> jp_comparable J a = true.

Lemma ring_keyed a m c l : ring_input t o n a -> terms a = (m, c) :: l -> keyed a m.
Proof.
  intros (V & A & B & C & _) E. split; [eauto|]. split; [exact B|]. split; [exact C|]. split; [|exact A].
  apply canonical_iff in V as (_ & M & _). rewrite E, A in M. apply Forall_inv in M. destruct M as [M _]. exact M.
Qed.
Lemma ring_copy a : ring_input t o n a -> exists b, p_copy dbg a = Ok b /\ terms b = terms a /\ pto b = pto a /\ pbo b = pbo a /\ psize b = psize a.
Proof.
  intros (V & _). unfold p_copy, checked, assert_. exists (with_terms a (terms a)). rewrite map_id.
  replace (assertValid (with_terms a (terms a))) with true; [destruct dbg; cbn; auto|]. symmetry. exact (canonical_valid _ _ _ _ V).
Qed.
Definition pushed (J : jpoly) (m : monom) (b : poly) : outcome jpoly :=
  match jone J with Some _ => Ok J | None => do q <- place dbg (jq J) (WP (new_wrap m) b); Ok (JP None q (jt J) (jpos J) (jtrees J)) end.
Lemma push_spec J a m c l : pushable J -> ring_input t o n a -> terms a = (m, c) :: l ->
  exists b, p_copy dbg a = Ok b /\ keyed b m /\ jp_push dbg J a = pushed J m b.
Proof.
  intros [_ H] Ra E. destruct (ring_copy a Ra) as (b & Eb & B1 & B2 & B3 & B4). exists b. split; [exact Eb|].
  destruct (ring_keyed a m c l Ra E) as (K1 & K2 & K3 & K4 & K5).
  assert (Kb : keyed b m). { split; [rewrite B1; exact K1|]. split; [congruence|]. split; [congruence|]. split; [exact K4|congruence]. }
  split; [exact Kb|]. unfold jp_push, pushed.
  assert (A : forall x, assert_ dbg (jp_comparable J a) x = (x : outcome jpoly)).
  { intro x. unfold assert_. destruct dbg eqn:Ed; [|reflexivity]. rewrite (H a Ra eq_refl). reflexivity. }
  rewrite A. destruct (jone J); [reflexivity|]. unfold is_zero. rewrite E. unfold p_lm. rewrite E. cbn [bind]. rewrite Eb. cbn [bind].
  unfold jp_insert. cbn [wpol]. rewrite (keyed_nz b m Kb). unfold assert_. destruct dbg; reflexivity.
Qed.
Lemma push_zero J a : pushable J -> ring_input t o n a -> terms a = [] -> jp_push dbg J a = Ok J.
Proof.
  intros [_ H] Ra E. unfold jp_push, is_zero. rewrite E. unfold assert_. destruct dbg eqn:Ed; [rewrite (H a Ra eq_refl)|]; cbn; destruct (jone J); reflexivity.
Qed.
Lemma keyed_pushable J m b : pushable J -> keyed b m -> exists J', pushed J m b = Ok J' /\ pushable J'.
Proof.
  intros [Q H] Kb. unfold pushed. destruct (jone J) eqn:Eo; [exists J; split; [reflexivity|split; assumption]|].
  destruct (place_spec (WP (new_wrap m) b) m (jq J) Kb Q) as (r & E & R & N). rewrite E. cbn [bind]. eexists. split; [reflexivity|]. split; [exact R|].
  intros a Ra _. unfold jp_comparable. cbn [jq jt jone]. destruct r as [|u r]; [contradiction|].
  pose proof (Forall_inv R) as (k & (_ & K2 & K3 & _ & K5)). destruct Ra as (_ & A & B & C & _).
  assert (X : comparable (wpol u) a = true).
  { unfold comparable. rewrite K2, K3, K5, A, B, C, Nat.eqb_refl. destruct t, o; reflexivity. }
  rewrite X, orb_true_r. reflexivity.
Qed.
Lemma push_swap J a b : pushable J -> ring_input t o n a -> ring_input t o n b -> NoDup (lead_monomials [a; b]) ->
  (do J' <- jp_push dbg J a; jp_push dbg J' b) = (do J' <- jp_push dbg J b; jp_push dbg J' a).
Proof.
  intros H Ra Rb N. destruct (terms a) as [|[m c] l] eqn:Ea.
  { rewrite (push_zero J a H Ra Ea). cbn [bind]. destruct (terms b) as [|[k d] l'] eqn:Eb.
    - rewrite (push_zero J b H Rb Eb). cbn [bind]. symmetry. apply push_zero; assumption.
    - destruct (push_spec J b k d l' H Rb Eb) as (b' & _ & Kb & E). destruct (keyed_pushable J k b' H Kb) as (J' & E' & H').
      rewrite E, E'. cbn [bind]. symmetry. apply push_zero; assumption. }
  destruct (push_spec J a m c l H Ra Ea) as (a' & Ca & Ka & E1). destruct (keyed_pushable J m a' H Ka) as (J1 & E1' & H1).
  destruct (terms b) as [|[k d] l'] eqn:Eb.
  { rewrite (push_zero J b H Rb Eb). cbn [bind]. rewrite E1, E1'. cbn [bind]. apply push_zero; assumption. }
  destruct (push_spec J b k d l' H Rb Eb) as (b' & Cb & Kb & E2). destruct (keyed_pushable J k b' H Kb) as (J2 & E2' & H2).
  destruct (push_spec J1 b k d l' H1 Rb Eb) as (b2 & Cb2 & _ & E3). assert (b2 = b') by congruence. subst b2.
  destruct (push_spec J2 a m c l H2 Ra Ea) as (a2 & Ca2 & _ & E4). assert (a2 = a') by congruence. subst a2.
  rewrite E1, E2, E1', E2'. cbn [bind]. rewrite E3, E4.
  assert (Nmk : m <> k). { unfold lead_monomials in N. cbn [flat_map] in N. rewrite Ea, Eb in N. cbn in N. inversion N as [|? ? X]. subst. intro Y. apply X. left. congruence. }
  unfold pushed in E1', E2' |- *. destruct (jone J) eqn:Eo.
  - injection E1' as <-. injection E2' as <-. rewrite Eo. reflexivity.
  - pose proof (place_swap (WP (new_wrap m) a') (WP (new_wrap k) b') m k (jq J) Ka Kb Nmk (proj1 H)) as P.
    destruct (place dbg (jq J) (WP (new_wrap m) a')) as [r1| | | |]; cbn [bind] in E1'; try discriminate.
    destruct (place dbg (jq J) (WP (new_wrap k) b')) as [r2| | | |]; cbn [bind] in E2'; try discriminate.
    injection E1' as <-. injection E2' as <-. cbn [jone jq jt jpos jtrees bind] in *. rewrite P. reflexivity.
Qed.
Lemma push_pushable J a : pushable J -> ring_input t o n a -> exists J', jp_push dbg J a = Ok J' /\ pushable J'.
Proof.
  intros H Ra. destruct (terms a) as [|[m c] l] eqn:Ea; [exists J; split; [apply push_zero; assumption|exact H]|].
  destruct (push_spec J a m c l H Ra Ea) as (b & _ & K & ->). apply keyed_pushable; assumption.
Qed.
Lemma nodup_app_l {A} (a b c : list A) : NoDup (a ++ b ++ c) -> NoDup (a ++ b).
Proof. rewrite app_assoc. induction (a ++ b) as [|x l IH]; cbn; intro H; [constructor|]. inversion H; subst. constructor; [intro I; apply H2, in_or_app; auto|auto]. Qed.
Lemma nodup_app_r {A} (a b : list A) : NoDup (a ++ b) -> NoDup b.
Proof. induction a as [|x a IH]; [auto|]. intro H. inversion H; subst. auto. Qed.
Lemma lead_app a l : lead_monomials (a :: l) = lead_monomials [a] ++ lead_monomials l.
Proof. unfold lead_monomials. cbn [flat_map]. rewrite app_nil_r. reflexivity. Qed.
Lemma lead_perm l1 l2 : Permutation l1 l2 -> Permutation (lead_monomials l1) (lead_monomials l2).
Proof.
  induction 1 as [|a l1 l2 _ IH|a b l|l1 l2 l3 _ IH1 _ IH2]; [constructor| | |eapply Permutation_trans; eassumption].
  - rewrite (lead_app a l1), (lead_app a l2). apply Permutation_app_head, IH.
  - rewrite (lead_app b), (lead_app a l), (lead_app a (b :: l)), (lead_app b l), !app_assoc. apply Permutation_app_tail, Permutation_app_comm.
Qed.
Lemma push_all_perm l1 l2 : Permutation l1 l2 -> forall J, pushable J -> Forall (ring_input t o n) l1 -> NoDup (lead_monomials l1) ->
  jp_push_all dbg J l1 = jp_push_all dbg J l2.
Proof.
  induction 1 as [|a l1 l2 P IH|a b l|l1 l2 l3 P1 IH1 P2 IH2]; intros J HJ F N.
  - reflexivity.
  - cbn [jp_push_all]. destruct (push_pushable J a HJ (Forall_inv F)) as (J' & E & H'). rewrite E. cbn [bind].
    apply IH; [exact H'|exact (Forall_inv_tail F)|]. rewrite lead_app in N. eapply nodup_app_r; exact N.
  - pose proof (Forall_inv F) as Rb. pose proof (Forall_inv (Forall_inv_tail F)) as Ra. cbn [jp_push_all].
    assert (S : (do J' <- jp_push dbg J b; jp_push dbg J' a) = (do J' <- jp_push dbg J a; jp_push dbg J' b)).
    { apply push_swap; try assumption. rewrite (lead_app b), (lead_app a l) in N. rewrite lead_app. exact (nodup_app_l _ _ _ N). }
    destruct (push_pushable J a HJ Ra) as (J1 & E1 & _), (push_pushable J b HJ Rb) as (J2 & E2 & _). rewrite E1, E2 in S |- *. cbn [bind] in S |- *.
    rewrite S. reflexivity.
  - rewrite IH1 by assumption. apply IH2; [exact HJ|eapply Permutation_Forall; eassumption|]. eapply Permutation_NoDup; [apply lead_perm; exact P1|exact N].
Qed.
End Order.

Theorem c97_order t o n F J l1 l2 : (0 < n)%nat -> o <> OAlex -> jp_history false t o n F J ->
  Forall (ring_input t o n) l1 -> NoDup (lead_monomials l1) -> Permutation l1 l2 -> jp_push_all false J l1 = jp_push_all false J l2.
Proof.
  intros Hn Ho H R N P. apply (push_all_perm false t o n); try assumption. split; [|discriminate].
  destruct (history_state t o n F J Hn Ho H) as (S & _). unfold jstate in S. destruct (jone J).
  - destruct S as (_ & -> & _). constructor.
  - destruct S as (Q & _). eapply Forall_impl; [|exact Q]. intros u ((Gz & Nz) & _).
    destruct (terms (wpol u)) as [|[m c] l] eqn:E; [congruence|]. exists m. apply (ring_keyed t o n _ m c l); [eapply goodz_ring_input; exact Gz|exact E].
Qed.
Theorem c97_order_fresh dbg t o n l1 l2 : Forall (ring_input t o n) l1 -> NoDup (lead_monomials l1) -> Permutation l1 l2 ->
  jp_push_all dbg jp_empty l1 = jp_push_all dbg jp_empty l2.
Proof. intros R N P. apply (push_all_perm dbg t o n); try assumption. split; [constructor|reflexivity]. Qed.
