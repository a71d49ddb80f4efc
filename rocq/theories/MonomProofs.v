(** Proofs about MonomModel.v *)
From Coq Require Import ZArith List Bool Arith Lia Wellfounded.
From Verif Require Import Outcome MonomModel MonomSpec.
Import ListNotations.
Local Arguments Nat.ltb : simpl never.
Local Arguments Nat.leb : simpl never.
Local Arguments Nat.eqb : simpl never.

(* ------------------------------------------------------------------------------------------ *)
(** * Vectors *)

Lemma degv_total v : degv v = total v.
Proof. induction v as [|x v IH]; cbn; [reflexivity|]. unfold degv in IH. rewrite IH. reflexivity. Qed.

Lemma degv_cons x v : degv (x :: v) = (x + degv v)%nat.
Proof. reflexivity. Qed.

Lemma degv_app u v : degv (u ++ v) = (degv u + degv v)%nat.
Proof. induction u as [|x u IH]; cbn [app]; [reflexivity|]. rewrite !degv_cons, IH. lia. Qed.

Lemma degv_rev v : degv (rev v) = degv v.
Proof.
  induction v as [|x v IH]; cbn [rev]; [reflexivity|].
  rewrite degv_app, IH, !degv_cons. cbn. lia.
Qed.

Lemma addv_length a b : length a = length b -> length (addv a b) = length a.
Proof. revert b; induction a as [|x a IH]; intros [|y b] H; cbn in *; try lia. rewrite IH; lia. Qed.

Lemma addv_comm a b : addv a b = addv b a.
Proof.
  revert b; induction a as [|x a IH]; intros [|y b]; cbn [lexv addv]; try reflexivity.
  rewrite IH. f_equal. lia.
Qed.

Lemma addv_assoc a b c : addv a (addv b c) = addv (addv a b) c.
Proof.
  revert b c; induction a as [|x a IH]; intros [|y b] [|z c]; cbn; try reflexivity.
  rewrite IH. f_equal. lia.
Qed.

Lemma addv_zero a n : length a = n -> addv a (repeat 0 n) = a.
Proof.
  revert n; induction a as [|x a IH]; intros [|n] H; cbn in *; try lia; try reflexivity.
  rewrite IH by lia. f_equal. lia.
Qed.

Lemma degv_addv a b : length a = length b -> degv (addv a b) = (degv a + degv b)%nat.
Proof.
  revert b; induction a as [|x a IH]; intros [|y b] H; try (cbn in *; lia).
  cbn [addv]. rewrite !degv_cons, IH by (cbn in H; lia). lia.
Qed.

Lemma expo_addv a b i : length a = length b -> expo (addv a b) i = (expo a i + expo b i)%nat.
Proof.
  revert b i; induction a as [|x a IH]; intros [|y b] [|i] H; cbn in *; try lia; try reflexivity.
  apply IH. lia.
Qed.

Lemma expo_ext a b : length a = length b -> (forall i, i < length a -> expo a i = expo b i) -> a = b.
Proof.
  revert b; induction a as [|x a IH]; intros [|y b] H E; cbn in *; try lia; try reflexivity.
  f_equal. { apply (E 0%nat). lia. }
  apply IH; [lia|]. intros i Hi. apply (E (S i)). lia.
Qed.

Lemma expo_out a i : length a <= i -> expo a i = 0.
Proof. intros H. apply nth_overflow. exact H. Qed.

Lemma incr_length k v : length (incr k v) = length v.
Proof. revert k; induction v as [|x v IH]; intros [|k]; cbn; auto. Qed.

Lemma incr_expo k v i :
  expo (incr k v) i = (if Nat.eqb i k && Nat.ltb k (length v) then S (expo v i) else expo v i).
Proof.
  revert k i; induction v as [|x v IH]; intros [|k] [|i]; try reflexivity.
  - cbn [incr length]. rewrite andb_false_r. reflexivity.
  - change (expo (incr (S k) (x :: v)) (S i)) with (expo (incr k v) i).
    change (expo (x :: v) (S i)) with (expo v i). rewrite IH. reflexivity.
Qed.

Lemma incr_degv k v : k < length v -> degv (incr k v) = S (degv v).
Proof.
  revert k; induction v as [|x v IH]; intros [|k] H; cbn [incr length] in *; try lia.
  - rewrite !degv_cons. lia.
  - rewrite !degv_cons, IH by lia. lia.
Qed.

Lemma degv_repeat n : degv (repeat 0 n) = 0.
Proof. induction n as [|n IH]; cbn [repeat]; [reflexivity|]. rewrite degv_cons. lia. Qed.

Lemma degv_zero v : degv v = 0 -> v = repeat 0 (length v).
Proof.
  induction v as [|x v IH]; intros H; cbn [length repeat]; [reflexivity|].
  rewrite degv_cons in H. rewrite <- IH by lia. f_equal. lia.
Qed.

Lemma expo_le_degv v i : expo v i <= degv v.
Proof.
  revert i; induction v as [|x v IH]; intros [|i]; cbn [expo nth]; try (cbn; lia);
    rewrite degv_cons; try lia. specialize (IH i). unfold expo in IH. lia.
Qed.

Lemma expo_repeat n i : expo (repeat 0 n) i = 0.
Proof. revert i; induction n as [|n IH]; intros [|i]; cbn; auto. apply IH. Qed.

(* ------------------------------------------------------------------------------------------ *)
(** * lex on vectors *)

Open Scope Z_scope.

Lemma lexv_range a b : lexv a b = 1 \/ lexv a b = 0 \/ lexv a b = -1.
Proof.
  revert b; induction a as [|x a IH]; intros [|y b]; cbn [lexv]; auto.
  destruct (Nat.eqb x y); [apply IH|]. destruct (Nat.ltb y x); auto.
Qed.

Lemma lexv_antisym a b : lexv b a = - lexv a b.
Proof.
  revert b; induction a as [|x a IH]; intros [|y b]; cbn [lexv addv]; try reflexivity.
  destruct (Nat.eqb_spec x y), (Nat.eqb_spec y x); try lia.
  - apply IH.
  - destruct (Nat.ltb_spec x y), (Nat.ltb_spec y x); lia.
Qed.

Lemma lexv_refl a : lexv a a = 0.
Proof. induction a as [|x a IH]; cbn; [reflexivity|]. rewrite Nat.eqb_refl. exact IH. Qed.

Lemma lexv_eq a b : length a = length b -> lexv a b = 0 -> a = b.
Proof.
  revert b; induction a as [|x a IH]; intros [|y b] H E; cbn in *; try lia; try reflexivity.
  destruct (Nat.eqb_spec x y); [|destruct (Nat.ltb y x); lia].
  subst. f_equal. apply IH; [lia|exact E].
Qed.

Lemma lexv_trans a b c : length a = length b -> length b = length c ->
  lexv a b = 1 -> lexv b c = 1 -> lexv a c = 1.
Proof.
  revert b c; induction a as [|x a IH]; intros [|y b] [|z c] H1 H2 E1 E2; cbn in *; try lia.
  destruct (Nat.eqb_spec x y), (Nat.eqb_spec y z), (Nat.eqb_spec x z); try lia.
  { apply (IH b c); try lia. }
  all: destruct (Nat.ltb_spec y x), (Nat.ltb_spec z y), (Nat.ltb_spec z x); lia.
Qed.

Lemma lexv_addv a b c : length a = length b -> length b = length c ->
  lexv (addv a c) (addv b c) = lexv a b.
Proof.
  revert b c; induction a as [|x a IH]; intros [|y b] [|z c] H1 H2; cbn in *; try lia.
  destruct (Nat.eqb_spec (x + z) (y + z)), (Nat.eqb_spec x y); try lia.
  - apply IH; lia.
  - destruct (Nat.ltb_spec (y + z) (x + z)), (Nat.ltb_spec y x); lia.
Qed.

Lemma lexv_unit a n : length a = n -> 0 <= lexv a (repeat 0%nat n).
Proof.
  revert n; induction a as [|x a IH]; intros [|n] H; cbn in *; try lia.
  destruct (Nat.eqb_spec x 0); [apply IH; lia|]. destruct (Nat.ltb_spec 0 x); lia.
Qed.

Lemma lexv_spec a b : length a = length b -> (lexv a b = 1 <-> lex_gt a b).
Proof.
  revert b; induction a as [|x a IH]; intros [|y b] H; cbn in H; try lia.
  - split; [cbn; lia|]. intros (k & Hk & _). cbn in Hk. lia.
  - cbn [lexv]. destruct (Nat.eqb_spec x y) as [->|N].
    + rewrite IH by lia. split.
      * intros (k & Hk & E & G). exists (S k). cbn. repeat split; [lia| |exact G].
        intros [|i] Hi; [reflexivity|]. apply E. lia.
      * intros (k & Hk & E & G). destruct k as [|k]; [cbn in G; lia|].
        exists k. cbn in *. repeat split; [lia| |exact G]. intros i Hi. apply (E (S i)). lia.
    + destruct (Nat.ltb_spec y x) as [L|L]; split; try lia.
      * intros _. exists 0%nat. cbn. repeat split; try lia. 
      * intros (k & Hk & E & G). destruct k as [|k]; [cbn in G; lia|].
        specialize (E 0%nat ltac:(lia)). cbn in E. lia.
Qed.

(** Well-foundedness. *)
Definition vlt (a b : list nat) : Prop := length a = length b /\ lexv b a = 1.

Lemma vlt_wf : well_founded vlt.
Proof.
  assert (H : forall n a, length a = n -> Acc vlt a).
  { induction n as [|n IHn].
    - intros [|] H; [|cbn in H; lia]. constructor. intros b [L E]. destruct b; cbn in *; lia.
    - intros [|x a] H; [cbn in H; lia|]. cbn in H.
      revert a H. induction x as [x IHx] using (well_founded_induction lt_wf).
      intros a H. assert (A : Acc vlt a) by (apply IHn; lia).
      induction A as [a _ IHa].
      constructor. intros [|y b] [L E]; cbn in L, E; [lia|].
      destruct (Nat.eqb_spec x y) as [->|N].
      + apply IHa; [split; [lia|exact E]|lia].
      + destruct (Nat.ltb_spec y x); [|lia]. apply IHx; lia. }
  intros a. apply (H (length a)). reflexivity.
Qed.

(* ------------------------------------------------------------------------------------------ *)
(** * deglex and alex on vectors *)

Lemma lexv_zero a b : length a = length b -> degv a = 0%nat -> degv b = 0%nat -> lexv a b = 0.
Proof.
  intros L Ha Hb. rewrite (degv_zero a Ha), (degv_zero b Hb), L. apply lexv_refl.
Qed.

Lemma deglexv_unfold a b : length a = length b ->
  deglexv a b = if Nat.ltb (degv b) (degv a) then 1
                else if Nat.ltb (degv a) (degv b) then -1
                else - lexv (rev a) (rev b).
Proof.
  intros L. unfold deglexv.
  destruct (Nat.ltb_spec (degv b) (degv a)); [reflexivity|].
  destruct (Nat.ltb_spec (degv a) (degv b)); [reflexivity|].
  destruct (Nat.eqb_spec (degv a) 0); [|reflexivity].
  rewrite lexv_zero; [reflexivity| | |]; rewrite ?rev_length, ?degv_rev; lia.
Qed.

Lemma alexv_unfold a b : length a = length b ->
  alexv a b = if Nat.ltb (degv b) (degv a) then -1
              else if Nat.ltb (degv a) (degv b) then 1
              else lexv a b.
Proof.
  intros L. unfold alexv.
  destruct (Nat.ltb_spec (degv b) (degv a)); [reflexivity|].
  destruct (Nat.ltb_spec (degv a) (degv b)); [reflexivity|].
  destruct (Nat.eqb_spec (degv a) 0); [|reflexivity].
  rewrite lexv_zero; [reflexivity| | |]; lia.
Qed.

(** The properties of a comparison function on exponent vectors. *)
Record good_cmp (c : list nat -> list nat -> Z) : Prop := {
  gc_range : forall a b, c a b = 1 \/ c a b = 0 \/ c a b = -1;
  gc_antisym : forall a b, length a = length b -> c b a = - c a b;
  gc_refl : forall a, c a a = 0;
  gc_eq : forall a b, length a = length b -> c a b = 0 -> a = b;
  gc_trans : forall a b d, length a = length b -> length b = length d ->
             c a b = 1 -> c b d = 1 -> c a d = 1;
  gc_addv : forall a b d, length a = length b -> length b = length d ->
             c (addv a d) (addv b d) = c a b
}.

Lemma good_lexv : good_cmp lexv.
Proof.
  constructor.
  - apply lexv_range.
  - intros a b _. apply lexv_antisym.
  - apply lexv_refl.
  - apply lexv_eq.
  - apply lexv_trans.
  - apply lexv_addv.
Qed.

Lemma rev_addv a b : length a = length b -> rev (addv a b) = addv (rev a) (rev b).
Proof.
  assert (App : forall a b c d, length a = length b -> addv (a ++ c) (b ++ d) = addv a b ++ addv c d).
  { induction a0 as [|x a' IH]; intros [|y b'] c d H; cbn in *; try lia; try reflexivity.
    rewrite IH by lia. reflexivity. }
  revert b; induction a as [|x a IH]; intros [|y b] H; cbn in *; try lia; try reflexivity.
  rewrite IH by lia. rewrite App by (rewrite !rev_length; lia). reflexivity.
Qed.

Lemma good_deglexv : good_cmp deglexv.
Proof.
  constructor.
  - intros a b. unfold deglexv. destruct (Nat.ltb _ _); auto. destruct (Nat.ltb _ _); auto.
    destruct (Nat.eqb _ _); auto. destruct (lexv_range (rev a) (rev b)) as [E|[E|E]]; rewrite E; auto.
  - intros a b L. rewrite !deglexv_unfold by lia.
    destruct (Nat.ltb_spec (degv a) (degv b)), (Nat.ltb_spec (degv b) (degv a)); try lia.
    rewrite lexv_antisym. lia.
  - intros a. rewrite deglexv_unfold by reflexivity. rewrite Nat.ltb_irrefl, lexv_refl. reflexivity.
  - intros a b L E. rewrite deglexv_unfold in E by exact L.
    destruct (Nat.ltb_spec (degv b) (degv a)); [lia|]. destruct (Nat.ltb_spec (degv a) (degv b)); [lia|].
    rewrite <- (rev_involutive a), <- (rev_involutive b). f_equal.
    apply lexv_eq; [rewrite !rev_length; exact L|lia].
  - intros a b d L1 L2 E1 E2. rewrite deglexv_unfold in * by lia.
    destruct (Nat.ltb_spec (degv b) (degv a)), (Nat.ltb_spec (degv d) (degv b)),
             (Nat.ltb_spec (degv d) (degv a)); try lia;
    destruct (Nat.ltb_spec (degv a) (degv b)), (Nat.ltb_spec (degv b) (degv d)),
             (Nat.ltb_spec (degv a) (degv d)); try lia.
    pose proof (lexv_antisym (rev d) (rev a)). pose proof (lexv_antisym (rev b) (rev a)).
    pose proof (lexv_antisym (rev d) (rev b)).
    assert (lexv (rev d) (rev a) = 1)
      by (apply (lexv_trans (rev d) (rev b) (rev a)); rewrite ?rev_length; lia). lia.
  - intros a b d L1 L2. rewrite !deglexv_unfold by (rewrite ?addv_length; lia).
    rewrite !degv_addv by lia.
    destruct (Nat.ltb_spec (degv b + degv d) (degv a + degv d)), (Nat.ltb_spec (degv b) (degv a)); try lia.
    destruct (Nat.ltb_spec (degv a + degv d) (degv b + degv d)), (Nat.ltb_spec (degv a) (degv b)); try lia.
    rewrite !rev_addv by lia. rewrite lexv_addv; rewrite ?rev_length; lia.
Qed.

Lemma good_alexv : good_cmp alexv.
Proof.
  constructor.
  - intros a b. unfold alexv. destruct (Nat.ltb _ _); auto. destruct (Nat.ltb _ _); auto.
    destruct (Nat.eqb _ _); auto. apply lexv_range.
  - intros a b L. rewrite !alexv_unfold by lia.
    destruct (Nat.ltb_spec (degv a) (degv b)), (Nat.ltb_spec (degv b) (degv a)); try lia.
    apply lexv_antisym.
  - intros a. rewrite alexv_unfold by reflexivity. rewrite Nat.ltb_irrefl, lexv_refl. reflexivity.
  - intros a b L E. rewrite alexv_unfold in E by exact L.
    destruct (Nat.ltb_spec (degv b) (degv a)); [lia|]. destruct (Nat.ltb_spec (degv a) (degv b)); [lia|].
    apply lexv_eq; assumption.
  - intros a b d L1 L2 E1 E2. rewrite alexv_unfold in * by lia.
    destruct (Nat.ltb_spec (degv b) (degv a)), (Nat.ltb_spec (degv d) (degv b)),
             (Nat.ltb_spec (degv d) (degv a)); try lia;
    destruct (Nat.ltb_spec (degv a) (degv b)), (Nat.ltb_spec (degv b) (degv d)),
             (Nat.ltb_spec (degv a) (degv d)); try lia.
    apply (lexv_trans a b d); assumption.
  - intros a b d L1 L2. rewrite !alexv_unfold by (rewrite ?addv_length; lia).
    rewrite !degv_addv by lia.
    destruct (Nat.ltb_spec (degv b + degv d) (degv a + degv d)), (Nat.ltb_spec (degv b) (degv a)); try lia.
    destruct (Nat.ltb_spec (degv a + degv d) (degv b + degv d)), (Nat.ltb_spec (degv a) (degv b)); try lia.
    apply lexv_addv; assumption.
Qed.

Definition bcmpv (o : base_order) : list nat -> list nat -> Z :=
  match o with OLex => lexv | ODegLex => deglexv | OAlex => alexv end.

Lemma good_bcmpv o : good_cmp (bcmpv o).
Proof. destruct o; [apply good_lexv|apply good_deglexv|apply good_alexv]. Qed.

Lemma bcmp_bcmpv o a b : bcmp o a b = bcmpv o (vars a) (vars b).
Proof. destruct o; reflexivity. Qed.

Lemma degv_total' v : total v = degv v.
Proof. symmetry. apply degv_total. Qed.

Lemma expo_rev a i : (i < length a)%nat -> expo (rev a) i = expo a (length a - S i).
Proof. intros H. unfold expo. apply rev_nth. exact H. Qed.

Lemma lexv_rev_spec a b : length a = length b ->
  (lexv (rev b) (rev a) = 1 <->
   exists k, (k < length a)%nat /\ (forall i, (k < i)%nat -> (i < length a)%nat -> expo a i = expo b i) /\
             (expo a k < expo b k)%nat).
Proof.
  intros L. rewrite lexv_spec by (rewrite !rev_length; lia). unfold lex_gt. rewrite rev_length. split.
  - intros (k & Hk & E & G). exists (length a - S k)%nat. split; [lia|]. split.
    + intros i H1 H2. specialize (E (length a - S i)%nat ltac:(lia)).
      rewrite !expo_rev in E by lia.
      replace (length b - S (length a - S i))%nat with i in E by lia.
      replace (length a - S (length a - S i))%nat with i in E by lia. symmetry; exact E.
    + rewrite !expo_rev in G by lia. rewrite <- L in G. exact G.
  - intros (k & Hk & E & G). exists (length a - S k)%nat. split; [lia|]. split.
    + intros i H1. rewrite !expo_rev by lia. rewrite <- L. symmetry. apply E; lia.
    + rewrite !expo_rev by lia. rewrite <- L.
      replace (length a - S (length a - S k))%nat with k by lia. exact G.
Qed.

Lemma deglexv_spec a b : length a = length b -> (deglexv a b = 1 <-> degrevlex_gt a b).
Proof.
  intros L. rewrite deglexv_unfold by exact L. unfold degrevlex_gt. rewrite <- (degv_total a), <- (degv_total b).
  rewrite <- lexv_rev_spec by exact L. rewrite (lexv_antisym (rev a) (rev b)).
  destruct (Nat.ltb_spec (degv b) (degv a)); [split; lia|].
  destruct (Nat.ltb_spec (degv a) (degv b)); [split; lia|]. split; lia.
Qed.

Lemma alexv_spec a b : length a = length b -> (alexv a b = 1 <-> alex_gt a b).
Proof.
  intros L. rewrite alexv_unfold by exact L. unfold alex_gt. rewrite <- (degv_total a), <- (degv_total b).
  rewrite <- lexv_spec by exact L.
  destruct (Nat.ltb_spec (degv b) (degv a)); [split; lia|].
  destruct (Nat.ltb_spec (degv a) (degv b)); [split; lia|]. split; lia.
Qed.

Lemma bcmpv_spec o a b : length a = length b -> (bcmpv o a b = 1 <-> base_gt o a b).
Proof. destruct o; [apply lexv_spec|apply deglexv_spec|apply alexv_spec]. Qed.

(** deglex: unit minimal, well-founded *)
Lemma deglexv_unit a n : length a = n -> 0 <= deglexv a (repeat 0%nat n).
Proof.
  intros H. rewrite deglexv_unfold by (rewrite repeat_length; exact H).
  rewrite degv_repeat. cbn [Nat.ltb]. destruct (Nat.ltb_spec 0 (degv a)); [lia|].
  destruct (Nat.ltb_spec (degv a) 0); [lia|].
  rewrite lexv_zero; rewrite ?rev_length, ?degv_rev, ?degv_repeat, ?repeat_length; lia.
Qed.

Definition dlt (a b : list nat) : Prop := length a = length b /\ deglexv b a = 1.

(** complement of the exponents with respect to d, last variable first *)
Definition compl (d : nat) (a : list nat) : list nat := map (fun x => (d - x)%nat) (rev a).

Lemma lexv_compl d a b : length a = length b ->
  Forall (fun x => (x <= d)%nat) a -> Forall (fun x => (x <= d)%nat) b ->
  lexv (map (fun x => (d - x)%nat) a) (map (fun x => (d - x)%nat) b) = - lexv a b.
Proof.
  revert b; induction a as [|x a IH]; intros [|y b] L Fa Fb; cbn in *; try lia.
  inversion Fa; inversion Fb; subst.
  destruct (Nat.eqb_spec x y), (Nat.eqb_spec (d - x) (d - y)); try lia.
  - apply IH; auto.
  - destruct (Nat.ltb_spec y x), (Nat.ltb_spec (d - y) (d - x)); lia.
Qed.

Lemma Forall_le_degv a : Forall (fun x => (x <= degv a)%nat) a.
Proof.
  apply Forall_forall. intros x Hx. destruct (In_nth _ _ 0%nat Hx) as (i & _ & <-).
  apply expo_le_degv.
Qed.

Lemma dlt_wf : well_founded dlt.
Proof.
  assert (H : forall d a, degv a = d -> Acc dlt a).
  { induction d as [d IHd] using (well_founded_induction lt_wf).
    intros a Hd. remember (compl d a) as c eqn:Hc.
    revert a Hd Hc. induction c as [c IHc] using (well_founded_induction vlt_wf).
    intros a Hd Hc. constructor. intros b [L E].
    rewrite deglexv_unfold in E by lia.
    destruct (Nat.ltb_spec (degv b) (degv a)).
    - apply (IHd (degv b)); lia.
    - destruct (Nat.ltb_spec (degv a) (degv b)); [lia|].
      apply (IHc (compl d b)); try reflexivity; try lia.
      subst c. unfold vlt, compl. rewrite !map_length, !rev_length. split; [exact L|].
      rewrite lexv_compl; rewrite ?rev_length; try lia.
      + subst d. apply Forall_rev. apply Forall_le_degv.
      + replace d with (degv b) by lia. apply Forall_rev. apply Forall_le_degv. }
  intros a. apply (H (degv a)). reflexivity.
Qed.

Lemma alexv_mult_only : good_cmp alexv.
Proof. exact good_alexv. Qed.

(* ------------------------------------------------------------------------------------------ *)
(** * Monomial level *)

Lemma wf_no_chain {A} (R : A -> A -> Prop) : well_founded R ->
  forall f : nat -> A, ~ (forall i, R (f (S i)) (f i)).
Proof.
  intros W f H.
  assert (G : forall x, forall i, f i = x -> False).
  { induction x as [x IH] using (well_founded_induction W).
    intros i E. apply (IH (f (S i))) with (i := S i); [|reflexivity]. subst x. apply H. }
  apply (G (f 0%nat) 0%nat). reflexivity.
Qed.

Lemma lex_no_chain n (f : nat -> monom) :
  ~ (forall i, size (f i) = n /\ lex (f i) (f (S i)) = 1).
Proof.
  intros H. apply (wf_no_chain vlt vlt_wf (fun i => vars (f i))). intros i.
  destruct (H i) as [S1 E1], (H (S i)) as [S2 _]. split; [unfold size in *; lia|exact E1].
Qed.

Lemma deglex_no_chain n (f : nat -> monom) :
  ~ (forall i, size (f i) = n /\ deglex (f i) (f (S i)) = 1).
Proof.
  intros H. apply (wf_no_chain dlt dlt_wf (fun i => vars (f i))). intros i.
  destruct (H i) as [S1 E1], (H (S i)) as [S2 _]. split; [unfold size in *; lia|exact E1].
Qed.

(** x_0^i in n variables: an infinite strictly decreasing chain for alex *)
Definition x0pow (n i : nat) : monom := Mon (-1) (i :: repeat 0%nat (n - 1)).

Lemma x0pow_deg n i : deg (x0pow n i) = i.
Proof. unfold deg, x0pow. cbn [vars]. rewrite degv_cons, degv_repeat. lia. Qed.

Lemma alex_chain n : (0 < n)%nat ->
  forall i, size (x0pow n i) = n /\ alex (x0pow n i) (x0pow n (S i)) = 1.
Proof.
  intros Hn i. split.
  - unfold size, x0pow. cbn. rewrite repeat_length. lia.
  - unfold alex, alexv. fold (deg (x0pow n i)) (deg (x0pow n (S i))). rewrite !x0pow_deg.
    destruct (Nat.ltb_spec (S i) i); [lia|]. destruct (Nat.ltb_spec i (S i)); lia.
Qed.

Lemma alex_unit_max a n : size a = n -> vars a <> repeat 0%nat n -> alex (unit_monom n (-1)) a = 1.
Proof.
  intros H N. unfold alex, alexv, unit_monom. cbn [vars]. rewrite degv_repeat.
  destruct (Nat.ltb_spec (degv (vars a)) 0); [lia|].
  destruct (Nat.ltb_spec 0 (degv (vars a))); [reflexivity|].
  exfalso. apply N. unfold size in H. rewrite <- H. apply degv_zero. lia.
Qed.

(** ** cmp1: total order, multiplicative *)

Lemma poscmp_range p q : poscmp p q = 1 \/ poscmp p q = 0 \/ poscmp p q = -1.
Proof. unfold poscmp. destruct (p =? q); auto. destruct (q <? p); auto. Qed.

Lemma poscmp_antisym p q : poscmp q p = - poscmp p q.
Proof.
  unfold poscmp. destruct (Z.eqb_spec p q), (Z.eqb_spec q p), (Z.ltb_spec p q), (Z.ltb_spec q p); lia.
Qed.

Section CmpOne.
Variables (t : pos_order) (o : base_order).

Lemma cmp1_range a b : cmp1 t o a b = 1 \/ cmp1 t o a b = 0 \/ cmp1 t o a b = -1.
Proof.
  unfold cmp1. rewrite bcmp_bcmpv. pose proof (gc_range _ (good_bcmpv o) (vars a) (vars b)) as R.
  destruct t; cbn zeta.
  - destruct (Z.eqb_spec (bcmpv o (vars a) (vars b)) 0); [apply poscmp_range|exact R].
  - destruct (pos a =? pos b); [exact R|apply poscmp_range].
Qed.

Lemma cmp1_antisym a b : size a = size b -> cmp1 t o b a = - cmp1 t o a b.
Proof.
  intros L. unfold cmp1. rewrite !bcmp_bcmpv.
  pose proof (gc_antisym _ (good_bcmpv o) (vars a) (vars b) L) as R. rewrite R.
  destruct t; cbn zeta.
  - destruct (Z.eqb_spec (bcmpv o (vars a) (vars b)) 0), (Z.eqb_spec (- bcmpv o (vars a) (vars b)) 0);
      try lia. apply poscmp_antisym.
  - destruct (Z.eqb_spec (pos a) (pos b)), (Z.eqb_spec (pos b) (pos a)); try lia.
    apply poscmp_antisym.
Qed.

Lemma cmp1_eq a b : size a = size b -> (cmp1 t o a b = 0 <-> a = b).
Proof.
  intros L. split.
  - intros E. unfold cmp1 in E. rewrite !bcmp_bcmpv in E. destruct a as [pa va], b as [pb vb].
    unfold size in L. cbn [pos vars] in *. destruct t; cbn zeta in E.
    + destruct (Z.eqb_spec (bcmpv o va vb) 0) as [E0|N]; [|lia].
      unfold poscmp in E. destruct (Z.eqb_spec pa pb); [|destruct (pb <? pa); lia].
      apply (gc_eq _ (good_bcmpv o)) in E0; [congruence|exact L].
    + destruct (Z.eqb_spec pa pb) as [->|N].
      * apply (gc_eq _ (good_bcmpv o)) in E; [congruence|exact L].
      * unfold poscmp in E. destruct (Z.eqb_spec pa pb); [lia|]. destruct (pb <? pa); lia.
  - intros ->. unfold cmp1. rewrite bcmp_bcmpv, (gc_refl _ (good_bcmpv o)).
    unfold poscmp. destruct t; cbn; rewrite Z.eqb_refl; reflexivity.
Qed.

Lemma cmp1_trans a b c : size a = size b -> size b = size c ->
  cmp1 t o a b = 1 -> cmp1 t o b c = 1 -> cmp1 t o a c = 1.
Proof.
  intros L1 L2. unfold cmp1. rewrite !bcmp_bcmpv. unfold size in *.
  pose proof (gc_trans _ (good_bcmpv o) (vars a) (vars b) (vars c) L1 L2) as T.
  destruct t; cbn zeta.
  - destruct (Z.eqb_spec (bcmpv o (vars a) (vars b)) 0) as [E1|N1],
             (Z.eqb_spec (bcmpv o (vars b) (vars c)) 0) as [E2|N2]; intros H1 H2.
    + apply (gc_eq _ (good_bcmpv o)) in E1; [|exact L1]. apply (gc_eq _ (good_bcmpv o)) in E2; [|exact L2].
      rewrite E1, E2, (gc_refl _ (good_bcmpv o)). cbn. unfold poscmp in *.
      destruct (Z.eqb_spec (pos a) (pos b)), (Z.eqb_spec (pos b) (pos c)), (Z.eqb_spec (pos a) (pos c)),
        (Z.ltb_spec (pos b) (pos a)), (Z.ltb_spec (pos c) (pos b)), (Z.ltb_spec (pos c) (pos a)); lia.
    + apply (gc_eq _ (good_bcmpv o)) in E1; [|exact L1]. rewrite E1, H2. reflexivity.
    + apply (gc_eq _ (good_bcmpv o)) in E2; [|exact L2]. rewrite <- E2, H1. reflexivity.
    + rewrite T by assumption. reflexivity.
  - unfold poscmp.
    destruct (Z.eqb_spec (pos a) (pos b)), (Z.eqb_spec (pos b) (pos c)), (Z.eqb_spec (pos a) (pos c));
      intros H1 H2; try lia; try (apply T; assumption);
      destruct (Z.ltb_spec (pos b) (pos a)), (Z.ltb_spec (pos c) (pos b)), (Z.ltb_spec (pos c) (pos a)); lia.
Qed.

Lemma mul_pos_ring p : mul_pos p (-1) = p.
Proof. unfold mul_pos. destruct (Z.eqb_spec p (-1)); cbn; lia. Qed.

Lemma cmp1_mul a b c : size a = size b -> size b = size c -> pos c = -1 ->
  cmp1 t o (mul a c) (mul b c) = cmp1 t o a b.
Proof.
  intros L1 L2 Hc. unfold cmp1. rewrite !bcmp_bcmpv. unfold mul. cbn [vars pos].
  rewrite Hc, !mul_pos_ring.
  rewrite (gc_addv _ (good_bcmpv o)) by (unfold size in *; lia). reflexivity.
Qed.

Lemma cmp1_spec a b : size a = size b -> (cmp1 t o a b = 1 <-> module_gt t o a b).
Proof.
  intros L. unfold cmp1, module_gt. rewrite bcmp_bcmpv.
  pose proof (bcmpv_spec o (vars a) (vars b) L) as S.
  destruct t; cbn zeta; rewrite <- S.
  - destruct (Z.eqb_spec (bcmpv o (vars a) (vars b)) 0) as [E|N].
    + rewrite E. pose proof (gc_eq _ (good_bcmpv o) _ _ L E) as V. unfold poscmp.
      destruct (Z.eqb_spec (pos a) (pos b)); [split; lia|].
      destruct (Z.ltb_spec (pos b) (pos a)); split; try lia; intros; right; split; try lia; assumption.
    + split; [auto|]. intros [H|[H1 H2]]; [exact H|].
      exfalso. apply N. rewrite H1. apply (gc_refl _ (good_bcmpv o)).
  - unfold poscmp. destruct (Z.eqb_spec (pos a) (pos b)); [split; [auto|lia]|].
    destruct (Z.ltb_spec (pos b) (pos a)); split; lia.
Qed.
End CmpOne.

(** ** three-argument comparisons *)

Lemma lex3v_lexv m a b : length m = length a -> length m = length b -> lex3v m a b = lexv m (addv a b).
Proof.
  revert a b; induction m as [|x m IH]; intros [|y a] [|z b] H1 H2; cbn in *; try lia.
  destruct (Nat.eqb x (y + z)); [|reflexivity]. apply IH; lia.
Qed.

Lemma bcmp3_bcmp o m a b : size m = size a -> size m = size b -> bcmp3 o m a b = bcmp o m (mul a b).
Proof.
  intros H1 H2. unfold size in *. destruct o; cbn [bcmp3 bcmp].
  - unfold lex3, lex, mul. cbn [vars]. apply lex3v_lexv; assumption.
  - unfold deglex3, deglex, deglexv, deg, mul. cbn [vars]. rewrite degv_addv by lia.
    rewrite rev_addv by lia. rewrite lex3v_lexv by (rewrite !rev_length; assumption). reflexivity.
  - unfold alex3, alex, alexv, deg, mul. cbn [vars]. rewrite degv_addv by lia.
    rewrite lex3v_lexv by assumption. reflexivity.
Qed.

Lemma cmp2_cmp1 t o m a b : size m = size a -> size m = size b -> pos b = -1 ->
  cmp2 t o m a b = cmp1 t o m (mul a b).
Proof.
  intros H1 H2 Hb. unfold cmp2, cmp1. rewrite bcmp3_bcmp by assumption.
  assert (P : pos (mul a b) = pos a) by (unfold mul; cbn [pos]; rewrite Hb; apply mul_pos_ring).
  rewrite P. reflexivity.
Qed.

(* ------------------------------------------------------------------------------------------ *)
(** ** divisibility *)

Lemma gev_spec a b : length a = length b ->
  (gev a b = true <-> forall i, (i < length a)%nat -> (expo b i <= expo a i)%nat).
Proof.
  revert b; induction a as [|x a IH]; intros [|y b] H; cbn [length] in *; try lia; cbn [gev].
  - split; [intros _ i Hi; lia|reflexivity].
  - destruct (Nat.leb_spec y x) as [L|L].
    + rewrite IH by lia. split.
      * intros G [|i] Hi; cbn; [exact L|apply G; lia].
      * intros G i Hi. apply (G (S i)). lia.
    + split; [discriminate|]. intros G. specialize (G 0%nat ltac:(lia)). cbn in G. lia.
Qed.

Lemma gev_addv a b : length a = length b -> gev (addv a b) b = true.
Proof.
  intros H. apply gev_spec; rewrite addv_length by exact H; [exact H|].
  intros i _. rewrite expo_addv by exact H. lia.
Qed.

Lemma addv_subv a b : length a = length b -> gev a b = true -> addv (subv a b) b = a.
Proof.
  revert b; induction a as [|x a IH]; intros [|y b] H G; cbn in *; try lia; try reflexivity.
  destruct (Nat.leb_spec y x); [|discriminate]. rewrite IH by (try lia; exact G). f_equal. lia.
Qed.

Lemma subv_addv a b : length a = length b -> subv (addv a b) b = a.
Proof.
  revert b; induction a as [|x a IH]; intros [|y b] H; cbn in *; try lia; try reflexivity.
  rewrite IH by lia. f_equal. lia.
Qed.

Lemma subv_length a b : length a = length b -> length (subv a b) = length a.
Proof. revert b; induction a as [|x a IH]; intros [|y b] H; cbn in *; try lia. rewrite IH; lia. Qed.

Lemma expo_subv a b i : length a = length b -> expo (subv a b) i = (expo a i - expo b i)%nat.
Proof.
  revert b i; induction a as [|x a IH]; intros [|y b] [|i] H; cbn in *; try lia; try reflexivity.
  apply IH. lia.
Qed.

Lemma degv_subv a b : length a = length b -> gev a b = true -> degv (subv a b) = (degv a - degv b)%nat.
Proof.
  intros H G. rewrite <- (addv_subv a b H G) at 2. rewrite degv_addv by (rewrite subv_length; lia). lia.
Qed.

(** m is divisible by a iff m is a product c * a, where c carries the module position exactly when a
    does not. *)
Lemma divisiable_spec n m a : mono n m -> mono n a ->
  (divisiable m a = true <->
   exists c, mono n c /\ (pos a <> -1 -> pos c = -1) /\ (pos a = -1 -> pos c = pos m) /\ mul c a = m).
Proof.
  intros [Lm Pm] [La Pa]. unfold divisiable. split.
  - intros H. apply andb_true_iff in H as [H1 H2]. apply orb_true_iff in H1.
    exists (Mon (if pos a =? -1 then pos m else -1) (subv (vars m) (vars a))).
    unfold mono. cbn [pos vars].
    rewrite subv_length by lia.
    assert (E : addv (subv (vars m) (vars a)) (vars a) = vars m) by (apply addv_subv; [lia|exact H2]).
    repeat split.
    + exact Lm.
    + destruct (Z.eqb_spec (pos a) (-1)); lia.
    + intros N. destruct (Z.eqb_spec (pos a) (-1)); [lia|reflexivity].
    + intros ->. reflexivity.
    + destruct m as [pm vm]. unfold mul. cbn [pos vars] in *. rewrite E. f_equal.
      unfold mul_pos. destruct (Z.eqb_spec (pos a) (-1)) as [Ea|Na].
      * rewrite Ea. cbn. destruct (Z.eqb_spec pm (-1)); lia.
      * destruct H1 as [H1|H1]; [discriminate|apply Z.eqb_eq in H1].
        destruct (Z.leb_spec 0 (pos a)); lia.
  - intros (c & [Lc Pc] & N1 & N2 & <-). apply andb_true_iff. split.
    + apply orb_true_iff. destruct (Z.eq_dec (pos a) (-1)) as [E|N]; [left; apply Z.eqb_eq; exact E|].
      right. apply Z.eqb_eq. unfold mul. cbn [pos]. rewrite (N1 N). unfold mul_pos.
      destruct (Z.leb_spec 0 (pos a)); [reflexivity|lia].
    + unfold mul. cbn [vars]. apply gev_addv. lia.
Qed.

Lemma div_spec n m a : mono n m -> mono n a -> divisiable m a = true ->
  addv (vars (div m a)) (vars a) = vars m /\ pos (div m a) = pos m /\
  deg m = (deg (div m a) + deg a)%nat.
Proof.
  intros [Lm Pm] [La Pa] H. unfold divisiable in H. apply andb_true_iff in H as [_ G].
  unfold div, deg. cbn [vars pos].
  assert (E : addv (subv (vars m) (vars a)) (vars a) = vars m) by (apply addv_subv; [lia|exact G]).
  repeat split; [exact E|].
  rewrite <- E at 1. rewrite degv_addv; [reflexivity|]. rewrite subv_length; lia.
Qed.

Lemma expo_minv a b i : length a = length b -> expo (minv a b) i = Nat.min (expo a i) (expo b i).
Proof.
  revert b i; induction a as [|x a IH]; intros [|y b] [|i] H; cbn in *; try lia; try reflexivity.
  apply IH. lia.
Qed.
Lemma expo_maxv a b i : length a = length b -> expo (maxv a b) i = Nat.max (expo a i) (expo b i).
Proof.
  revert b i; induction a as [|x a IH]; intros [|y b] [|i] H; cbn in *; try lia; try reflexivity.
  apply IH. lia.
Qed.
Lemma minv_length a b : length a = length b -> length (minv a b) = length a.
Proof. revert b; induction a as [|x a IH]; intros [|y b] H; cbn in *; try lia. rewrite IH; lia. Qed.
Lemma maxv_length a b : length a = length b -> length (maxv a b) = length a.
Proof. revert b; induction a as [|x a IH]; intros [|y b] H; cbn in *; try lia. rewrite IH; lia. Qed.

Lemma gcd_lcm_deg n a b : mono n a -> mono n b -> (gcd_deg a b + lcm_deg a b = deg a + deg b)%nat.
Proof.
  intros [La _] [Lb _]. unfold gcd_deg, lcm_deg, deg. destruct a as [pa va], b as [pb vb]. cbn [vars] in *.
  rewrite <- Lb in La. clear Lb. revert vb La. induction va as [|x va IH]; intros [|y vb] H; cbn [length] in *; try lia; [reflexivity|].
  cbn [minv maxv]. rewrite !degv_cons. specialize (IH vb ltac:(lia)). lia.
Qed.

Lemma gcd_is_min n a b g : mono n a -> mono n b ->
  length g = n -> (forall i, (i < n)%nat -> expo g i = Nat.min (expo (vars a) i) (expo (vars b) i)) ->
  gcd_deg a b = total g.
Proof.
  intros [La _] [Lb _] Lg E. unfold gcd_deg. rewrite degv_total. f_equal.
  apply expo_ext; rewrite minv_length by lia; [lia|]. intros i Hi. rewrite expo_minv by lia.
  symmetry. apply E. lia.
Qed.
Lemma lcm_is_max n a b g : mono n a -> mono n b ->
  length g = n -> (forall i, (i < n)%nat -> expo g i = Nat.max (expo (vars a) i) (expo (vars b) i)) ->
  lcm_deg a b = total g.
Proof.
  intros [La _] [Lb _] Lg E. unfold lcm_deg. rewrite degv_total. f_equal.
  apply expo_ext; rewrite maxv_length by lia; [lia|]. intros i Hi. rewrite expo_maxv by lia.
  symmetry. apply E. lia.
Qed.

Lemma eqv_spec a b : length a = length b -> (eqv a b = true <-> a = b).
Proof.
  revert b; induction a as [|x a IH]; intros [|y b] H; cbn in *; try lia; [split; reflexivity|].
  destruct (Nat.eqb_spec x y) as [->|N].
  - rewrite IH by lia. split; congruence.
  - split; [discriminate|congruence].
Qed.

Lemma eqm_spec n a b : mono n a -> mono n b -> (eqm a b = true <-> vars a = vars b).
Proof.
  intros [La _] [Lb _]. unfold eqm. split.
  - intros H. apply andb_true_iff in H as [_ H]. apply eqv_spec in H; [exact H|lia].
  - intros E. apply andb_true_iff. split; [apply Nat.eqb_eq; unfold deg; congruence|].
    apply eqv_spec; [lia|exact E].
Qed.

(** ** product *)
Lemma mul_mono n a b : mono n a -> mono n b -> mono n (mul a b).
Proof.
  intros [La Pa] [Lb Pb]. split; unfold mul; cbn.
  - rewrite addv_length; lia.
  - unfold mul_pos. destruct (Z.leb_spec 0 (pos b)); [lia|]. destruct (Z.eqb_spec (pos a) (-1)); lia.
Qed.

Lemma mul_comm n a b : mono n a -> mono n b -> pos a = -1 \/ pos b = -1 -> mul a b = mul b a.
Proof.
  intros [La Pa] [Lb Pb] H. unfold mul. f_equal; [|apply addv_comm].
  unfold mul_pos. destruct (Z.leb_spec 0 (pos b)), (Z.leb_spec 0 (pos a)),
   (Z.eqb_spec (pos a) (-1)), (Z.eqb_spec (pos b) (-1)); lia.
Qed.

Lemma mul_assoc n a b c : mono n a -> mono n b -> mono n c -> 
  (pos a = -1 /\ pos b = -1) \/ (pos b = -1 /\ pos c = -1) \/ (pos a = -1 /\ pos c = -1) ->
  mul a (mul b c) = mul (mul a b) c.
Proof.
  intros [La Pa] [Lb Pb] [Lc Pc] H. unfold mul. cbn [vars pos]. f_equal; [|apply addv_assoc].
  unfold mul_pos. destruct (Z.leb_spec 0 (pos b)), (Z.leb_spec 0 (pos c)),
   (Z.eqb_spec (pos a) (-1)), (Z.eqb_spec (pos b) (-1)), (Z.eqb_spec (pos c) (-1)); try lia;
   repeat match goal with |- context [Z.leb ?x ?y] => destruct (Z.leb_spec x y) 
     | |- context [Z.eqb ?x ?y] => destruct (Z.eqb_spec x y) end; lia.
Qed.

Lemma mult_mul n m a : mono n m -> mono n a -> pos m = -1 \/ pos a = -1 -> mult m a = mul m a.
Proof.
  intros [Lm Pm] [La Pa] H. unfold mult, mul. f_equal. unfold mult_pos, mul_pos.
  destruct (Z.eqb_spec (pos m) (-1)), (Z.leb_spec 0 (pos a)); lia.
Qed.

Lemma mul_unit n a : mono n a -> mul a (unit_monom n (-1)) = a.
Proof.
  intros [La Pa]. unfold mul, unit_monom. cbn [vars pos]. rewrite mul_pos_ring, addv_zero by exact La.
  destruct a; reflexivity.
Qed.

Lemma mul_var_mul n k a : mono n a -> (k < n)%nat -> mul_var k a = mul a (var_monom k n (-1)).
Proof.
  intros [La Pa] Hk. unfold mul_var, mul, var_monom. cbn [vars pos]. rewrite mul_pos_ring. f_equal.
  apply expo_ext.
  - rewrite incr_length, addv_length; rewrite ?incr_length, ?repeat_length; lia.
  - intros i Hi. rewrite incr_length in Hi. rewrite expo_addv by (rewrite incr_length, repeat_length; lia).
    rewrite !incr_expo, expo_repeat, repeat_length, La.
    destruct (Nat.eqb_spec i k), (Nat.ltb_spec k n); cbn; lia.
Qed.

Lemma powm_spec n a k : mono n a ->
  mono n (powm a k) /\ pos (powm a k) = pos a /\ deg (powm a k) = (deg a * k)%nat /\
  (forall i, expo (vars (powm a k)) i = (expo (vars a) i * k)%nat).
Proof.
  intros [La Pa]. unfold powm, mono, deg. cbn [vars pos]. rewrite map_length. repeat split; try assumption.
  - destruct a as [pa va]. cbn [vars]. clear. induction va as [|x v IH]; [reflexivity|].
    cbn [map]. rewrite !degv_cons, IH. lia.
  - intros i. unfold expo. destruct a as [pa va]. cbn [vars]. clear. revert i.
    induction va as [|x v IH]; intros [|i]; cbn; auto.
Qed.

(* ------------------------------------------------------------------------------------------ *)
(** ** Well-foundedness of the module orders *)

Definition mlt (t : pos_order) (o : base_order) (n : nat) (a b : monom) : Prop :=
  mono n a /\ mono n b /\ cmp1 t o b a = 1.

Definition vgt_wf (o : base_order) : Prop :=
  well_founded (fun u v : list nat => length u = length v /\ bcmpv o v u = 1).

Lemma wf_bases o : o <> OAlex -> vgt_wf o.
Proof. destruct o; intros H; [exact vlt_wf|exact dlt_wf|congruence]. Qed.

Lemma poslt_wf : well_founded (fun p q : Z => -1 <= p < q).
Proof.
  assert (H : forall n p, Z.to_nat (p + 1) = n -> Acc (fun p q : Z => -1 <= p < q) p).
  { induction n as [n IH] using (well_founded_induction lt_wf). intros p Hp.
    constructor. intros q Hq. apply (IH (Z.to_nat (q + 1))); [lia|reflexivity]. }
  intros p. apply (H (Z.to_nat (p + 1))). reflexivity.
Qed.

Lemma mlt_wf t o n : o <> OAlex -> well_founded (mlt t o n).
Proof.
  intros Ho. pose proof (wf_bases o Ho) as W. unfold vgt_wf in W. destruct t.
  - assert (H : forall v p, Acc (mlt TOP o n) (Mon p v)).
    { induction v as [v IHv] using (well_founded_induction W).
      induction p as [p IHp] using (well_founded_induction poslt_wf).
      constructor. intros [q u] ([Lq Pq] & [Lp Pp] & C). cbn [vars pos] in *.
      unfold cmp1 in C. rewrite bcmp_bcmpv in C. cbn [vars pos] in C.
      destruct (Z.eqb_spec (bcmpv o v u) 0) as [E|N].
      - apply (gc_eq _ (good_bcmpv o)) in E; [|congruence]. subst u. apply IHp.
        unfold poscmp in C. destruct (Z.eqb_spec p q); [lia|]. destruct (Z.ltb_spec q p); lia.
      - apply IHv. split; [congruence|exact C]. }
    intros [p v]. apply H.
  - assert (H : forall p v, Acc (mlt POT o n) (Mon p v)).
    { induction p as [p IHp] using (well_founded_induction poslt_wf).
      induction v as [v IHv] using (well_founded_induction W).
      constructor. intros [q u] ([Lq Pq] & [Lp Pp] & C). cbn [vars pos] in *.
      unfold cmp1 in C. rewrite bcmp_bcmpv in C. cbn [vars pos] in C.
      destruct (Z.eqb_spec p q) as [E|N].
      - subst q. apply IHv. split; [congruence|exact C].
      - apply IHp. unfold poscmp in C. destruct (Z.eqb_spec p q); [lia|]. destruct (Z.ltb_spec q p); lia. }
    intros [p v]. apply H.
Qed.

Lemma cmp1_no_chain t o n (f : nat -> monom) : o <> OAlex ->
  ~ (forall i, mono n (f i) /\ cmp1 t o (f i) (f (S i)) = 1).
Proof.
  intros Ho H. apply (wf_no_chain (mlt t o n) (mlt_wf t o n Ho) f). intros i.
  destruct (H i) as [M1 C], (H (S i)) as [M2 _]. repeat split; try apply M1; try apply M2; exact C.
Qed.

Lemma bcmp_total o n : total_order (mono n) (bcmp o) (fun a b => vars a = vars b).
Proof.
  pose proof (good_bcmpv o) as G. repeat split.
  - intros a b _ _. rewrite bcmp_bcmpv. apply (gc_range _ G).
  - rewrite bcmp_bcmpv. apply (gc_eq _ G). destruct H, H0. congruence.
  - intros E. rewrite bcmp_bcmpv, E. apply (gc_refl _ G).
  - intros a b [La _] [Lb _]. rewrite !bcmp_bcmpv. apply (gc_antisym _ G). congruence.
  - intros a b d [La _] [Lb _] [Ld _]. rewrite !bcmp_bcmpv. apply (gc_trans _ G); congruence.
Qed.

Lemma cmp1_total t o n : total_order (mono n) (cmp1 t o) eq.
Proof.
  repeat split.
  - intros a b _ _. apply cmp1_range.
  - destruct H, H0. apply cmp1_eq. unfold size. congruence.
  - destruct H, H0. apply cmp1_eq. unfold size. congruence.
  - intros a b [La _] [Lb _]. apply cmp1_antisym. unfold size. congruence.
  - intros a b d [La _] [Lb _] [Ld _]. apply cmp1_trans; unfold size; congruence.
Qed.

Lemma bcmp_spec o n a b : mono n a -> mono n b -> (bcmp o a b = 1 <-> base_gt o (vars a) (vars b)).
Proof. intros [La _] [Lb _]. rewrite bcmp_bcmpv. apply bcmpv_spec. congruence. Qed.

Lemma bcmp_mult o n a b c : mono n a -> mono n b -> mono n c ->
  bcmp o (mul a c) (mul b c) = bcmp o a b.
Proof.
  intros [La _] [Lb _] [Lc _]. rewrite !bcmp_bcmpv. unfold mul. cbn [vars].
  apply (gc_addv _ (good_bcmpv o)); congruence.
Qed.

Lemma bcmp_unit_min o n a : o <> OAlex -> mono n a -> vars a <> repeat 0%nat n ->
  bcmp o a (unit_monom n (-1)) = 1.
Proof.
  intros Ho [La Pa] N. destruct o; cbn [bcmp]; try congruence.
  - unfold lex, unit_monom. cbn [vars]. pose proof (lexv_unit _ _ La).
    destruct (lexv_range (vars a) (repeat 0%nat n)) as [E|[E|E]]; try lia.
    apply lexv_eq in E; [congruence|]. rewrite repeat_length. exact La.
  - unfold deglex, unit_monom. cbn [vars]. pose proof (deglexv_unit _ _ La).
    destruct (gc_range _ good_deglexv (vars a) (repeat 0%nat n)) as [E|[E|E]]; try lia.
    apply (gc_eq _ good_deglexv) in E; [congruence|]. rewrite repeat_length. exact La.
Qed.

Lemma bcmp_no_chain o n (f : nat -> monom) : o <> OAlex ->
  ~ (forall i, mono n (f i) /\ bcmp o (f i) (f (S i)) = 1).
Proof.
  intros Ho H. apply (wf_no_chain _ (wf_bases o Ho) (fun i => vars (f i))). intros i.
  destruct (H i) as [[L1 _] E1], (H (S i)) as [[L2 _] _]. split; [congruence|].
  rewrite bcmp_bcmpv in E1. exact E1.
Qed.

Lemma alex_chain_ex n : (0 < n)%nat ->
  exists f : nat -> monom, forall i, mono n (f i) /\ bcmp OAlex (f i) (f (S i)) = 1.
Proof.
  intros Hn. exists (x0pow n). intros i. destruct (alex_chain n Hn i) as [S E].
  repeat split; [exact S|cbn; lia|exact E].
Qed.

Lemma decode_cases code r : decode_order code = Ok r ->
  (code = 17 /\ r = (TOP, OLex)) \/ (code = 18 /\ r = (TOP, ODegLex)) \/ (code = 20 /\ r = (TOP, OAlex)) \/
  (code = 33 /\ r = (POT, OLex)) \/ (code = 34 /\ r = (POT, ODegLex)) \/ (code = 36 /\ r = (POT, OAlex)).
Proof.
  unfold decode_order. intros H.
  repeat match type of H with (if ?c =? ?v then _ else _) = _ =>
    destruct (Z.eqb_spec c v); [injection H as <-; subst; tauto|] end. discriminate.
Qed.

Lemma cmp2_wrong : exists t o m a b, mono 2 m /\ mono 2 a /\ mono 2 b /\ pos a = -1 /\ pos b = 0 /\
  m = mul a b /\ cmp1 t o m (mul a b) = 0 /\ cmp2 t o m a b = 1.
Proof.
  exists TOP, OLex, (Mon 0 [1%nat; 1%nat]), (Mon (-1) [1%nat; 0%nat]), (Mon 0 [0%nat; 1%nat]).
  repeat split; cbn; lia.
Qed.
