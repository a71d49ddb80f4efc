(** Which arguments df accepts. *)
From Coq Require Import ZArith List Bool Arith Lia.
From Verif Require Import Outcome MonomModel PyDiffModel PyDiffSpec.
Import ListNotations.
Local Open Scope Z_scope.

Section Args.
Variable n : nat.

Definition added (l : list (nat * Z)) (m : list Z) : list Z := fold_left (fun m x => add_at (fst x) (snd x) m) l m.

Lemma loop_cases args : forall m,
  (exists l, df_asks n args l /\ dp_df_loop n args m = Ok (added l m)) \/ (dp_df_loop n args m = AssertFail /\ forall l, ~ df_asks n args l).
Proof.
  enough (G : forall N args m, (length args <= N)%nat -> (exists l, df_asks n args l /\ dp_df_loop n args m = Ok (added l m)) \/ (dp_df_loop n args m = AssertFail /\ forall l, ~ df_asks n args l)) by (intro m; apply (G (length args)); lia).
  induction N as [|N IH]; intros [|[v|d] a] m L; cbn [length] in L; try lia; try (left; exists []; split; [constructor|reflexivity]); try (right; split; [reflexivity|intros l Q; inversion Q]).
  cbn [dp_df_loop]. unfold assert_. cbn [andb]. destruct (Nat.ltb_spec v n) as [V|V]; cbn [negb]; [|right; split; [reflexivity|intros l Q; inversion Q; lia]].
  destruct a as [|[w|d] a].
  - left. exists [(v, 1)]. split; [apply ask_one; [exact V|discriminate|constructor]|reflexivity].
  - destruct (IH (AVar w :: a) (add_at v 1 m)) as [(l & Q & E)|[E Q]]; [lia|left; exists ((v, 1) :: l); split; [apply ask_one; [exact V|discriminate|exact Q]|exact E]|right; split; [exact E|]].
    intros l Ql. inversion Ql; subst. eapply Q. eassumption.
  - destruct (IH a (add_at v d m)) as [(l & Q & E)|[E Q]]; [cbn [length] in L; lia|left; exists ((v, d) :: l); split; [apply ask_many; [exact V|exact Q]|exact E]|right; split; [exact E|]].
    intros l Ql. inversion Ql as [|? ? ? ? Nd|]; subst; [exact (Nd d a eq_refl)|]. eapply Q. eassumption.
Qed.
Lemma asks_unique args l : df_asks n args l -> forall l', df_asks n args l' -> l' = l.
Proof.
  intro Q. induction Q as [|v a l V N Q IH|v d a l V Q IH]; intros l' Q'; inversion Q'; subst; try reflexivity; try (exfalso; eapply N; reflexivity).
  - f_equal. now apply IH.
  - exfalso. match goal with X : forall _ _, _ <> _ |- _ => eapply X; reflexivity end.
  - f_equal. now apply IH.
Qed.
Lemma asks_in args l : df_asks n args l -> forall x, In x l -> (fst x < n)%nat.
Proof. intro Q. induction Q; intros x []; subst; auto. Qed.

Lemma add_at_length d : forall l v, length (add_at v d l) = length l.
Proof. induction l as [|x l IH]; intros [|v]; cbn; auto. Qed.
Lemma add_at_nth d w : forall l v, (v < length l)%nat -> nth w (add_at v d l) 0 = nth w l 0 + if Nat.eqb v w then d else 0.
Proof.
  intros l. revert w. induction l as [|x l IH]; intros w v L; cbn [length] in L; [lia|]. destruct v as [|v], w as [|w]; cbn [add_at nth Nat.eqb]; try lia. rewrite IH by lia. reflexivity.
Qed.
Lemma added_nth l w : forall m, (forall x, In x l -> (fst x < length m)%nat) -> length (added l m) = length m /\ nth w (added l m) 0 = nth w m 0 + asked l w.
Proof.
  unfold added. induction l as [|[v d] l IH]; intros m B; cbn [fold_left asked fst snd].
  - split; [reflexivity|]. cbn. lia.
  - destruct (IH (add_at v d m)) as [IL IN]; [intros x X; rewrite add_at_length; apply B; now right|]. rewrite add_at_length in IL. split; [exact IL|].
    rewrite IN, add_at_nth by (apply (B (v, d)); now left). destruct (Nat.eqb v w); lia.
Qed.
Lemma nth_zeros w : nth w (repeat 0 n) 0 = 0.
Proof. generalize n. intro j. revert w. induction j; intros [|w]; cbn; auto. Qed.

Lemma df_result (C : coefs) (k p : Z) args :
  (exists l, 0 <= p < k /\ df_asks n args l /\ (forall v, 0 <= asked l v) /\
     exists e, dp_df C n k p args = Ok (dp_of_monom C (Mon p e)) /\ length e = n /\ forall v, Z.of_nat (nth v e 0%nat) = asked l v) \/
  (dp_df C n k p args = AssertFail /\ ~ (0 <= p < k /\ exists l, df_asks n args l /\ forall v, 0 <= asked l v)).
Proof.
  unfold dp_df. unfold assert_ at 1. destruct (Z.leb_spec 0 p) as [P0|P0]; cbn [andb negb]; [|right; split; [reflexivity|lia]].
  destruct (Z.ltb_spec p k) as [Pk|Pk]; cbn [negb]; [|right; split; [reflexivity|lia]].
  destruct (loop_cases args (repeat 0 n)) as [(l & Q & ->)|[-> Nq]].
  2:{ right. split; [reflexivity|]. intros (_ & l & Q & _). exact (Nq l Q). }
  cbn [bind]. set (m := added l (repeat 0 n)).
  assert (B : forall x, In x l -> (fst x < length (repeat 0%Z n))%nat) by (intros x X; rewrite repeat_length; exact (asks_in _ _ Q x X)).
  assert (Lm : length m = n) by (transitivity (length (repeat 0 n)); [apply (added_nth l 0%nat _ B)|apply repeat_length]).
  assert (Em : forall v, nth v m 0 = asked l v) by (intro v; unfold m; rewrite (proj2 (added_nth l v _ B)), nth_zeros; lia).
  destruct (forallb (fun x => 0 <=? x) m) eqn:F; unfold assert_; cbn [andb negb].
  - left. exists l. split; [lia|]. split; [exact Q|]. rewrite forallb_forall in F.
    assert (Po : forall v, 0 <= asked l v).
    { intro v. rewrite <- Em. destruct (le_lt_dec (length m) v) as [G|G]; [rewrite nth_overflow by exact G; lia|]. apply Z.leb_le, F, nth_In, G. }
    split; [exact Po|]. exists (map Z.to_nat m). split; [reflexivity|]. split; [now rewrite map_length|]. intro v. change 0%nat with (Z.to_nat 0). rewrite map_nth, Em. apply Z2Nat.id, Po.
  - right. split; [reflexivity|]. intros (_ & l' & Q' & Po). rewrite (asks_unique _ _ Q _ Q') in Po.
    assert (forallb (fun x => 0 <=? x) m = true); [|congruence]. apply forallb_forall. intros x X. apply Z.leb_le. destruct (In_nth _ _ 0 X) as (v & _ & <-). rewrite Em. apply Po.
Qed.
End Args.
