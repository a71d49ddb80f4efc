(** What a build with assertions computes, one without computes as well: red-black trees. *)
From Coq Require Import ZArith List Bool Arith Lia.
From Verif Require Import Outcome DebugProofs RBModel.
Import ListNotations.

Section D.
Context {T : Type} (compare : T -> T -> Z).
Lemma d_descend fuel : forall h k x y, agree (descend compare fuel true h k x y) (descend compare fuel false h k x y).
Proof. induction fuel as [|fuel IH]; intros h k x y; cbn [descend]; ag. Qed.
Hint Resolve d_descend : ag.
Lemma d_insertNode s z : agree (insertNode compare true s z) (insertNode compare false s z).
Proof. unfold insertNode. ag. Qed.
Lemma d_deleteFixup s x xp : agree (@deleteFixup T true s x xp) (deleteFixup false s x xp).
Proof. unfold deleteFixup. apply agree_skip. intro b. apply agree_check. cbn [bind assert_ andb]. ag. Qed.
Hint Resolve d_insertNode d_deleteFixup : ag.
Lemma d_deleteNode s z : agree (@deleteNode T true s z) (deleteNode false s z).
Proof. unfold deleteNode. ag. Qed.
Hint Resolve d_deleteNode : ag.
Lemma d_check_valid A h t (x : outcome A) : agree (check_valid compare true h t x) (check_valid compare false h t x).
Proof. unfold check_valid. apply agree_skip. intro b. apply agree_check, agree_refl. Qed.
Hint Resolve d_check_valid : ag.
Lemma d_rb_insert h t k : agree (insert compare true h t k) (insert compare false h t k).
Proof.
  unfold insert. apply agree_skip. intro r. apply agree_check. cbn [bind assert_ andb]. destruct (new_node h (Node k true None None None)) as [h1 z].
  apply agree_bind; [ag|]. intro s. cbv zeta. apply agree_skip. intro r'. apply agree_check. apply d_check_valid.
Qed.
Lemma d_rb_remove h t k : agree (remove compare true h t k) (remove compare false h t k).
Proof.
  unfold remove. apply agree_bind; [ag|]. intro z. apply agree_assert. apply agree_bind; [ag|]. intro a. apply agree_bind; [ag|]. intros [s y]. apply agree_bind; [ag|]. intro h'.
  cbv zeta. apply agree_skip. intro r'. apply agree_check. apply d_check_valid.
Qed.
Lemma d_rb_remove_it h t i : agree (remove_it compare true h t i) (remove_it compare false h t i).
Proof. unfold remove_it. ag. Qed.
Lemma d_rb_clear h t : agree (clear compare true h t) (clear compare false h t).
Proof. unfold clear. ag. Qed.
Lemma d_rb_copy h t : agree (copy_tree compare true h t) (copy_tree compare false h t).
Proof. unfold copy_tree. ag. Qed.
Lemma d_rb_assign h t a : agree (assign compare true h t a) (assign compare false h t a).
Proof. unfold assign. ag. Qed.
Hint Resolve d_rb_insert d_rb_remove d_rb_remove_it d_rb_clear d_rb_copy d_rb_assign : ag.
Lemma d_rb_step s o : agree (step compare true s o) (step compare false s o).
Proof. destruct o; cbn [step]; unfold mutate, look, seek, minimumKey, maximumKey, it_next, it_prev, it_key; ag. Qed.
Hint Resolve d_rb_step : ag.
Lemma d_rb_run os : forall s, agree (run compare true s os) (run compare false s os).
Proof. induction os as [|o os IH]; intro s; cbn [run]; ag. Qed.
End D.
