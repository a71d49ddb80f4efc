(** What a build with assertions computes, one without computes as well: lists. *)
From Coq Require Import ZArith List Bool Arith Lia.
From Verif Require Import Outcome DebugProofs ListModel.
Import ListNotations.

Section D.
Context {T : Type}.
Lemma d_it_clear h i : agree (@it_clear T true h i) (it_clear false h i).
Proof. unfold it_clear. ag. Qed.
Hint Resolve d_it_clear : ag.
Lemma d_lstep s o : agree (@lstep T true s o) (lstep false s o).
Proof. destruct o; cbn [lstep]; unfold with_it, l_pop, l_head, l_assign, l_clear; ag. Qed.
Hint Resolve d_lstep : ag.
Lemma d_lrun os : forall s, agree (@lrun T true s os) (lrun false s os).
Proof. induction os as [|o os IH]; intro s; cbn [lrun]; ag. Qed.
End D.
