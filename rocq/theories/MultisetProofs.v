(** The multiset order of a well-founded relation is well-founded. *)
From Coq Require Import List Permutation Relations Wellfounded.
Import ListNotations.

Section M.
Variables (A : Type) (R : A -> A -> Prop).
Hypothesis wfR : well_founded R.

(** l' is l with one element replaced by smaller ones (order in the list does not matter). *)
Definition mred (l' l : list A) : Prop :=
  exists x ys rest, Permutation l (x :: rest) /\ Permutation l' (ys ++ rest) /\ Forall (fun y => R y x) ys.

Lemma mred_perm l l' k : Permutation l l' -> mred k l -> mred k l'.
Proof. intros P (x & ys & rest & A1 & A2 & A3). exists x, ys, rest. split; [|auto]. rewrite <- P. exact A1. Qed.
Lemma acc_perm l l' : Permutation l l' -> Acc mred l -> Acc mred l'.
Proof. intros P [H]. constructor. intros k K. apply H. apply (mred_perm l'); [symmetry; exact P|exact K]. Qed.

Lemma acc_cons : forall a l, Acc mred l -> Acc mred (a :: l).
Proof.
  intro a. induction (wfR a) as [a _ IHa]. intros l L. induction L as [l HL IHl].
  constructor. intros k (x & ys & rest & P & K & F).
  assert (I : In x (a :: l)) by (eapply Permutation_in; [symmetry; exact P|left; reflexivity]).
  destruct I as [<-|I].
  - apply Permutation_cons_inv in P. apply (acc_perm (ys ++ l)); [rewrite K, P; reflexivity|]. clear K.
    induction ys as [|y ys IH]; cbn [app]; [constructor; exact HL|]. apply IHa; [exact (Forall_inv F)|apply IH; exact (Forall_inv_tail F)].
  - apply in_split in I as (l1 & l2 & ->).
    assert (P2 : Permutation rest (a :: l1 ++ l2)).
    { apply (Permutation_cons_inv (a := x)). rewrite <- P. rewrite <- Permutation_middle. apply perm_swap. }
    apply (acc_perm (a :: ys ++ l1 ++ l2)); [rewrite K, P2; apply Permutation_middle|]. apply IHl. exists x, ys, (l1 ++ l2).
    split; [symmetry; apply Permutation_middle|]. split; [reflexivity|exact F].
Qed.

Lemma mred_wf : well_founded mred.
Proof.
  intro l. induction l as [|a l IH]; [|apply acc_cons; exact IH]. constructor. intros k (x & ys & rest & P & _). apply Permutation_nil in P. discriminate.
Qed.

Definition mlt := clos_trans _ mred.
Lemma mlt_wf' : well_founded mlt.
Proof. apply wf_clos_trans. exact mred_wf. Qed.

(** Smaller or the same. *)
Definition mle (k l : list A) : Prop := Permutation k l \/ mlt k l.
Lemma mlt_perm_l k k' l : Permutation k k' -> mlt k l -> mlt k' l.
Proof.
  intros P H. apply clos_trans_t1n in H. apply clos_t1n_trans. revert k' P. induction H as [k l H|k y l H H' _]; intros k' P.
  - constructor. destruct H as (x & ys & rest & A1 & A2 & A3). exists x, ys, rest. split; [exact A1|]. split; [rewrite <- P; exact A2|exact A3].
  - eapply Relation_Operators.t1n_trans; [|exact H']. destruct H as (x & ys & rest & A1 & A2 & A3). exists x, ys, rest. split; [exact A1|]. split; [rewrite <- P; exact A2|exact A3].
Qed.
Lemma mlt_perm_r k l l' : Permutation l l' -> mlt k l -> mlt k l'.
Proof.
  intros P H. apply clos_trans_tn1 in H. apply clos_tn1_trans. revert l' P. induction H as [y H|y z H H' _]; intros l' P.
  - constructor. eapply mred_perm; eassumption.
  - eapply Relation_Operators.tn1_trans; [|exact H']. eapply mred_perm; eassumption.
Qed.
Lemma mle_trans a b c : mle a b -> mle b c -> mle a c.
Proof.
  intros [P|H] [Q|K].
  - left. now rewrite P.
  - right. eapply mlt_perm_l; [symmetry; exact P|exact K].
  - right. eapply mlt_perm_r; eassumption.
  - right. eapply t_trans; eassumption.
Qed.
Lemma mlt_mle a b c : mlt a b -> mle b c -> mlt a c.
Proof. intros H [P|K]; [eapply mlt_perm_r; eassumption|eapply t_trans; eassumption]. Qed.
Lemma mle_app_r a b : mle a (b ++ a).
Proof.
  induction b as [|x b IH]; [left; reflexivity|]. eapply mle_trans; [exact IH|]. right. constructor. exists x, [], (b ++ a).
  split; [reflexivity|]. split; [reflexivity|constructor].
Qed.
Lemma mle_app_l a b : mle a (a ++ b).
Proof. eapply mle_trans; [apply (mle_app_r a b)|]. left. apply Permutation_app_comm. Qed.
(** Copies of x become smaller elements. *)
Lemma mlt_replace x xs ys rest : Forall (fun y => R y x) ys -> mlt (ys ++ rest) (x :: xs ++ rest).
Proof.
  intro F. eapply mlt_mle with (b := x :: rest).
  - constructor. exists x, ys, rest. split; [reflexivity|]. split; [reflexivity|exact F].
  - eapply mle_trans; [apply (mle_app_r (x :: rest) xs)|]. left. symmetry. apply Permutation_middle.
Qed.
End M.
