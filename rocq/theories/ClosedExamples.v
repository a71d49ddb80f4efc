(** Concrete systems in closed classes. *)
From Coq Require Import ZArith List Bool Arith Lia.
From Verif Require Import Outcome MonomModel MonomSpec MonomProofs PolyModel PolySpec PolyProofs PolyNfProofs
  JanetModel JanetSpec JanetPolyModel TQModel JanetPolySpec IdealProofs JanetPolyProofs JanetPolyTop JanetPolyExamples
  TQExamples InvolutiveTop InvolutiveExamples NormalSpec NormalTop ClosedSpec ClosedTop.
Import ListNotations.
Local Open Scope Z_scope.

(** x^2 - y and x y - 1 (iv_J): homogeneous modulo 3 with the weights 1 and 2 of x and y. *)
Lemma cl_homog : Forall (fun f => homogeneous (same_weight [1; 2] 3) (terms f)) [iv_f2; iv_f1].
Proof.
  assert (X : forall k, (3 | 3 * k)) by (intro k; exists k; ring).
  repeat constructor; intros m m' Im Im'; cbn in Im, Im'; destruct Im as [<-|[<-|[]]], Im' as [<-|[<-|[]]]; unfold same_weight; cbn [vars];
    first [exact (X 0)|exact (X 1)|exact (X (-1))].
Qed.
(** Not homogeneous without the modulus. *)
Lemma cl_not : ~ homogeneous (same_weight [1; 2] 0) (terms iv_f2).
Proof.
  intro H. assert (X := H (Mon (-1) [1;1]%nat) (Mon (-1) [0;0]%nat) ltac:(cbn; auto) ltac:(cbn; auto)). destruct X as (z & X). unfold weight in X. cbn in X. lia.
Qed.

(** The group with generators x, y and relations x^2 = y, x y = 1. *)
Definition cl_E : list (list nat * list nat) := [([1;1], [0;0]); ([2;0], [0;1])]%nat.
Lemma cl_diff : Forall2 (difference_of 2) [iv_f2; iv_f1] cl_E.
Proof.
  repeat constructor; unfold iv_f1, iv_f2, pol; cbn [terms coef fst snd map]; intro m;
    repeat (match goal with |- context [monom_eq_dec ?a ?b] => destruct (monom_eq_dec a b) end); lia.
Qed.
Lemma cl_queue : jq iv_J = [].
Proof. vm_compute. reflexivity. Qed.
Definition cl_a := pol ODegLex 2 [([4;0]%nat, 1)].
Definition cl_b := pol ODegLex 2 [([0;2]%nat, 1)].
Definition cl_c := pol ODegLex 2 [([2;0]%nat, 1)].
Lemma cl_ain : ring_input TOP ODegLex 2 cl_a. Proof. ring_in. Qed.
Lemma cl_bin : ring_input TOP ODegLex 2 cl_b. Proof. ring_in. Qed.
Lemma cl_cin : ring_input TOP ODegLex 2 cl_c. Proof. ring_in. Qed.
Lemma cl_nf : exists ra rb rc, jp_nf 40 false iv_J cl_a = Ok ra /\ jp_nf 40 false iv_J cl_b = Ok rb /\ jp_nf 40 false iv_J cl_c = Ok rc /\
  terms ra = [(Mon (-1) [1;0]%nat, 1)] /\ terms rb = [(Mon (-1) [1;0]%nat, 1)] /\ terms rc = [(Mon (-1) [0;1]%nat, 1)].
Proof. do 3 eexists. split; [vm_compute; reflexivity|]. split; [vm_compute; reflexivity|]. split; [vm_compute; reflexivity|]. vm_compute. repeat split. Qed.
(** x^4 = y^2 there, and x^4 <> x^2. *)
Lemma cl_words : generated 2 cl_E [4;0]%nat [0;2]%nat /\ ~ generated 2 cl_E [4;0]%nat [2;0]%nat.
Proof.
  destruct cl_nf as (ra & rb & rc & Ea & Eb & Ec & Ta & Tb & Tc). split.
  - apply (c96_word TOP ODegLex 2 ltac:(lia) ltac:(discriminate) _ cl_E iv_J iv_history cl_diff cl_a cl_b _ _ 40 40 ra rb cl_queue iv_local cl_ain cl_bin eq_refl eq_refl Ea Eb).
    left. congruence.
  - intro G. apply (c96_word TOP ODegLex 2 ltac:(lia) ltac:(discriminate) _ cl_E iv_J iv_history cl_diff cl_a cl_c _ _ 40 40 ra rc cl_queue iv_local cl_ain cl_cin eq_refl eq_refl Ea Ec) in G.
    rewrite Ta, Tc in G. destruct G as [G|G]; discriminate.
Qed.

(** The same polynomials in three variables: z does not appear. *)
Definition cv_f1 := pol ODegLex 3 [([2;0;0]%nat, 1); ([0;1;0]%nat, -1)].
Definition cv_f2 := pol ODegLex 3 [([1;1;0]%nat, 1); ([0;0;0]%nat, -1)].
Lemma cv_in : Forall (ring_input TOP ODegLex 3) [cv_f1; cv_f2].
Proof. apply Forall_forall. intros a [<-|[<-|[]]]; ring_in. Qed.
Definition cv_J : jpoly := got (run 40 false [cv_f1; cv_f2]).
Lemma cv_run : run 40 false [cv_f1; cv_f2] = Ok cv_J.
Proof. vm_compute. reflexivity. Qed.
Lemma cv_history : jp_history false TOP ODegLex 3 [cv_f2; cv_f1] cv_J.
Proof. exact (run_history 40 false ODegLex 3 _ _ cv_in cv_run). Qed.
Lemma cv_vars : Forall (fun f => only_variables (fun i => (i < 2)%nat) (terms f)) [cv_f2; cv_f1].
Proof.
  apply Forall_forall. intros f If m i Im Pi. destruct If as [<-|[<-|[]]]; cbn in Im; destruct Im as [<-|[<-|[]]]; destruct i as [|[|[|i]]]; cbn in Pi; try lia; destruct i; cbn in Pi; lia.
Qed.
