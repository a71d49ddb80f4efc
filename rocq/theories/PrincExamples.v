(** A concrete principal ideal. *)
From Coq Require Import ZArith List Bool Arith Lia.
From Verif Require Import Outcome MonomModel MonomSpec MonomProofs PolyModel PolySpec PolyProofs PolyNfProofs
  JanetModel JanetSpec JanetPolyModel TQModel JanetPolySpec IdealProofs JanetPolyProofs JanetPolyTop JanetPolyExamples
  TQExamples InvolutiveTop InvolutiveExamples NormalSpec NormalTop PrincSpec PrincTop.
Import ListNotations.
Local Open Scope Z_scope.

(** 2 x^2 - 4 y in two variables; the basis has x^2 - 2 y. *)
Definition pr_f := pol ODegLex 2 [([2;0]%nat, 2); ([0;1]%nat, -4)].
Definition pr_J0 : jpoly := got (jp_push_all false jp_empty [pr_f]).
Definition pr_J : jpoly := got (jp_build 60 false pr_J0).
(** 3 x^3 - 6 x y = 3 x (x^2 - 2 y), and x^3, 2 x y. *)
Definition pr_a := pol ODegLex 2 [([3;0]%nat, 3); ([1;1]%nat, -6)].
Definition pr_b := pol ODegLex 2 [([3;0]%nat, 1)].
Definition pr_c := pol ODegLex 2 [([1;1]%nat, 2)].
Lemma pr_in : Forall (ring_input TOP ODegLex 2) [pr_f].
Proof. apply Forall_forall. intros a [<-|[]]; ring_in. Qed.
Lemma pr_nz : terms pr_f <> [].
Proof. discriminate. Qed.
Lemma pr_start : jp_history false TOP ODegLex 2 [pr_f] pr_J0.
Proof.
  assert (H := history_push_all false TOP ODegLex 2 [pr_f] [] jp_empty pr_J0 (hist_new _ _ _ _) pr_in). rewrite app_nil_r in H. apply H. vm_compute. reflexivity.
Qed.
Lemma pr_history : jp_history false TOP ODegLex 2 [pr_f] pr_J.
Proof. apply (hist_build _ _ _ _ _ pr_J0 60); [exact pr_start|vm_compute; reflexivity]. Qed.
Lemma pr_queue : jq pr_J = [].
Proof. vm_compute. reflexivity. Qed.
Lemma pr_basis : map terms (basis pr_J) = [[(Mon (-1) [2;0]%nat, 1); (Mon (-1) [0;1]%nat, -2)]].
Proof. vm_compute. reflexivity. Qed.
Lemma pr_ain : ring_input TOP ODegLex 2 pr_a.
Proof. ring_in. Qed.
Lemma pr_bin : ring_input TOP ODegLex 2 pr_b.
Proof. ring_in. Qed.
Lemma pr_cin : ring_input TOP ODegLex 2 pr_c.
Proof. ring_in. Qed.
Lemma pr_nf : exists ra rb rc, jp_nf 40 false pr_J pr_a = Ok ra /\ jp_nf 40 false pr_J pr_b = Ok rb /\ jp_nf 40 false pr_J pr_c = Ok rc /\
  terms ra = [] /\ terms rb <> [] /\ terms rb = terms rc.
Proof. do 3 eexists. split; [vm_compute; reflexivity|]. split; [vm_compute; reflexivity|]. split; [vm_compute; reflexivity|]. cbn. split; [reflexivity|]. split; [discriminate|reflexivity]. Qed.
(** So f divides the first polynomial, and does not divide the second. *)
Lemma pr_divides : divides_over_Q 2 pr_f pr_a /\ ~ divides_over_Q 2 pr_f pr_b.
Proof.
  destruct pr_nf as (ra & rb & _ & Ea & Eb & _ & Za & Zb & _). split.
  - apply (c94_test TOP ODegLex 2 ltac:(lia) ltac:(discriminate) pr_f pr_J pr_a 40 ra pr_history pr_nz pr_queue pr_ain Ea). exact Za.
  - intro D. apply Zb. apply (c94_test TOP ODegLex 2 ltac:(lia) ltac:(discriminate) pr_f pr_J pr_b 40 rb pr_history pr_nz pr_queue pr_bin Eb). exact D.
Qed.
(** algorithmTQ1 keeps the constant. *)
Lemma pr_tq : exists J', jp_tq true 60 false pr_J0 = Ok J' /\ map terms (basis J') = [[(Mon (-1) [2;0]%nat, 2); (Mon (-1) [0;1]%nat, -4)]].
Proof. eexists. split; vm_compute; reflexivity. Qed.
