(** Concrete systems of monomials. *)
From Coq Require Import ZArith List Bool Arith Lia.
From Verif Require Import Outcome MonomModel MonomSpec MonomProofs PolyModel PolySpec PolyProofs PolyNfProofs
  JanetModel JanetSpec JanetPolyModel TQModel JanetPolySpec IdealProofs JanetPolyProofs JanetPolyTop JanetPolyExamples
  TQExamples InvolutiveTop InvolutiveExamples NormalSpec NormalTop MonoSpec MonoTop.
Import ListNotations.
Local Open Scope Z_scope.

(** 2 x^2 and 3 y^3. *)
Definition mn_f1 := pol OLex 2 [([2;0]%nat, 2)].
Definition mn_f2 := pol OLex 2 [([0;3]%nat, 3)].
Definition mn_J0 : jpoly := got (jp_push_all false jp_empty [mn_f1; mn_f2]).
Definition mn_J : jpoly := got (jp_build 60 false mn_J0).
Definition mn_a := pol OLex 2 [([1;3]%nat, 1)].
Lemma mn_in : Forall (ring_input TOP OLex 2) [mn_f1; mn_f2].
Proof. apply Forall_forall. intros a [<-|[<-|[]]]; ring_in. Qed.
Lemma mn_single : Forall single [mn_f2; mn_f1].
Proof. apply Forall_forall. intros a [<-|[<-|[]]]; unfold single; cbn; lia. Qed.
Lemma mn_start : jp_history false TOP OLex 2 [mn_f2; mn_f1] mn_J0.
Proof.
  assert (H := history_push_all false TOP OLex 2 [mn_f1; mn_f2] [] jp_empty mn_J0 (hist_new _ _ _ _) mn_in). rewrite app_nil_r in H. apply H. vm_compute. reflexivity.
Qed.
Lemma mn_history : jp_history false TOP OLex 2 [mn_f2; mn_f1] mn_J.
Proof. apply (hist_build _ _ _ _ _ mn_J0 60); [exact mn_start|vm_compute; reflexivity]. Qed.
Lemma mn_queue : jq mn_J = [].
Proof. vm_compute. reflexivity. Qed.
Lemma mn_ain : ring_input TOP OLex 2 mn_a.
Proof. ring_in. Qed.
Lemma c93_lex : exists (F : list poly) (J : jpoly) (a r : poly),
  jp_history false TOP OLex 2 F J /\ Forall single F /\ jq J = [] /\ ring_input TOP OLex 2 a /\ single a /\
  rational_member 2 (among F) (terms a) /\ (exists fuel, jp_nf fuel false J a = Ok r) /\ terms r <> [].
Proof.
  exists [mn_f2; mn_f1], mn_J, mn_a, mn_a. split; [exact mn_history|]. split; [exact mn_single|]. split; [exact mn_queue|]. split; [exact mn_ain|].
  split; [unfold single; cbn; lia|]. split; [|split; [exists 40%nat; vm_compute; reflexivity|discriminate]].
  apply (divisible_mem TOP OLex 2); [apply Forall_forall; intros a [<-|[<-|[]]]; ring_in|exact mn_single|apply mn_ain|eapply ring_input_monos; exact mn_ain|].
  intros m c [E|[]]. injection E as <- _. exists mn_f2. split; [left; reflexivity|]. split; [discriminate|]. intros [|[|i]] Hi; unfold expo; cbn; lia.
Qed.

(** y^2 and x z^3 in three variables. *)
Definition me_f1 := pol ODegLex 3 [([0;2;0]%nat, 1)].
Definition me_f2 := pol ODegLex 3 [([1;0;3]%nat, 1)].
Definition me_J0 : jpoly := got (jp_push_all false jp_empty [me_f1; me_f2]).
Definition me_J : jpoly := got (jp_build 60 false me_J0).
Definition me_a := pol ODegLex 3 [([1;1;3]%nat, 1)].
Lemma me_in : Forall (ring_input TOP ODegLex 3) [me_f1; me_f2].
Proof. apply Forall_forall. intros a [<-|[<-|[]]]; ring_in. Qed.
Lemma me_single : Forall single [me_f2; me_f1].
Proof. apply Forall_forall. intros a [<-|[<-|[]]]; unfold single; cbn; lia. Qed.
Lemma me_start : jp_history false TOP ODegLex 3 [me_f2; me_f1] me_J0.
Proof.
  assert (H := history_push_all false TOP ODegLex 3 [me_f1; me_f2] [] jp_empty me_J0 (hist_new _ _ _ _) me_in). rewrite app_nil_r in H. apply H. vm_compute. reflexivity.
Qed.
Lemma me_history : jp_history false TOP ODegLex 3 [me_f2; me_f1] me_J.
Proof. apply (hist_build _ _ _ _ _ me_J0 60); [exact me_start|vm_compute; reflexivity]. Qed.
Lemma me_queue : jq me_J = [].
Proof. vm_compute. reflexivity. Qed.
Lemma me_basis : map lead (basis me_J) = [[0;2;0]; [1;2;0]; [1;0;3]]%nat.
Proof. vm_compute. reflexivity. Qed.
Lemma me_ain : ring_input TOP ODegLex 3 me_a.
Proof. ring_in. Qed.
Lemma me_minimal : minimal 3 [me_f2; me_f1] me_f1.
Proof.
  split; [right; left; reflexivity|]. split; [discriminate|]. intros f' [<-|[<-|[]]] _ D; [|reflexivity]. assert (X := D 0%nat ltac:(lia)). unfold expo in X. cbn in X. lia.
Qed.
Lemma me_member : rational_member 3 (among [me_f2; me_f1]) (terms me_a).
Proof.
  apply (divisible_mem TOP ODegLex 3); [apply Forall_forall; intros a [<-|[<-|[]]]; ring_in|exact me_single|apply me_ain|eapply ring_input_monos; exact me_ain|].
  intros m c [E|[]]. injection E as <- _. exists me_f2. split; [left; reflexivity|]. split; [discriminate|]. intros [|[|[|i]]] Hi; unfold expo; cbn; lia.
Qed.
Lemma c93_deglex : exists (F : list poly) (J : jpoly) (a r : poly),
  jp_history false TOP ODegLex 3 F J /\ Forall single F /\ jq J = [] /\ ring_input TOP ODegLex 3 a /\ single a /\
  rational_member 3 (among F) (terms a) /\ (exists fuel, jp_nf fuel false J a = Ok r) /\ terms r <> [].
Proof.
  exists [me_f2; me_f1], me_J, me_a, me_a. split; [exact me_history|]. split; [exact me_single|]. split; [exact me_queue|]. split; [exact me_ain|].
  split; [unfold single; cbn; lia|]. split; [exact me_member|split; [exists 40%nat; vm_compute; reflexivity|discriminate]].
Qed.
