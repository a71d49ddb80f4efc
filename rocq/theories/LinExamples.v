(** Concrete linear systems. *)
From Coq Require Import ZArith QArith List Bool Arith Lia.
From Verif Require Import Outcome MonomModel MonomSpec MonomProofs PolyModel PolySpec PolyProofs PolyNfProofs
  JanetModel JanetSpec JanetPolyModel TQModel JanetPolySpec IdealProofs JanetPolyProofs JanetPolyTop JanetPolyExamples
  TQExamples InvolutiveTop InvolutiveExamples NormalSpec NormalTop LinSpec LinTop LinSol.
Import ListNotations.
Local Open Scope Z_scope.

(** x + 2 y + z = 4, 3 x + y - 2 z = 1. *)
Definition ln_f1 := pol OLex 3 [([1;0;0]%nat, 1); ([0;1;0]%nat, 2); ([0;0;1]%nat, 1); ([0;0;0]%nat, -4)].
Definition ln_f2 := pol OLex 3 [([1;0;0]%nat, 3); ([0;1;0]%nat, 1); ([0;0;1]%nat, -2); ([0;0;0]%nat, -1)].
Definition ln_J0 : jpoly := got (jp_push_all false jp_empty [ln_f2; ln_f1]).
Definition ln_J : jpoly := got (jp_build 40 false ln_J0).
Lemma ln_in : Forall (ring_input TOP OLex 3) [ln_f2; ln_f1].
Proof. apply Forall_forall. intros a [<-|[<-|[]]]; ring_in. Qed.
Ltac lin := apply Forall_forall; intros a [<-|[<-|[]]]; intros m c I; cbn in I; repeat (destruct I as [I|I]; [injection I as <- _; cbn; lia|]); destruct I.
Lemma ln_lin : Forall linear [ln_f1; ln_f2].
Proof. lin. Qed.
Lemma ln_start : jp_history false TOP OLex 3 [ln_f1; ln_f2] ln_J0.
Proof.
  assert (H := history_push_all false TOP OLex 3 [ln_f2; ln_f1] [] jp_empty ln_J0 (hist_new _ _ _ _) ln_in). rewrite app_nil_r in H. apply H. vm_compute. reflexivity.
Qed.
Lemma ln_history : jp_history false TOP OLex 3 [ln_f1; ln_f2] ln_J.
Proof. apply (hist_build _ _ _ _ _ ln_J0 40); [exact ln_start|vm_compute; reflexivity]. Qed.
Lemma ln_queue : jq ln_J = [].
Proof. vm_compute. reflexivity. Qed.
Definition ln_g := pol OLex 3 [([0;1;0]%nat, 5); ([0;0;1]%nat, 5); ([0;0;0]%nat, -11)].
Definition ln_h := pol OLex 3 [([1;0;0]%nat, 5); ([0;0;1]%nat, -5); ([0;0;0]%nat, 2)].
Lemma ln_basis : basis ln_J = [ln_g; ln_h].
Proof. vm_compute. reflexivity. Qed.
(** x = 3/5, y = 6/5, z = 1. *)
Definition ln_x (i : nat) : Q := match i with 0%nat => 3 # 5 | 1%nat => 6 # 5 | _ => 1 end.
Lemma ln_solves : solves ln_x [ln_f1; ln_f2].
Proof. intros f [<-|[<-|[]]]; vm_compute; reflexivity. Qed.

(** x + y = 1, x + y = 2. *)
Definition lc_f1 := pol ODegLex 2 [([1;0]%nat, 1); ([0;1]%nat, 1); ([0;0]%nat, -1)].
Definition lc_f2 := pol ODegLex 2 [([1;0]%nat, 1); ([0;1]%nat, 1); ([0;0]%nat, -2)].
Definition lc_J0 : jpoly := got (jp_push_all false jp_empty [lc_f2; lc_f1]).
Definition lc_J : jpoly := got (jp_tq false 40 false lc_J0).
Lemma lc_in : Forall (ring_input TOP ODegLex 2) [lc_f2; lc_f1].
Proof. apply Forall_forall. intros a [<-|[<-|[]]]; ring_in. Qed.
Lemma lc_lin : Forall linear [lc_f1; lc_f2].
Proof. lin. Qed.
Lemma lc_history : jp_history false TOP ODegLex 2 [lc_f1; lc_f2] lc_J.
Proof.
  apply (hist_tq _ _ _ _ _ lc_J0 false 40); [|vm_compute; reflexivity].
  assert (H := history_push_all false TOP ODegLex 2 [lc_f2; lc_f1] [] jp_empty lc_J0 (hist_new _ _ _ _) lc_in). rewrite app_nil_r in H. apply H. vm_compute. reflexivity.
Qed.
Lemma lc_queue : jq lc_J = [].
Proof. vm_compute. reflexivity. Qed.
Lemma lc_constant : has_constant 2 (basis lc_J).
Proof. exists (pol ODegLex 2 [([0;0]%nat, 1)]), 1. split; [vm_compute; left; reflexivity|]. split; [lia|reflexivity]. Qed.

(** The variable z is free, x and y are determined. *)
Lemma ln_no_constant : ~ has_constant 3 (basis ln_J).
Proof. apply (c92_solvable TOP OLex 3 ltac:(lia) ltac:(discriminate) _ _ ln_history ln_lin ln_queue). exists ln_x. exact ln_solves. Qed.
Lemma ln_determined : determined 3 (basis ln_J) 0 /\ determined 3 (basis ln_J) 1 /\ ~ determined 3 (basis ln_J) 2.
Proof.
  rewrite ln_basis. split; [|split].
  - exists ln_h. split; [right; left; reflexivity|]. split; [reflexivity|]. intros [|[|[|j]]] Hj; try reflexivity; lia.
  - exists ln_g. split; [left; reflexivity|]. split; [reflexivity|]. intros [|[|[|j]]] Hj; try reflexivity; lia.
  - intros (g & [<-|[<-|[]]] & _ & V); specialize (V 2%nat ltac:(lia)); discriminate V.
Qed.
(** The prolongation of the first element by x is one the local test is about. *)
Lemma ln_nm : In ln_g (basis ln_J) /\ janet_nm (map lead (basis ln_J)) (lead ln_g) 0.
Proof.
  rewrite ln_basis. split; [left; reflexivity|]. exists (lead ln_h). split; [right; left; reflexivity|]. split; [intros j Hj; lia|]. unfold expo. cbn. lia.
Qed.
(** Three unknowns, three equations: z = 1 added. *)
Definition ls_f3 := pol OLex 3 [([0;0;1]%nat, 1); ([0;0;0]%nat, -1)].
Definition ls_J0 : jpoly := got (jp_push false ln_J ls_f3).
Definition ls_J : jpoly := got (jp_tq true 40 false ls_J0).
Lemma ls_lin : Forall linear [ls_f3; ln_f1; ln_f2].
Proof. constructor; [|exact ln_lin]. intros m c I; cbn in I; repeat (destruct I as [I|I]; [injection I as <- _; cbn; lia|]); destruct I. Qed.
Lemma ls_history : jp_history false TOP OLex 3 [ls_f3; ln_f1; ln_f2] ls_J.
Proof.
  apply (hist_tq _ _ _ _ _ ls_J0 true 40); [|vm_compute; reflexivity].
  apply (hist_push _ _ _ _ _ ln_J); [exact ln_history|ring_in|vm_compute; reflexivity].
Qed.
Lemma ls_queue : jq ls_J = [].
Proof. vm_compute. reflexivity. Qed.
Lemma ls_size : length (basis ls_J) = 3%nat.
Proof. vm_compute. reflexivity. Qed.
Lemma ls_solves : solves ln_x [ls_f3; ln_f1; ln_f2].
Proof. intros f [<-|[<-|[<-|[]]]]; vm_compute; reflexivity. Qed.
