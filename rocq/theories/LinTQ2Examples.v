(** The linear systems of LinExamples.v after algorithmTQ2; a case in which it loses the greatest common divisor. *)
From Coq Require Import ZArith QArith List Bool Arith Lia.
From Verif Require Import Outcome MonomModel MonomSpec MonomProofs PolyModel PolySpec PolyProofs PolyNfProofs
  JanetModel JanetSpec JanetPolyModel TQModel JanetPolySpec JanetPolyTop JanetPolyExamples TQExamples InvolutiveTop InvolutiveExamples NormalSpec LinSpec LinEval LinTop LinSol LinExamples
  UnivSpec TQ2HPSpec UnivTQ2Spec TQ2InvExamples LinSolTQ2.
Import ListNotations.
Local Open Scope Z_scope.

Definition got2 (r : outcome jpoly2) : jpoly2 := match r with Ok J => J | _ => JP2 None [] 0 None end.
Definition ln_J2 : jpoly2 := got2 (jp_tq2 40 false ln_J0).
Lemma ln2_run : jp_tq2 40 false ln_J0 = Ok ln_J2.
Proof. vm_compute. reflexivity. Qed.
Lemma ln2_basis : basis2 ln_J2 = [ln_g; ln_h].
Proof. vm_compute. reflexivity. Qed.
Lemma ln2_no_constant : ~ has_constant 3 (basis2 ln_J2).
Proof. apply (c92_tq2_solvable TOP OLex 3 ltac:(lia) ltac:(discriminate) _ _ 40 _ ln_start ln2_run ln_lin). exists ln_x. exact ln_solves. Qed.
Lemma ln2_nm : In ln_g (basis2 ln_J2) /\ janet_nm (map lead (basis2 ln_J2)) (lead ln_g) 0.
Proof. rewrite ln2_basis, <- ln_basis. exact ln_nm. Qed.

Lemma lc_start : jp_history false TOP ODegLex 2 [lc_f1; lc_f2] lc_J0.
Proof. assert (H := history_push_all false TOP ODegLex 2 [lc_f2; lc_f1] [] jp_empty lc_J0 (hist_new _ _ _ _) lc_in). rewrite app_nil_r in H. apply H. vm_compute. reflexivity. Qed.
Definition lc_J2 : jpoly2 := got2 (jp_tq2 40 false lc_J0).
Lemma lc2_run : jp_tq2 40 false lc_J0 = Ok lc_J2.
Proof. vm_compute. reflexivity. Qed.
Lemma lc2_constant : has_constant 2 (basis2 lc_J2).
Proof. exists (pol ODegLex 2 [([0;0]%nat, 1)]), 1. split; [vm_compute; left; reflexivity|]. split; [lia|reflexivity]. Qed.

(** x^5 + 3 x^4, x^5 + 3 x^4 + x^2 + 3 x and x^5 + 3 x^4 + x^3 + 1 have no common zero; the first element left is x^2 + 3 x. *)
Definition g2_a := pol ODegLex 1 [([5]%nat, 1); ([4]%nat, 3)].
Definition g2_b := pol ODegLex 1 [([5]%nat, 1); ([4]%nat, 3); ([2]%nat, 1); ([1]%nat, 3)].
Definition g2_c := pol ODegLex 1 [([5]%nat, 1); ([4]%nat, 3); ([3]%nat, 1); ([0]%nat, 1)].
Definition g2_g := pol ODegLex 1 [([2]%nat, 1); ([1]%nat, 3)].
Definition g2_J0 : jpoly := got (jp_push_all false jp_empty [g2_c; g2_b; g2_a]).
Definition g2_J2 : jpoly2 := got2 (jp_tq2 60 false g2_J0).
Lemma g2_in : Forall (ring_input TOP ODegLex 1) [g2_c; g2_b; g2_a].
Proof. apply Forall_forall. intros a [<-|[<-|[<-|[]]]]; ring_in. Qed.
Lemma g2_history : jp_history false TOP ODegLex 1 [g2_a; g2_b; g2_c] g2_J0.
Proof. assert (H := history_push_all false TOP ODegLex 1 [g2_c; g2_b; g2_a] [] jp_empty g2_J0 (hist_new _ _ _ _) g2_in). rewrite app_nil_r in H. apply H. vm_compute. reflexivity. Qed.
Lemma g2_run : jp_tq2 60 false g2_J0 = Ok g2_J2.
Proof. vm_compute. reflexivity. Qed.
Lemma g2_first : first_of (basis2 g2_J2) g2_g.
Proof. exists (tl (basis2 g2_J2)). split; [vm_compute; reflexivity|]. intros b Ib. vm_compute in Ib. destruct Ib as [<-|[]]. vm_compute. lia. Qed.
Lemma g2_not : ~ is_gcd TOP ODegLex [g2_a; g2_b; g2_c] g2_g.
Proof.
  intros [M _]. specialize (M g2_c ltac:(right; right; left; reflexivity)).
  assert (X : (value_at (fun _ => 0%Q) (terms g2_c) == 0)%Q); [|vm_compute in X; discriminate].
  apply (value_member 1 _ [g2_g]); [|intros f [<-|[]]; vm_compute; reflexivity|exact M].
  constructor; [|constructor]. repeat constructor; cbn; lia.
Qed.
Lemma g2_gcd : exists (F : list poly) (J : jpoly) (fuel : nat) (J2 : jpoly2) (g : poly), jp_history false TOP ODegLex 1 F J /\ jp_tq2 fuel false J = Ok J2 /\
  first_of (basis2 J2) g /\ ~ is_gcd TOP ODegLex F g.
Proof. exists [g2_a; g2_b; g2_c], g2_J0, 60%nat, g2_J2, g2_g. exact (conj g2_history (conj g2_run (conj g2_first g2_not))). Qed.

(** x^2 - 1 and x^3 - 1. *)
Definition g3_a := pol ODegLex 1 [([2]%nat, 1); ([0]%nat, -1)].
Definition g3_b := pol ODegLex 1 [([3]%nat, 1); ([0]%nat, -1)].
Definition g3_g := pol ODegLex 1 [([1]%nat, 1); ([0]%nat, -1)].
Definition g3_J0 : jpoly := got (jp_push_all false jp_empty [g3_b; g3_a]).
Definition g3_J2 : jpoly2 := got2 (jp_tq2 60 false g3_J0).
Lemma g3_in : Forall (ring_input TOP ODegLex 1) [g3_b; g3_a].
Proof. apply Forall_forall. intros a [<-|[<-|[]]]; ring_in. Qed.
Lemma g3_history : jp_history false TOP ODegLex 1 [g3_a; g3_b] g3_J0.
Proof. assert (H := history_push_all false TOP ODegLex 1 [g3_b; g3_a] [] jp_empty g3_J0 (hist_new _ _ _ _) g3_in). rewrite app_nil_r in H. apply H. vm_compute. reflexivity. Qed.
Lemma g3_run : jp_tq2 60 false g3_J0 = Ok g3_J2.
Proof. vm_compute. reflexivity. Qed.
Lemma g3_trees : all_in_trees g3_J2.
Proof. intros x Ix. vm_compute in Ix. destruct Ix as [<-|[<-|[]]]; eauto. Qed.
Lemma g3_local : passes_local_test2 TOP ODegLex 1 g3_J2.
Proof. apply (test2_ok TOP ODegLex 1 30 _ g3_J0 60 g3_J2 ltac:(lia) ltac:(discriminate) g3_history g3_run). vm_compute. reflexivity. Qed.
Lemma g3_least : least_of (basis2 g3_J2) g3_g.
Proof. split; [vm_compute; left; reflexivity|]. intros b Ib. vm_compute in Ib. destruct Ib as [<-|[<-|[]]]; vm_compute; lia. Qed.

(** x - 1 and 2 x - 2. *)
Definition g4_a := pol ODegLex 1 [([1]%nat, 1); ([0]%nat, -1)].
Definition g4_b := pol ODegLex 1 [([1]%nat, 2); ([0]%nat, -2)].
Definition g4_J0 : jpoly := got (jp_push_all false jp_empty [g4_b; g4_a]).
Definition g4_J2 : jpoly2 := got2 (jp_tq2 60 false g4_J0).
Lemma g4_in : Forall (ring_input TOP ODegLex 1) [g4_b; g4_a].
Proof. apply Forall_forall. intros a [<-|[<-|[]]]; ring_in. Qed.
Lemma g4_history : jp_history false TOP ODegLex 1 [g4_a; g4_b] g4_J0.
Proof. assert (H := history_push_all false TOP ODegLex 1 [g4_b; g4_a] [] jp_empty g4_J0 (hist_new _ _ _ _) g4_in). rewrite app_nil_r in H. apply H. vm_compute. reflexivity. Qed.
Lemma g4_run : jp_tq2 60 false g4_J0 = Ok g4_J2.
Proof. vm_compute. reflexivity. Qed.
