(** Concrete completions in one variable. *)
From Coq Require Import ZArith List Bool Arith Lia.
From Verif Require Import Outcome MonomModel MonomSpec MonomProofs PolyModel PolySpec PolyProofs PolyNfProofs
  JanetModel JanetSpec JanetPolyModel TQModel JanetPolySpec IdealProofs JanetPolyProofs JanetPolyTop JanetPolyExamples
  TQExamples InvolutiveTop InvolutiveExamples NormalSpec NormalTop UnivSpec UnivTop.
Import ListNotations.
Local Open Scope Z_scope.

(** lex: x^2 - 3 x + 2 = (x - 1)(x - 2) and 2 x^3 + 4 x^2 - 6 x = 2 x (x - 1)(x + 3). *)
Definition uv_f1 := pol OLex 1 [([2]%nat, 1); ([1]%nat, -3); ([0]%nat, 2)].
Definition uv_f2 := pol OLex 1 [([3]%nat, 2); ([2]%nat, 4); ([1]%nat, -6)].
Definition uv_g := pol OLex 1 [([1]%nat, 1); ([0]%nat, -1)].
Definition uv_h := pol OLex 1 [([2]%nat, 1); ([0]%nat, -1)].
Lemma uv_in : Forall (ring_input TOP OLex 1) [uv_f2; uv_f1].
Proof. apply Forall_forall. intros a [<-|[<-|[]]]; ring_in. Qed.
Lemma uv_gh : ring_input TOP OLex 1 uv_g /\ ring_input TOP OLex 1 uv_h.
Proof. split; ring_in. Qed.
Definition uv_J0 : jpoly := got (jp_push_all false jp_empty [uv_f2; uv_f1]).
Definition uv_J : jpoly := got (jp_build 40 false uv_J0).
Lemma uv_start : jp_history false TOP OLex 1 [uv_f1; uv_f2] uv_J0.
Proof.
  assert (H := history_push_all false TOP OLex 1 [uv_f2; uv_f1] [] jp_empty uv_J0 (hist_new _ _ _ _) uv_in). rewrite app_nil_r in H. apply H. vm_compute. reflexivity.
Qed.
Lemma uv_history : jp_history false TOP OLex 1 [uv_f1; uv_f2] uv_J.
Proof. apply (hist_build _ _ _ _ _ uv_J0 40); [exact uv_start|vm_compute; reflexivity]. Qed.
Lemma uv_queue : jq uv_J = [].
Proof. vm_compute. reflexivity. Qed.
Lemma uv_basis : basis uv_J = [uv_g; uv_h].
Proof. vm_compute. reflexivity. Qed.
Lemma uv_first : first_of (basis uv_J) uv_g.
Proof. rewrite uv_basis. exists [uv_h]. split; [reflexivity|]. intros b [<-|[]]. unfold expo. cbn. lia. Qed.
Lemma uv_gcd : is_gcd TOP OLex [uv_f1; uv_f2] uv_g.
Proof. apply (c83_gcd TOP OLex ltac:(discriminate) _ _ _ uv_history uv_queue uv_first). Qed.
(** The prolongation of x - 1 is not multiplicative, so the local test is about something. *)
Lemma uv_nm : In uv_g (basis uv_J) /\ janet_nm (map lead (basis uv_J)) (lead uv_g) 0.
Proof.
  rewrite uv_basis. split; [left; reflexivity|]. exists (lead uv_h). split; [right; left; reflexivity|]. split; [intros j Hj; lia|]. unfold expo. cbn. lia.
Qed.
(** x^2 - 1 is in the ideal, x + 1 is not. *)
Definition uv_a := pol OLex 1 [([1]%nat, 1); ([0]%nat, 1)].
Lemma uv_member : exists r, jp_nf 40 false uv_J uv_a = Ok r /\ terms r <> [].
Proof. eexists. split; [vm_compute; reflexivity|]. discriminate. Qed.
Lemma uv_a_in : ring_input TOP OLex 1 uv_a.
Proof. ring_in. Qed.
Lemma uv_not_member : ~ rational_member 1 (among [uv_f1; uv_f2]) (terms uv_a).
Proof.
  destruct (c83_membership TOP OLex ltac:(discriminate) _ _ uv_a uv_history uv_queue uv_a_in) as (N & r & E & Z). intro M. apply Z in M.
  assert (X := E (N + 40)%nat ltac:(lia)). destruct uv_member as (r' & Er & Nr).
  apply Nr. apply (c82_zero TOP OLex 1 ltac:(lia) ltac:(discriminate) _ _ uv_a 40 r' uv_history uv_a_in Er).
  apply (c82_zero TOP OLex 1 ltac:(lia) ltac:(discriminate) _ _ uv_a _ r uv_history uv_a_in X). exact M.
Qed.
(** x - 1 and x - 2 generate everything. *)
Definition uv_c1 := pol ODegLex 1 [([1]%nat, 1); ([0]%nat, -1)].
Definition uv_c2 := pol ODegLex 1 [([1]%nat, 1); ([0]%nat, -2)].
Lemma uv_cin : Forall (ring_input TOP ODegLex 1) [uv_c2; uv_c1].
Proof. apply Forall_forall. intros a [<-|[<-|[]]]; ring_in. Qed.
Definition uv_K0 : jpoly := got (jp_push_all false jp_empty [uv_c2; uv_c1]).
Definition uv_K : jpoly := got (jp_tq false 40 false uv_K0).
Lemma uv_khistory : jp_history false TOP ODegLex 1 [uv_c1; uv_c2] uv_K.
Proof.
  apply (hist_tq _ _ _ _ _ uv_K0 false 40); [|vm_compute; reflexivity].
  assert (H := history_push_all false TOP ODegLex 1 [uv_c2; uv_c1] [] jp_empty uv_K0 (hist_new _ _ _ _) uv_cin). rewrite app_nil_r in H. apply H. vm_compute. reflexivity.
Qed.
Lemma uv_kqueue : jq uv_K = [].
Proof. vm_compute. reflexivity. Qed.
Lemma uv_constant : rational_member 1 (among [uv_c1; uv_c2]) (one 1).
Proof.
  apply (c83_constant TOP ODegLex ltac:(discriminate) _ _ uv_khistory uv_kqueue). eexists _, _. split; [left; reflexivity|]. split; [|vm_compute; reflexivity]. discriminate.
Qed.
