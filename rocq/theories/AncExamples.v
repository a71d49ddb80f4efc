(** Concrete objects for the ancestors and flags. *)
From Coq Require Import ZArith List Bool Arith Lia.
From Verif Require Import Outcome MonomModel MonomSpec MonomProofs PolyModel PolySpec PolyProofs PolyNfProofs
  JanetModel JanetSpec JanetPolyModel TQModel JanetPolySpec IdealProofs JanetPolyProofs JanetPolyTop JanetPolyExamples
  TQExamples InvolutiveTop InvolutiveExamples CyMonomModel CyJanetModel.
Import ListNotations.
Local Open Scope Z_scope.

Definition shown (J : jpoly) : list wpoly := match cj_iter J with Ok (Ret ws) => ws | _ => [] end.

(** x^2, y^2, y^3 and x in deglex *)
Definition an_x2 := pol ODegLex 2 [([2;0]%nat, 1)].
Definition an_y2 := pol ODegLex 2 [([0;2]%nat, 1)].
Definition an_y3 := pol ODegLex 2 [([0;3]%nat, 1)].
Definition an_x := pol ODegLex 2 [([1;0]%nat, 1)].
Lemma an_in : Forall (ring_input TOP ODegLex 2) [an_x2; an_y2; an_y3; an_x].
Proof. repeat constructor; cbn; try lia; try discriminate. Qed.
Lemma an_ring a : In a [an_x2; an_y2; an_y3; an_x] -> ring_input TOP ODegLex 2 a.
Proof. intro I. assert (H := an_in). rewrite Forall_forall in H. apply H. exact I. Qed.

(** x^2 and y^2: x y^2 comes in as a prolongation. *)
Definition an_J0 : jpoly := got (jp_push_all false jp_empty [an_x2; an_y2]).
Definition an_J : jpoly := got (jp_build 40 false an_J0).
Lemma an_history : jp_history false TOP ODegLex 2 [an_y2; an_x2] an_J.
Proof.
  apply (hist_build _ _ _ _ _ an_J0 40); [|vm_compute; reflexivity].
  assert (H := history_push_all false TOP ODegLex 2 [an_x2; an_y2] [] jp_empty an_J0 (hist_new _ _ _ _)). rewrite app_nil_r in H. apply H; [|vm_compute; reflexivity].
  apply Forall_forall. intros a Ia. apply an_ring. cbn [In] in *. tauto.
Qed.
Lemma an_local : passes_local_test TOP ODegLex 2 an_J.
Proof. eapply (test_ok TOP ODegLex 2 40); [lia|discriminate|exact an_history|]. vm_compute. reflexivity. Qed.
Lemma an_iter : cj_iter an_J = Ok (Ret (shown an_J)).
Proof. vm_compute. reflexivity. Qed.
Lemma an_shown : map (fun w => (vars (cw_lm w), vars (cw_ansector w), cw_isGB w)) (shown an_J) =
  [([0;2], [0;2], true); ([2;0], [2;0], true); ([1;2], [0;2], false)]%nat.
Proof. vm_compute. reflexivity. Qed.

(** x^2 first, then x. *)
Definition an_K1 : jpoly := got (jp_build 40 false (got (jp_push false jp_empty an_x2))).
Definition an_K : jpoly := got (jp_build 40 false (got (jp_push false an_K1 an_x))).
Lemma an_khistory : jp_history false TOP ODegLex 2 [an_x; an_x2] an_K.
Proof.
  apply (hist_build _ _ _ _ _ (got (jp_push false an_K1 an_x)) 40); [|vm_compute; reflexivity].
  apply (hist_push _ _ _ _ _ an_K1); [|apply an_ring; cbn [In]; tauto|vm_compute; reflexivity].
  apply (hist_build _ _ _ _ _ (got (jp_push false jp_empty an_x2)) 40); [|vm_compute; reflexivity].
  apply (hist_push _ _ _ _ _ jp_empty); [constructor|apply an_ring; cbn [In]; tauto|vm_compute; reflexivity].
Qed.
(** y^3 first, then x^2. *)
Definition an_L1 : jpoly := got (jp_build 40 false (got (jp_push false jp_empty an_y3))).
Definition an_L : jpoly := got (jp_build 40 false (got (jp_push false an_L1 an_x2))).
Lemma an_lhistory : jp_history false TOP ODegLex 2 [an_x2; an_y3] an_L.
Proof.
  apply (hist_build _ _ _ _ _ (got (jp_push false an_L1 an_x2)) 40); [|vm_compute; reflexivity].
  apply (hist_push _ _ _ _ _ an_L1); [|apply an_ring; cbn [In]; tauto|vm_compute; reflexivity].
  apply (hist_build _ _ _ _ _ (got (jp_push false jp_empty an_y3)) 40); [|vm_compute; reflexivity].
  apply (hist_push _ _ _ _ _ jp_empty); [constructor|apply an_ring; cbn [In]; tauto|vm_compute; reflexivity].
Qed.
Lemma an_minimal : exists F J ws w w', jp_history false TOP ODegLex 2 F J /\ jq J = [] /\ cj_iter J = Ok (Ret ws) /\ In w ws /\ In w' ws /\
  cw_isGB w = true /\ cw_isGB w' = true /\ lead (cw_poly w) <> lead (cw_poly w') /\ divides 2 (lead (cw_poly w)) (lead (cw_poly w')).
Proof.
  do 5 eexists. split; [exact an_khistory|]. split; [vm_compute; reflexivity|]. split; [vm_compute; reflexivity|].
  split; [left; reflexivity|]. split; [right; left; reflexivity|]. split; [reflexivity|]. split; [reflexivity|]. split; [discriminate|].
  intros [|[|i]] Hi; [| |lia]; unfold expo; cbn; lia.
Qed.
Lemma an_built : exists F J ws w, jp_history false TOP ODegLex 2 F J /\ jq J = [] /\ cj_iter J = Ok (Ret ws) /\ In w ws /\
  cw_NM false w 0 = Ok (Ret true) /\ cw_build false w 0 = Ok (Ret false).
Proof.
  do 4 eexists. split; [exact an_lhistory|]. split; [vm_compute; reflexivity|]. split; [vm_compute; reflexivity|].
  split; [right; left; reflexivity|]. split; reflexivity.
Qed.
