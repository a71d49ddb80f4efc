(** Concrete runs of algorithmTQ, algorithmTQ1 and algorithmTQ2, used as witnesses. *)
From Coq Require Import ZArith List Bool Arith Lia.
From Verif Require Import Outcome MonomModel MonomSpec MonomProofs PolyModel PolySpec PolyProofs
  JanetModel JanetSpec JanetPolyModel TQModel JanetPolySpec IdealProofs JanetPolyProofs JanetPolyTop JanetPolyExamples.
Import ListNotations.
Local Open Scope Z_scope.

Definition run1 (fuel : nat) (dbg one : bool) (l : list poly) : outcome jpoly :=
  do J <- jp_push_all dbg jp_empty l; jp_tq one fuel dbg J.
Lemma run1_history fuel dbg one o n l J : Forall (ring_input TOP o n) l -> run1 fuel dbg one l = Ok J -> jp_history dbg TOP o n (rev l) J.
Proof.
  intros R E. unfold run1 in E. destruct (jp_push_all dbg jp_empty l) as [J0| | | |] eqn:E0; cbn [bind] in E; try discriminate.
  assert (H := history_push_all dbg TOP o n l [] jp_empty J0 (hist_new _ _ _ _) R E0). rewrite app_nil_r in H.
  eapply hist_tq; [exact H|exact E].
Qed.
Definition run2 (fuel : nat) (dbg : bool) (l : list poly) : outcome jpoly2 :=
  do J <- jp_push_all dbg jp_empty l; jp_tq2 fuel dbg J.
Lemma run2_history fuel dbg o n l J : Forall (ring_input TOP o n) l -> run2 fuel dbg l = Ok J ->
  exists J0, jp_history dbg TOP o n (rev l) J0 /\ jp_tq2 fuel dbg J0 = Ok J.
Proof.
  intros R E. unfold run2 in E. destruct (jp_push_all dbg jp_empty l) as [J0| | | |] eqn:E0; cbn [bind] in E; try discriminate.
  assert (H := history_push_all dbg TOP o n l [] jp_empty J0 (hist_new _ _ _ _) R E0). rewrite app_nil_r in H. exists J0. auto.
Qed.
Definition got (r : outcome jpoly) : jpoly := match r with Ok J => J | _ => jp_empty end.
Definition got2 (r : outcome jpoly2) : jpoly2 := match r with Ok J => J | _ => JP2 None [] 0 None end.

(** deglex, x > y: y^3 + 2, x y^2 + 2 x y, x y^2, by algorithmTQ1. *)
Definition t1_f1 := pol ODegLex 2 [([0;3]%nat, 1); ([0;0]%nat, 2)].
Definition t1_f2 := pol ODegLex 2 [([1;2]%nat, 1); ([1;1]%nat, 2)].
Definition t1_f3 := pol ODegLex 2 [([1;2]%nat, 1)].
(** x * t1_f1 *)
Definition t1_f4 := pol ODegLex 2 [([1;3]%nat, 1); ([1;0]%nat, 2)].
Lemma t1_in : Forall (ring_input TOP ODegLex 2) [t1_f1; t1_f2; t1_f3].
Proof. repeat constructor; cbn; try lia; try discriminate. Qed.
Definition t1_J : jpoly := got (run1 30 false true [t1_f1; t1_f2; t1_f3]).
Lemma t1_run : run1 30 false true [t1_f1; t1_f2; t1_f3] = Ok t1_J.
Proof. vm_compute. reflexivity. Qed.
Lemma tq1_incomplete : exists (F : list poly) (J0 J : jpoly) (a r : poly),
  jp_history false TOP ODegLex 2 F J0 /\ jp_tq true 30 false J0 = Ok J /\ ring_input TOP ODegLex 2 a /\
  rational_member 2 (among F) (terms a) /\ (exists fuel, jp_nf fuel false J a = Ok r) /\ terms r <> [].
Proof.
  exists [t1_f3; t1_f2; t1_f1], (got (jp_push_all false jp_empty [t1_f1; t1_f2; t1_f3])), t1_J, t1_f4. eexists.
  split; [apply (history_push_all false TOP ODegLex 2 [t1_f1; t1_f2; t1_f3] [] jp_empty _ (hist_new _ _ _ _) t1_in); vm_compute; reflexivity|].
  split; [vm_compute; reflexivity|]. split; [repeat constructor; cbn; try lia; try discriminate|]. split.
  - change (terms t1_f4) with (shift [1;0]%nat (terms t1_f1)). apply mem_shift; [reflexivity|].
    apply (mem_among TOP ODegLex 2); [|right; right; left; reflexivity]. assert (H := t1_in). rewrite Forall_forall in H. apply H. left. reflexivity.
  - split; [exists 30%nat; vm_compute; reflexivity|discriminate].
Qed.

(** lex, x > y: x^2 and y^3, by algorithmTQ. *)
Lemma tq_incomplete_lex : exists (F : list poly) (J0 J : jpoly) (a r : poly),
  jp_history false TOP OLex 2 F J0 /\ jp_tq false 30 false J0 = Ok J /\ ring_input TOP OLex 2 a /\
  rational_member 2 (among F) (terms a) /\ (exists fuel, jp_nf fuel false J a = Ok r) /\ terms r <> [].
Proof.
  exists [lx_f2; lx_f1], (got (jp_push_all false jp_empty [lx_f1; lx_f2])), (got (run1 30 false false [lx_f1; lx_f2])), lx_f3. eexists.
  split; [apply (history_push_all false TOP OLex 2 [lx_f1; lx_f2] [] jp_empty _ (hist_new _ _ _ _) lx_in); vm_compute; reflexivity|].
  split; [vm_compute; reflexivity|]. split; [apply lx_incomplete|]. split; [apply lx_incomplete|].
  split; [exists 30%nat; vm_compute; reflexivity|discriminate].
Qed.

(** deglex, x > y: y^3 + 1, then algorithmTQ, then x y + y^2, then algorithmTQ again. *)
Definition t0_f1 := pol ODegLex 2 [([0;3]%nat, 1); ([0;0]%nat, 1)].
Definition t0_f2 := pol ODegLex 2 [([1;1]%nat, 1); ([0;2]%nat, 1)].
Definition t0_f3 := pol ODegLex 2 [([1;3]%nat, 1); ([1;0]%nat, 1)].
Lemma t0_in : Forall (ring_input TOP ODegLex 2) [t0_f1; t0_f2].
Proof. apply Forall_forall. intros a [<-|[<-|[]]]; ring_in. Qed.
Definition t0_J0 : jpoly := got (run1 30 false false [t0_f1]).
Definition t0_J1 : jpoly := got (jp_push false t0_J0 t0_f2).
Definition t0_J : jpoly := got (jp_tq false 30 false t0_J1).
Lemma t0_history : jp_history false TOP ODegLex 2 [t0_f2; t0_f1] t0_J1.
Proof.
  assert (H := t0_in). eapply (hist_push _ _ _ _ _ t0_J0); [|exact (Forall_inv (Forall_inv_tail H))|vm_compute; reflexivity].
  apply (run1_history 30 false false ODegLex 2 [t0_f1]); [constructor; [exact (Forall_inv H)|constructor]|vm_compute; reflexivity].
Qed.
Lemma tq_incomplete : exists (F : list poly) (J0 J : jpoly) (a r : poly),
  jp_history false TOP ODegLex 2 F J0 /\ jp_tq false 30 false J0 = Ok J /\ ring_input TOP ODegLex 2 a /\
  rational_member 2 (among F) (terms a) /\ (exists fuel, jp_nf fuel false J a = Ok r) /\ terms r <> [].
Proof.
  exists [t0_f2; t0_f1], t0_J1, t0_J, t0_f3. eexists. split; [exact t0_history|]. split; [vm_compute; reflexivity|].
  split; [repeat constructor; cbn; try lia; try discriminate|]. split.
  - change (terms t0_f3) with (shift [1;0]%nat (terms t0_f1)). apply mem_shift; [reflexivity|].
    apply (mem_among TOP ODegLex 2); [|right; left; reflexivity]. exact (Forall_inv t0_in).
  - split; [exists 30%nat; vm_compute; reflexivity|discriminate].
Qed.

(** algorithmTQ2: x y^2 + x and x y + 1 give two elements with leading monomial y^2. *)
Definition t2_f1 := pol ODegLex 2 [([1;2]%nat, 1); ([1;0]%nat, 1)].
Definition t2_f2 := pol ODegLex 2 [([1;1]%nat, 1); ([0;0]%nat, 1)].
Lemma t2_in : Forall (ring_input TOP ODegLex 2) [t2_f1; t2_f2].
Proof. repeat constructor; cbn; try lia; try discriminate. Qed.
Definition t2_J0 : jpoly := got (jp_push_all false jp_empty [t2_f1; t2_f2]).
Definition t2_J : jpoly2 := got2 (jp_tq2 30 false t2_J0).
Lemma t2_history : jp_history false TOP ODegLex 2 [t2_f2; t2_f1] t2_J0.
Proof. apply (history_push_all false TOP ODegLex 2 [t2_f1; t2_f2] [] jp_empty _ (hist_new _ _ _ _) t2_in). vm_compute. reflexivity. Qed.
Lemma tq2_duplicates : exists (F : list poly) (J0 : jpoly) (J : jpoly2),
  jp_history false TOP ODegLex 2 F J0 /\ jp_tq2 30 false J0 = Ok J /\ ~ NoDup (map lead (basis2 J)).
Proof.
  exists [t2_f2; t2_f1], t2_J0, t2_J. split; [exact t2_history|]. split; [vm_compute; reflexivity|].
  assert (E : map lead (basis2 t2_J) = [[1;0]; [0;2]; [0;2]]%nat) by (vm_compute; reflexivity). rewrite E.
  intro X. inversion X as [|x l _ Y]. subst. inversion Y as [|x l Z _]. subst. apply Z. left. reflexivity.
Qed.

(** algorithmTQ2: y + 1 and x^2 y + 1 give a basis element whose normal form is not 0. *)
Definition t3_f1 := pol ODegLex 2 [([0;1]%nat, 1); ([0;0]%nat, 1)].
Definition t3_f2 := pol ODegLex 2 [([2;1]%nat, 1); ([0;0]%nat, 1)].
(** x y + x *)
Definition t3_f3 := pol ODegLex 2 [([1;1]%nat, 1); ([1;0]%nat, 1)].
Lemma t3_in : Forall (ring_input TOP ODegLex 2) [t3_f1; t3_f2].
Proof. repeat constructor; cbn; try lia; try discriminate. Qed.
Definition t3_J0 : jpoly := got (jp_push_all false jp_empty [t3_f1; t3_f2]).
Definition t3_J : jpoly2 := got2 (jp_tq2 30 false t3_J0).
Lemma t3_history : jp_history false TOP ODegLex 2 [t3_f2; t3_f1] t3_J0.
Proof. apply (history_push_all false TOP ODegLex 2 [t3_f1; t3_f2] [] jp_empty _ (hist_new _ _ _ _) t3_in). vm_compute. reflexivity. Qed.
Lemma tq2_self : exists (F : list poly) (J0 : jpoly) (J : jpoly2) (g r : poly),
  jp_history false TOP ODegLex 2 F J0 /\ jp_tq2 30 false J0 = Ok J /\ In g (basis2 J) /\ (exists fuel, jp2_nf fuel false J g = Ok r) /\ terms r <> [].
Proof.
  exists [t3_f2; t3_f1], t3_J0, t3_J, t3_f3, t3_f3. split; [exact t3_history|]. split; [vm_compute; reflexivity|].
  assert (E : nth_error (basis2 t3_J) 1 = Some t3_f3) by (vm_compute; reflexivity). split; [exact (nth_error_In _ _ E)|].
  split; [exists 30%nat; vm_compute; reflexivity|discriminate].
Qed.

(** Debug build: asserts of algorithmTQ and algorithmTQ1 fail. *)
Lemma tq_asserts : exists (F : list poly) (J : jpoly), jp_history true TOP ODegLex 2 F J /\
  forall one, jp_tq one 30 true J = AssertFail /\ exists J', jp_tq one 30 false J = Ok J'.
Proof.
  exists [as_f2; as_f1], (got (jp_push_all true jp_empty [as_f1; as_f2])).
  split; [apply (history_push_all true TOP ODegLex 2 [as_f1; as_f2] [] jp_empty _ (hist_new _ _ _ _) as_in); vm_compute; reflexivity|].
  intros [|]; (split; [vm_compute; reflexivity|eexists; vm_compute; reflexivity]).
Qed.
