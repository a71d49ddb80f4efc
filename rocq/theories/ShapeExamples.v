(** Concrete runs for the order, the coefficients and the tails of a basis. *)
From Coq Require Import ZArith List Bool Arith Lia Sorted.
From Verif Require Import Outcome MonomModel MonomSpec MonomProofs PolyModel PolySpec PolyProofs
  JanetModel JanetSpec JanetPolyModel TQModel JanetPolySpec IdealProofs JanetPolyProofs JanetPolyTop JanetPolyExamples TQExamples ShapeSpec.
Import ListNotations.
Local Open Scope Z_scope.

(** lex, x > y: x + y^2 and 3 y; build leaves y^2 in the tail. *)
Definition sh_f1 := pol OLex 2 [([1;0]%nat, 1); ([0;2]%nat, 1)].
Definition sh_f2 := pol OLex 2 [([0;1]%nat, 3)].
Lemma sh_in : Forall (ring_input TOP OLex 2) [sh_f1; sh_f2].
Proof. apply Forall_forall. intros a [<-|[<-|[]]]; ring_in. Qed.
Definition sh_J0 : jpoly := got (jp_push_all false jp_empty [sh_f1; sh_f2]).
Definition sh_J : jpoly := got (jp_build 20 false sh_J0).
Lemma sh_history : jp_history false TOP OLex 2 [sh_f2; sh_f1] sh_J0.
Proof. apply (history_push_all false TOP OLex 2 [sh_f1; sh_f2] [] jp_empty _ (hist_new _ _ _ _) sh_in). vm_compute. reflexivity. Qed.
Lemma sh_build : jp_build 20 false sh_J0 = Ok sh_J.
Proof. vm_compute. reflexivity. Qed.
Lemma sh_lex : exists (F : list poly) (J0 J : jpoly),
  jp_history false TOP OLex 2 F J0 /\ basis J0 = [] /\ jp_build 20 false J0 = Ok J /\ ~ tails_reduced 2 (basis J).
Proof.
  exists [sh_f2; sh_f1], sh_J0, sh_J. split; [exact sh_history|]. split; [vm_compute; reflexivity|]. split; [exact sh_build|].
  intro H. refine (H sh_f1 (Mon (-1) [0;2]%nat) 1 [0;1]%nat _ _ _).
  - vm_compute. right. left. reflexivity.
  - left. reflexivity.
  - replace (map lead (basis sh_J)) with [[0;1];[1;0]]%nat by (vm_compute; reflexivity). split; [left; reflexivity|]. split.
    + intros [|[|i]] Hi; cbn; lia.
    + intros [|[|i]] Hi L; cbn in L; try lia. intros (w & [<-|[<-|[]]] & A & B); [cbn in B; lia|]. specialize (A 0%nat ltac:(lia)). cbn in A. discriminate.
Qed.

(** 2 x: algorithmTQ and algorithmTQ1 keep the factor 2. *)
Definition sh_g := pol ODegLex 2 [([1;0]%nat, 2)].
Definition sh_K0 : jpoly := got (jp_push_all false jp_empty [sh_g]).
Lemma sh_K_history : jp_history false TOP ODegLex 2 [sh_g] sh_K0.
Proof. apply (history_push_all false TOP ODegLex 2 [sh_g] [] jp_empty _ (hist_new _ _ _ _)); [apply Forall_forall; intros a [<-|[]]; ring_in|]. vm_compute. reflexivity. Qed.
Lemma sh_content : exists (F : list poly) (J0 : jpoly), jp_history false TOP ODegLex 2 F J0 /\ basis J0 = [] /\
  forall one, exists J, jp_tq one 20 false J0 = Ok J /\ ~ all_primitive (basis J).
Proof.
  exists [sh_g], sh_K0. split; [exact sh_K_history|]. split; [vm_compute; reflexivity|]. intro one. exists (got (jp_tq one 20 false sh_K0)).
  split; [destruct one; vm_compute; reflexivity|]. intro H.
  assert (Ib : In sh_g (basis (got (jp_tq one 20 false sh_K0)))) by (destruct one; vm_compute; left; reflexivity).
  destruct (H sh_g Ib 2) as [X|X]; [|discriminate|discriminate]. intro m. unfold sh_g. change (terms (pol ODegLex 2 [([1;0]%nat, 2)])) with [(Mon (-1) [1;0]%nat, 2)].
  cbn [coef]. destruct (monom_eq_dec _ _); [exists 1|exists 0]; reflexivity.
Qed.

(** deglex, x > y: 2 x^2 + 2 y^2 and 3 x y + 6; build, algorithmTQ1. *)
Definition sh_h1 := pol ODegLex 2 [([2;0]%nat, 2); ([0;2]%nat, 2)].
Definition sh_h2 := pol ODegLex 2 [([1;1]%nat, 3); ([0;0]%nat, 6)].
Lemma sh_h_in : Forall (ring_input TOP ODegLex 2) [sh_h1; sh_h2].
Proof. apply Forall_forall. intros a [<-|[<-|[]]]; ring_in. Qed.
Definition sh_H0 : jpoly := got (jp_push_all false jp_empty [sh_h1; sh_h2]).
Definition sh_H : jpoly := got (jp_build 40 false sh_H0).
Lemma sh_H_history : jp_history false TOP ODegLex 2 [sh_h2; sh_h1] sh_H0.
Proof. apply (history_push_all false TOP ODegLex 2 [sh_h1; sh_h2] [] jp_empty _ (hist_new _ _ _ _) sh_h_in). vm_compute. reflexivity. Qed.
Lemma sh_H_build : jp_build 40 false sh_H0 = Ok sh_H.
Proof. vm_compute. reflexivity. Qed.
Lemma sh_negative : exists (F : list poly) (J0 J : jpoly) (g : poly), jp_history false TOP ODegLex 2 F J0 /\ basis J0 = [] /\
  (forall f, In f F -> 0 < snd (List.hd (Mon 0 [], 0) (terms f))) /\ jp_build 40 false J0 = Ok J /\ In g (basis J) /\ snd (List.hd (Mon 0 [], 0) (terms g)) < 0.
Proof.
  exists [sh_h2; sh_h1], sh_H0, sh_H, (pol ODegLex 2 [([0;3]%nat, -1); ([1;0]%nat, 2)]). split; [exact sh_H_history|]. split; [vm_compute; reflexivity|].
  split; [intros f [<-|[<-|[]]]; vm_compute; reflexivity|]. split; [exact sh_H_build|]. split; [vm_compute; right; right; left; reflexivity|vm_compute; reflexivity].
Qed.
