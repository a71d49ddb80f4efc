(** A system of homogeneous polynomials for which build, algorithmTQ and algorithmTQ1 give an incomplete basis. *)
From Coq Require Import ZArith List Bool Arith Lia.
From Verif Require Import Outcome MonomModel MonomSpec MonomProofs PolyModel PolySpec PolyProofs
  JanetModel JanetSpec JanetPolyModel TQModel JanetPolySpec IdealProofs JanetPolyProofs HomogSpec JanetPolyTop JanetPolyExamples TQExamples.
Import ListNotations.
Local Open Scope Z_scope.

(** deglex, x > y > z > w: x z + w^2, y^2 z, x^2 y. *)
Definition hg_f1 := pol ODegLex 4 [([1;0;1;0]%nat, 1); ([0;0;0;2]%nat, 1)].
Definition hg_f2 := pol ODegLex 4 [([0;2;1;0]%nat, 1)].
Definition hg_f3 := pol ODegLex 4 [([2;1;0;0]%nat, 1)].
Definition hg_F := [hg_f1; hg_f2; hg_f3].
(** y w^4 = y w^2 f1 - x y z f1 + z^2 f3 *)
Definition hg_a := pol ODegLex 4 [([0;1;0;4]%nat, 1)].
Lemma hg_in : Forall (ring_input TOP ODegLex 4) hg_F.
Proof. apply Forall_forall. intros a [<-|[<-|[<-|[]]]]; ring_in. Qed.
Definition hg_J0 : jpoly := got (jp_push_all false jp_empty hg_F).
Lemma hg_history : jp_history false TOP ODegLex 4 (rev hg_F) hg_J0.
Proof.
  assert (H := history_push_all false TOP ODegLex 4 hg_F [] jp_empty hg_J0 (hist_new _ _ _ _) hg_in). rewrite app_nil_r in H. apply H. vm_compute. reflexivity.
Qed.
Lemma hg_member : rational_member 4 (among (rev hg_F)) (terms hg_a).
Proof.
  assert (H := hg_in). rewrite Forall_forall in H.
  assert (M : forall f, In f hg_F -> rational_member 4 (among (rev hg_F)) (terms f)).
  { intros f I. apply (mem_among TOP ODegLex 4); [exact (H f I)|]. apply -> in_rev. exact I. }
  assert (A : rational_member 4 (among (rev hg_F)) (shift [0;1;0;2]%nat (terms hg_f1))) by (apply mem_shift; [reflexivity|apply M; cbn; auto]).
  assert (B : rational_member 4 (among (rev hg_F)) (shift [1;1;1;0]%nat (terms hg_f1))) by (apply mem_shift; [reflexivity|apply M; cbn; auto]).
  assert (C : rational_member 4 (among (rev hg_F)) (shift [0;0;2;0]%nat (terms hg_f3))) by (apply mem_shift; [reflexivity|apply M; cbn; auto]).
  assert (D : rational_member 4 (among (rev hg_F)) [(Mon (-1) [1;1;1;2]%nat, 1)]).
  { eapply (mem_lin 4 _ _ _ _ 1 (-1) B C). intro m.
    change (shift [1;1;1;0]%nat (terms hg_f1)) with [(Mon (-1) [2;1;2;0]%nat, 1); (Mon (-1) [1;1;1;2]%nat, 1)].
    change (shift [0;0;2;0]%nat (terms hg_f3)) with [(Mon (-1) [2;1;2;0]%nat, 1)]. cbn [coef].
    destruct (monom_eq_dec {| pos := -1; vars := [2;1;2;0]%nat |} m), (monom_eq_dec {| pos := -1; vars := [1;1;1;2]%nat |} m); lia. }
  eapply (mem_lin 4 _ _ _ _ 1 (-1) A D). intro m.
  change (shift [0;1;0;2]%nat (terms hg_f1)) with [(Mon (-1) [1;1;1;2]%nat, 1); (Mon (-1) [0;1;0;4]%nat, 1)].
  change (terms hg_a) with [(Mon (-1) [0;1;0;4]%nat, 1)]. cbn [coef].
  destruct (monom_eq_dec {| pos := -1; vars := [1;1;1;2]%nat |} m), (monom_eq_dec {| pos := -1; vars := [0;1;0;4]%nat |} m); lia.
Qed.
Lemma hg_incomplete : exists (F : list poly) (J : jpoly) (a r : poly),
  (forall f, In f F -> homogeneous f) /\ jp_history false TOP ODegLex 4 F J /\ ring_input TOP ODegLex 4 a /\
  rational_member 4 (among F) (terms a) /\ terms r <> [] /\
  (exists J', jp_build 40 false J = Ok J' /\ jp_nf 40 false J' a = Ok r) /\
  (forall one, exists J', jp_tq one 40 false J = Ok J' /\ jp_nf 40 false J' a = Ok r).
Proof.
  exists (rev hg_F), hg_J0, hg_a, hg_a. split.
  { intros f [<-|[<-|[<-|[]]]].
    - exists 3%nat. intros m c [E|[]]. injection E as <- _. reflexivity.
    - exists 3%nat. intros m c [E|[]]. injection E as <- _. reflexivity.
    - exists 2%nat. intros m c [E|[E|[]]]; injection E as <- _; reflexivity. }
  split; [exact hg_history|]. split; [ring_in|]. split; [exact hg_member|]. split; [discriminate|]. split.
  - eexists. split; [vm_compute; reflexivity|]. vm_compute. reflexivity.
  - intros [|]; eexists; (split; [vm_compute; reflexivity|]); vm_compute; reflexivity.
Qed.
