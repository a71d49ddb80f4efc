(** lex, x > y, debug build: 2 y and 3 x. *)
From Coq Require Import ZArith List Bool Arith Lia.
From Verif Require Import Outcome MonomModel MonomSpec PolyModel PolySpec JanetModel JanetSpec JanetPolyModel TQModel JanetPolySpec
  JanetPolyTop JanetPolyExamples TQExamples MonoSpec.
Import ListNotations.
Local Open Scope Z_scope.

Definition dm_f1 := pol OLex 2 [([0;1]%nat, 2)].
Definition dm_f2 := pol OLex 2 [([1;0]%nat, 3)].
Lemma dm_in : Forall (ring_input TOP OLex 2) [dm_f1; dm_f2].
Proof. repeat constructor; cbn; try lia; try discriminate. Qed.

(** An element that needed no reduction enters mT with its integer content; assertT wants it primitive. *)
Lemma mono_asserts : exists (F : list poly) (J : jpoly), jp_history true TOP OLex 2 F J /\ Forall single F /\ Forall (fun f => deg (Mon (-1) (lead f)) = 1%nat) F /\
  (exists J', jp_build 30 true J = Ok J') /\
  (forall one, jp_tq one 30 true J = AssertFail /\ exists J', jp_tq one 30 false J = Ok J' /\ map terms (basis J') = map terms (rev F)) /\
  jp_tq2 30 true J = AssertFail /\ exists J', jp_tq2 30 false J = Ok J' /\ map terms (basis2 J') = map terms (rev F).
Proof.
  exists [dm_f2; dm_f1], (got (jp_push_all true jp_empty [dm_f1; dm_f2])).
  split; [apply (history_push_all true TOP OLex 2 [dm_f1; dm_f2] [] jp_empty _ (hist_new _ _ _ _) dm_in); vm_compute; reflexivity|].
  split; [repeat constructor|]. split; [repeat constructor|]. split; [eexists; vm_compute; reflexivity|].
  split; [intros [|]; (split; [vm_compute; reflexivity|eexists; split; [vm_compute; reflexivity|reflexivity]])|].
  split; [vm_compute; reflexivity|eexists; split; [vm_compute; reflexivity|reflexivity]].
Qed.
