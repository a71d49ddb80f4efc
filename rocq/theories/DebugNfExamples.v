(** 2 y and 3 x: algorithmTQ fails in a debug build; the basis a release build computes can be asked in a debug build. *)
From Coq Require Import ZArith List Bool Arith Lia.
From Verif Require Import Outcome MonomModel MonomSpec PolyModel PolySpec JanetModel JanetSpec JanetPolyModel TQModel JanetPolySpec
  JanetPolyTop JanetPolyExamples TQExamples DebugMono.
Import ListNotations.
Local Open Scope Z_scope.

Lemma dn_case : exists (F : list poly) (J J' : jpoly) (J2 : jpoly2) (a r : poly), jp_history false TOP OLex 2 F J' /\ jp_history false TOP OLex 2 F J /\ jp_tq2 30 false J = Ok J2 /\
  ring_input TOP OLex 2 a /\ length (terms a) = 2%nat /\ jp_tq false 30 true J = AssertFail /\ jp_tq false 30 false J = Ok J' /\ length (basis J') = 2%nat /\
  (exists K, jp_push true J' a = Ok K /\ length (jq K) = 1%nat) /\ jp_nf 30 true J' a = Ok r /\ jp2_nf 30 true J2 a = Ok r /\ length (terms r) = 1%nat.
Proof.
  assert (H : jp_history false TOP OLex 2 [dm_f2; dm_f1] (got (jp_push_all false jp_empty [dm_f1; dm_f2])))
    by (apply (history_push_all false TOP OLex 2 [dm_f1; dm_f2] [] jp_empty _ (hist_new _ _ _ _) dm_in); vm_compute; reflexivity).
  exists [dm_f2; dm_f1], (got (jp_push_all false jp_empty [dm_f1; dm_f2])), (got (jp_tq false 30 false (got (jp_push_all false jp_empty [dm_f1; dm_f2])))).
  eexists. exists (pol OLex 2 [([1; 1]%nat, 5); ([0; 0]%nat, 7)]). eexists.
  split; [refine (hist_tq false TOP OLex 2 _ _ false 30%nat _ H _); vm_compute; reflexivity|]. split; [exact H|]. split; [vm_compute; reflexivity|].
  split; [ring_in|]. split; [reflexivity|]. split; [vm_compute; reflexivity|]. split; [vm_compute; reflexivity|].
  split; [vm_compute; reflexivity|]. split; [eexists; split; vm_compute; reflexivity|]. split; [vm_compute; reflexivity|]. split; vm_compute; reflexivity.
Qed.
