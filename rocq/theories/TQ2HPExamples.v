(** Witnesses for the Hilbert polynomial printed by algorithmTQ2. *)
From Coq Require Import ZArith List Bool Arith QArith Lia.
From Verif Require Import Outcome MonomModel MonomSpec PolyModel PolySpec JanetModel JanetPolyModel TQModel JanetPolySpec JanetPolyExamples TQExamples
  HilbertModel HilbertSpec InvolutiveExamples TQ2HPModel TQ2HPSpec TQ2HPProofs.
Import ListNotations.
Local Open Scope Z_scope.

Lemma th_empty : exists (F : list poly) (J : jpoly), jp_history false TOP ODegLex 2 F J /\ forall fuel, jp_tq2_print fuel false J = Undef /\ jp_tq2_print fuel true J = AssertFail.
Proof. exists [], jp_empty. split; [constructor|]. intro fuel. destruct fuel; split; vm_compute; reflexivity. Qed.

(** x y^2 + x and x y + 1: 3 - s *)
Lemma th_negative : exists (F : list poly) (J : jpoly) (J2 : jpoly2) (h : hp), jp_history false TOP ODegLex 2 F J /\ jp_tq2_print 30 false J = Ok (J2, Some h) /\
  forall s : Z, 3 < s -> (peval h (inject_Z s) < 0)%Q.
Proof.
  exists [t2_f2; t2_f1], t2_J0, t2_J, [3#1; -1#1; 0#1]%Q. split; [exact t2_history|]. split; [vm_compute; reflexivity|].
  intros s Hs. assert (X : (peval [3#1; -1#1; 0#1]%Q (inject_Z s) == inject_Z (3 - s))%Q) by (cbn [peval]; unfold Z.sub; rewrite inject_Z_plus, inject_Z_opp; change (inject_Z 3) with (3#1)%Q; ring).
  rewrite X. change 0%Q with (inject_Z 0). rewrite <- Zlt_Qlt. lia.
Qed.

(** x^2 - y and x y - 1: all elements in the tree, 3 irreducible monomials *)
Definition th_J0 : jpoly := got (jp_push_all false jp_empty [iv_f1; iv_f2]).
Definition th_J2 : jpoly2 := got2 (jp_tq2 60 false th_J0).
Lemma th_case : jp_history false TOP ODegLex 2 [iv_f2; iv_f1] th_J0 /\ jp_tq2_print 60 false th_J0 = Ok (th_J2, Some [3#1; 0#1; 0#1]%Q) /\ all_in_trees th_J2 /\ length (basis2 th_J2) = 3%nat.
Proof.
  split.
  { apply (history_push_all false TOP ODegLex 2 [iv_f1; iv_f2] [] jp_empty _ (hist_new _ _ _ _)); [|vm_compute; reflexivity]. repeat constructor; cbn; try lia; try discriminate. }
  split; [vm_compute; reflexivity|]. split; [|vm_compute; reflexivity]. intros x Ix. vm_compute in Ix. repeat (destruct Ix as [<-|Ix]; [eexists; reflexivity|]). destruct Ix.
Qed.
