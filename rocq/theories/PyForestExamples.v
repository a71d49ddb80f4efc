(** A Forest of pyginv: two unknown functions u (number 0) and v (number 1), variables x, y. *)
From Coq Require Import ZArith List Bool Arith Lia.
From Verif Require Import Outcome MonomModel MonomSpec PolySpec PyMonomModel PyPolyModel PyPolySpec PyExamples PyJanetModel PyJanetSpec PyJanetExamples PyForestModel PyForestSpec.
Import ListNotations.
Local Open Scope nat_scope.

Definition w_xu := wrap_of 0 [(Mon 0 [1; 0], 1%Z); (Mon 1 [0; 0], 1%Z)].
Definition w_xyv := wrap_of 1 [(Mon 1 [1; 1], 2%Z); (Mon 0 [0; 0], 1%Z)].
Definition w_yv := wrap_of 2 [(Mon 1 [0; 1], 1%Z)].
Definition w_xv := wrap_of 3 [(Mon 1 [1; 0], 1%Z)].
(** a polynomial without unknown function *)
Definition w_ring := wrap_of 4 [(Mon (-1) [1; 0], 1%Z)].
Definition forest0 : pforest := match pf_new 2 with Ok F => F | _ => [] end.
Definition forest1 : pforest := match pf_insert forest0 [w_xu; w_xyv; w_yv] with Ok (F, _) => F | _ => [] end.
Definition forest2 : pforest := match pf_insert forest1 [w_xv] with Ok (F, _) => F | _ => [] end.
Definition forest_ring : pforest := match pf_insert forest0 [w_ring] with Ok (F, _) => F | _ => [] end.

Ltac cleans := repeat (constructor; [split; [split; [reflexivity|split; reflexivity]|vm_compute; discriminate]|]); constructor.
Lemma fbuilt1 : fbuilt 2 2 forest1.
Proof. eapply (fbuilt_insert 2 2 forest0 [w_xu; w_xyv; w_yv]); [apply fbuilt_new; reflexivity|cleans|vm_compute; reflexivity]. Qed.
Lemma fbuilt2 : exists lst, pf_insert forest1 [w_xv] = Ok (forest2, lst) /\ map pw_id lst = [1] /\ fbuilt 2 2 forest2.
Proof. eexists. split; [vm_compute; reflexivity|]. split; [reflexivity|]. eapply (fbuilt_insert 2 2 forest1 [w_xv]); [exact fbuilt1|cleans|vm_compute; reflexivity]. Qed.
Lemma forest2_polys : forall w, In w (pf_elems forest2) -> leads w /\ py_canonical TOPdeglex 2 2 (pw_poly w).
Proof.
  intros w W. vm_compute in W. repeat (destruct W as [<-|W]; [split; [eexists; eexists; reflexivity|apply canonical_b_ok; vm_compute; reflexivity]|]). destruct W.
Qed.

