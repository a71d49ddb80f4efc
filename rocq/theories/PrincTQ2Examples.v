(** The principal ideal of PrincExamples.v after algorithmTQ2. *)
From Coq Require Import ZArith List Bool Arith Lia.
From Verif Require Import Outcome MonomModel MonomSpec MonomProofs PolyModel PolySpec PolyProofs PolyNfProofs
  JanetModel JanetSpec JanetPolyModel TQModel JanetPolySpec JanetPolyExamples NormalSpec PrincSpec PrincTop PrincExamples TQ2HPSpec PrincTQ2.
Import ListNotations.
Local Open Scope Z_scope.

Definition pr_J2 : jpoly2 := match jp_tq2 60 false pr_J0 with Ok J => J | _ => JP2 None [] 0 None end.
Lemma pr2_run : jp_tq2 60 false pr_J0 = Ok pr_J2.
Proof. vm_compute. reflexivity. Qed.
Lemma pr2_basis : map terms (basis2 pr_J2) = [[(Mon (-1) [2;0]%nat, 2); (Mon (-1) [0;1]%nat, -4)]].
Proof. vm_compute. reflexivity. Qed.
Lemma pr2_nf : exists ra rb rc, jp2_nf 40 false pr_J2 pr_a = Ok ra /\ jp2_nf 40 false pr_J2 pr_b = Ok rb /\ jp2_nf 40 false pr_J2 pr_c = Ok rc /\
  terms ra = [] /\ terms rb <> [] /\ terms rb = terms rc.
Proof. do 3 eexists. split; [vm_compute; reflexivity|]. split; [vm_compute; reflexivity|]. split; [vm_compute; reflexivity|]. cbn. split; [reflexivity|]. split; [discriminate|reflexivity]. Qed.
