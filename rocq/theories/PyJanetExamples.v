(** A Janet tree of pyginv: x^2, x*y and y^3 + x (variables x, y), inserted as x^2*y, x*y, y^3 + x, x^2. *)
From Coq Require Import ZArith List Bool Arith Lia.
From Verif Require Import Outcome MonomModel MonomSpec PolySpec PyMonomModel PyPolyModel PyPolySpec PyExamples PyJanetModel PyJanetSpec PyJanetProofs PyJanetTop.
Import ListNotations.
Local Open Scope nat_scope.

Definition wrap_of (id : nat) (p : ppoly) : pwrap := match w_of_poly id p with Ok w => w | _ => PW 0 [] (Mon 0 []) (Mon 0 []) [] [] end.
Definition w_xy := wrap_of 0 [(Mon (-1) [1; 1], 1%Z)].
Definition w_y3 := wrap_of 1 [(Mon (-1) [0; 3], 1%Z); (Mon (-1) [1; 0], 1%Z)].
Definition w_x2y := wrap_of 2 [(Mon (-1) [2; 1], 1%Z)].
Definition w_x2 := wrap_of 3 [(Mon (-1) [2; 0], 1%Z)].
Definition tree1 : pjanet := match pj_insert pj_empty [w_x2y; w_xy; w_y3] with Ok (J, _) => J | _ => pj_empty end.
Definition tree2 : pjanet := match pj_insert tree1 [w_x2] with Ok (J, _) => J | _ => pj_empty end.

Lemma built1 : built 2 tree1.
Proof.
  apply (built_insert 2 pj_empty [w_x2y; w_xy; w_y3] tree1 []); [apply built_new| |vm_compute; reflexivity].
  constructor; [split; [reflexivity|split; reflexivity]|]. constructor; [split; [reflexivity|split; reflexivity]|]. constructor; [split; [reflexivity|split; reflexivity]|constructor].
Qed.
Lemma built2 : exists lst, pj_insert tree1 [w_x2] = Ok (tree2, lst) /\ map pw_id lst = [2] /\ built 2 tree2.
Proof.
  eexists. split; [vm_compute; reflexivity|]. split; [reflexivity|]. eapply (built_insert 2 tree1 [w_x2]); [exact built1| |vm_compute; reflexivity].
  constructor; [split; [reflexivity|split; reflexivity]|constructor].
Qed.
Lemma tree2_elems : map exps (elems tree2) = [[0; 3]; [1; 1]; [2; 0]] /\ map pw_nonmult (elems tree2) = [[true; false]; [true; false]; [false; false]].
Proof. split; vm_compute; reflexivity. Qed.
Lemma tree2_polys : forall w, In w (elems tree2) -> leads w /\ py_canonical TOPdeglex 2 0 (pw_poly w).
Proof.
  intros w W. vm_compute in W. destruct W as [<-|[<-|[<-|[]]]]; (split; [eexists; eexists; reflexivity|apply canonical_b_ok; vm_compute; reflexivity]).
Qed.
