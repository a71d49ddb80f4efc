(** Programs for C87. *)
From Coq Require Import ZArith List Bool Arith.
From Verif Require Import Outcome MonomModel JanetModel PolyModel PolySpec JanetPolyModel OwnModel OwnSpec OwnExamples JanetPolyExamples CyViewModel CyViewSpec.
Import ListNotations.
Local Open Scope Z_scope.

(** deglex, x > y: x^2 + y, x y - y, y, the constant 3, x e0. *)
Definition vw_f := pol ODegLex 2 [([2;0]%nat, 1); ([0;1]%nat, 1)].
Definition vw_g := pol ODegLex 2 [([1;1]%nat, 1); ([0;1]%nat, -1)].
Definition vw_h := pol ODegLex 2 [([0;1]%nat, 1)].
Definition vw_1 := pol ODegLex 2 [([0;0]%nat, 3)].
Definition vw_m := Poly TOP ODegLex 2 [(Mon 0 [1;0]%nat, 1)].

Definition answers (l : list vop) : outcome (list vans) := do r <- v_run 30 false (v_new ow_heap) l; Ok (snd r).

(** Looked at after the basis has lost its name, after it has become 1, after a polynomial with a new position. *)
Definition vw_p1 := [VPush vw_f; VBuild; VList; VDel; VLm 0].
Definition vw_p2 := [VPush vw_f; VBuild; VList; VPush vw_1; VBuild; VLm 0].
Definition vw_p3 := [VPush vw_f; VBuild; VJanet (-1); VPush vw_m; VBuild; VSize 0].

(** An element stays: its leading monomial is the same after further builds, its tail is another one.  A tree stays. *)
Lemma vw_ok : answers [VPush vw_f; VBuild; VList; VPoly 0; VPush vw_h; VBuild; VLm 0; VPoly 0] =
    Ok [ANone; ANone; ANone; APoly vw_f; ANone; ANone; AMonom (Mon (-1) [2;0]%nat); APoly (pol ODegLex 2 [([2;0]%nat, 1)])] /\
  answers [VPush vw_f; VBuild; VFind (Mon (-1) [3;0]%nat); VLm 0; VJanet (-1); VSize 1; VPush vw_g; VBuild; VSize 1] =
    Ok [ANone; ANone; ANone; AMonom (Mon (-1) [2;0]%nat); ANone; ASize 1; ANone; ANone; ASize 3].
Proof. split; vm_compute; reflexivity. Qed.
Lemma vw_refuted : forall l, In l [vw_p1; vw_p2; vw_p3] -> good_heap ow_heap /\ v_run 30 false (v_new ow_heap) l = Undef /\
  exists r, v_run 30 false (v_new ow_heap) (removelast l) = Ok r.
Proof. intros l [<-|[<-|[<-|[]]]]; (split; [exact ow_good|]); (split; [vm_compute; reflexivity|]); eexists; vm_compute; reflexivity. Qed.
