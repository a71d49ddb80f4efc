(** Property C87: Python objects that point into a basis. *)
From Coq Require Import ZArith List Bool Arith.
From Verif Require Import Outcome MonomModel PolyModel JanetPolyModel OwnModel OwnSpec OwnExamples JanetPolyExamples CyViewModel CyViewSpec CyViewProofs CyViewExamples.
Import ListNotations.
Local Open Scope Z_scope.

(** A wrap_poly_int made by any statement c (list(b) or b.find(m)) of any program, and used after any further
    statements l2: it can be used, and has the leading monomial that it had when it was made, if the basis still has a
    name and isOne() is what it was; otherwise a deleted object is read. *)
Theorem C87_elements : forall fuel dbg s0 l1 S1 a1 c S a l2 S2 a2 k i,
  good_heap s0 -> v_run fuel dbg (v_new s0) l1 = Ok (S1, a1) -> v_step fuel dbg S1 c = Ok (S, a) -> v_run fuel dbg S l2 = Ok (S2, a2) ->
  (length (views S1) <= k)%nat -> nth_error (views S) k = Some (VWrap i) ->
  exists m, v_step fuel dbg S (VLm k) = Ok (S, AMonom m) /\
    if valive S2 && Bool.eqb (v_isOne S) (v_isOne S2)
    then v_step fuel dbg S2 (VLm k) = Ok (S2, AMonom m) /\ exists p, v_step fuel dbg S2 (VPoly k) = Ok (S2, APoly p)
    else v_step fuel dbg S2 (VLm k) = Undef /\ v_step fuel dbg S2 (VPoly k) = Undef.
Proof. exact view_elements. Qed.
Print Assumptions C87_elements.

(** The same for t = b.janet(p): it can be used as long as the basis has a name, is not 1 and maxPos() is what it was. *)
Theorem C87_trees : forall fuel dbg s0 l1 S1 a1 p S a l2 S2 a2,
  good_heap s0 -> v_run fuel dbg (v_new s0) l1 = Ok (S1, a1) -> v_step fuel dbg S1 (VJanet p) = Ok (S, a) -> a <> ARaise -> v_run fuel dbg S l2 = Ok (S2, a2) ->
  if valive S2 && negb (v_isOne S2) && (v_maxPos S2 =? v_maxPos S)
  then exists n, v_step fuel dbg S2 (VSize (length (views S1))) = Ok (S2, ASize n)
  else v_step fuel dbg S2 (VSize (length (views S1))) = Undef.
Proof. exact view_trees. Qed.
Print Assumptions C87_trees.

(** So objects with names are not safe to use: three programs whose last statement, and no other, is undefined. *)
Theorem C87_safe_refuted : exists l1 l2 l3 : list vop,
  (In VDel l1 /\ last l1 VDel = VLm 0) /\ (~ In VDel l2 /\ last l2 VDel = VLm 0) /\ (~ In VDel l3 /\ last l3 VDel = VSize 0) /\
  forall l, In l [l1; l2; l3] -> good_heap ow_heap /\ v_run 30 false (v_new ow_heap) l = Undef /\
    exists r, v_run 30 false (v_new ow_heap) (removelast l) = Ok r.
Proof.
  exists vw_p1, vw_p2, vw_p3. split; [split; [cbn; auto 6|reflexivity]|]. split; [split; [cbn; intuition discriminate|reflexivity]|].
  split; [split; [cbn; intuition discriminate|reflexivity]|]. exact vw_refuted.
Qed.
Print Assumptions C87_safe_refuted.

(** The leading monomial of w stays, its polynomial is reduced by the new element; the tree t grows from 1 to 3 elements. *)
Example C87_ex : answers [VPush vw_f; VBuild; VList; VPoly 0; VPush vw_h; VBuild; VLm 0; VPoly 0] =
    Ok [ANone; ANone; ANone; APoly vw_f; ANone; ANone; AMonom (Mon (-1) [2;0]%nat); APoly (pol ODegLex 2 [([2;0]%nat, 1)])] /\
  answers [VPush vw_f; VBuild; VFind (Mon (-1) [3;0]%nat); VLm 0; VJanet (-1); VSize 1; VPush vw_g; VBuild; VSize 1] =
    Ok [ANone; ANone; ANone; AMonom (Mon (-1) [2;0]%nat); ANone; ASize 1; ANone; ANone; ASize 3].
Proof. exact vw_ok. Qed.
