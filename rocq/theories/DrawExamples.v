From Coq Require Import ZArith QArith List Bool Arith Lia String.
From Verif Require Import Outcome MonomModel JanetModel CompletionModel GBModel HilbertModel TextModel RBModel RBSpec RBExamples PyMonomModel PyJanetModel PyExamples PyJanetExamples DrawModel JanetDrawModel RBDrawModel PyDrawModel DrawSpec.
Import ListNotations.
Local Open Scope string_scope.
Local Open Scope nat_scope.

(** Addresses for a tree: the nodes have odd ones, the wraps even ones *)
Fixpoint place (k : nat) (t : JanetModel.tree) : atree * nat :=
  match t with
  | Nil => (ANil, k)
  | JanetModel.Node d w nd nv =>
      let (x, k1) := place (k + 2) nd in let (y, k2) := place k1 nv in
      (ANode (k + 1) d (match w with Some u => Some (k, u) | None => None end) x y, k2)
  end.
(** x^2*y, x*y^2 and x^2: the tree has four nodes *)
Definition dr_l : list monom := [Mon (-1) [2; 1]; Mon (-1) [1; 2]; Mon (-1) [2; 0]].
Definition dr_J : janet := match mj_push_all false jempty dr_l with Ok J => J | _ => jempty end.
Definition dr_t : atree := fst (place 20 (jroot dr_J)).
Lemma dr_facts : mj_push_all false jempty dr_l = Ok dr_J /\ erase dr_t = jroot dr_J /\ NoDup (ids dr_t) /\
  janet_links dr_t = [(21, 22, "solid"); (21, 26, "dotted"); (22, 24, "dotted")].
Proof. split; [vm_compute; reflexivity|]. split; [vm_compute; reflexivity|]. split; [|vm_compute; reflexivity]. vm_compute. repeat (constructor; [cbn; intuition discriminate|]). constructor. Qed.
Lemma dr_picture : exists g, janet_draw true (jsize dr_J) dr_t = Ok g /\ map fst (gnodes g) = ["#Janet = 3" ++ nl ++ "#HP = 1s^1 + 3"; "0x15"; "0x1a"; "0x16"; "0x18"] /\
  gedges g = [("0x15", "0x1a", "dotted"); ("0x16", "0x18", "dotted"); ("0x15", "0x16", "solid")].
Proof. eexists. split; [vm_compute; reflexivity|]. split; vm_compute; reflexivity. Qed.
(** y and y^2: the name of the second node begins with the text of the first. *)
Definition dr_J2 : janet := match mj_push_all false jempty [Mon (-1) [1]; Mon (-1) [2]] with Ok J => J | _ => jempty end.
Definition dr_t2 : atree := fst (place 40 (jroot dr_J2)).
Lemma dr_second : exists g n, janet_draw true 2 dr_t2 = Ok g /\ nth_error (map fst (gnodes g)) 2 = Some (n ++ "0x2a") /\
  n = "<table border='0' cellborder='0'><tr><td><B>1</B></td></tr><tr><td>*</td></tr><tr><td></td></tr></table>".
Proof. do 2 eexists. split; [vm_compute; reflexivity|]. split; [|reflexivity]. vm_compute. reflexivity. Qed.
(** Two trees and a gap *)
Definition dr_forest : list (option atree) := [Some dr_t; None; Some dr_t2].
Lemma dr_forest_ok : NoDup (flat_map ids (grown dr_forest)) /\ List.length (gnodes (gb_draw 5 dr_forest)) = 7 /\ List.length (gedges (gb_draw 5 dr_forest)) = 4.
Proof. split; [|split; vm_compute; reflexivity]. vm_compute. repeat (constructor; [cbn; intuition discriminate|]). constructor. Qed.

(** A set of ints *)
Lemma dr_set : exists s t ss, RBModel.run zcmp true start prog = Ok (s, answers) /\ sp_run zcmp sp_start prog = Some (ss, answers) /\ nth_error (strees s) 2 = Some t /\
  nth_error (sets ss) 2 = Some [1; 2; 3; 4; 7; 8; 9]%Z /\
  exists g, rb_draw z_text (shp s) 3 t = Ok (g, 11) /\ map fst (gnodes g) = ["7"; "2"; "1"; "nullptr4"; "nullptr5"; "3"; "nullptr6"; "4"; "nullptr7"; "nullptr8"; "8"; "nullptr9"; "9"; "nullptr10"; "nullptr11"].
Proof. do 3 eexists. split; [vm_compute; reflexivity|]. split; [vm_compute; reflexivity|]. split; [reflexivity|]. split; [reflexivity|]. eexists. split; vm_compute; reflexivity. Qed.

(** The tree of PyJanetExamples.v *)
Definition dr_row : arow :=
  AList 10 (AList 11 ANone (AList 12 ANone (AList 13 ANone (AWrap 14 (set_nonmult 0 true w_y3) ANone))))
 (AList 20 (AList 21 ANone (AWrap 22 (set_nonmult 0 true w_xy) ANone)) (AWrap 30 w_x2 ANone)).
Lemma dr_py : erase_row dr_row = pj_root tree2 /\
  NoDup (py_ids dr_row) /\ py_links dr_row = [(10, 20, "solid"); (10, 14, "dotted"); (20, 30, "solid"); (20, 22, "dotted")] /\
  map (fun n => fst (fst (seen n))) (gnodes (py_save_image TOPdeglex 1 3 "s + 1" dr_row)) =
  ["0"; "<<B>[0 3]</B><BR/> * _>"; "1"; "<<B>[1 1]</B><BR/> * _>"; "<<B>[2 0]</B><BR/> _ _>"; "<<B>#Janet = 3<BR/>HP_{3} = s + 1</B>>"].
Proof. split; [vm_compute; reflexivity|]. split; [|split; vm_compute; reflexivity]. vm_compute. repeat (constructor; [cbn; intuition discriminate|]). constructor. Qed.
