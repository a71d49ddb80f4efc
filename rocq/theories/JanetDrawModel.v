(** Pictures of Janet trees and forests: Janet::draw (ginv/janet.cpp:136-211, ginv/janet.h:164-184), GB::draw
    (ginv/gb.h:57-72).  The trees are those of JanetModel.v with the addresses of the nodes and of the wraps, which
    the pictures use as names.  Definitions only. *)
From Coq Require Import ZArith List Bool Arith String.
From Verif Require Import Outcome MonomModel JanetModel HilbertModel TextModel DrawModel.
Import ListNotations.
Local Open Scope string_scope.

(** janet.h:43-53 Node with its address and that of its wrap *)
Inductive atree : Type :=
| ANil
| ANode (a : nat) (d : nat) (w : option (nat * wrap)) (nextDeg nextVar : atree).
Fixpoint erase (t : atree) : tree :=
  match t with ANil => Nil | ANode _ d w nd nv => Node d (match w with Some x => Some (snd x) | None => None end) (erase nd) (erase nv) end.

(** operator<< of a pointer (not null) *)
Definition ptr_text (a : nat) : string := "0x" ++ hex_text (Z.of_nat a).

(** janet.cpp:148-177: the text of a wrap; the arrays have lm().size() entries *)
Definition each (n : nat) (f : nat -> string) : string := String.concat "" (map f (seq 0 n)).
Definition is_gb (w : wrap) : bool := Nat.eqb (deg (wanc w)) (deg (wlm w)).
Definition mark_cell (m : string) (l : list bool) (i : nat) : string := "<td>" ++ (if nth i l false then m else "") ++ "</td>".
Definition wrap_label (nmd : bool) (w : wrap) : string :=
  let n := size (wlm w) in
  "<table border='0' cellborder='0'><tr>" ++
  each n (fun i => let x := n_text (nth i (vars (wlm w)) 0) in if is_gb w then "<td><B>" ++ x ++ "</B></td>" else "<td>" ++ x ++ "</td>") ++
  "</tr><tr>" ++ each n (mark_cell "*" (wnm w)) ++
  (if nmd then "</tr><tr>" ++ each n (mark_cell "#" (wnmd w)) else "") ++
  "</tr><tr>" ++ each n (mark_cell "&amp;" (wbuild w)) ++ "</tr></table>".

(** janet.cpp:136-209: [ss] is what the stream holds when the name of the next node is written to it: the text of a wrap
    is left there.  The result is the calls and the node r. *)
Fixpoint draw_tree (nmd : bool) (ss : string) (r prev : option string) (t : atree) : list call * option string :=
  match t with
  | ANil => ([], r)
  | ANode a d w nd nv =>
      let '(node, label, ss') :=
        match w with
        | Some (b, u) => (ss ++ ptr_text b, wrap_label nmd u, wrap_label nmd u)
        | None => (ss ++ ptr_text a, n_text d, "")
        end in
      let (c1, right) := draw_tree nmd "" None None nv in
      let dotted := match right with Some x => [CEdge node x "dotted"] | None => [] end in
      let solid := match r, prev with Some _, Some p => [CEdge p node "solid"] | _, _ => [] end in
      let (c2, r') := draw_tree nmd ss' (match r with None => Some node | _ => r end) (Some node) nd in
      (CNode node (Look (Some label) (Some "plaintext") None) :: c1 ++ dotted ++ solid ++ c2, r')
  end.

(** janet.h:168-183; buildHP has the assertion that there is a root *)
Definition nl : string := String (Ascii.ascii_of_nat 10) "".
Definition janet_draw (dbg : bool) (sz : nat) (t : atree) : outcome graph :=
  do h <- build_hp dbg (JT sz (erase t)) hp_none;
  let s := "#Janet = " ++ n_text sz ++ nl ++ "#HP = " ++ hp_text h in
  Ok (do_calls (CNode s bare :: fst (draw_tree false "" None None t)) no_graph).
(** gb.h:57-72; mForest[i] is a tree or null *)
Definition gb_draw (sz : nat) (forest : list (option atree)) : graph :=
  do_calls (CNode ("#GB = " ++ n_text sz) bare ::
            flat_map (fun x => match x with Some t => fst (draw_tree true "" None None t) | None => [] end) forest) no_graph.
