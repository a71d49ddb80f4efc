(** Pictures of red-black trees: RBTree::draw (util/rbtree.h:383-432, 652-662).  Nodes are named by the text of their
    key, missing children by a static counter (an int, which is not modelled as one).  Definitions only. *)
From Coq Require Import ZArith List Bool Arith String.
From Verif Require Import Outcome RBModel TextModel DrawModel.
Import ListNotations.
Local Open Scope string_scope.

Section RBDraw.
Context {T : Type}.
(** operator<< of a key *)
Variable key_text : T -> string.

(** rbtree.h:383-392 drawLeaf: the counter after the call *)
Definition leaf_name (n : nat) : string := "nullptr" ++ n_text n.
Definition draw_leaf (leaf : nat) : list call * string * nat :=
  let s := leaf_name (S leaf) in ([CNode s (Look (Some "nullptr") (Some "box") None)], s, S leaf).
(** rbtree.h:399-403, 411-415 *)
Definition draw_key (n : @node T) : list call * string :=
  let s := key_text (mKey n) in ([CNode s (Look None None (if mRed n then Some "firebrick1" else None))], s).

(** rbtree.h:394-431 draw with its loop: [node] is the name of the node of j *)
Fixpoint draw_rb (fuel : nat) (h : @heap T) (leaf : nat) (j : option nat) : outcome (list call * string * nat) :=
  match fuel with
  | O => OutOfFuel
  | S f =>
    match j with
    | None => Ok (draw_leaf leaf)
    | Some a =>
        do n <- get h a;
        let (c0, r) := draw_key n in
        do x <- draw_rb_loop f h leaf a r;
        Ok ((c0 ++ fst x)%list, r, snd x)
    end
  end
with draw_rb_loop (fuel : nat) (h : @heap T) (leaf : nat) (a : nat) (node : string) : outcome (list call * nat) :=
  match fuel with
  | O => OutOfFuel
  | S f =>
    do n <- get h a;
    do x <- draw_rb f h leaf (mLeft n);
    let '(c1, left, leaf1) := x in
    match mRight n with
    | None =>
        let '(c2, right, leaf2) := draw_leaf leaf1 in
        Ok ((c1 ++ c2 ++ [CEdge node left "solid"; CEdge node right "solid"])%list, leaf2)
    | Some b =>
        do m <- get h b;
        let (c2, right) := draw_key m in
        do y <- draw_rb_loop f h leaf1 b right;
        Ok ((c1 ++ c2 ++ [CEdge node left "solid"; CEdge node right "solid"] ++ fst y)%list, snd y)
    end
  end.
(** rbtree.h:652-662; every call of draw goes down one edge, so twice the number of nodes is enough *)
Definition rb_draw (h : @heap T) (leaf : nat) (t : tree) : outcome (graph * nat) :=
  do x <- draw_rb (2 * S (List.length h)) h leaf (mRoot t);
  Ok (do_calls (fst (fst x)) no_graph, snd x).
End RBDraw.
