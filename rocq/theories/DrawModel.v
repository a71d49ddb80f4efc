(** Pictures: what the graphviz library (cgraph) does with the calls agnode, agedge and agsafeset.  A node is identified
    by its name: agnode(g, name, 1) returns the node of that name if there is one.  agedge(g, t, h, "", 1) returns the edge
    with key "" from t to h if there is one; gv.edge makes a new edge.  Layout and rendering are not modelled.
    Definitions only. *)
From Coq Require Import List Bool String.
Import ListNotations.
Local Open Scope string_scope.

(** Attributes of a node; None: not set *)
Record look : Type := Look { a_label : option string; a_shape : option string; a_color : option string }.
Definition bare : look := Look None None None.
(** agsafeset: later values replace earlier ones *)
Definition over {A} (new old : option A) : option A := match new with Some _ => new | None => old end.
Definition restyle (new old : look) : look :=
  Look (over (a_label new) (a_label old)) (over (a_shape new) (a_shape old)) (over (a_color new) (a_color old)).

(** Nodes with their attributes; edges with their ends and the attribute style *)
Record graph : Type := Graph { gnodes : list (string * look); gedges : list (string * string * string) }.
Definition no_graph : graph := Graph [] [].

(** A node with agsafeset of attributes; an edge with agsafeset of style (find or make); a new edge *)
Inductive call : Type := CNode (s : string) (l : look) | CEdge (a b style : string) | CNew (a b style : string).
Definition ends_eqb (e : string * string * string) (a b : string) : bool := String.eqb (fst (fst e)) a && String.eqb (snd (fst e)) b.
Definition do_call (c : call) (g : graph) : graph :=
  match c with
  | CNode s l =>
      if existsb (fun n => String.eqb (fst n) s) (gnodes g)
      then Graph (map (fun n => if String.eqb (fst n) s then (s, restyle l (snd n)) else n) (gnodes g)) (gedges g)
      else Graph (gnodes g ++ [(s, l)]) (gedges g)
  | CEdge a b st =>
      if existsb (fun e => ends_eqb e a b) (gedges g)
      then Graph (gnodes g) (map (fun e => if ends_eqb e a b then (a, b, st) else e) (gedges g))
      else Graph (gnodes g) (gedges g ++ [(a, b, st)])
  | CNew a b st => Graph (gnodes g) (gedges g ++ [(a, b, st)])
  end.
Fixpoint do_calls (l : list call) (g : graph) : graph := match l with [] => g | c :: l' => do_calls l' (do_call c g) end.
