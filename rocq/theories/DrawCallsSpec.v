(** What a graph should be after calls of agnode, agsafeset and agedge. *)
From Coq Require Import List Bool String Arith.
From Verif Require Import DrawModel.
Import ListNotations.

(** The attributes given to the node s, the first ones first; the last value of one of them *)
Definition node_calls (s : string) (l : list call) : list look :=
  flat_map (fun c => match c with CNode s' k => if string_dec s' s then [k] else [] | _ => [] end) l.
Definition last_set {A} (f : look -> option A) (ks : list look) : option A :=
  fold_left (fun o k => match f k with Some v => Some v | None => o end) ks None.
(** The styles given to the edge from a to b *)
Definition edge_calls (a b : string) (l : list call) : list string :=
  flat_map (fun c => match c with CEdge a' b' st => if string_dec a' a then if string_dec b' b then [st] else [] else [] | _ => [] end) l.
(** The attributes of a node that was given ks *)
Definition as_set (k : look) (ks : list look) : Prop := k = Look (last_set a_label ks) (last_set a_shape ks) (last_set a_color ks).
(** A call that makes no second edge *)
Definition find_or_make (c : call) : Prop := match c with CNew _ _ _ => False | _ => True end.
