(** When a graph is a picture of a tree. *)
From Coq Require Import ZArith List Bool Arith String Permutation.
From Verif Require Import MonomModel PyMonomModel JanetModel HilbertModel RBHeapProofs PyJanetModel TextModel PyTextModel DrawModel JanetDrawModel PyDrawModel.
Import ListNotations.
Local Open Scope string_scope.

(** What is seen of a node: its text (the name, if there is no label), shape and colour *)
Definition face : Type := string * option string * option string.
Definition seen (n : string * look) : face :=
  (match a_label (snd n) with Some s => s | None => fst n end, a_shape (snd n), a_color (snd n)).

(** The graph has a node for every item and no others (besides [extra], before or after them), each with the face of its
    item, and an arrow for every link and no others. *)
Definition depicts {A : Type} (g : graph) (before after : list face) (items : list (A * face)) (links : list (A * A * string)) : Prop :=
  exists (name : A -> string) (b a : list string),
    NoDup (b ++ map name (map fst items) ++ a) /\
    map fst (gnodes g) = (b ++ map name (map fst items) ++ a)%list /\
    map seen (gnodes g) = (before ++ map snd items ++ after)%list /\
    List.length b = List.length before /\
    Permutation (gedges g) (map (fun x => (name (fst (fst x)), name (snd (fst x)), snd x)) links).

(** * Janet trees: a node is known by its wrap, if it has one; solid to the next degree, dotted to the next variable *)
Definition who (t : atree) : option nat :=
  match t with ANil => None | ANode a _ w _ _ => Some (match w with Some (b, _) => b | None => a end) end.
(** A table with rows of cells *)
Definition row_text (cells : list string) : string := "<tr>" ++ String.concat "" (map (fun c => "<td>" ++ c ++ "</td>") cells) ++ "</tr>".
Definition table_text (rows : list (list string)) : string :=
  "<table border='0' cellborder='0'>" ++ String.concat "" (map row_text rows) ++ "</table>".
(** The exponents (bold if the wrap is no prolongation), then the non-multiplicative variables, with nmd those of the forest,
    and the variables it was prolonged by *)
Definition wrap_rows (nmd : bool) (w : wrap) : list (list string) :=
  let marks m l := map (fun i => if nth i l false then m else "") (seq 0 (List.length (vars (wlm w)))) in
  [map (fun d => if Nat.eqb (deg (wanc w)) (deg (wlm w)) then "<B>" ++ n_text d ++ "</B>" else n_text d) (vars (wlm w)); marks "*" (wnm w)] ++
  (if nmd then [marks "#" (wnmd w)] else []) ++ [marks "&amp;" (wbuild w)].
Definition janet_face (nmd : bool) (d : nat) (w : option (nat * wrap)) : face :=
  (match w with Some (_, u) => table_text (wrap_rows nmd u) | None => n_text d end, Some "plaintext", None).
Definition link (x y : option nat) (s : string) : list (nat * nat * string) :=
  match x, y with Some a, Some b => [(a, b, s)] | _, _ => [] end.
Fixpoint janet_items (nmd : bool) (t : atree) : list (nat * face) :=
  match t with
  | ANil => []
  | ANode a d w nd nv => (match w with Some (b, _) => b | None => a end, janet_face nmd d w) :: janet_items nmd nv ++ janet_items nmd nd
  end.
Fixpoint janet_links (t : atree) : list (nat * nat * string) :=
  match t with
  | ANil => []
  | ANode a d w nd nv => (link (who t) (who nd) "solid" ++ link (who t) (who nv) "dotted" ++ janet_links nv ++ janet_links nd)%list
  end.
(** The addresses of the nodes and wraps that are shown *)
Definition ids (t : atree) : list nat := map fst (janet_items false t).
Definition grown {A : Type} (forest : list (option A)) : list A := flat_map (fun x => match x with Some t => [t] | None => [] end) forest.

(** A text without attributes; the text above a Janet tree: the number of its elements and the Hilbert polynomial *)
Definition plain (s : string) : face := (s, None, None).
Definition janet_head (sz : nat) (h : HilbertModel.hp) : string := "#Janet = " ++ n_text sz ++ nl ++ "#HP = " ++ hp_text h.

(** * Red-black trees: a place is a way down from the root (false: left); missing children are shown, too. *)
Section RB.
Context {T : Type}.
Variable key_text : T -> string.
Fixpoint rb_items (p : list bool) (t : @tr T) : list (list bool * face) :=
  match t with
  | E => [(p, ("nullptr", Some "box", None))]
  | N _ c l k r => (p, (key_text k, None, if c then Some "firebrick1" else None)) :: rb_items (p ++ [false]) l ++ rb_items (p ++ [true]) r
  end.
Fixpoint rb_links (p : list bool) (t : @tr T) : list (list bool * list bool * string) :=
  match t with
  | E => []
  | N _ _ l _ r => (p, p ++ [false], "solid")%list :: (p, p ++ [true], "solid")%list :: (rb_links (p ++ [false]) l ++ rb_links (p ++ [true]) r)%list
  end.
End RB.

(** * pyginv: the lists and Wraps that are shown (empty lists are not), each solid to the next one in its list, a list dotted
    to the first one in it *)
Fixpoint first_shown (r : arow) : option nat :=
  match r with ANone => None | AWrap id _ _ => Some id | AList _ ANone r' => first_shown r' | AList id _ _ => Some id end.
Definition tag (b : bool) (s : string) : string := if b then "<B>" ++ s ++ "</B>" else s.
Definition py_lines (o : py_order) (level : nat) (w : pwrap) : list string :=
  let indent := spaces (if (pos (pw_lm w) <? 0)%Z then 1 else 2 + String.length (z_text (pos (pw_lm w)))) in
  let marks l := indent ++ String.concat " " (map (fun b : bool => if b then "*" else "_") l) in
  tag (py_eq o (pw_lm w) (pw_anc w)) (py_monom_repr (pw_lm w)) :: firstn level [marks (pw_nonmult w); marks (pw_prolong w); py_monom_repr (pw_anc w)].
Definition py_face (s : string) : face := (s, Some "plaintext", None).
Fixpoint py_items (o : py_order) (level : nat) (i : nat) (r : arow) : list (nat * face) :=
  match r with
  | ANone => []
  | AWrap id w r' => (id, py_face ("<" ++ String.concat "<BR/>" (py_lines o level w) ++ ">")) :: py_items o level (S i) r'
  | AList _ ANone r' => py_items o level (S i) r'
  | AList id inner r' => (id, py_face (n_text i)) :: py_items o level 0 inner ++ py_items o level (S i) r'
  end.
Fixpoint py_links (r : arow) : list (nat * nat * string) :=
  match r with
  | ANone => []
  | AWrap id _ r' => (link (Some id) (first_shown r') "solid" ++ py_links r')%list
  | AList _ ANone r' => py_links r'
  | AList id inner r' => (link (Some id) (first_shown r') "solid" ++ link (Some id) (first_shown inner) "dotted" ++ py_links inner ++ py_links r')%list
  end.
Definition py_ids (r : arow) : list nat := map fst (py_items TOPlex 0 0 r).
(** The largest degree of a Wrap in the tree *)
Definition largest (l : list nat) : nat := fold_right Nat.max 0 l.
Definition py_mark (count : Z) (hp_str : string) (r : arow) : face :=
  py_face ("<" ++ tag true ("#Janet = " ++ z_text count ++ "<BR/>HP_{" ++ n_text (largest (map w_degree (relems (erase_row r)))) ++ "} = " ++ hp_str) ++ ">").
