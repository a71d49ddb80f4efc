(** Property C100: the pictures of trees that draw and saveImage hand to graphviz. *)
From Coq Require Import ZArith List Bool Arith String.
From Verif Require Import Outcome MonomModel JanetModel CompletionModel GBModel HilbertModel RBModel RBSpec RBHeapProofs RBExamples PyMonomModel PyJanetModel PyJanetExamples
  TextModel DrawModel JanetDrawModel RBDrawModel PyDrawModel DrawSpec DrawTop RBDrawTop PyDrawProofs RBDrawProofs DrawExamples DrawCallsSpec DrawCalls.
Import ListNotations.
Local Open Scope string_scope.
Local Open Scope nat_scope.

(** Janet::draw: for every tree whose nodes and wraps have different addresses, and whose Hilbert polynomial can be
    built, the graph has a text with the number of elements and the polynomial, one more node for every node of the tree,
    and exactly the arrows of the tree - although nodes and arrows of equal names would become one, and the name of a node can
    begin with the text of another one. *)
Theorem C100_janet : forall (dbg : bool) (sz : nat) (t : atree) (h : HilbertModel.hp), NoDup (ids t) -> build_hp dbg (JT sz (erase t)) hp_none = Ok h ->
  exists g, janet_draw dbg sz t = Ok g /\ depicts g [plain (janet_head sz h)] [] (janet_items false t) (janet_links t).
Proof. exact c100_janet. Qed.
Print Assumptions C100_janet.

(** So it is for the tree of any set of monomials. *)
Theorem C100_janet_set : forall (dbg : bool) (n : nat) (l : list monom) (t : atree), 0 < n -> l <> [] ->
  Forall (fun m => List.length (vars m) = n) l -> NoDup (map vars l) ->
  forall J, mj_push_all false jempty l = Ok J -> erase t = jroot J -> NoDup (ids t) ->
  exists h g, build_hp dbg J hp_none = Ok h /\ janet_draw dbg (jsize J) t = Ok g /\
    depicts g [plain (janet_head (jsize J) h)] [] (janet_items false t) (janet_links t).
Proof. exact c100_janet_set. Qed.
Print Assumptions C100_janet_set.
Example C100_janet_ex : (mj_push_all false jempty dr_l = Ok dr_J /\ erase dr_t = jroot dr_J /\ NoDup (ids dr_t) /\
    janet_links dr_t = [(21, 22, "solid"); (21, 26, "dotted"); (22, 24, "dotted")]) /\
  (exists g, janet_draw true (jsize dr_J) dr_t = Ok g /\ map fst (gnodes g) = ["#Janet = 3" ++ nl ++ "#HP = 1s^1 + 3"; "0x15"; "0x1a"; "0x16"; "0x18"] /\
    gedges g = [("0x15", "0x1a", "dotted"); ("0x16", "0x18", "dotted"); ("0x15", "0x16", "solid")]) /\
  (exists g n, janet_draw true 2 dr_t2 = Ok g /\ nth_error (map fst (gnodes g)) 2 = Some (n ++ "0x2a") /\
    n = "<table border='0' cellborder='0'><tr><td><B>1</B></td></tr><tr><td>*</td></tr><tr><td></td></tr></table>").
Proof. exact (conj dr_facts (conj dr_picture dr_second)). Qed.

(** The empty tree has no picture in a debug build (the assertion of buildHP), and just the text in a release build. *)
Theorem C100_empty : janet_draw true 0 ANil = AssertFail /\
  forall sz, exists g, janet_draw false sz ANil = Ok g /\ gnodes g = [(janet_head sz [], bare)] /\ gedges g = [].
Proof. exact c100_empty. Qed.
Print Assumptions C100_empty.

(** GB::draw: all trees of the forest in one graph, apart from each other. *)
Theorem C100_forest : forall (sz : nat) (forest : list (option atree)), NoDup (flat_map ids (grown forest)) ->
  depicts (gb_draw sz forest) [plain ("#GB = " ++ n_text sz)] [] (flat_map (janet_items true) (grown forest)) (flat_map janet_links (grown forest)).
Proof. exact c100_forest. Qed.
Print Assumptions C100_forest.
Example C100_forest_ex : NoDup (flat_map ids (grown dr_forest)) /\ List.length (gnodes (gb_draw 5 dr_forest)) = 7 /\ List.length (gedges (gb_draw 5 dr_forest)) = 4.
Proof. exact dr_forest_ok. Qed.

(** RBTree::draw: a node for every key, red ones marked, a box for every missing child, if the texts of the keys are different
    and none begins like those of the boxes; whatever the count of boxes drawn before. *)
Theorem C100_rbtree : forall (T : Type) (key_text : T -> string) (h : heap T) (leaf : nat) (t : tree) (tt : @tr T), rep (St h (mRoot t)) tt ->
  NoDup (map key_text (map snd (ents tt))) -> (forall k, In k (map snd (ents tt)) -> prefix "nullptr" (key_text k) = false) ->
  exists g leaf', rb_draw key_text h leaf t = Ok (g, leaf') /\ depicts g [] [] (rb_items key_text [] tt) (rb_links [] tt).
Proof. exact @c100_rb. Qed.
Print Assumptions C100_rbtree.

(** So it is for sets of ints after any operations. *)
Theorem C100_rbtree_int : forall (compare : Z -> Z -> Z) (dbg : bool) (os : list (op Z)) (ss : sstate) (xs : list (obs Z)) (s : state Z) (ys : list (obs Z))
  (i : nat) (t : tree) (l : list Z) (leaf : nat), key_order compare ->
  sp_run compare sp_start os = Some (ss, xs) -> RBModel.run compare dbg start os = Ok (s, ys) ->
  nth_error (strees s) i = Some t -> nth_error (sets ss) i = Some l ->
  exists tt g leaf', map snd (ents tt) = l /\ rb_draw z_text (shp s) leaf t = Ok (g, leaf') /\ depicts g [] [] (rb_items z_text [] tt) (rb_links [] tt).
Proof. exact c100_rb_run. Qed.
Print Assumptions C100_rbtree_int.
Example C100_rbtree_ex : exists s t ss, RBModel.run zcmp true start prog = Ok (s, answers) /\ sp_run zcmp sp_start prog = Some (ss, answers) /\ nth_error (strees s) 2 = Some t /\
  nth_error (sets ss) 2 = Some [1; 2; 3; 4; 7; 8; 9]%Z /\
  exists g, rb_draw z_text (shp s) 3 t = Ok (g, 11) /\ map fst (gnodes g) = ["7"; "2"; "1"; "nullptr4"; "nullptr5"; "3"; "nullptr6"; "4"; "nullptr7"; "nullptr8"; "8"; "nullptr9"; "9"; "nullptr10"; "nullptr11"].
Proof. exact dr_set. Qed.

(** With strings as keys it fails: the only key "nullptr1" and the first missing child become one node, with an arrow to itself. *)
Theorem C100_rbtree_names_refuted : exists (h : heap string) (t : tree) (tt : @tr string) (g : graph) (n : nat), rep (St h (mRoot t)) tt /\ NoDup (map snd (ents tt)) /\
  rb_draw (fun s => s) h 0 t = Ok (g, n) /\ ~ depicts g [] [] (rb_items (fun s => s) [] tt) (rb_links [] tt).
Proof. exact c100_rb_refuted. Qed.
Print Assumptions C100_rbtree_names_refuted.

(** saveImage of pyginv: every list that is not empty and every Wrap, with arrows to the next one in its list and from a list
    to the first one in it, and a text at the end. *)
Theorem C100_pyginv : forall (o : py_order) (level : nat) (count : Z) (hp_str : string) (r : arow), NoDup (py_ids r) ->
  depicts (py_save_image o level count hp_str r) [] [py_mark count hp_str r] (py_items o level 0 r) (py_links r).
Proof. exact c100_py. Qed.
Print Assumptions C100_pyginv.
Example C100_pyginv_ex : erase_row dr_row = pj_root tree2 /\
  NoDup (py_ids dr_row) /\ py_links dr_row = [(10, 20, "solid"); (10, 14, "dotted"); (20, 30, "solid"); (20, 22, "dotted")] /\
  map (fun n => fst (fst (seen n))) (gnodes (py_save_image TOPdeglex 1 3 "s + 1" dr_row)) =
  ["0"; "<<B>[0 3]</B><BR/> * _>"; "1"; "<<B>[1 1]</B><BR/> * _>"; "<<B>[2 0]</B><BR/> _ _>"; "<<B>#Janet = 3<BR/>HP_{3} = s + 1</B>>"].
Proof. exact dr_py. Qed.

(** The library, whatever is called: a name is one node, with the last value of every attribute it was given; and from one
    name to another there is one edge, with the last style, unless gv.edge makes new ones. *)
Theorem C100_graphviz : forall l : list call, let g := do_calls l no_graph in NoDup (map fst (gnodes g)) /\
  forall s k, In (s, k) (gnodes g) <-> node_calls s l <> [] /\ as_set k (node_calls s l).
Proof. exact calls_nodes. Qed.
Print Assumptions C100_graphviz.
Theorem C100_graphviz_edges : forall l : list call, Forall find_or_make l -> let g := do_calls l no_graph in NoDup (map fst (gedges g)) /\
  forall a b st, In (a, b, st) (gedges g) <-> exists before, edge_calls a b l = (before ++ [st])%list.
Proof. exact calls_edges. Qed.
Print Assumptions C100_graphviz_edges.
Example C100_graphviz_ex : let l := [CNode "a" (Look (Some "x") None None); CNode "b" bare; CEdge "a" "b" "solid"; CNode "a" (Look (Some "y") (Some "box") None); CEdge "a" "b" "dotted"] in
  Forall find_or_make l /\ do_calls l no_graph = Graph [("a", Look (Some "y") (Some "box") None); ("b", bare)] [("a", "b", "dotted")].
Proof. repeat constructor. Qed.
