(** Property C95: what searching a Janet tree costs. *)
From Coq Require Import ZArith List Bool Arith Lia.
From Verif Require Import Outcome MonomModel MonomSpec PolyModel PolySpec JanetModel JanetSpec CompletionModel GBModel GBSpec
  JanetPolyModel TQModel JanetPolySpec JanetPolyExamples LinExamples InvolutiveExamples JanetCostModel JanetCostProofs JanetCostTop.
Import ListNotations.
Local Open Scope nat_scope.

(** The search that counts is the search. *)
Theorem C95_same : forall (dbg : bool) (t : tree) (m : monom), find dbg t m = do x <- find_c dbg t m; Ok (fst x).
Proof. exact find_same. Qed.
Print Assumptions C95_same.

(** However many monomials are in the tree, looking up m visits at most deg(m) + n nodes and compares at most n elements with m. *)
Theorem C95_find : forall (dbg : bool) (n : nat) (p : Z) (l : list monom) (m : monom),
  0 < n -> Forall (fun m => length (vars m) = n /\ pos m = p) l -> NoDup (map vars l) ->
  length (vars m) = n -> (dbg = true -> p = (-1)%Z \/ pos m = p) ->
  exists J r c, mj_push_all false jempty l = Ok J /\ find dbg (jroot J) m = Ok r /\ find_c dbg (jroot J) m = Ok (r, c) /\
    visited c <= total (vars m) + n /\ checked_elems c <= n.
Proof. exact c95_find. Qed.
Print Assumptions C95_find.

(** A tree of k elements has between k and n * k nodes ... *)
Theorem C95_nodes : forall (n : nat) (l : list monom) (J : janet), 0 < n -> Forall (fun m => length (vars m) = n) l -> NoDup (map vars l) ->
  mj_push_all false jempty l = Ok J -> length l <= nodes (jroot J) <= n * length l.
Proof. exact c95_nodes. Qed.
Print Assumptions C95_nodes.

(** ... and an insertion adds at most n, in any tree and either build. *)
Theorem C95_insert : forall (dbg : bool) (J : janet) (w : wrap) (J' : janet), insert dbg J w = Ok J' ->
  nodes (jroot J') <= length (vars (wlm w)) + nodes (jroot J).
Proof. exact insert_nodes. Qed.
Print Assumptions C95_insert.

(** The same for the trees of a polynomial basis, after any history. *)
Theorem C95_basis : forall (t : pos_order) (o : base_order) (n : nat), 0 < n -> o <> OAlex ->
  forall (F : list poly) (J : jpoly) (js : list janet) (Ja : janet) (m : monom),
  jp_history false t o n F J -> jone J = None -> jtrees J = Some js -> In Ja js -> length (vars m) = n ->
  nodes (jroot Ja) <= n * length (basis J) /\
  exists r c, find false (jroot Ja) m = Ok r /\ find_c false (jroot Ja) m = Ok (r, c) /\ visited c <= total (vars m) + n /\ checked_elems c <= n.
Proof. exact c95_basis. Qed.
Print Assumptions C95_basis.

(** The forest of class GB: that much for each of its trees. *)
Theorem C95_forest : forall (dbg : bool) (n : nat) (h : list GBSpec.entry) (g : gb) (m : monom), 0 < n -> GBSpec.history n h ->
  (dbg = true -> Forall (fun e => pos (fst e) = (-1)%Z) h) ->
  gb_insert_all dbg gb_new h = Ok g -> length (vars m) = n ->
  exists r c, gb_find dbg g m = Ok r /\ forest_find_c dbg (gforest g) m = Ok (r, c) /\
    visited c <= length (gforest g) * (total (vars m) + n) /\ checked_elems c <= length (gforest g) * n.
Proof. exact c95_gb. Qed.
Print Assumptions C95_forest.

(** A search in a forest that finds nothing costs as much as those in its trees together. *)
Theorem C95_forest_sum : forall (dbg : bool) (f : list janet) (m : monom) (c : cost), forest_find_c dbg f m = Ok (None, c) ->
  exists cs, Forall2 (fun J k => exists r, find_c dbg (jroot J) m = Ok (r, k)) f cs /\
    visited c = list_sum (map visited cs) /\ checked_elems c = list_sum (map checked_elems cs).
Proof. exact c95_forest_sum. Qed.
Print Assumptions C95_forest_sum.

(** One node less than the bound: y, x y, x^2, x^2 y, x^2 y^2 and the search for x^2 y^2. *)
Example C95_ex : let l := map (Mon (-1)) [[0;1]; [1;1]; [2;0]; [2;1]; [2;2]] in
  Forall (fun m => length (vars m) = 2 /\ pos m = (-1)%Z) l /\ NoDup (map vars l) /\
  exists J r, mj_push_all false jempty l = Ok J /\ find_c true (jroot J) (Mon (-1) [2;2]) = Ok (Some r, Cost 5 1) /\
    vars (wlm r) = [2;2] /\ nodes (jroot J) = 7.
Proof.
  split; [repeat constructor|]. split; [repeat constructor; cbn; intuition discriminate|].
  do 2 eexists. split; [vm_compute; reflexivity|]. split; [vm_compute; reflexivity|]. split; reflexivity.
Qed.
(** The basis of x^2 - y and x y - 1 has three elements. *)
Example C95_basis_ex : exists js Ja r c, jtrees iv_J = Some js /\ In Ja js /\ jone iv_J = None /\
  find_c false (jroot Ja) (Mon (-1) [3;1]) = Ok (Some r, c) /\ visited c = 3 /\ nodes (jroot Ja) = 5 /\ length (basis iv_J) = 3.
Proof. do 4 eexists. split; [vm_compute; reflexivity|]. split; [left; reflexivity|]. repeat split; vm_compute; reflexivity. Qed.
