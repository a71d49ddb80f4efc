(** Property C63: ginvMin of the Python package pyginv. *)
From Coq Require Import ZArith List Bool Arith Lia.
From Verif Require Import Outcome MonomModel MonomSpec PolySpec JanetSpec JanetPolySpec PyMonomModel PyMonomSpec PyPolyModel PyPolySpec PyJanetModel PyJanetSpec
  PyHPModel PyForestModel PyQueueModel PyGinvModel PyGinvSpec PySpan PyGinvTop PyGinvExamples.
Import ListNotations.
Local Open Scope nat_scope.

(** A call of ginvMin, after any calls of ginvMin and ginvBlockLow on the same tree, raises no exception; when it ends, the
    queue is empty.  (That it ends is not proved.) *)
Theorem C63_total_partial : forall (o : py_order) (n : nat) (k : Z), (0 <= k)%Z -> 0 < n -> forall fuel nf cs T id level ps id', session o n k cs T id -> id <= id' ->
  ps <> [] -> Forall (input o n k T) ps ->
  ginv_min fuel nf o level ps T id' = OutOfFuel \/ exists s, ginv_min fuel nf o level ps T id' = Ok s /\ pq_list (ps_queue s) = [].
Proof. intros o n k K N fuel nf cs T id level ps id' S Le Np H. exact (gi_total o n k K N fuel nf cs T id (CMin level ps) id' S Le Np H I). Qed.
Print Assumptions C63_total_partial.

(** Every polynomial of the tree is valid, not 0, and lies in the ideal (module) of all the input. *)
Theorem C63_sound : forall (o : py_order) (n : nat) (k : Z), (0 <= k)%Z -> 0 < n -> forall cs T id, session o n k cs T id ->
  forall g, In g (basis T) -> input o n k T g /\ rational_member n (inputs cs) g.
Proof. exact gi_sound. Qed.
Print Assumptions C63_sound.

(** find answers with the element whose leading monomial is the Janet divisor, if there is one. *)
Theorem C63_find : forall (o : py_order) (n : nat) (k : Z), (0 <= k)%Z -> 0 < n -> forall cs T id, session o n k cs T id ->
  forall m, pmono n k m -> (match T with DJanet _ => pos m = (-1)%Z | DForest _ => (0 <= pos m)%Z end) ->
  (exists r, d_find T m = Ok r) /\ (d_find T m = Ok None <-> ~ reducible n T m) /\
  forall q, d_find T m = Ok (Some q) -> In q (basis T) /\ pos (lmon q) = pos m /\ janet_divides n (lead_exps T (pos m)) (vars (lmon q)) (vars m).
Proof. exact gi_find. Qed.
Print Assumptions C63_find.

(** The coefficients of each polynomial of the tree have no common factor, and its terms but the first are not reducible. *)
Theorem C63_reduced : forall (o : py_order) (n : nat) (k : Z), (0 <= k)%Z -> 0 < n -> forall cs T id, session o n k cs T id ->
  forall m c q, In ((m, c) :: q) (basis T) -> primitive ((m, c) :: q) /\ forall x, In x q -> ~ reducible n T (fst x).
Proof. exact gi_tails. Qed.
Print Assumptions C63_reduced.

(** With ginvMin alone, as long as it reports that its criteria were not used: the tree generates the ideal of the input. *)
Theorem C63_ideal_partial : forall (o : py_order) (n : nat) (k : Z), (0 <= k)%Z -> 0 < n -> forall cs T id, session o n k cs T id -> uncut cs ->
  forall p, rational_member n (fun g => In g (basis T)) p <-> rational_member n (inputs cs) p.
Proof. exact gi_ideal. Qed.
Print Assumptions C63_ideal_partial.

(** ... and if the last call had level > 0, the leading monomial of every polynomial of the ideal is reducible. *)
Theorem C63_complete_partial : forall (o : py_order) (n : nat) (k : Z), (0 <= k)%Z -> 0 < n -> forall cs T id, session o n k cs T id -> uncut cs -> prolonging cs ->
  forall m c p, py_canonical o n k ((m, c) :: p) -> rational_member n (inputs cs) ((m, c) :: p) -> reducible n T m.
Proof. exact gi_complete. Qed.
Print Assumptions C63_complete_partial.

(** ... so NFhead decides membership. *)
Theorem C63_normal_form_partial : forall (o : py_order) (n : nat) (k : Z), (0 <= k)%Z -> 0 < n -> forall cs T id, session o n k cs T id -> uncut cs -> prolonging cs ->
  forall p, py_canonical o n k p ->
  exists bound r, (forall fuel, bound <= fuel -> py_nfhead fuel o (d_find T) p = Ok r) /\ (r = [] <-> rational_member n (inputs cs) p).
Proof. exact gi_normal. Qed.
Print Assumptions C63_normal_form_partial.

(** With the default level = 0 this fails: x (x y - 1) has a normal form that is not 0. *)
Theorem C63_level0_refuted : exists cs T id p r, session TOPdeglex 2 0 cs T id /\ uncut cs /\ py_canonical TOPdeglex 2 0 p /\ rational_member 2 (inputs cs) p /\
  py_nfhead 30 TOPdeglex (d_find T) p = Ok r /\ r <> [].
Proof.
  exists [(CMin false [g_f1; g_f2], 0)], (ps_tree z_s), (ps_id z_s), g_xf2, [R [0; 2] 1; R [1; 0] (-1)]. split; [exact z_session|]. split; [repeat constructor|]. split; [apply PyExamples.canonical_b_ok; vm_compute; reflexivity|].
  split; [exact z_member|]. split; [vm_compute; reflexivity|discriminate].
Qed.
Print Assumptions C63_level0_refuted.

(** With a lex order and level > 0 the criteria can discard too much: the normal form of an input polynomial is not 0. *)
Theorem C63_lex_refuted : exists ps s p r, Forall (input TOPlex 3 0 (DJanet pj_empty)) ps /\ ginv_min 200 3000 TOPlex true ps (DJanet pj_empty) 0 = Ok s /\ In p ps /\
  py_nfhead 3000 TOPlex (d_find (ps_tree s)) p = Ok r /\ r <> [].
Proof.
  destruct l_nf as (r & E & Nr). exists l_fs, l_s, l_f1, r. split; [exact l_in|]. split; [exact l_run|]. split; [now left|]. split; [exact E|exact Nr].
Qed.
Print Assumptions C63_lex_refuted.

(** With several unknown functions too, in every order: for u = 0, x u + v = 0 the result is u alone. *)
Theorem C63_module_refuted : forall o : py_order, exists F s r, pf_new 2 = Ok F /\ Forall (input o 2 2 (DForest F)) [m_u; m_xuv] /\ ginv_min 30 30 o true [m_u; m_xuv] (DForest F) 0 = Ok s /\
  basis (ps_tree s) = [m_u] /\ py_nfhead 30 o (d_find (ps_tree s)) m_xuv = Ok r /\ r = m_v.
Proof.
  intro o. exists (repeat pj_empty 2), (result (ginv_min 30 30 o true [m_u; m_xuv] forest2 0)), m_v. split; [reflexivity|]. split; [exact (m_in o)|]. destruct o; (split; [vm_compute; reflexivity|]; split; [vm_compute; reflexivity|]; split; [vm_compute; reflexivity|reflexivity]).
Qed.
Print Assumptions C63_module_refuted.

(** The hypotheses hold for x^2 - y, x y - 1; the result is y^2 - x, x y - 1, x^2 - y.  A second call adds y - 1. *)
Example C63_example : session TOPdeglex 2 0 [(CMin true [g_f1; g_f2], 0)] (ps_tree g_s) (ps_id g_s) /\ uncut [(CMin true [g_f1; g_f2], 0)] /\ prolonging [(CMin true [g_f1; g_f2], 0)] /\
  basis (ps_tree g_s) = [[R [0; 2] 1; R [1; 0] (-1)]; g_f2; g_f1] /\
  Forall (input TOPdeglex 2 0 (ps_tree g_s)) [g_f3] /\
  session TOPdeglex 2 0 [(CMin true [g_f1; g_f2], 0); (CMin true [g_f3], counters g_s2)] (ps_tree g_s2) (ps_id g_s2) /\
  basis (ps_tree g_s2) = [[R [0; 1] 1; R [0; 0] (-1)]; [R [1; 0] (-1); R [0; 0] 1]].
Proof.
  split; [exact g_session|]. split; [repeat constructor|]. split; [exists [], [g_f1; g_f2], 0; reflexivity|]. split; [exact g_basis|]. split; [apply input_b_ok; vm_compute; reflexivity|]. split; [exact g_session2|vm_compute; reflexivity].
Qed.
