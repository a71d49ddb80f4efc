(** Property C64: ginvBlockLow of the Python package pyginv. *)
From Coq Require Import ZArith List Bool Arith Lia.
From Verif Require Import Outcome MonomModel MonomSpec PolySpec JanetSpec JanetPolySpec PyMonomModel PyMonomSpec PyPolyModel PyPolySpec PyJanetModel PyJanetSpec
  PyHPModel PyForestModel PyQueueModel PyGinvModel PyGinvSpec PySpan PyGinvTop PyGinvExamples.
Import ListNotations.
Local Open Scope nat_scope.

(** A call of ginvBlockLow, after any calls of ginvMin and ginvBlockLow on the same tree, raises no exception.  (That it
    ends is not proved.) *)
Theorem C64_total_partial : forall (n : nat) (k : Z), (0 <= k)%Z -> 0 < n -> forall fuel nf cs T id ps id', session TOPdeglex n k cs T id -> id <= id' ->
  ps <> [] -> Forall (input TOPdeglex n k T) ps ->
  ginv_low fuel nf TOPdeglex ps T id' = OutOfFuel \/ exists s, ginv_low fuel nf TOPdeglex ps T id' = Ok s.
Proof.
  intros n k K N fuel nf cs T id ps id' S Le Np H. destruct (gi_total TOPdeglex n k K N fuel nf cs T id (CLow ps) id' S Le Np H eq_refl) as [E|(s & E & _)]; [left; exact E|right; exists s; exact E].
Qed.
Print Assumptions C64_total_partial.

(** Every polynomial of the tree is valid, not 0, and lies in the ideal (module) of the input of this and all earlier calls. *)
Theorem C64_sound : forall (n : nat) (k : Z), (0 <= k)%Z -> 0 < n -> forall fuel nf cs T id ps id' s, session TOPdeglex n k cs T id -> id <= id' ->
  Forall (input TOPdeglex n k T) ps -> ginv_low fuel nf TOPdeglex ps T id' = Ok s ->
  forall g, In g (basis (ps_tree s)) -> input TOPdeglex n k (ps_tree s) g /\ rational_member n (fun p => inputs cs p \/ In p ps) g.
Proof. exact gi_low_sound. Qed.
Print Assumptions C64_sound.

(** Afterwards find answers with the Janet divisor, the coefficients of each polynomial have no common factor, and the
    terms but the first of each polynomial are not reducible. *)
Theorem C64_reduced : forall (n : nat) (k : Z), (0 <= k)%Z -> 0 < n -> forall fuel nf cs T id ps id' s, session TOPdeglex n k cs T id -> id <= id' ->
  Forall (input TOPdeglex n k T) ps -> ginv_low fuel nf TOPdeglex ps T id' = Ok s ->
  (forall m, pmono n k m -> (match ps_tree s with DJanet _ => pos m = (-1)%Z | DForest _ => (0 <= pos m)%Z end) ->
    (exists r, d_find (ps_tree s) m = Ok r) /\ (d_find (ps_tree s) m = Ok None <-> ~ reducible n (ps_tree s) m)) /\
  forall m c q, In ((m, c) :: q) (basis (ps_tree s)) -> primitive ((m, c) :: q) /\ forall x, In x q -> ~ reducible n (ps_tree s) (fst x).
Proof. exact gi_low_reduced. Qed.
Print Assumptions C64_reduced.

(** If the input contains a constant the call can stop at once: the input stays in the queue and the result is empty. *)
Theorem C64_constant_refuted : exists ps s, Forall (input TOPdeglex 2 0 (DJanet pj_empty)) ps /\ In [(Mon (-1) [0; 0], 1%Z)] ps /\ ginv_low 30 30 TOPdeglex ps (DJanet pj_empty) 0 = Ok s /\
  basis (ps_tree s) = [] /\ length (pq_list (ps_queue s)) = length ps.
Proof. exists [g_f1; g_one], one_s. split; [exact one_in|]. split; [right; now left|]. split; [vm_compute; reflexivity|]. split; [vm_compute; reflexivity|vm_compute; reflexivity]. Qed.
Print Assumptions C64_constant_refuted.

(** With several unknown functions also an equation u = 0 has this effect. *)
Theorem C64_function_refuted : exists F s, pf_new 2 = Ok F /\ Forall (input TOPdeglex 2 2 (DForest F)) [m_u; m_xuv] /\ ginv_low 30 30 TOPdeglex [m_u; m_xuv] (DForest F) 0 = Ok s /\
  basis (ps_tree s) = [] /\ length (pq_list (ps_queue s)) = 2.
Proof. exists (repeat pj_empty 2), m_s2. split; [reflexivity|]. split; [exact (m_in TOPdeglex)|]. split; [vm_compute; reflexivity|]. split; [vm_compute; reflexivity|vm_compute; reflexivity]. Qed.
Print Assumptions C64_function_refuted.

(** The hypotheses hold for x^2 - y, x y - 1; the result is y^2 - x, x y - 1, x^2 - y.  A second call with ginvBlockLow on
    the result of ginvMin. *)
Example C64_example : session TOPdeglex 2 0 [(CLow [g_f1; g_f2], 0)] (ps_tree g_s3) (ps_id g_s3) /\ basis (ps_tree g_s3) = [[R [0; 2] 1; R [1; 0] (-1)]; g_f2; g_f1] /\
  session TOPdeglex 2 0 [(CMin true [g_f1; g_f2], 0)] (ps_tree g_s) (ps_id g_s) /\
  exists s, ginv_low 30 30 TOPdeglex [g_f3] (ps_tree g_s) (ps_id g_s) = Ok s /\ basis (ps_tree s) = [[R [0; 1] 1; R [0; 0] (-1)]; [R [1; 0] (-1); R [0; 0] 1]].
Proof.
  split; [exact g_session3|]. split; [vm_compute; reflexivity|]. split; [exact g_session|]. eexists. split; [vm_compute; reflexivity|vm_compute; reflexivity].
Qed.
