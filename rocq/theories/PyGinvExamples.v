(** Runs of ginvMin and ginvBlockLow of pyginv. *)
From Coq Require Import ZArith List Bool Arith Lia.
From Verif Require Import Outcome MonomModel MonomSpec PolySpec JanetSpec JanetPolySpec IdealProofs PyMonomModel PyMonomSpec PyPolyModel PyPolySpec PyExamples PyJanetModel PyJanetSpec
  PyHPModel PyForestModel PyQueueModel PyGinvModel PyGinvSpec.
Import ListNotations.
Local Open Scope nat_scope.

Definition ring_b (T : pdiv) (p : ppoly) : bool :=
  match p with [] => false | _ => forallb (fun x => match T with DJanet _ => Z.eqb (pos (fst x)) (-1) | DForest _ => Z.leb 0 (pos (fst x)) end) p end.
Lemma input_b_ok o n k T ps : forallb (fun p => canonical_b o n k p && ring_b T p) ps = true -> Forall (input o n k T) ps.
Proof.
  intro H. rewrite Forall_forall. rewrite forallb_forall in H. intros p P. specialize (H p P). apply andb_true_iff in H. destruct H as [C R]. split; [exact (canonical_b_ok o n k p C)|]. split; [intros ->; discriminate R|].
  assert (R' : forallb (fun x => match T with DJanet _ => Z.eqb (pos (fst x)) (-1) | DForest _ => Z.leb 0 (pos (fst x)) end) p = true) by (destruct p; [discriminate R|exact R]). rewrite forallb_forall in R'. rewrite Forall_forall. intros x X. specialize (R' x X). destruct T; [now apply Z.eqb_eq|now apply Z.leb_le].
Qed.

Definition R (e : list nat) (c : Z) : pterm := (Mon (-1) e, c).
Definition ring0 : pdiv := DJanet pj_empty.
Definition st0 : pstate := PS ring0 (PQ [] 0 0) 0.
Definition result (r : outcome pstate) : pstate := match r with Ok s => s | _ => st0 end.

(** x^2 - y, x y - 1 *)
Definition g_f1 : ppoly := [R [2; 0] 1; R [0; 1] (-1)].
Definition g_f2 : ppoly := [R [1; 1] 1; R [0; 0] (-1)].
Lemma g_in o : Forall (input o 2 0 ring0) [g_f1; g_f2].
Proof. apply input_b_ok. destruct o; vm_compute; reflexivity. Qed.
Definition g_s := result (ginv_min 30 30 TOPdeglex true [g_f1; g_f2] ring0 0).
Lemma g_run : ginv_min 30 30 TOPdeglex true [g_f1; g_f2] ring0 0 = Ok g_s.
Proof. vm_compute. reflexivity. Qed.
Lemma g_session : session TOPdeglex 2 0 [(CMin true [g_f1; g_f2], 0)] (ps_tree g_s) (ps_id g_s).
Proof. change 0 with (counters g_s) at 2. apply (ses_call TOPdeglex 2 0 [] ring0 0 (CMin true [g_f1; g_f2]) 30 30 0 g_s); [now apply ses_janet|lia|exact (g_in TOPdeglex)|exact g_run]. Qed.
Lemma g_basis : basis (ps_tree g_s) = [[R [0; 2] 1; R [1; 0] (-1)]; g_f2; g_f1].
Proof. vm_compute. reflexivity. Qed.
(** a second call on the same tree: y - 1 *)
Definition g_f3 : ppoly := [R [0; 1] 1; R [0; 0] (-1)].
Definition g_s2 := result (ginv_min 30 30 TOPdeglex true [g_f3] (ps_tree g_s) (ps_id g_s)).
Lemma g_session2 : session TOPdeglex 2 0 [(CMin true [g_f1; g_f2], 0); (CMin true [g_f3], counters g_s2)] (ps_tree g_s2) (ps_id g_s2).
Proof.
  apply (ses_call TOPdeglex 2 0 [(CMin true [g_f1; g_f2], 0)] (ps_tree g_s) (ps_id g_s) (CMin true [g_f3]) 30 30 (ps_id g_s) g_s2); [exact g_session|lia|apply input_b_ok; vm_compute; reflexivity|vm_compute; reflexivity].
Qed.
(** the same input with ginvBlockLow *)
Definition g_s3 := result (ginv_low 30 30 TOPdeglex [g_f1; g_f2] ring0 0).
Lemma g_session3 : session TOPdeglex 2 0 [(CLow [g_f1; g_f2], 0)] (ps_tree g_s3) (ps_id g_s3).
Proof. change 0 with (counters g_s3) at 2. apply (ses_call TOPdeglex 2 0 [] ring0 0 (CLow [g_f1; g_f2]) 30 30 0 g_s3); [now apply ses_janet|lia|exact (g_in TOPdeglex)|vm_compute; reflexivity]. Qed.

(** the default level = 0 *)
Definition z_s := result (ginv_min 30 30 TOPdeglex false [g_f1; g_f2] ring0 0).
Lemma z_session : session TOPdeglex 2 0 [(CMin false [g_f1; g_f2], 0)] (ps_tree z_s) (ps_id z_s).
Proof. change 0 with (counters z_s) at 2. apply (ses_call TOPdeglex 2 0 [] ring0 0 (CMin false [g_f1; g_f2]) 30 30 0 z_s); [now apply ses_janet|lia|exact (g_in TOPdeglex)|vm_compute; reflexivity]. Qed.
Definition g_xf2 : ppoly := [R [2; 1] 1; R [1; 0] (-1)].
Lemma z_member : rational_member 2 (inputs [(CMin false [g_f1; g_f2], 0)]) g_xf2.
Proof.
  change g_xf2 with (shift [1; 0] g_f2). apply mem_shift; [reflexivity|]. apply mem_gen; [|repeat constructor; cbn; lia]. exists (CMin false [g_f1; g_f2], 0). split; [now left|right; now left].
Qed.

(** lex order: an input polynomial with a normal form that is not 0 *)
Definition l_fs : list ppoly :=
  [[R [3; 3; 1] 2; R [3; 1; 2] 1]; [R [3; 3; 1] (-1); R [1; 2; 0] 2]; [R [1; 0; 3] (-1); R [0; 3; 2] (-1)]; [R [2; 3; 2] 3; R [1; 2; 1] 1]].
Lemma l_in : Forall (input TOPlex 3 0 ring0) l_fs.
Proof. apply input_b_ok. vm_compute. reflexivity. Qed.
Definition l_s := result (ginv_min 200 3000 TOPlex true l_fs ring0 0).
Definition l_f1 : ppoly := [R [3; 3; 1] 2; R [3; 1; 2] 1].
Lemma l_run : ginv_min 200 3000 TOPlex true l_fs ring0 0 = Ok l_s.
Proof. vm_compute. reflexivity. Qed.
Lemma l_nf : exists r, py_nfhead 3000 TOPlex (d_find (ps_tree l_s)) l_f1 = Ok r /\ r <> [].
Proof. eexists. split; [vm_compute; reflexivity|discriminate]. Qed.

(** two unknown functions u and v: the system u = 0, x u + v = 0 *)
Definition forest2 : pdiv := DForest (repeat pj_empty 2).
Definition m_u : ppoly := [(Mon 0 [0; 0], 1%Z)].
Definition m_v : ppoly := [(Mon 1 [0; 0], 1%Z)].
Definition m_xuv : ppoly := [(Mon 0 [1; 0], 1%Z); (Mon 1 [0; 0], 1%Z)].
Lemma m_in o : Forall (input o 2 2 forest2) [m_u; m_xuv].
Proof. apply input_b_ok. destruct o; vm_compute; reflexivity. Qed.
Definition m_s := result (ginv_min 30 30 TOPdeglex true [m_u; m_xuv] forest2 0).
Definition m_s2 := result (ginv_low 30 30 TOPdeglex [m_u; m_xuv] forest2 0).

(** a constant among the input of ginvBlockLow *)
Definition g_one : ppoly := [R [0; 0] 1].
Lemma one_in : Forall (input TOPdeglex 2 0 ring0) [g_f1; g_one].
Proof. apply input_b_ok. vm_compute. reflexivity. Qed.
Definition one_s := result (ginv_low 30 30 TOPdeglex [g_f1; g_one] ring0 0).
