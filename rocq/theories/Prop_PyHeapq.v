(** Property C102: the queue of pyginv hands out the smallest polynomials first. *)
From Coq Require Import ZArith List Bool Arith Lia Permutation.
From Verif Require Import Outcome MonomModel MonomSpec PyMonomModel PyMonomSpec PyPolyModel PyJanetModel PyQueueModel PyGinvModel PyGinvSpec PyGinvExamples PyHeapqSpec PyHeapqProofs PyHeapqQueue PyHeapqTop.
Import ListNotations.
Local Open Scope nat_scope.

(** heapq, for all lists and all orders in which objects may be equal: heapify makes a heap of the same entries ... *)
Theorem C102_heapify : forall (A : Type) (P : A -> Prop) (lt : A -> A -> bool), weak_order P lt -> forall l, Forall P l ->
  is_heap lt (heapify lt l) /\ Permutation (heapify lt l) l.
Proof. intros A P lt W l H. split; [exact (heapify_ok P lt W l H)|exact (PyQueueProofs.heapify_perm lt l)]. Qed.
Print Assumptions C102_heapify.

(** ... heappush adds an entry to a heap ... *)
Theorem C102_heappush : forall (A : Type) (P : A -> Prop) (lt : A -> A -> bool), weak_order P lt -> forall l x, Forall P (x :: l) -> is_heap lt l ->
  is_heap lt (heap_push lt l x) /\ Permutation (heap_push lt l x) (x :: l).
Proof. intros A P lt W l x H Hp. split; [exact (heap_push_ok P lt W l x H Hp)|exact (PyQueueProofs.heap_push_perm lt l x)]. Qed.
Print Assumptions C102_heappush.

(** ... heappop takes the first entry, which is preceded by no other, and leaves a heap of the others ... *)
Theorem C102_heappop : forall (A : Type) (P : A -> Prop) (lt : A -> A -> bool), weak_order P lt -> forall x l, Forall P (x :: l) -> is_heap lt (x :: l) ->
  exists h, heap_pop lt (x :: l) = Some (x, h) /\ least lt x h /\ is_heap lt h /\ Permutation h l.
Proof. exact pop_ok. Qed.
Print Assumptions C102_heappop.

(** ... so that all entries come out in order. *)
Theorem C102_heapsort : forall (A : Type) (P : A -> Prop) (lt : A -> A -> bool), weak_order P lt -> forall l, Forall P l ->
  Permutation (pops lt (length l) (heapify lt l)) l /\ in_order lt (pops lt (length l) (heapify lt l)).
Proof. exact sort_ok. Qed.
Print Assumptions C102_heapsort.

(** The order of Wraps is such an order, in all four orders of monomials. *)
Theorem C102_order : forall (o : py_order) (n : nat), weak_order (fun w => mono n (pw_lm w)) (w_lt o).
Proof. exact w_order. Qed.
Print Assumptions C102_order.

(** During every call of ginvMin and ginvBlockLow q[0] comes first: its leading monomial is the smallest of the queue. *)
Theorem C102_first : forall (o : py_order) (n : nat) (k : Z), (0 <= k)%Z -> 0 < n -> forall cs T id id', session o n k cs T id -> id <= id' -> forall c s w l, Forall (input o n k T) (call_inputs c) ->
  in_call o T id' c s -> pq_list (ps_queue s) = w :: l -> lowest o w l.
Proof. exact first_ok. Qed.
Print Assumptions C102_first.

(** ginvMin: what reduceAll returns comes first among all that is left. *)
Theorem C102_next : forall (o : py_order) (n : nat) (k : Z), (0 <= k)%Z -> 0 < n -> forall cs T id id', session o n k cs T id -> id <= id' -> forall level ps s nf T1 q1 T2 q2 w, Forall (input o n k T) ps ->
  in_call o T id' (CMin level ps) s -> prepared o s T1 q1 -> q_reduceAll nf o T1 q1 = Ok (T2, q2, Some w) -> lowest o w (pq_list q2).
Proof. exact next_ok. Qed.
Print Assumptions C102_next.

(** ginvBlockLow: what reduceMinDegree returns is a block of one degree, and nothing of a smaller degree is left; the same
    holds for what autoReduce makes of it, which is never empty. *)
Theorem C102_block : forall (n : nat) (k : Z), (0 <= k)%Z -> 0 < n -> forall cs T id id' ps s fuel nf T1 q1 T2 q2 r, session TOPdeglex n k cs T id -> id <= id' -> Forall (input TOPdeglex n k T) ps ->
  in_call TOPdeglex T id' (CLow ps) s -> prepared TOPdeglex s T1 q1 -> q_reduceMinDegree fuel nf TOPdeglex T1 q1 = Ok (T2, q2, r) ->
  exists d, block d r (pq_list q2) /\
    forall q3 res, q_autoReduce TOPdeglex q2 r = Ok (q3, res) -> res <> [] /\ exists e, e <= d /\ block e res (pq_list q3).
Proof. exact block_ok. Qed.
Print Assumptions C102_block.

(** autoReduce works through its list from below: get_min takes out an entry that comes first. *)
Theorem C102_get_min : forall (o : py_order) (n : nat) (w0 : pwrap) (l : list pwrap), Forall (fun w => mono n (pw_lm w)) (w0 :: l) ->
  Permutation (fst (get_min o w0 l) :: snd (get_min o w0 l)) (w0 :: l) /\
  forall v, In v (snd (get_min o w0 l)) -> w_gt o (fst (get_min o w0 l)) v = false.
Proof. intros o n w0 l H. split; [symmetry; exact (PyGinvLow.get_min_perm o w0 l)|exact (get_min_least o n w0 l H)]. Qed.
Print Assumptions C102_get_min.

(** The block need not contain all polynomials of its degree: of x^2 - y and x y - 1 the first call of reduceMinDegree
    returns the second alone, because the degree is not noted when nothing is to be reduced. *)
Theorem C102_whole_block_refuted : exists s T2 q2 r v, in_call TOPdeglex ring0 0 (CLow [g_f1; g_f2]) s /\
  q_reduceMinDegree 30 30 TOPdeglex (ps_tree s) (ps_queue s) = Ok (T2, q2, r) /\ map pw_poly r = [g_f2] /\ In v (pq_list q2) /\ pw_poly v = g_f1 /\ deg v = 2 /\ map deg r = [2].
Proof.
  eexists _, _, _, _, _. split; [apply ic_start; [vm_compute; reflexivity|reflexivity]|]. split; [vm_compute; reflexivity|]. split; [reflexivity|]. split; [left; reflexivity|]. repeat split.
Qed.
Print Assumptions C102_whole_block_refuted.

(** A call of ginvMin at its start and after its first round; a pass of reduceAll; numbers sorted by heapq. *)
Example C102_example :
  (exists s w v, in_call TOPdeglex ring0 0 (CMin true [g_f1; g_f2]) s /\ pq_list (ps_queue s) = [w; v] /\ pw_lm w = Mon (-1) [1; 1] /\ pw_lm v = Mon (-1) [2; 0] /\
    exists T2 q2, q_reduceAll 30 TOPdeglex (ps_tree s) (ps_queue s) = Ok (T2, q2, Some w) /\ pq_list q2 = [v]) /\
  (exists s w, in_call TOPdeglex ring0 0 (CMin true [g_f1; g_f2]) s /\ pq_list (ps_queue s) = [w] /\ pw_lm w = Mon (-1) [2; 0]) /\
  session TOPdeglex 2 0 [] ring0 0 /\ Forall (input TOPdeglex 2 0 ring0) [g_f1; g_f2] /\
  pops Nat.ltb 7 (heapify Nat.ltb [5; 3; 8; 1; 9; 2; 3]) = [1; 2; 3; 3; 5; 8; 9] /\ weak_order (fun _ => True) Nat.ltb.
Proof.
  split.
  { eexists _, _, _. split; [apply ic_start; [vm_compute; reflexivity|exact I]|]. split; [reflexivity|]. split; [reflexivity|]. split; [reflexivity|]. eexists _, _. split; [vm_compute; reflexivity|reflexivity]. }
  split.
  { eexists _, _. split; [eapply (ic_min _ _ _ 30); [apply ic_start; [vm_compute; reflexivity|exact I]|vm_compute; reflexivity]|]. split; reflexivity. }
  split; [now apply ses_janet|]. split; [exact (g_in TOPdeglex)|]. split; [reflexivity|].
  split; intros; rewrite ?Nat.ltb_lt, ?Nat.ltb_ge in *; lia.
Qed.
