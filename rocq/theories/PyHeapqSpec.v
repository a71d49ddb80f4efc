(** What a priority queue is to do (C102). *)
From Coq Require Import ZArith List Arith.
From Verif Require Import Outcome MonomModel MonomSpec PyMonomModel PyMonomSpec PyPolyModel PyJanetModel PyQueueModel PyGinvModel PyGinvSpec.
Import ListNotations.
Local Open Scope nat_scope.

(** [lt] orders the objects with P, some of which may be equal in the order: a strict weak order. *)
Definition weak_order {A} (P : A -> Prop) (lt : A -> A -> bool) : Prop :=
  (forall x y, P x -> P y -> lt x y = true -> lt y x = false) /\
  (forall x y z, P x -> P y -> P z -> lt y x = false -> lt z y = false -> lt z x = false).
(** x is not preceded by an entry of l *)
Definition least {A} (lt : A -> A -> bool) (x : A) (l : list A) : Prop := forall y, In y l -> lt y x = false.
(** each entry is not preceded by a later one *)
Fixpoint in_order {A} (lt : A -> A -> bool) (l : list A) : Prop :=
  match l with [] => True | x :: l' => least lt x l' /\ in_order lt l' end.
(** https://docs.python.org/3/library/heapq.html: heap[k] <= heap[2*k+1] and heap[k] <= heap[2*k+2] *)
Definition is_heap {A} (lt : A -> A -> bool) (l : list A) : Prop :=
  forall k x y, nth_error l k = Some x -> nth_error l (2 * k + 1) = Some y \/ nth_error l (2 * k + 2) = Some y -> lt y x = false.

(** heappop until nothing is left *)
Fixpoint pops {A} (lt : A -> A -> bool) (fuel : nat) (l : list A) : list A :=
  match fuel, heap_pop lt l with S fuel, Some (x, h) => x :: pops lt fuel h | _, _ => [] end.

(** w comes first: its leading monomial is the smallest, and among equal ones w is the oldest *)
Definition lowest (o : py_order) (w : pwrap) (l : list pwrap) : Prop :=
  forall v, In v l -> py_greater o (pw_lm v) (pw_lm w) \/ (pw_lm v = pw_lm w /\ pw_id w < pw_id v).
Definition deg (w : pwrap) : nat := total (vars (pw_lm w)).
(** l is a block of degree d, and nothing in q is lower *)
Definition block (d : nat) (l q : list pwrap) : Prop := (forall w, In w l -> deg w = d) /\ forall w, In w q -> d <= deg w.

(** The states at the head of the loop during a call c *)
Inductive in_call (o : py_order) (T : pdiv) (id : nat) : call -> pstate -> Prop :=
| ic_start c s : start o (call_inputs c) T id = Ok s -> match c with CMin _ _ => True | CLow _ => o = TOPdeglex end -> in_call o T id c s
| ic_min nf level ps s s' go : in_call o T id (CMin level ps) s -> min_round nf o level s = Ok (s', go) -> in_call o T id (CMin level ps) s'
| ic_low fuel nf ps s s' go : in_call o T id (CLow ps) s -> low_round fuel nf o s = Ok (s', go) -> in_call o T id (CLow ps) s'.
(** The tree and the queue after q.push(invdiv.prolong...(...)), or without it *)
Definition prepared (o : py_order) (s : pstate) (T : pdiv) (q : pqueue) : Prop :=
  (T = ps_tree s /\ q = ps_queue s) \/
  exists take new id, d_prolongs o take (ps_tree s) (ps_id s) = Ok (T, new, id) /\ q_push o (ps_queue s) new = Ok q.
