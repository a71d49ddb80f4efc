(** Property C74: Wraps (class Wrap of the Python package pyginv). *)
From Coq Require Import ZArith List Bool Arith Lia.
From Verif Require Import Outcome MonomModel MonomSpec PolySpec PyMonomModel PyMonomSpec PyPolyModel PyPolySpec PyJanetModel PyJanetSpec PyQueueModel PyWrapSpec PyWrapProofs PyExamples.
Import ListNotations.
Local Open Scope nat_scope.

(** In all histories the ancestor divides the leading monomial, and this is the one of the polynomial. *)
Theorem C74_ancestor : forall (o : py_order) (n : nat) (k : Z), (0 <= k)%Z -> forall w, wrap_made o n k w ->
  mdivides (pw_anc w) (pw_lm w) /\ leads w /\ py_canonical o n k (pw_poly w).
Proof. exact wrap_ancestor. Qed.
Print Assumptions C74_ancestor.

(** Wrap(w, v) for a pending prolongation: the polynomial times variable v, the ancestor of w, no marks; w is marked. *)
Theorem C74_prolong : forall (o : py_order) (n : nat) (k : Z), (0 <= k)%Z -> forall id w v, wrap_made o n k w -> pending w v ->
  exists x, w_of_prolong o id w v = Ok (x, set_prolong v true w) /\ prolonged o n k w v x /\ pw_id x = id.
Proof. exact wrap_prolong. Qed.
Print Assumptions C74_prolong.

(** update() after the polynomial has changed: with the same leading monomial nothing else changes, otherwise the Wrap starts
    anew. *)
Theorem C74_update : forall (o : py_order) (n : nat) (k : Z), (0 <= k)%Z -> forall w m c p, wrap_made o n k w -> py_canonical o n k ((m, c) :: p) ->
  exists w', w_update o (set_poly w ((m, c) :: p)) = Ok w' /\
  (m = pw_lm w -> w' = set_poly w ((m, c) :: p)) /\
  (m <> pw_lm w -> w' = PW (pw_id w) ((m, c) :: p) m m (repeat false n) (repeat false n)).
Proof. exact wrap_update. Qed.
Print Assumptions C74_update.

(** w.refresh(v): v takes over the ancestor of w if that is a proper divisor of its own, and nothing else changes. *)
Theorem C74_refresh : forall (o : py_order) (n : nat) (k : Z), (0 <= k)%Z -> forall w v, wrap_made o n k w -> wrap_made o n k v -> exists a,
  w_refresh o w v = Ok (PW (pw_id v) (pw_poly v) a (pw_lm v) (pw_prolong v) (pw_nonmult v)) /\
  (mdivides (pw_anc w) (pw_anc v) /\ vars (pw_anc w) <> vars (pw_anc v) -> a = pw_anc w) /\
  (~ (mdivides (pw_anc w) (pw_anc v) /\ vars (pw_anc w) <> vars (pw_anc v)) -> a = pw_anc v).
Proof. exact wrap_refresh. Qed.
Print Assumptions C74_refresh.

(** isGB(): the Wrap is its own ancestor. *)
Theorem C74_isGB : forall (o : py_order) (n : nat) (k : Z), (0 <= k)%Z -> forall w, wrap_made o n k w -> (w_isGB o w = true <-> pw_anc w = pw_lm w).
Proof. exact wrap_isGB. Qed.
Print Assumptions C74_isGB.

(** The criteria, for polynomials of type Poly: the ancestors have no variable in common; some exponent of w.lm is larger than
    the sum of those of the ancestors. *)
Theorem C74_crit1 : forall (o : py_order) (n : nat) (k : Z), (0 <= k)%Z -> forall w v, wrap_made o n k w -> wrap_made o n k v ->
  (w_crit1 w v = true <-> forall i, i < n -> expo (vars (pw_anc w)) i = 0 \/ expo (vars (pw_anc v)) i = 0).
Proof. exact wrap_crit1. Qed.
Print Assumptions C74_crit1.
Theorem C74_crit2 : forall (o : py_order) (n : nat) (k : Z), (0 <= k)%Z -> forall w v, wrap_made o n k w -> wrap_made o n k v ->
  (w_crit2 w v = true <-> exists i, i < n /\ expo (vars (pw_anc w)) i + expo (vars (pw_anc v)) i < expo (vars (pw_lm w)) i).
Proof. exact wrap_crit2. Qed.
Print Assumptions C74_crit2.
(** Where v.lm divides w.lm, crit1 means that the product of the ancestors divides w.lm, and crit2 implies that their lcm is a
    proper divisor of w.lm. *)
Theorem C74_criteria : forall (o : py_order) (n : nat) (k : Z), (0 <= k)%Z -> forall w v, wrap_made o n k w -> wrap_made o n k v -> mdivides (pw_lm v) (pw_lm w) ->
  (w_crit1 w v = true -> forall i, expo (vars (pw_anc w)) i + expo (vars (pw_anc v)) i <= expo (vars (pw_lm w)) i) /\
  (w_crit2 w v = true -> (forall i, Nat.max (expo (vars (pw_anc w)) i) (expo (vars (pw_anc v)) i) <= expo (vars (pw_lm w)) i) /\
     exists i, Nat.max (expo (vars (pw_anc w)) i) (expo (vars (pw_anc v)) i) < expo (vars (pw_lm w)) i).
Proof. exact wrap_criteria. Qed.
Print Assumptions C74_criteria.

(** < and > compare the leading monomials and then the numbers. *)
Theorem C74_order : forall (o : py_order) (n : nat) (k : Z), (0 <= k)%Z -> forall w v, wrap_made o n k w -> wrap_made o n k v ->
  (w_lt o w v = true <-> py_greater o (pw_lm v) (pw_lm w) \/ (pw_lm w = pw_lm v /\ pw_id w < pw_id v)) /\
  (w_gt o w v = true <-> py_greater o (pw_lm w) (pw_lm v) \/ (pw_lm w = pw_lm v /\ pw_id v < pw_id w)).
Proof. exact wrap_order. Qed.
Print Assumptions C74_order.

(** w = Wrap(3 x y + 1), marked for y and prolonged: x has leading monomial x y^2 and ancestor x y.  v = Wrap(2 x^2 y + ...)
    takes over this ancestor from x. *)
Example C74_example : exists w w' x v, w_of_poly 0 e_q = Ok w /\ wrap_made TOPdeglex 2 0 w /\ pending (set_nonmult 1 true w) 1 /\
  w_of_prolong TOPdeglex 1 (set_nonmult 1 true w) 1 = Ok (x, w') /\ wrap_made TOPdeglex 2 0 x /\ pw_lm x = Mon (-1) [1; 2] /\ pw_anc x = Mon (-1) [1; 1] /\
  w_isGB TOPdeglex x = false /\ w_isGB TOPdeglex w = true /\ w_of_poly 2 e_p = Ok v /\ wrap_made TOPdeglex 2 0 v /\
  w_refresh TOPdeglex x v = Ok (PW 2 e_p (Mon (-1) [1; 1]) (Mon (-1) [2; 1]) [false; false] [false; false]) /\
  w_crit1 x v = false /\ w_crit2 x v = false /\ w_lt TOPdeglex w v = true.
Proof.
  set (w := PW 0 e_q (Mon (-1) [1; 1]) (Mon (-1) [1; 1]) [false; false] [false; false]).
  set (x := PW 1 [(Mon (-1) [1; 2], 3%Z); (Mon (-1) [0; 1], 1%Z)] (Mon (-1) [1; 1]) (Mon (-1) [1; 2]) [false; false] [false; false]).
  assert (W : wrap_made TOPdeglex 2 0 w) by (apply (made_poly _ _ _ 0 e_q); [exact e_q_ok|reflexivity]).
  assert (E : w_of_prolong TOPdeglex 1 (set_nonmult 1 true w) 1 = Ok (x, set_prolong 1 true (set_nonmult 1 true w))) by (vm_compute; reflexivity).
  exists w, (set_prolong 1 true (set_nonmult 1 true w)), x, (PW 2 e_p (Mon (-1) [2; 1]) (Mon (-1) [2; 1]) [false; false] [false; false]).
  split; [reflexivity|]. split; [exact W|]. split; [split; reflexivity|]. split; [exact E|].
  split; [exact (made_prolong _ _ _ 1 _ 1 _ _ (made_nonmult _ _ _ w 1 true W) E)|].
  do 5 (split; [vm_compute; reflexivity|]). split; [apply (made_poly _ _ _ 2 e_p); [exact e_p_ok|reflexivity]|]. repeat split.
Qed.
