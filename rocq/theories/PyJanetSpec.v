(** Vocabulary for the properties of the Janet trees of pyginv. *)
From Coq Require Import ZArith List.
From Verif Require Import Outcome MonomModel MonomSpec PolySpec PyMonomModel PyPolyModel PyPolySpec PyJanetModel.
Import ListNotations.

(** Exponents of the leading monomial of a Wrap; Wraps of a tree; their exponents *)
Definition exps (w : pwrap) : list nat := vars (pw_lm w).
Definition elems (J : pjanet) : list pwrap := relems (pj_root J).
Definition tree_exps (J : pjanet) : list (list nat) := map exps (elems J).

(** A Wrap of n variables, as constructed: no variable is marked non-multiplicative *)
Definition clean (n : nat) (w : pwrap) : Prop :=
  length (exps w) = n /\ pw_nonmult w = repeat false n /\ length (pw_prolong w) = n.

(** Trees of n variables obtained by calls of insert (with fresh Wraps) and of the methods prolong* *)
Inductive built (n : nat) : pjanet -> Prop :=
| built_new : built n pj_empty
| built_insert : forall J q J' lst, built n J -> Forall (clean n) q -> pj_insert J q = Ok (J', lst) -> built n J'
| built_prolong : forall o take J id J' new id', built n J -> pj_prolongs o take J id = Ok (J', new, id') -> built n J'.

(** The same Wrap but for the flags nonmult *)
Definition same_wrap (u w : pwrap) : Prop :=
  pw_id u = pw_id w /\ pw_poly u = pw_poly w /\ pw_anc u = pw_anc w /\ pw_lm u = pw_lm w /\ pw_prolong u = pw_prolong w.

(** The polynomial of the Wrap begins with the monomial lm *)
Definition leads (w : pwrap) : Prop := exists c l, pw_poly w = (pw_lm w, c) :: l.

(** w has a pending prolongation by v: v is marked non-multiplicative and w has not been prolonged by v *)
Definition pending (w : pwrap) (v : nat) : Prop := nth v (pw_nonmult w) false = true /\ nth v (pw_prolong w) true = false.

(** x is the prolongation of w by the variable v: a new Wrap with the polynomial of w times v *)
Definition prolonged (o : py_order) (n : nat) (k : Z) (w : pwrap) (v : nat) (x : pwrap) : Prop :=
  clean n x /\ leads x /\ py_canonical o n k (pw_poly x) /\ pw_lm x = Mon (pos (pw_lm w)) (incr v (vars (pw_lm w))) /\ pw_anc x = pw_anc w /\
  (forall m, coef (pw_poly x) m = prod_coef [(Mon (-1) (incr v (repeat 0 n)), 1%Z)] (pw_poly w) m) /\
  pw_prolong x = repeat false n.

(** Nothing but the marks prolong differs *)
Definition only_prolong (u u' : pwrap) : Prop :=
  pw_id u' = pw_id u /\ pw_poly u' = pw_poly u /\ pw_anc u' = pw_anc u /\ pw_lm u' = pw_lm u /\ pw_nonmult u' = pw_nonmult u.

(** The Wraps ws have become ws' and new was created, numbered from id: one new Wrap for each pending pair (w, v) with
    [sel w v], and these pairs are marked as done. *)
Definition prolong_step (o : py_order) (n : nat) (k : Z) (id : nat) (sel : pwrap -> nat -> Prop) (ws ws' new : list pwrap) : Prop :=
  map pw_id new = seq id (length new) /\
  (exists jobs, NoDup jobs /\ (forall w v, In (w, v) jobs <-> In w ws /\ pending w v /\ sel w v) /\
    Forall2 (fun j => prolonged o n k (fst j) (snd j)) jobs new) /\
  Forall2 (fun u u' => only_prolong u u' /\
    forall v, nth v (pw_prolong u') true = true <-> nth v (pw_prolong u) true = true \/ (pending u v /\ sel u v)) ws ws'.
(** The result of a prolong method called on J when id is the next free number *)
Definition prolongation (o : py_order) (n : nat) (k : Z) (J : pjanet) (id : nat) (sel : pwrap -> nat -> Prop) (r : outcome (pjanet * list pwrap * nat)) : Prop :=
  exists J' new, r = Ok (J', new, (id + length new)%nat) /\ built n J' /\ prolong_step o n k id sel (elems J) (elems J') new.
