(** Property C105: walks through the Janet trees of pyginv. *)
From Coq Require Import ZArith List Bool Arith Lia.
From Verif Require Import Outcome MonomModel MonomSpec PolySpec JanetSpec PyMonomModel PyMonomSpec PyPolyModel PyPolySpec
  PyJanetModel PyJanetSpec PyJanetExamples PyForestModel PyForestSpec PyForestExamples PyWalkModel PyWalkProofs PyWalkExamples.
Import ListNotations.
Local Open Scope nat_scope.

(** Iteration raises no exception and yields every element once, from left to right. *)
Theorem C105_iter : forall (n : nat), 0 < n -> forall (J : pjanet), built n J -> pj_iter J = Ok (elems J).
Proof. exact walk_iter. Qed.
Print Assumptions C105_iter.
Theorem C105_forest_iter : forall (n : nat), 0 < n -> forall (k : nat) (F : pforest), fbuilt n k F -> pf_iter F = Ok (pf_elems F).
Proof. exact walk_forest_iter. Qed.
Print Assumptions C105_forest_iter.

(** GB() raises no exception and yields, in the order of the iteration, exactly the elements that are not prolongations. *)
Theorem C105_GB : forall (n : nat), 0 < n -> forall (o : py_order) (J : pjanet), built n J ->
  (forall w, In w (elems J) -> mono n (pw_lm w) /\ mono n (pw_anc w)) ->
  exists keep, (forall w, In w (elems J) -> (keep w = true <-> pw_lm w = pw_anc w)) /\ pj_GB o J = Ok (filter keep (elems J)).
Proof. exact walk_GB. Qed.
Print Assumptions C105_GB.
Theorem C105_forest_GB : forall (n : nat), 0 < n -> forall (o : py_order) (k : nat) (F : pforest), fbuilt n k F ->
  (forall w, In w (pf_elems F) -> mono n (pw_lm w) /\ mono n (pw_anc w)) ->
  exists keep, (forall w, In w (pf_elems F) -> (keep w = true <-> pw_lm w = pw_anc w)) /\ pf_GB o F = Ok (filter keep (pf_elems F)).
Proof. exact walk_forest_GB. Qed.
Print Assumptions C105_forest_GB.

(** If the ancestor of every element divides it and is a multiple of an element, the leading monomials of GB() generate all. *)
Theorem C105_GB_generates : forall (n : nat), 0 < n -> forall (o : py_order) (J : pjanet), built n J ->
  (forall w, In w (elems J) -> mono n (pw_lm w) /\ mono n (pw_anc w) /\ pos (pw_anc w) = pos (pw_lm w) /\
    divides n (vars (pw_anc w)) (exps w) /\ exists u, In u (elems J) /\ divides n (exps u) (vars (pw_anc w))) ->
  exists l, pj_GB o J = Ok l /\ incl l (elems J) /\ forall w, In w (elems J) -> exists g, In g l /\ divides n (exps g) (exps w).
Proof. exact walk_GB_generates. Qed.
Print Assumptions C105_GB_generates.

(** y^3 + x, its prolongation by x, and x^2. *)
Example C105_case : built 2 tree7 /\ map exps (elems tree7) = [[0; 3]; [1; 3]; [2; 0]] /\
  (exists l, pj_GB TOPdeglex tree7 = Ok l /\ map exps l = [[0; 3]; [2; 0]]) /\
  (forall w, In w (elems tree7) -> mono 2 (pw_lm w) /\ mono 2 (pw_anc w) /\ pos (pw_anc w) = pos (pw_lm w) /\
    divides 2 (vars (pw_anc w)) (exps w) /\ exists u, In u (elems tree7) /\ divides 2 (exps u) (vars (pw_anc w))).
Proof. exact (conj built7 GB7). Qed.
Example C105_forest_case : fbuilt 2 2 forest1 /\ (forall w, In w (pf_elems forest1) -> mono 2 (pw_lm w) /\ mono 2 (pw_anc w)) /\
  exists l, pf_GB TOPdeglex forest1 = Ok l /\ map pw_lm l = [Mon 0 [1; 0]; Mon 1 [0; 1]; Mon 1 [1; 1]].
Proof. exact (conj fbuilt1 forest_GB). Qed.

(** setNonmut(m) marks in every element the first variable in which it is below m.  Not so: it raises UnboundLocalError on a
    tree that consists of y alone; and it misses elements in the last list. *)
Theorem C105_setNonmut_refuted :
  (exists J m, built 2 J /\ mono 2 m /\ J <> pj_empty /\
    (forall u, In u (elems J) -> pos (pw_lm u) = pos m /\ exists i, i < 2 /\ expo (exps u) i < expo (vars m) i) /\ pj_setNonmut J m = Undef) /\
  (exists J m J' u, built 2 J /\ mono 2 m /\ pj_setNonmut J m = Ok J' /\ In u (elems J) /\ In u (elems J') /\
    pos (pw_lm u) = pos m /\ expo (exps u) 0 < expo (vars m) 0 /\ nth 0 (pw_nonmult u) false = false).
Proof. exact (conj setNonmut_fails setNonmut_misses). Qed.
Print Assumptions C105_setNonmut_refuted.

(** What holds: if it returns, nothing but flags nonmult has changed, and the only flag of an element that may have been set
    is the one asked for. *)
Theorem C105_setNonmut_partial : forall (n : nat), 0 < n -> forall (J J' : pjanet) (m : monom), built n J -> mono n m ->
  (forall w, In w (elems J) -> mono n (pw_lm w) /\ pos (pw_lm w) = pos m) -> pj_setNonmut J m = Ok J' ->
  pj_count J' = pj_count J /\
  Forall2 (fun u u' => same_wrap u' u /\ forall i, nth i (pw_nonmult u') false = true -> nth i (pw_nonmult u) false = true \/
    (i < n /\ expo (exps u) i < expo (vars m) i /\ forall j, j < i -> expo (vars m) j <= expo (exps u) j)) (elems J) (elems J').
Proof. exact walk_setNonmut. Qed.
Print Assumptions C105_setNonmut_partial.
Example C105_setNonmut_case : exists J', mono 2 (Mon (-1) [3; 4]) /\ (forall w, In w (elems tree2) -> mono 2 (pw_lm w) /\ pos (pw_lm w) = (-1)%Z) /\
  pj_setNonmut tree2 (Mon (-1) [3; 4]) = Ok J' /\ map pw_nonmult (elems J') = [[true; false]; [true; false]; [true; false]].
Proof. exact setNonmut_case. Qed.
