(** Property C60: the Janet trees of the Python package pyginv. *)
From Coq Require Import ZArith List Bool Arith Lia Permutation.
From Verif Require Import Outcome MonomModel MonomSpec PolySpec JanetSpec PyMonomModel PyMonomSpec PyPolyModel PyPolySpec PyJanetModel PyJanetSpec PyJanetProofs PyJanetTop PyJanetProlong PyExamples PyJanetExamples.
Import ListNotations.

(** findWrap: the Wrap found is the Janet divisor of m among the leading monomials of the tree. *)
Theorem C60_find : forall (n : nat) (J : pjanet) (m : monom), 0 < n -> built n J -> length (vars m) = n ->
  (forall u, In u (elems J) -> pos (pw_lm u) = pos m) ->
  (exists r, pj_findWrap J m = Ok r) /\
  (forall u, pj_findWrap J m = Ok (Some u) <-> In u (elems J) /\ janet_divides n (tree_exps J) (exps u) (vars m)) /\
  (pj_findWrap J m = Ok None <-> forall x, ~ janet_divides n (tree_exps J) x (vars m)).
Proof. exact pyj_find. Qed.
Print Assumptions C60_find.

(** A monomial of another component than that of the tree is an error. *)
Theorem C60_find_position : forall (n : nat) (J : pjanet) (m : monom) (u : pwrap), 0 < n -> built n J ->
  In u (elems J) -> pos (pw_lm u) <> pos m -> pj_findWrap J m = AssertFail.
Proof. exact pyj_find_position. Qed.
Print Assumptions C60_find_position.

(** The flags nonmult are the Janet non-multiplicative variables. *)
Theorem C60_flags : forall (n : nat) (J : pjanet) (u : pwrap) (i : nat), 0 < n -> built n J -> In u (elems J) -> i < n ->
  (nth i (pw_nonmult u) false = true <-> janet_nm (tree_exps J) (exps u) i).
Proof. exact pyj_flags. Qed.
Print Assumptions C60_flags.

(** Inserting a Wrap that has no Janet divisor: exactly the elements for which it is a Janet divisor leave the tree. *)
Theorem C60_insert : forall (n : nat) (J : pjanet) (w : pwrap), 0 < n -> built n J -> clean n w ->
  (forall u, In u (elems J) -> pos (pw_lm u) = pos (pw_lm w)) -> (forall x, ~ janet_divides n (tree_exps J) x (exps w)) ->
  exists J' lst kept, pj_insert J [w] = Ok (J', lst) /\ built n J' /\ Permutation (elems J) (kept ++ lst) /\
    (exists l, Permutation (elems J') l /\ Forall2 same_wrap l (w :: kept)) /\
    forall u, In u (elems J) -> (In u lst <-> janet_divides n (tree_exps J') (exps w) (exps u)).
Proof. exact pyj_insert. Qed.
Print Assumptions C60_insert.

(** Inserting a Wrap that has a Janet divisor in the tree or is of another component is an error. *)
Theorem C60_insert_fails : forall (n : nat) (J : pjanet) (w : pwrap) (q : list pwrap), 0 < n -> built n J -> length (exps w) = n ->
  ((exists u, In u (elems J) /\ pos (pw_lm u) <> pos (pw_lm w)) \/ (exists x, janet_divides n (tree_exps J) x (exps w))) ->
  pj_insert J (w :: q) = AssertFail.
Proof. exact pyj_insert_fails. Qed.
Print Assumptions C60_insert_fails.

(** count() is the number of elements; their leading monomials are different. *)
Theorem C60_count : forall (n : nat) (J : pjanet), 0 < n -> built n J ->
  pj_count J = Z.of_nat (length (elems J)) /\ NoDup (tree_exps J).
Proof. intros n J N B. split; [apply (built_inv n J N B)|apply (built_extra n J N B)]. Qed.
Print Assumptions C60_count.

Theorem C60_prolongDeg : forall (o : py_order) (n : nat) (k : Z) (J : pjanet) (id : nat), 0 < n -> (0 <= k)%Z -> built n J ->
  (forall w, In w (elems J) -> leads w /\ py_canonical o n k (pw_poly w)) -> forall d : nat,
  prolongation o n k J id (fun w _ => d = 0 \/ fold_right Nat.add 0 (exps w) = d) (pj_prolongDeg o J d id).
Proof. exact pyj_prolongDeg. Qed.
Print Assumptions C60_prolongDeg.

Theorem C60_prolongMonom : forall (o : py_order) (n : nat) (k : Z) (J : pjanet) (id : nat), 0 < n -> (0 <= k)%Z -> built n J ->
  (forall w, In w (elems J) -> leads w /\ py_canonical o n k (pw_poly w)) -> forall m : monom, mono n m ->
  prolongation o n k J id (fun w v => ~ py_greater o (Mon (pos (pw_lm w)) (incr v (vars (pw_lm w)))) m) (pj_prolongMonom o J m id).
Proof. exact pyj_prolongMonom. Qed.
Print Assumptions C60_prolongMonom.

Theorem C60_prolongAll : forall (o : py_order) (n : nat) (k : Z) (J : pjanet) (id : nat), 0 < n -> (0 <= k)%Z -> built n J ->
  (forall w, In w (elems J) -> leads w /\ py_canonical o n k (pw_poly w)) ->
  prolongation o n k J id (fun _ _ => True) (pj_prolongAll o J id).
Proof. exact pyj_prolongAll. Qed.
Print Assumptions C60_prolongAll.

(** degMinProlong: the least degree of an element with a pending prolongation, 0 if there is none. *)
Theorem C60_degMinProlong : forall (n : nat) (J : pjanet), 0 < n -> built n J ->
  ((forall w v, In w (elems J) -> ~ pending w v) -> pj_degMinProlong J = 0) /\
  ((exists w v, In w (elems J) /\ pending w v) ->
    (exists w v, In w (elems J) /\ pending w v /\ fold_right Nat.add 0 (exps w) = pj_degMinProlong J) /\
    (forall w v, In w (elems J) -> pending w v -> pj_degMinProlong J <= fold_right Nat.add 0 (exps w)) /\ 0 < pj_degMinProlong J).
Proof. exact pyj_degmin. Qed.
Print Assumptions C60_degMinProlong.

Example C60_ex : built 2 tree2 /\ (exists lst, pj_insert tree1 [w_x2] = Ok (tree2, lst) /\ map pw_id lst = [2]) /\
  map exps (elems tree2) = [[0; 3]; [1; 1]; [2; 0]] /\ map pw_nonmult (elems tree2) = [[true; false]; [true; false]; [false; false]] /\
  (forall w, In w (elems tree2) -> leads w /\ py_canonical TOPdeglex 2 0 (pw_poly w)) /\
  (exists u, pj_findWrap tree2 (Mon (-1) [1; 4]) = Ok (Some u) /\ exps u = [1; 1]) /\ pj_findWrap tree2 (Mon (-1) [1; 0]) = Ok None /\
  pj_degMinProlong tree2 = 2 /\
  (exists J' new, pj_prolongDeg TOPdeglex tree2 2 4 = Ok (J', new, 5) /\ map pw_poly new = [[(Mon (-1) [2; 1], 1%Z)]] /\ map pw_id new = [4] /\ pj_degMinProlong J' = 3).
Proof.
  destruct built2 as (lst & E & I & B). split; [exact B|]. split; [exists lst; split; assumption|]. split; [apply tree2_elems|]. split; [apply tree2_elems|].
  split; [exact tree2_polys|]. split; [eexists; split; vm_compute; reflexivity|]. split; [vm_compute; reflexivity|]. split; [vm_compute; reflexivity|].
  eexists. eexists. split; [vm_compute; reflexivity|]. repeat split; vm_compute; reflexivity.
Qed.
