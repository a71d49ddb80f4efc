(** Property theorems C101: pointers to the terms of a polynomial that is changed in place.  Models: CellModel.v,
    CellPyModel.v; specification: CellSpec.v. *)
From Coq Require Import ZArith List Bool.
From Verif Require Import Outcome MonomModel PolyModel PolySpec CellModel CellPyModel CellSpec CellTop CellExamples.
Import ListNotations.
Local Open Scope Z_scope.

(** A pointer to a term is good as long as the polynomial keeps a term with this monomial, through all values it
    takes; then it shows the monomial with the coefficient it has now.  Otherwise nothing is at the address. *)
Theorem C101_references : forall (dbg : bool) (es : list edit) (p : cpoly) (ps : list poly),
  in_memory p -> valid_poly (plain p) -> values dbg (plain p) es ps ->
  exists p', c_edits dbg p es = Ok p' /\ plain p' = last ps (plain p) /\ in_memory p' /\
    forall i m c, In (i, (m, c)) (cells p) ->
      (Forall (has m) ps -> at_addr i (cells p') = Some (m, coef (terms (plain p')) m)) /\
      (~ Forall (has m) ps -> at_addr i (cells p') = None).
Proof. exact references_ok. Qed.
Print Assumptions C101_references.

(** Every call that is allowed has a value, so that every sequence of allowed calls is covered. *)
Theorem C101_calls_have_values : forall (dbg : bool) (p : poly) (e : edit), valid_poly p -> allowed dbg p e ->
  exists q, value dbg p e = Ok q /\ valid_poly q /\ same_ring p q.
Proof. exact value_ok. Qed.
Print Assumptions C101_calls_have_values.

(** The calls that are not allowed because a polynomial has no terms: all fail in a debug build. In the release build they read
    through a null pointer, except redMaybe on the zero polynomial, which does nothing. *)
Theorem C101_zero_polynomial : forall (p : cpoly) (e : edit), cells p = [] ->
  match e with
  | EAddConst _ | ESubConst _ | EReduction _ => c_edit true p e = AssertFail /\ c_edit false p e = Undef
  | ERedMaybe _ => c_edit true p e = AssertFail /\ c_edit false p e = Ok p
  | _ => True
  end.
Proof. exact zero_calls. Qed.
Print Assumptions C101_zero_polynomial.
Theorem C101_zero_argument : forall (p : cpoly) (a : poly), cells p <> [] -> terms a = [] ->
  c_edit true p (EReduction a) = AssertFail /\ c_edit false p (EReduction a) = Undef /\
  c_edit true p (ERedMaybe a) = AssertFail /\ c_edit false p (ERedMaybe a) = Undef.
Proof. exact zero_arguments. Qed.
Print Assumptions C101_zero_argument.
Example C101_zero_ex : cells (begin (Poly TOP ODegLex 2 []) 0%nat) = [] /\ cells (begin p_ex 0%nat) <> [] /\ terms (Poly TOP ODegLex 2 []) = [].
Proof. split; [reflexivity|]. split; [discriminate|reflexivity]. Qed.

(** Python: generators and the pairs they yield see exactly the terms the specification says, and are out of order
    exactly where it says so. *)
Theorem C101_sessions : forall (fuel : nat) (dbg : bool) (p : poly) (cs : list cmd),
  valid_poly p -> ring_poly (terms p) -> Forall (reducers (psize p) (pto p) (pbo p) dbg) cs ->
  run fuel dbg (start p) cs = means_run fuel dbg (new_world p) cs.
Proof. exact sessions_ok. Qed.
Print Assumptions C101_sessions.

(** l = list(p): the terms of p, each once, in their order; the pairs can be used while p is there ... *)
Theorem C101_iteration : forall (fuel : nat) (dbg : bool) (p : poly),
  run fuel dbg (start p) (CIter :: repeat (CNext 0) (length (terms p)) ++ CNext 0 :: map CLook (seq 0 (length (terms p)))) =
  Ok (VNone :: repeat VPair (length (terms p)) ++ VStopIteration :: map (fun x => VTerm (fst x) (snd x)) (terms p)).
Proof. exact iteration_ok. Qed.
Print Assumptions C101_iteration.

(** ... but none of the pairs of list(q*r), or of any polynomial without a name, can be looked at. *)
Theorem C101_list_of_temporary : forall (fuel : nat) (dbg : bool) (p : poly) (v : nat), (v < length (terms p))%nat ->
  run fuel dbg (start p) (CIter :: CDel :: repeat (CNext 0) (length (terms p)) ++ [CNext 0; CLook v]) = Undef.
Proof. exact temporary_ok. Qed.
Print Assumptions C101_list_of_temporary.

(** p.add(p) doubles p, in place. *)
Theorem C101_add_itself : forall (fuel : nat) (dbg : bool) (p : cpoly), in_memory p -> valid_poly (plain p) -> (length (cells p) <= fuel)%nat ->
  exists r, c_self fuel dbg 1 p = Ok r /\ in_memory r /\ map fst (cells r) = map fst (cells p) /\
    value dbg (plain p) (EAdd (plain p)) = Ok (plain r).
Proof. exact add_self_ok. Qed.
Print Assumptions C101_add_itself.

(** p.sub(p) never works, unless p is 0. *)
Theorem C101_sub_itself : forall (fuel : nat) (dbg : bool) (p : cpoly), in_memory p -> cells p <> [] -> (0 < fuel)%nat ->
  c_self fuel dbg (-1) p = Undef.
Proof. exact sub_self_undef. Qed.
Print Assumptions C101_sub_itself.

(** A loop that reduces the polynomial it runs over can read freed memory: for m, c in r: r.reduction(s) *)
Theorem C101_reduce_in_loop_refuted : exists p q, valid_poly p /\ valid_poly q /\ ring_poly (terms p) /\ ring_poly (terms q) /\
  run 0 false (start p) [CIter; CNext 0; CReduce q; CNext 0] = Undef.
Proof.
  exists r_ex, s_ex. split; [|split; [|split; [|split; [|reflexivity]]]].
  - exact r_valid.
  - exact s_valid.
  - repeat constructor.
  - repeat constructor.
Qed.
Print Assumptions C101_reduce_in_loop_refuted.

(** It can also miss terms: the pairs yielded are not the terms of any of the values of p. *)
Theorem C101_terms_missed_refuted : exists p q, valid_poly p /\ valid_poly q /\ ring_poly (terms p) /\ ring_poly (terms q) /\
  p_reduction false p q = Ok (Poly TOP ODegLex 2 [(xy, -1); (y1, 1)]) /\
  run 0 false (start p) [CIter; CNext 0; CLook 0; CReduce q; CNext 0; CLook 1; CNext 0] =
    Ok [VNone; VPair; VTerm x2 1; VNone; VPair; VTerm y1 1; VStopIteration].
Proof.
  exists p_ex, q_ex. split; [|split; [|split; [|split; [|split; reflexivity]]]].
  - exact p_valid.
  - exact q_valid.
  - repeat constructor.
  - repeat constructor.
Qed.
Print Assumptions C101_terms_missed_refuted.

(** A pair that stays good over a reduction, one that does not, and a loop with pp(). *)
Example C101_example :
  in_memory (begin p_ex 0%nat) /\ valid_poly p_ex /\ allowed false p_ex (EReduction q_ex) /\
  run 0 false (start p_ex) [CIter; CNext 0; CNext 0; CReduce q_ex; CLook 1] = Ok [VNone; VPair; VPair; VNone; VTerm y1 1] /\
  run 0 false (start p_ex) [CIter; CNext 0; CNext 0; CReduce q_ex; CLook 0] = Undef /\
  run 0 false (start (Poly TOP ODegLex 2 [(x2, 4); (y1, 6)])) [CIter; CNext 0; CLook 0; CPp; CLook 0; CNext 0; CLook 1; CPp; CNext 0; CDel; CNext 0] =
    Ok [VNone; VPair; VTerm x2 4; VNone; VTerm x2 2; VPair; VTerm y1 3; VAssertionError; VStopIteration; VNone; VStopIteration].
Proof.
  split. { split; repeat constructor; cbn; intuition discriminate. }
  split; [exact p_valid|]. split.
  { eapply al_reduction; [exact q_valid|repeat split; reflexivity|reflexivity|reflexivity| |split; [repeat constructor|discriminate]].
    split; [left; reflexivity|]. split; [reflexivity|]. intros [|[|[|i]]]; cbn; repeat constructor. }
  repeat split; reflexivity.
Qed.
