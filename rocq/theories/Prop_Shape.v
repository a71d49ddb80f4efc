(** Property C81: the order, the coefficients and the tails of the elements of a basis (release build; lex and deglex; ring polynomials). *)
From Coq Require Import ZArith List Bool Arith Lia.
From Verif Require Import Outcome MonomModel MonomSpec PolyModel PolySpec JanetModel JanetSpec JanetPolyModel TQModel JanetPolySpec
  JanetPolyExamples TQExamples ShapeSpec ShapeTop ShapeExamples.
Import ListNotations.
Local Open Scope Z_scope.

(** Iteration yields the elements with strictly increasing leading monomials, after any sequence of push, build,
    algorithmTQ and algorithmTQ1. *)
Theorem C81_ascending : forall (t : pos_order) (o : base_order) (n : nat) (F : list poly) (J : jpoly),
  (0 < n)%nat -> o <> OAlex -> jp_history false t o n F J -> ascending o (basis J).
Proof. intros t o n F J Hn Ho. exact (c81_ascending t o n Hn Ho F J). Qed.
Print Assumptions C81_ascending.

(** build divides every element by the greatest common divisor of its coefficients. *)
Theorem C81_build_primitive : forall (t : pos_order) (o : base_order) (n : nat) (F : list poly) (J : jpoly) (fuel : nat) (J' : jpoly),
  (0 < n)%nat -> o <> OAlex -> jp_history false t o n F J -> all_primitive (basis J) ->
  jp_build fuel false J = Ok J' -> all_primitive (basis J').
Proof. intros t o n F J fuel J' Hn Ho. exact (c81_primitive t o n Hn Ho F J fuel J'). Qed.
Print Assumptions C81_build_primitive.

(** algorithmTQ and algorithmTQ1 do not. *)
Theorem C81_tq_primitive_refuted : exists (F : list poly) (J0 : jpoly), jp_history false TOP ODegLex 2 F J0 /\ basis J0 = [] /\
  forall one, exists J, jp_tq one 20 false J0 = Ok J /\ ~ all_primitive (basis J).
Proof. exact sh_content. Qed.
Print Assumptions C81_tq_primitive_refuted.

(** The leading coefficient of an element may be negative although those of the input are positive. *)
Theorem C81_positive_refuted : exists (F : list poly) (J0 J : jpoly) (g : poly), jp_history false TOP ODegLex 2 F J0 /\ basis J0 = [] /\
  (forall f, In f F -> 0 < snd (List.hd (Mon 0 [], 0) (terms f))) /\ jp_build 40 false J0 = Ok J /\ In g (basis J) /\ snd (List.hd (Mon 0 [], 0) (terms g)) < 0.
Proof. exact sh_negative. Qed.
Print Assumptions C81_positive_refuted.

(** With deglex no tail can be reduced by the basis. *)
Theorem C81_deglex_tails : forall (t : pos_order) (n : nat) (F : list poly) (J : jpoly),
  (0 < n)%nat -> jp_history false t ODegLex n F J -> tails_reduced n (basis J).
Proof. exact c81_deglex_tails. Qed.
Print Assumptions C81_deglex_tails.

(** With lex as well algorithmTQ and algorithmTQ1 keep the tails reduced. *)
Theorem C81_tq_tails : forall (t : pos_order) (o : base_order) (n : nat) (F : list poly) (J : jpoly) (one : bool) (fuel : nat) (J' : jpoly),
  (0 < n)%nat -> o <> OAlex -> jp_history false t o n F J -> tails_reduced n (basis J) ->
  jp_tq one fuel false J = Ok J' -> tails_reduced n (basis J').
Proof. intros t o n F J one fuel J' Hn Ho. exact (c81_tq_tails t o n Hn Ho F J one fuel J'). Qed.
Print Assumptions C81_tq_tails.

(** build does not: from x + y^2 and 3 y it makes the basis y, x + y^2. *)
Theorem C81_lex_build_tails_refuted : exists (F : list poly) (J0 J : jpoly),
  jp_history false TOP OLex 2 F J0 /\ basis J0 = [] /\ jp_build 20 false J0 = Ok J /\ ~ tails_reduced 2 (basis J).
Proof. exact sh_lex. Qed.
Print Assumptions C81_lex_build_tails_refuted.

(** push leaves the basis as it is. *)
Theorem C81_push : forall (J : jpoly) (a : poly) (J' : jpoly), jp_push false J a = Ok J' -> basis J' = basis J.
Proof. exact c81_push. Qed.
Print Assumptions C81_push.

(** 2 x^2 + 2 y^2 and 3 x y + 6 in deglex: xy + 2, x^2 + y^2, -y^3 + 2x. *)
Example C81_example : jp_history false TOP ODegLex 2 [sh_h2; sh_h1] sh_H0 /\ jp_build 40 false sh_H0 = Ok sh_H /\
  map lead (basis sh_H) = [[1;1];[2;0];[0;3]]%nat.
Proof. split; [exact sh_H_history|]. split; [exact sh_H_build|]. vm_compute. reflexivity. Qed.
