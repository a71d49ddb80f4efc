(** Property C92 for algorithmTQ2: systems of linear equations are solved (release build; lex and deglex; ring polynomials). *)
From Coq Require Import ZArith QArith List Bool Arith Lia.
From Verif Require Import Outcome MonomModel MonomSpec PolyModel PolySpec JanetModel JanetSpec JanetPolyModel TQModel JanetPolySpec
  JanetPolyExamples TQExamples NormalSpec LinSpec LinExamples UnivSpec TQ2HPSpec LinSolTQ2 LinTQ2Examples.
Import ListNotations.
Local Open Scope Z_scope.

(** algorithmTQ2 ends after any history in which only linear polynomials were pushed. *)
Theorem C92_tq2_ends : forall (t : pos_order) (o : base_order) (n : nat), (0 < n)%nat -> o <> OAlex -> forall (F : list poly) (J : jpoly),
  jp_history false t o n F J -> Forall linear F -> exists N J2, forall fuel, (N <= fuel)%nat -> jp_tq2 fuel false J = Ok J2.
Proof. exact c92_tq2_ends. Qed.
Print Assumptions C92_tq2_ends.

(** The common zeros are those of the polynomials pushed (linear or not). *)
Theorem C92_tq2_zeros : forall (t : pos_order) (o : base_order) (n : nat), (0 < n)%nat -> o <> OAlex -> forall (F : list poly) (J : jpoly) (fuel0 : nat) (J2 : jpoly2),
  jp_history false t o n F J -> jp_tq2 fuel0 false J = Ok J2 -> forall (x : nat -> Q), (solves x F <-> solves x (basis2 J2)).
Proof. exact c92_tq2_zeros. Qed.
Print Assumptions C92_tq2_zeros.

(** Nothing is left outside the tree. *)
Theorem C92_tq2_in_trees : forall (t : pos_order) (o : base_order) (n : nat), (0 < n)%nat -> o <> OAlex -> forall (F : list poly) (J : jpoly) (fuel0 : nat) (J2 : jpoly2),
  jp_history false t o n F J -> jp_tq2 fuel0 false J = Ok J2 -> Forall linear F -> all_in_trees J2.
Proof. exact c92_tq2_trees. Qed.
Print Assumptions C92_tq2_in_trees.

Theorem C92_tq2_linear : forall (t : pos_order) (o : base_order) (n : nat), (0 < n)%nat -> o <> OAlex -> forall (F : list poly) (J : jpoly) (fuel0 : nat) (J2 : jpoly2),
  jp_history false t o n F J -> jp_tq2 fuel0 false J = Ok J2 -> Forall linear F -> forall (g : poly), In g (basis2 J2) -> linear g.
Proof. exact c92_tq2_linear. Qed.
Print Assumptions C92_tq2_linear.

Theorem C92_tq2_size : forall (t : pos_order) (o : base_order) (n : nat), (0 < n)%nat -> o <> OAlex -> forall (F : list poly) (J : jpoly) (fuel0 : nat) (J2 : jpoly2),
  jp_history false t o n F J -> jp_tq2 fuel0 false J = Ok J2 -> Forall linear F -> (length (basis2 J2) <= n + 1)%nat.
Proof. exact c92_tq2_size. Qed.
Print Assumptions C92_tq2_size.

Theorem C92_tq2_solvable : forall (t : pos_order) (o : base_order) (n : nat), (0 < n)%nat -> o <> OAlex -> forall (F : list poly) (J : jpoly) (fuel0 : nat) (J2 : jpoly2),
  jp_history false t o n F J -> jp_tq2 fuel0 false J = Ok J2 -> Forall linear F -> ((exists x, solves x F) <-> ~ has_constant n (basis2 J2)).
Proof. exact c92_tq2_solvable. Qed.
Print Assumptions C92_tq2_solvable.

Theorem C92_tq2_solution : forall (t : pos_order) (o : base_order) (n : nat), (0 < n)%nat -> o <> OAlex -> forall (F : list poly) (J : jpoly) (fuel0 : nat) (J2 : jpoly2),
  jp_history false t o n F J -> jp_tq2 fuel0 false J = Ok J2 -> Forall linear F -> forall (y : nat -> Q), ~ has_constant n (basis2 J2) ->
  exists x, the_solution n F (basis2 J2) y x.
Proof. exact c92_tq2_solution. Qed.
Print Assumptions C92_tq2_solution.

Theorem C92_tq2_unique : forall (t : pos_order) (o : base_order) (n : nat), (0 < n)%nat -> o <> OAlex -> forall (F : list poly) (J : jpoly) (fuel0 : nat) (J2 : jpoly2),
  jp_history false t o n F J -> jp_tq2 fuel0 false J = Ok J2 -> Forall linear F -> (exists x, solves x F) ->
  (length (basis2 J2) = n <-> forall x z, solves x F -> solves z F -> forall i, (i < n)%nat -> (x i == z i)%Q).
Proof. exact c92_tq2_unique. Qed.
Print Assumptions C92_tq2_unique.

(** The local test holds; so nf decides the ideal. *)
Theorem C92_tq2_involutive : forall (t : pos_order) (o : base_order) (n : nat), (0 < n)%nat -> o <> OAlex -> forall (F : list poly) (J : jpoly) (fuel0 : nat) (J2 : jpoly2),
  jp_history false t o n F J -> jp_tq2 fuel0 false J = Ok J2 -> Forall linear F -> passes_local_test2 t o n J2.
Proof. exact c92_tq2_local. Qed.
Print Assumptions C92_tq2_involutive.

Theorem C92_tq2_membership : forall (t : pos_order) (o : base_order) (n : nat), (0 < n)%nat -> o <> OAlex -> forall (F : list poly) (J : jpoly) (fuel0 : nat) (J2 : jpoly2),
  jp_history false t o n F J -> jp_tq2 fuel0 false J = Ok J2 -> Forall linear F -> forall (a : poly), ring_input t o n a ->
  exists N r, (forall fuel, (N <= fuel)%nat -> jp2_nf fuel false J2 a = Ok r) /\ (terms r = [] <-> rational_member n (among F) (terms a)).
Proof. exact c92_tq2_membership. Qed.
Print Assumptions C92_tq2_membership.

Theorem C92_tq2_classes : forall (t : pos_order) (o : base_order) (n : nat), (0 < n)%nat -> o <> OAlex -> forall (F : list poly) (J : jpoly) (fuel0 : nat) (J2 : jpoly2),
  jp_history false t o n F J -> jp_tq2 fuel0 false J = Ok J2 -> Forall linear F -> forall (a b : poly) (fa fb : nat) (r s : poly),
  ring_input t o n a -> ring_input t o n b -> jp2_nf fa false J2 a = Ok r -> jp2_nf fb false J2 b = Ok s ->
  (plus_minus (terms r) (terms s) <-> same_mod_ideal n F (terms a) (terms b)).
Proof. exact c92_tq2_same. Qed.
Print Assumptions C92_tq2_classes.

(** The normal forms are those after the other algorithms. *)
Theorem C92_tq2_objects : forall (t : pos_order) (o : base_order) (n : nat), (0 < n)%nat -> o <> OAlex ->
  forall (F1 : list poly) (J1 : jpoly) (F2 : list poly) (J : jpoly) (fuel0 : nat) (J2 : jpoly2) (a b : poly) (fa fb : nat) (r s : poly),
  jp_history false t o n F1 J1 -> jp_history false t o n F2 J -> Forall linear F1 -> Forall linear F2 -> jq J1 = [] -> jp_tq2 fuel0 false J = Ok J2 -> same_ideal n F1 F2 ->
  ring_input t o n a -> ring_input t o n b -> jp_nf fa false J1 a = Ok r -> jp2_nf fb false J2 b = Ok s ->
  (plus_minus (terms r) (terms s) <-> same_mod_ideal n F1 (terms a) (terms b)).
Proof. exact c92_tq2_objects. Qed.
Print Assumptions C92_tq2_objects.

(** lex, x + 2 y + z = 4 and 3 x + y - 2 z = 1: the basis is 5 y + 5 z - 11, 5 x - 5 z + 2; z is free. *)
Example C92_tq2_solution_case : jp_history false TOP OLex 3 [ln_f1; ln_f2] ln_J0 /\ Forall linear [ln_f1; ln_f2] /\ jp_tq2 40 false ln_J0 = Ok ln_J2 /\
  basis2 ln_J2 = [ln_g; ln_h] /\ solves ln_x [ln_f1; ln_f2] /\ ~ has_constant 3 (basis2 ln_J2).
Proof. exact (conj ln_start (conj ln_lin (conj ln2_run (conj ln2_basis (conj ln_solves ln2_no_constant))))). Qed.
(** x + y = 1 and x + y = 2. *)
Example C92_tq2_solvable_case : jp_history false TOP ODegLex 2 [lc_f1; lc_f2] lc_J0 /\ Forall linear [lc_f1; lc_f2] /\ jp_tq2 40 false lc_J0 = Ok lc_J2 /\ has_constant 2 (basis2 lc_J2).
Proof. exact (conj lc_start (conj lc_lin (conj lc2_run lc2_constant))). Qed.
(** A prolongation that the local test is about. *)
Example C92_tq2_involutive_case : In ln_g (basis2 ln_J2) /\ janet_nm (map lead (basis2 ln_J2)) (lead ln_g) 0.
Proof. exact ln2_nm. Qed.
