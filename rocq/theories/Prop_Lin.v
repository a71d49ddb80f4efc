(** Property C92: systems of linear equations are solved (release build; lex and deglex; ring polynomials). *)
From Coq Require Import ZArith QArith List Bool Arith Lia.
From Verif Require Import Outcome MonomModel MonomSpec PolyModel PolySpec JanetModel JanetSpec JanetPolyModel TQModel JanetPolySpec
  JanetPolyExamples TQExamples NormalSpec LinSpec LinTop LinSol LinExamples InvolutiveTop NormalTop.
Import ListNotations.
Local Open Scope Z_scope.

(** build, algorithmTQ and algorithmTQ1 end after any history in which only linear polynomials were pushed. *)
Theorem C92_ends : forall (t : pos_order) (o : base_order) (n : nat), (0 < n)%nat -> o <> OAlex -> forall (F : list poly) (J : jpoly),
  jp_history false t o n F J -> Forall linear F ->
  (exists N J', (forall fuel, (N <= fuel)%nat -> jp_build fuel false J = Ok J') /\ jq J' = []) /\
  forall one, exists N J', (forall fuel, (N <= fuel)%nat -> jp_tq one fuel false J = Ok J') /\ jq J' = [].
Proof. exact c92_total. Qed.
Print Assumptions C92_ends.

(** The basis is a linear system again, of at most n + 1 equations. *)
Theorem C92_linear : forall (t : pos_order) (o : base_order) (n : nat), (0 < n)%nat -> o <> OAlex -> forall (F : list poly) (J : jpoly) (g : poly),
  jp_history false t o n F J -> Forall linear F -> In g (basis J) -> linear g.
Proof. exact c92_basis. Qed.
Print Assumptions C92_linear.

Theorem C92_size : forall (t : pos_order) (o : base_order) (n : nat), (0 < n)%nat -> o <> OAlex -> forall (F : list poly) (J : jpoly),
  jp_history false t o n F J -> Forall linear F -> (length (basis J) <= n + 1)%nat.
Proof. exact c92_size. Qed.
Print Assumptions C92_size.

(** The common zeros in rational numbers are those of the polynomials pushed (linear or not). *)
Theorem C92_zeros : forall (t : pos_order) (o : base_order) (n : nat), (0 < n)%nat -> o <> OAlex -> forall (F : list poly) (J : jpoly) (x : nat -> Q),
  jp_history false t o n F J -> jq J = [] -> (solves x F <-> solves x (basis J)).
Proof. exact c92_zeros. Qed.
Print Assumptions C92_zeros.

(** A linear system has a solution exactly if no non-zero constant is in the basis. *)
Theorem C92_solvable : forall (t : pos_order) (o : base_order) (n : nat), (0 < n)%nat -> o <> OAlex -> forall (F : list poly) (J : jpoly),
  jp_history false t o n F J -> Forall linear F -> jq J = [] -> ((exists x, solves x F) <-> ~ has_constant n (basis J)).
Proof. exact c92_solvable. Qed.
Print Assumptions C92_solvable.

(** Then the variables that are no leading monomials can be chosen freely, and the choice fixes the solution. *)
Theorem C92_solution : forall (t : pos_order) (o : base_order) (n : nat), (0 < n)%nat -> o <> OAlex -> forall (F : list poly) (J : jpoly),
  jp_history false t o n F J -> Forall linear F -> jq J = [] -> forall (y : nat -> Q), ~ has_constant n (basis J) ->
  exists x, the_solution n F (basis J) y x.
Proof. exact c92_solution. Qed.
Print Assumptions C92_solution.

(** A solvable system has one solution exactly if the basis has n elements. *)
Theorem C92_unique : forall (t : pos_order) (o : base_order) (n : nat), (0 < n)%nat -> o <> OAlex -> forall (F : list poly) (J : jpoly),
  jp_history false t o n F J -> Forall linear F -> jq J = [] -> (exists x, solves x F) ->
  (length (basis J) = n <-> forall x z, solves x F -> solves z F -> forall i, (i < n)%nat -> (x i == z i)%Q).
Proof. exact c92_unique. Qed.
Print Assumptions C92_unique.

(** The local test for involutive bases always holds, with no hypothesis on the criteria used to skip
    prolongations; so nf decides the ideal, and the normal form depends on the ideal only. *)
Theorem C92_involutive : forall (t : pos_order) (o : base_order) (n : nat), (0 < n)%nat -> o <> OAlex -> forall (F : list poly) (J : jpoly),
  jp_history false t o n F J -> Forall linear F -> jq J = [] -> passes_local_test t o n J.
Proof. exact c92_local. Qed.
Print Assumptions C92_involutive.

Theorem C92_membership : forall (t : pos_order) (o : base_order) (n : nat), (0 < n)%nat -> o <> OAlex -> forall (F : list poly) (J : jpoly) (a : poly),
  jp_history false t o n F J -> Forall linear F -> jq J = [] -> ring_input t o n a ->
  exists N r, (forall fuel, (N <= fuel)%nat -> jp_nf fuel false J a = Ok r) /\ (terms r = [] <-> rational_member n (among F) (terms a)).
Proof. exact c92_membership. Qed.
Print Assumptions C92_membership.

Theorem C92_same_ideal : forall (t : pos_order) (o : base_order) (n : nat), (0 < n)%nat -> o <> OAlex ->
  forall (F1 : list poly) (J1 : jpoly) (F2 : list poly) (J2 : jpoly) (a b : poly) (fuel fuel' : nat) (r s : poly),
  jp_history false t o n F1 J1 -> jp_history false t o n F2 J2 -> Forall linear F1 -> Forall linear F2 -> jq J1 = [] -> jq J2 = [] -> same_ideal n F1 F2 ->
  ring_input t o n a -> ring_input t o n b -> jp_nf fuel false J1 a = Ok r -> jp_nf fuel' false J2 b = Ok s ->
  (plus_minus (terms r) (terms s) <-> same_mod_ideal n F1 (terms a) (terms b)).
Proof. exact c92_classes. Qed.
Print Assumptions C92_same_ideal.

(** lex, x + 2 y + z = 4 and 3 x + y - 2 z = 1: the basis is 5 y + 5 z - 11, 5 x - 5 z + 2; z is free. *)
Example C92_solution_case : jp_history false TOP OLex 3 [ln_f1; ln_f2] ln_J /\ Forall linear [ln_f1; ln_f2] /\ jq ln_J = [] /\
  basis ln_J = [ln_g; ln_h] /\ solves ln_x [ln_f1; ln_f2] /\ ~ has_constant 3 (basis ln_J) /\
  determined 3 (basis ln_J) 0 /\ determined 3 (basis ln_J) 1 /\ ~ determined 3 (basis ln_J) 2.
Proof. exact (conj ln_history (conj ln_lin (conj ln_queue (conj ln_basis (conj ln_solves (conj ln_no_constant ln_determined)))))). Qed.
Example C92_ends_case : jp_history false TOP OLex 3 [ln_f1; ln_f2] ln_J0 /\ jp_build 40 false ln_J0 = Ok ln_J.
Proof. split; [exact ln_start|vm_compute; reflexivity]. Qed.
(** x + y = 1 and x + y = 2. *)
Example C92_solvable_case : jp_history false TOP ODegLex 2 [lc_f1; lc_f2] lc_J /\ Forall linear [lc_f1; lc_f2] /\ jq lc_J = [] /\ has_constant 2 (basis lc_J).
Proof. exact (conj lc_history (conj lc_lin (conj lc_queue lc_constant))). Qed.
(** A prolongation that the local test is about. *)
Example C92_involutive_case : In ln_g (basis ln_J) /\ janet_nm (map lead (basis ln_J)) (lead ln_g) 0.
Proof. exact ln_nm. Qed.
(** z = 1 pushed after that: three elements, one solution. *)
Example C92_unique_case : jp_history false TOP OLex 3 [ls_f3; ln_f1; ln_f2] ls_J /\ Forall linear [ls_f3; ln_f1; ln_f2] /\ jq ls_J = [] /\
  length (basis ls_J) = 3%nat /\ solves ln_x [ls_f3; ln_f1; ln_f2].
Proof. exact (conj ls_history (conj ls_lin (conj ls_queue (conj ls_size ls_solves)))). Qed.
