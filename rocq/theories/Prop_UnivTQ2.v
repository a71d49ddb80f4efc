(** Property C103: one variable and algorithmTQ2 (release build; lex and deglex; ring polynomials). *)
From Coq Require Import ZArith QArith List Bool Arith Lia.
From Verif Require Import Outcome MonomModel MonomSpec PolyModel PolySpec JanetModel JanetSpec JanetPolyModel TQModel JanetPolySpec
  JanetPolyExamples TQExamples NormalSpec LinSpec LinExamples UnivSpec TQ2HPSpec LinSolTQ2 UnivTQ2Spec UnivTQ2 LinTQ2Examples.
Import ListNotations.
Local Open Scope Z_scope.

(** The full property (first_of (basis2 J2) g -> is_gcd t o F g, for all histories) is refuted below.  What holds:
    the greatest common divisors of the basis are those of the polynomials pushed. *)
Theorem C103_basis_partial : forall (t : pos_order) (o : base_order), o <> OAlex -> forall (F : list poly) (J : jpoly) (fuel0 : nat) (J2 : jpoly2),
  jp_history false t o 1 F J -> jp_tq2 fuel0 false J = Ok J2 -> forall (g : poly), is_gcd t o F g <-> is_gcd t o (basis2 J2) g.
Proof. exact c103_basis. Qed.
Print Assumptions C103_basis_partial.

(** The basis is empty exactly when only 0 was pushed. *)
Theorem C103_empty : forall (t : pos_order) (o : base_order), o <> OAlex -> forall (F : list poly) (J : jpoly) (fuel0 : nat) (J2 : jpoly2),
  jp_history false t o 1 F J -> jp_tq2 fuel0 false J = Ok J2 -> (basis2 J2 = [] <-> forall f, In f F -> terms f = []).
Proof. exact c103_none. Qed.
Print Assumptions C103_empty.

(** A basis of one element is the greatest common divisor, in the tree or not. *)
Theorem C103_one_partial : forall (t : pos_order) (o : base_order), o <> OAlex -> forall (F : list poly) (J : jpoly) (fuel0 : nat) (J2 : jpoly2),
  jp_history false t o 1 F J -> jp_tq2 fuel0 false J = Ok J2 -> forall (g : poly), basis2 J2 = [g] -> is_gcd t o F g.
Proof. exact c103_one. Qed.
Print Assumptions C103_one_partial.

(** With all elements in the tree and the local test passed an element of least degree is. *)
Theorem C103_local_partial : forall (t : pos_order) (o : base_order), o <> OAlex -> forall (F : list poly) (J : jpoly) (fuel0 : nat) (J2 : jpoly2),
  jp_history false t o 1 F J -> jp_tq2 fuel0 false J = Ok J2 -> forall (g : poly),
  all_in_trees J2 -> passes_local_test2 t o 1 J2 -> least_of (basis2 J2) g -> is_gcd t o F g.
Proof. exact c103_local. Qed.
Print Assumptions C103_local_partial.

(** In general the first element, of least degree, need not divide what was pushed. *)
Theorem C103_gcd_refuted : exists (F : list poly) (J : jpoly) (fuel : nat) (J2 : jpoly2) (g : poly), jp_history false TOP ODegLex 1 F J /\ jp_tq2 fuel false J = Ok J2 /\
  first_of (basis2 J2) g /\ ~ is_gcd TOP ODegLex F g.
Proof. exact g2_gcd. Qed.
Print Assumptions C103_gcd_refuted.

(** x^5 + 3 x^4, x^5 + 3 x^4 + x^2 + 3 x, x^5 + 3 x^4 + x^3 + 1: what is left is x^2 + 3 x in the tree and x^3 + 1 outside. *)
Example C103_gcd_case : jp_history false TOP ODegLex 1 [g2_a; g2_b; g2_c] g2_J0 /\ jp_tq2 60 false g2_J0 = Ok g2_J2 /\
  map terms (basis2 g2_J2) = [[(Mon (-1) [2]%nat, 1); (Mon (-1) [1]%nat, 3)]; [(Mon (-1) [3]%nat, 1); (Mon (-1) [0]%nat, 1)]].
Proof. split; [exact g2_history|]. split; [exact g2_run|]. vm_compute. reflexivity. Qed.
(** x^2 - 1 and x^3 - 1: the basis is x - 1, x^2 - 1. *)
Example C103_local_case : jp_history false TOP ODegLex 1 [g3_a; g3_b] g3_J0 /\ jp_tq2 60 false g3_J0 = Ok g3_J2 /\ all_in_trees g3_J2 /\
  passes_local_test2 TOP ODegLex 1 g3_J2 /\ least_of (basis2 g3_J2) g3_g.
Proof. exact (conj g3_history (conj g3_run (conj g3_trees (conj g3_local g3_least)))). Qed.
(** x - 1 and 2 x - 2. *)
Example C103_one_case : jp_history false TOP ODegLex 1 [g4_a; g4_b] g4_J0 /\ jp_tq2 60 false g4_J0 = Ok g4_J2 /\ map terms (basis2 g4_J2) = [terms g4_b].
Proof. split; [exact g4_history|]. split; [exact g4_run|]. vm_compute. reflexivity. Qed.
