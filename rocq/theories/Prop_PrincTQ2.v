(** Property C94 for algorithmTQ2: ideals generated by one polynomial (release build; lex and deglex; ring polynomials). *)
From Coq Require Import ZArith List Bool Arith Lia.
From Verif Require Import Outcome MonomModel MonomSpec PolyModel PolySpec JanetModel JanetSpec JanetPolyModel TQModel JanetPolySpec
  JanetPolyExamples NormalSpec PrincSpec PrincExamples TQ2HPSpec PrincTQ2 PrincTQ2Examples.
Import ListNotations.
Local Open Scope Z_scope.

(** algorithmTQ2 ends when one non-zero polynomial was pushed. *)
Theorem C94_tq2_ends : forall (t : pos_order) (o : base_order) (n : nat), (0 < n)%nat -> o <> OAlex -> forall (f : poly) (J : jpoly),
  jp_history false t o n [f] J -> terms f <> [] -> exists N J2, forall fuel, (N <= fuel)%nat -> jp_tq2 fuel false J = Ok J2.
Proof. exact c94_tq2_ends. Qed.
Print Assumptions C94_tq2_ends.

(** The basis then has one element, that polynomial up to a constant, and it is in the tree. *)
Theorem C94_tq2_basis : forall (t : pos_order) (o : base_order) (n : nat), (0 < n)%nat -> o <> OAlex -> forall (f : poly) (J : jpoly) (fuel : nat) (J2 : jpoly2),
  jp_history false t o n [f] J -> terms f <> [] -> jp_tq2 fuel false J = Ok J2 -> all_in_trees J2 /\ exists g, basis2 J2 = [g] /\ prop_to g f.
Proof. exact done_is. Qed.
Print Assumptions C94_tq2_basis.

(** nf returns, and what it returns is zero exactly if f divides the argument over the rational numbers. *)
Theorem C94_tq2_nf_divides : forall (t : pos_order) (o : base_order) (n : nat), (0 < n)%nat -> o <> OAlex ->
  forall (f : poly) (J : jpoly) (fuel0 : nat) (J2 : jpoly2) (a : poly),
  jp_history false t o n [f] J -> terms f <> [] -> jp_tq2 fuel0 false J = Ok J2 -> ring_input t o n a ->
  exists N r, (forall fuel, (N <= fuel)%nat -> jp2_nf fuel false J2 a = Ok r) /\ (terms r = [] <-> divides_over_Q n f a).
Proof. exact c94_tq2_divides. Qed.
Print Assumptions C94_tq2_nf_divides.

(** Two polynomials have the same normal form up to the sign exactly if f divides a combination k a - l b of them with k, l <> 0. *)
Theorem C94_tq2_nf_classes : forall (t : pos_order) (o : base_order) (n : nat), (0 < n)%nat -> o <> OAlex ->
  forall (f : poly) (J : jpoly) (fuel0 : nat) (J2 : jpoly2) (a b : poly) (fuel fuel' : nat) (r s : poly),
  jp_history false t o n [f] J -> terms f <> [] -> jp_tq2 fuel0 false J = Ok J2 -> ring_input t o n a -> ring_input t o n b ->
  jp2_nf fuel false J2 a = Ok r -> jp2_nf fuel' false J2 b = Ok s -> (plus_minus (terms r) (terms s) <-> same_mod n f a b).
Proof. exact c94_tq2_classes. Qed.
Print Assumptions C94_tq2_nf_classes.

(** Whatever was pushed: if the basis is one element, in the tree, nf decides membership and divisibility alike. *)
Theorem C94_tq2_one_element : forall (t : pos_order) (o : base_order) (n : nat), (0 < n)%nat -> o <> OAlex ->
  forall (F : list poly) (J : jpoly) (fuel0 : nat) (J2 : jpoly2) (g a : poly),
  jp_history false t o n F J -> jp_tq2 fuel0 false J = Ok J2 -> all_in_trees J2 -> basis2 J2 = [g] -> ring_input t o n a ->
  exists N r, (forall fuel, (N <= fuel)%nat -> jp2_nf fuel false J2 a = Ok r) /\ (terms r = [] <-> rational_member n (among F) (terms a)) /\
    (terms r = [] <-> divides_over_Q n g a).
Proof. exact c94_tq2_one. Qed.
Print Assumptions C94_tq2_one_element.

(** 2 x^2 - 4 y: algorithmTQ2 keeps it as it is. 3 x^3 - 6 x y has the normal form 0; x^3 and 2 x y have one normal form, not 0. *)
Example C94_tq2_example :
  jp_history false TOP ODegLex 2 [pr_f] pr_J0 /\ terms pr_f <> [] /\ jp_tq2 60 false pr_J0 = Ok pr_J2 /\
  map terms (basis2 pr_J2) = [[(Mon (-1) [2;0]%nat, 2); (Mon (-1) [0;1]%nat, -4)]] /\
  exists ra rb rc, jp2_nf 40 false pr_J2 pr_a = Ok ra /\ jp2_nf 40 false pr_J2 pr_b = Ok rb /\ jp2_nf 40 false pr_J2 pr_c = Ok rc /\
     terms ra = [] /\ terms rb <> [] /\ terms rb = terms rc.
Proof. exact (conj pr_start (conj pr_nz (conj pr2_run (conj pr2_basis pr2_nf)))). Qed.
