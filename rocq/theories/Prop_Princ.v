(** Property C94: ideals generated by one polynomial (release build; lex and deglex; ring polynomials). *)
From Coq Require Import ZArith List Bool Arith Lia.
From Verif Require Import Outcome MonomModel MonomSpec PolyModel PolySpec JanetModel JanetSpec JanetPolyModel TQModel JanetPolySpec
  JanetPolyExamples TQExamples NormalSpec PrincSpec PrincTop PrincExamples.
Import ListNotations.
Local Open Scope Z_scope.

(** build, algorithmTQ and algorithmTQ1 end when one non-zero polynomial was pushed. *)
Theorem C94_ends : forall (t : pos_order) (o : base_order) (n : nat), (0 < n)%nat -> o <> OAlex -> forall (f : poly) (J : jpoly),
  jp_history false t o n [f] J -> terms f <> [] ->
  (exists N J', (forall fuel, (N <= fuel)%nat -> jp_build fuel false J = Ok J') /\ jq J' = []) /\
  forall one, exists N J', (forall fuel, (N <= fuel)%nat -> jp_tq one fuel false J = Ok J') /\ jq J' = [].
Proof. exact c94_total. Qed.
Print Assumptions C94_ends.

(** The basis then has one element: that polynomial, up to a constant. *)
Theorem C94_basis : forall (t : pos_order) (o : base_order) (n : nat), (0 < n)%nat -> o <> OAlex -> forall (f : poly) (J : jpoly),
  jp_history false t o n [f] J -> terms f <> [] -> jq J = [] -> exists g, basis J = [g] /\ prop_to g f.
Proof. exact c94_basis. Qed.
Print Assumptions C94_basis.

(** If only zero polynomials were pushed it is empty, and nothing is waiting. *)
Theorem C94_zero : forall (t : pos_order) (o : base_order) (n : nat) (F : list poly) (J : jpoly),
  jp_history false t o n F J -> Forall (fun f => terms f = []) F -> jq J = [] /\ basis J = [].
Proof. exact c94_zero. Qed.
Print Assumptions C94_zero.

(** nf returns, and what it returns is zero exactly if f divides the argument over the rational numbers. *)
Theorem C94_nf_ends : forall (t : pos_order) (o : base_order) (n : nat), (0 < n)%nat -> o <> OAlex -> forall (f : poly) (J : jpoly) (a : poly),
  jp_history false t o n [f] J -> terms f <> [] -> jq J = [] -> ring_input t o n a ->
  exists N r, (forall fuel, (N <= fuel)%nat -> jp_nf fuel false J a = Ok r) /\ (terms r = [] <-> divides_over_Q n f a).
Proof. exact c94_divides. Qed.
Print Assumptions C94_nf_ends.
Theorem C94_nf_divides : forall (t : pos_order) (o : base_order) (n : nat), (0 < n)%nat -> o <> OAlex -> forall (f : poly) (J : jpoly) (a : poly) (fuel : nat) (r : poly),
  jp_history false t o n [f] J -> terms f <> [] -> jq J = [] -> ring_input t o n a -> jp_nf fuel false J a = Ok r ->
  (terms r = [] <-> divides_over_Q n f a).
Proof. exact c94_test. Qed.
Print Assumptions C94_nf_divides.

(** Two polynomials have the same normal form up to the sign exactly if f divides a combination k a - l b of them with k, l <> 0. *)
Theorem C94_nf_classes : forall (t : pos_order) (o : base_order) (n : nat), (0 < n)%nat -> o <> OAlex ->
  forall (f : poly) (J : jpoly) (a b : poly) (fuel fuel' : nat) (r s : poly),
  jp_history false t o n [f] J -> terms f <> [] -> jq J = [] -> ring_input t o n a -> ring_input t o n b ->
  jp_nf fuel false J a = Ok r -> jp_nf fuel' false J b = Ok s -> (plus_minus (terms r) (terms s) <-> same_mod n f a b).
Proof. exact c94_classes. Qed.
Print Assumptions C94_nf_classes.

(** Whatever was pushed: a finished basis with one element decides membership and divisibility alike. *)
Theorem C94_one_element : forall (t : pos_order) (o : base_order) (n : nat), (0 < n)%nat -> o <> OAlex ->
  forall (F : list poly) (J : jpoly) (g a : poly),
  jp_history false t o n F J -> jq J = [] -> basis J = [g] -> ring_input t o n a ->
  exists N r, (forall fuel, (N <= fuel)%nat -> jp_nf fuel false J a = Ok r) /\ (terms r = [] <-> rational_member n (among F) (terms a)) /\
    (terms r = [] <-> divides_over_Q n g a).
Proof. exact c94_one. Qed.
Print Assumptions C94_one_element.

(** 2 x^2 - 4 y: the basis is x^2 - 2 y. It divides 3 x^3 - 6 x y and does not divide x^3; x^3 and 2 x y have one normal form.
    algorithmTQ1 keeps 2 x^2 - 4 y. *)
Example C94_example :
  jp_history false TOP ODegLex 2 [pr_f] pr_J /\ terms pr_f <> [] /\ jq pr_J = [] /\
  map terms (basis pr_J) = [[(Mon (-1) [2;0]%nat, 1); (Mon (-1) [0;1]%nat, -2)]] /\
  divides_over_Q 2 pr_f pr_a /\ ~ divides_over_Q 2 pr_f pr_b /\
  (exists ra rb rc, jp_nf 40 false pr_J pr_a = Ok ra /\ jp_nf 40 false pr_J pr_b = Ok rb /\ jp_nf 40 false pr_J pr_c = Ok rc /\
     terms ra = [] /\ terms rb <> [] /\ terms rb = terms rc) /\
  (exists J', jp_tq true 60 false pr_J0 = Ok J' /\ map terms (basis J') = [[(Mon (-1) [2;0]%nat, 2); (Mon (-1) [0;1]%nat, -4)]]).
Proof. exact (conj pr_history (conj pr_nz (conj pr_queue (conj pr_basis (conj (proj1 pr_divides) (conj (proj2 pr_divides) (conj pr_nf pr_tq))))))). Qed.
