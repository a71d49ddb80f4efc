(** Property C93 for algorithmTQ2: systems of monomials (release build; lex and deglex; ring polynomials).
    That algorithmTQ2 ends on them is not proved. *)
From Coq Require Import ZArith List Bool Arith Lia.
From Verif Require Import Outcome MonomModel MonomSpec PolyModel PolySpec JanetModel JanetSpec JanetPolyModel TQModel JanetPolySpec
  JanetPolyExamples TQExamples TQ2HPSpec MonoSpec MonoExamples MonoTQ2 MonoTQ2Examples.
Import ListNotations.
Local Open Scope Z_scope.

(** The shape of the basis, as for the other algorithms. *)
Theorem C93_tq2_basis : forall (t : pos_order) (o : base_order) (n : nat), (0 < n)%nat -> o <> OAlex -> forall (F : list poly) (J : jpoly) (fuel0 : nat) (J2 : jpoly2),
  jp_history false t o n F J -> jp_tq2 fuel0 false J = Ok J2 -> Forall single F -> forall (g : poly), In g (basis2 J2) ->
  exists c, terms g = [(Mon (-1) (lead g), c)] /\ c <> 0 /\ length (lead g) = n /\ bounded_multiple n F (lead g).
Proof. exact c93_tq2_elem. Qed.
Print Assumptions C93_tq2_basis.

Theorem C93_tq2_generators : forall (t : pos_order) (o : base_order) (n : nat), (0 < n)%nat -> o <> OAlex -> forall (F : list poly) (J : jpoly) (fuel0 : nat) (J2 : jpoly2),
  jp_history false t o n F J -> jp_tq2 fuel0 false J = Ok J2 -> Forall single F -> forall (f : poly), minimal n F f ->
  exists g, In g (basis2 J2) /\ lead g = lead f.
Proof. exact c93_tq2_generators. Qed.
Print Assumptions C93_tq2_generators.

Theorem C93_tq2_ideal : forall (t : pos_order) (o : base_order) (n : nat), (0 < n)%nat -> o <> OAlex -> forall (F : list poly) (J : jpoly) (fuel0 : nat) (J2 : jpoly2),
  jp_history false t o n F J -> jp_tq2 fuel0 false J = Ok J2 -> Forall single F -> forall (p : poly), ring_input t o n p ->
  (rational_member n (among F) (terms p) <-> monomials_divisible n (basis2 J2) (terms p)).
Proof. exact c93_tq2_ideal. Qed.
Print Assumptions C93_tq2_ideal.

(** The size bound, with one more for an element outside the tree. *)
Theorem C93_tq2_size : forall (t : pos_order) (o : base_order) (n : nat), (0 < n)%nat -> o <> OAlex -> forall (F : list poly) (J : jpoly) (fuel0 : nat) (J2 : jpoly2),
  jp_history false t o n F J -> jp_tq2 fuel0 false J = Ok J2 -> Forall single F -> forall (D : list nat), length D = n ->
  (forall f i, In f F -> (i < n)%nat -> (expo (lead f) i <= expo D i)%nat) ->
  (length (basis2 J2) <= fold_right (fun d k => (S d * k)%nat) 1%nat D + 1)%nat.
Proof. exact c93_tq2_size. Qed.
Print Assumptions C93_tq2_size.

(** Whatever was pushed, at most one element of the basis is outside the tree (release and debug build). *)
Theorem C93_tq2_one_outside : forall (fuel : nat) (dbg : bool) (J : jpoly) (J2 : jpoly2), jp_tq2 fuel dbg J = Ok J2 ->
  (length (tree_part J2) <= length (basis2 J2) <= length (tree_part J2) + 1)%nat.
Proof. exact tq2_one_outside. Qed.
Print Assumptions C93_tq2_one_outside.

(** But nf fails even on a monomial that was pushed: 2 x^2 with 2 x^2 and 3 y^3. *)
Theorem C93_tq2_nf_refuted : exists (F : list poly) (J : jpoly) (fuel0 : nat) (J2 : jpoly2) (a r : poly),
  jp_history false TOP OLex 2 F J /\ Forall single F /\ jp_tq2 fuel0 false J = Ok J2 /\ In a F /\
  (exists fuel, jp2_nf fuel false J2 a = Ok r) /\ terms r <> [].
Proof. exact c93_tq2_nf. Qed.
Print Assumptions C93_tq2_nf_refuted.

(** y^2 and x z^3: x y^2 is outside the tree. *)
Example C93_tq2_ex : jp_history false TOP ODegLex 3 [me_f2; me_f1] me_J0 /\ Forall single [me_f2; me_f1] /\ jp_tq2 60 false me_J0 = Ok me_J2 /\
  map lead (basis2 me_J2) = [[0;2;0]; [1;2;0]; [1;0;3]]%nat /\ map lead (tree_part me_J2) = [[0;2;0]; [1;0;3]]%nat /\ minimal 3 [me_f2; me_f1] me_f1.
Proof.
  split; [exact me_start|]. split; [exact me_single|]. split; [exact me_tq2|]. split; [exact me_basis2|]. split; [exact me_tree2|exact me_minimal].
Qed.
