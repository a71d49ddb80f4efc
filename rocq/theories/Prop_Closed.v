(** Property C96: completion and normal forms keep the structure of the input (release build; lex and deglex; ring polynomials). *)
From Coq Require Import ZArith List Bool Arith Lia.
From Verif Require Import Outcome MonomModel MonomSpec PolyModel PolySpec JanetModel JanetSpec JanetPolyModel TQModel JanetPolySpec
  JanetPolyExamples TQExamples InvolutiveExamples NormalSpec NormalTop ClosedSpec ClosedTop ClosedExamples.
Import ListNotations.
Local Open Scope Z_scope.

(** A class of polynomials that is kept when a term is eliminated with a multiple of another element, when
    constant factors change and when an element is prolonged contains the basis of its members, after any
    history of pushes and completions. *)
Theorem C96_class : forall (t : pos_order) (o : base_order) (n : nat), (0 < n)%nat -> o <> OAlex ->
  forall P : list (monom * Z) -> Prop, closed_class t o n P ->
  forall (F : list poly) (J : jpoly), jp_history false t o n F J -> Forall (fun f => P (terms f)) F ->
  forall g, In g (basis J) -> P (terms g).
Proof. exact c96_basis. Qed.
Print Assumptions C96_class.

(** The normal form of a polynomial in D stays in D, or is 0, when eliminating a term with an element of P keeps D. *)
Theorem C96_class_nf : forall (t : pos_order) (o : base_order) (n : nat), (0 < n)%nat -> o <> OAlex ->
  forall P : list (monom * Z) -> Prop, closed_class t o n P ->
  forall (D : list (monom * Z) -> Prop) (F : list poly) (J : jpoly) (a : poly) (fuel : nat) (r : poly),
  kept_by_elimination t o n P D -> kept_by_factors t o n D ->
  jp_history false t o n F J -> Forall (fun f => P (terms f)) F -> ring_input t o n a -> D (terms a) ->
  jp_nf fuel false J a = Ok r -> terms r = [] \/ D (terms r).
Proof. exact c96_nf. Qed.
Print Assumptions C96_class_nf.

(** For every congruence of monomials: a basis of homogeneous polynomials is homogeneous, and a polynomial
    whose monomials are all congruent to u has such a normal form. *)
Theorem C96_homogeneous : forall (t : pos_order) (o : base_order) (n : nat), (0 < n)%nat -> o <> OAlex ->
  forall R : list nat -> list nat -> Prop, congruence n R ->
  forall (F : list poly) (J : jpoly), jp_history false t o n F J -> Forall (fun f => homogeneous R (terms f)) F ->
  (forall g, In g (basis J) -> homogeneous R (terms g)) /\
  forall a u fuel r, ring_input t o n a -> all_in_class R u (terms a) -> jp_nf fuel false J a = Ok r -> all_in_class R u (terms r).
Proof. exact c96_homogeneous. Qed.
Print Assumptions C96_homogeneous.

(** Weighted degrees modulo q, for any integer weights, are such congruences. *)
Theorem C96_weights : forall n : nat, (0 < n)%nat -> forall (W : list Z) (q : Z), congruence n (same_weight W q).
Proof. exact weight_congruence. Qed.
Print Assumptions C96_weights.

(** x^2 - y and x y - 1 are homogeneous modulo 3 with the weights 1, 2, and so is y^2 - x. *)
Example C96_ex : jp_history false TOP ODegLex 2 [iv_f2; iv_f1] iv_J /\ Forall (fun f => homogeneous (same_weight [1; 2] 3) (terms f)) [iv_f2; iv_f1] /\
  ~ homogeneous (same_weight [1; 2] 0) (terms iv_f2) /\
  map terms (basis iv_J) = [[(Mon (-1) [0;2]%nat, 1); (Mon (-1) [1;0]%nat, -1)];
    [(Mon (-1) [1;1]%nat, 1); (Mon (-1) [0;0]%nat, -1)]; [(Mon (-1) [2;0]%nat, 1); (Mon (-1) [0;1]%nat, -1)]].
Proof. split; [exact iv_history|]. split; [exact cl_homog|]. split; [exact cl_not|vm_compute; reflexivity]. Qed.

(** Polynomials with at most two terms: the basis has such polynomials only, and no normal form has more
    terms than its argument. *)
Theorem C96_binomials : forall (t : pos_order) (o : base_order) (n : nat), (0 < n)%nat -> o <> OAlex ->
  forall (F : list poly) (J : jpoly), jp_history false t o n F J -> Forall (fun f => (length (terms f) <= 2)%nat) F ->
  (forall g, In g (basis J) -> (length (terms g) <= 2)%nat) /\
  forall a fuel r, ring_input t o n a -> jp_nf fuel false J a = Ok r -> (length (terms r) <= length (terms a))%nat.
Proof. exact c96_binomials. Qed.
Print Assumptions C96_binomials.

(** Variables that occur neither in the input nor in the argument of nf do not appear. *)
Theorem C96_variables : forall (t : pos_order) (o : base_order) (n : nat), (0 < n)%nat -> o <> OAlex ->
  forall (V : nat -> Prop) (F : list poly) (J : jpoly), jp_history false t o n F J -> Forall (fun f => only_variables V (terms f)) F ->
  (forall g, In g (basis J) -> only_variables V (terms g)) /\
  forall a fuel r, ring_input t o n a -> only_variables V (terms a) -> jp_nf fuel false J a = Ok r -> only_variables V (terms r).
Proof. exact c96_variables. Qed.
Print Assumptions C96_variables.

(** The same two polynomials in x, y, z. *)
Example C96_vars_ex : jp_history false TOP ODegLex 3 [cv_f2; cv_f1] cv_J /\ length (basis cv_J) = 3%nat /\
  Forall (fun f => only_variables (fun i => (i < 2)%nat) (terms f)) [cv_f2; cv_f1] /\ Forall (fun f => (length (terms f) <= 2)%nat) [cv_f2; cv_f1].
Proof. split; [exact cv_history|]. split; [vm_compute; reflexivity|]. split; [exact cv_vars|]. repeat constructor. Qed.

(** Differences of monomials, the relations of a commutative semigroup: the normal form of a word is, up to
    the sign, a word equal to it in the semigroup. *)
Theorem C96_word_nf : forall (t : pos_order) (o : base_order) (n : nat), (0 < n)%nat -> o <> OAlex ->
  forall (F : list poly) (E : list (list nat * list nat)) (J : jpoly), jp_history false t o n F J -> Forall2 (difference_of n) F E ->
  forall (a : poly) (u : list nat) (fuel : nat) (r : poly), ring_input t o n a -> terms a = [(Mon (-1) u, 1)] -> jp_nf fuel false J a = Ok r ->
  exists w s, terms r = [(Mon (-1) w, s)] /\ (s = 1 \/ s = -1) /\ length w = n /\ generated n E u w.
Proof. exact c96_word_nf. Qed.
Print Assumptions C96_word_nf.

(** When the basis passes the local test, equality of normal forms decides equality of words. *)
Theorem C96_word : forall (t : pos_order) (o : base_order) (n : nat), (0 < n)%nat -> o <> OAlex ->
  forall (F : list poly) (E : list (list nat * list nat)) (J : jpoly), jp_history false t o n F J -> Forall2 (difference_of n) F E ->
  forall (a b : poly) (u v : list nat) (fuel fuel' : nat) (r s : poly), jq J = [] -> passes_local_test t o n J ->
  ring_input t o n a -> ring_input t o n b -> terms a = [(Mon (-1) u, 1)] -> terms b = [(Mon (-1) v, 1)] ->
  jp_nf fuel false J a = Ok r -> jp_nf fuel' false J b = Ok s -> (plus_minus (terms r) (terms s) <-> generated n E u v).
Proof. exact c96_word. Qed.
Print Assumptions C96_word.

(** With x^2 = y and x y = 1: x^4 = y^2 (both have the normal form x), and x^4 is not x^2 (normal form y). *)
Example C96_word_ex : Forall2 (difference_of 2) [iv_f2; iv_f1] cl_E /\ jq iv_J = [] /\ passes_local_test TOP ODegLex 2 iv_J /\
  (exists ra rb rc, jp_nf 40 false iv_J cl_a = Ok ra /\ jp_nf 40 false iv_J cl_b = Ok rb /\ jp_nf 40 false iv_J cl_c = Ok rc /\
    terms ra = [(Mon (-1) [1;0]%nat, 1)] /\ terms rb = [(Mon (-1) [1;0]%nat, 1)] /\ terms rc = [(Mon (-1) [0;1]%nat, 1)]) /\
  generated 2 cl_E [4;0]%nat [0;2]%nat /\ ~ generated 2 cl_E [4;0]%nat [2;0]%nat.
Proof. split; [exact cl_diff|]. split; [exact cl_queue|]. split; [exact iv_local|]. split; [exact cl_nf|exact cl_words]. Qed.
