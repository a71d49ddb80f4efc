(** Property C93: systems of monomials (release build; lex and deglex; ring polynomials). *)
From Coq Require Import ZArith List Bool Arith Lia.
From Verif Require Import Outcome MonomModel MonomSpec PolyModel PolySpec JanetModel JanetSpec JanetPolyModel TQModel JanetPolySpec
  JanetPolyExamples TQExamples MonoSpec MonoTop MonoExamples.
Import ListNotations.
Local Open Scope Z_scope.

(** build, algorithmTQ and algorithmTQ1 end after any history in which only constants times monomials were pushed. *)
Theorem C93_ends : forall (t : pos_order) (o : base_order) (n : nat), (0 < n)%nat -> o <> OAlex -> forall (F : list poly) (J : jpoly),
  jp_history false t o n F J -> Forall single F ->
  (exists N J', (forall fuel, (N <= fuel)%nat -> jp_build fuel false J = Ok J') /\ jq J' = []) /\
  forall one, exists N J', (forall fuel, (N <= fuel)%nat -> jp_tq one fuel false J = Ok J') /\ jq J' = [].
Proof. exact c93_total. Qed.
Print Assumptions C93_ends.

(** The basis consists of constants times monomials again. Each is a multiple of a monomial pushed, and
    no exponent is higher than those of the same variable in the monomials pushed. *)
Theorem C93_basis : forall (t : pos_order) (o : base_order) (n : nat), (0 < n)%nat -> o <> OAlex -> forall (F : list poly) (J : jpoly),
  jp_history false t o n F J -> Forall single F -> forall (g : poly), In g (basis J) ->
  exists c, terms g = [(Mon (-1) (lead g), c)] /\ c <> 0 /\ length (lead g) = n /\ bounded_multiple n F (lead g).
Proof. exact c93_elem. Qed.
Print Assumptions C93_basis.

(** So the basis has at most (d1 + 1) ... (dn + 1) elements when xi occurs with exponents up to di. *)
Theorem C93_size : forall (t : pos_order) (o : base_order) (n : nat), (0 < n)%nat -> o <> OAlex -> forall (F : list poly) (J : jpoly),
  jp_history false t o n F J -> Forall single F -> forall (D : list nat), length D = n ->
  (forall f i, In f F -> (i < n)%nat -> (expo (lead f) i <= expo D i)%nat) ->
  (length (basis J) <= fold_right (fun d k => (S d * k)%nat) 1%nat D)%nat.
Proof. exact c93_size. Qed.
Print Assumptions C93_size.

(** The monomials that no other one divides are leading monomials of the basis. *)
Theorem C93_generators : forall (t : pos_order) (o : base_order) (n : nat), (0 < n)%nat -> o <> OAlex -> forall (F : list poly) (J : jpoly),
  jp_history false t o n F J -> Forall single F -> forall (f : poly), jq J = [] -> minimal n F f ->
  exists g, In g (basis J) /\ lead g = lead f.
Proof. exact c93_generators. Qed.
Print Assumptions C93_generators.

(** A polynomial is in the ideal exactly if each of its monomials is a multiple of one of the basis. *)
Theorem C93_ideal : forall (t : pos_order) (o : base_order) (n : nat), (0 < n)%nat -> o <> OAlex -> forall (F : list poly) (J : jpoly),
  jp_history false t o n F J -> Forall single F -> forall (p : poly), jq J = [] -> ring_input t o n p ->
  (rational_member n (among F) (terms p) <-> monomials_divisible n (basis J) (terms p)).
Proof. exact c93_ideal. Qed.
Print Assumptions C93_ideal.

(** But nf, which divides by Janet divisors only, does not always find it: a monomial of the ideal with
    a non-zero normal form after build, in two variables with lex and in three with deglex. *)
Theorem C93_nf_lex_refuted : exists (F : list poly) (J : jpoly) (a r : poly),
  jp_history false TOP OLex 2 F J /\ Forall single F /\ jq J = [] /\ ring_input TOP OLex 2 a /\ single a /\
  rational_member 2 (among F) (terms a) /\ (exists fuel, jp_nf fuel false J a = Ok r) /\ terms r <> [].
Proof. exact c93_lex. Qed.
Print Assumptions C93_nf_lex_refuted.

Theorem C93_nf_deglex_refuted : exists (F : list poly) (J : jpoly) (a r : poly),
  jp_history false TOP ODegLex 3 F J /\ Forall single F /\ jq J = [] /\ ring_input TOP ODegLex 3 a /\ single a /\
  rational_member 3 (among F) (terms a) /\ (exists fuel, jp_nf fuel false J a = Ok r) /\ terms r <> [].
Proof. exact c93_deglex. Qed.
Print Assumptions C93_nf_deglex_refuted.

(** y^2 and x z^3: the basis is y^2, x y^2, x z^3, and y^2 is minimal. *)
Example C93_ex : jp_history false TOP ODegLex 3 [me_f2; me_f1] me_J /\ Forall single [me_f2; me_f1] /\ jq me_J = [] /\
  map lead (basis me_J) = [[0;2;0]; [1;2;0]; [1;0;3]]%nat /\ minimal 3 [me_f2; me_f1] me_f1 /\
  ring_input TOP ODegLex 3 me_a /\ rational_member 3 (among [me_f2; me_f1]) (terms me_a).
Proof.
  split; [exact me_history|]. split; [exact me_single|]. split; [exact me_queue|]. split; [exact me_basis|]. split; [exact me_minimal|]. split; [exact me_ain|exact me_member].
Qed.
