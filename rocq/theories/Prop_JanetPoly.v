(** Properties C39, C40 and C46-C49 of JanetPolyInt (release build; lex and deglex; ring polynomials). *)
From Coq Require Import ZArith List Bool Arith Lia.
From Verif Require Import Outcome MonomModel MonomSpec PolyModel PolySpec JanetModel JanetSpec JanetPolyModel TQModel JanetPolySpec
  JanetPolyTop JanetPolyExamples InvolutiveTop InvolutiveExamples.
Import ListNotations.
Local Open Scope Z_scope.

(* ---- C39 ---- *)
Theorem C39_basis_in_ideal : forall (t : pos_order) (o : base_order) (n : nat) (F : list poly) (J : jpoly) (g : poly),
  (0 < n)%nat -> o <> OAlex -> jp_history false t o n F J -> In g (basis J) ->
  ring_input t o n g /\ terms g <> [] /\ rational_member n (among F) (terms g).
Proof. exact c39_members. Qed.
Print Assumptions C39_basis_in_ideal.

(** No call reaches undefined behaviour; build and the algorithms either end or the step bound was too small. *)
Theorem C39_calls_are_safe : forall (t : pos_order) (o : base_order) (n : nat) (F : list poly) (J : jpoly),
  (0 < n)%nat -> o <> OAlex -> jp_history false t o n F J ->
  (forall a, ring_input t o n a -> exists J', jp_push false J a = Ok J') /\
  (forall fuel, (exists J', jp_build fuel false J = Ok J') \/ jp_build fuel false J = OutOfFuel) /\
  (forall one fuel, (exists J', jp_tq one fuel false J = Ok J') \/ jp_tq one fuel false J = OutOfFuel) /\
  (forall fuel, (exists J', jp_tq2 fuel false J = Ok J') \/ jp_tq2 fuel false J = OutOfFuel).
Proof. exact c39_safe. Qed.
Print Assumptions C39_calls_are_safe.

Theorem C39_leads_distinct : forall (t : pos_order) (o : base_order) (n : nat) (F : list poly) (J : jpoly),
  (0 < n)%nat -> o <> OAlex -> jp_history false t o n F J -> NoDup (map lead (basis J)).
Proof. exact c39_distinct. Qed.
Print Assumptions C39_leads_distinct.

(** Submodules: after pushing the single element e0 the basis is the constant 1, which is not in the module. *)
Theorem C39_module_refuted : exists (a : poly) (J : jpoly) (g : poly), valid_poly a /\
  (do J0 <- jp_push false jp_empty a; jp_build 40 false J0) = Ok J /\ basis J = [g] /\
  ~ rational_member 1 (among [a]) (terms g).
Proof. exact md_refuted. Qed.
Print Assumptions C39_module_refuted.

(** A history with three polynomials whose basis has seven elements. *)
Example C39_ex : jp_history false TOP ODegLex 3 [ex_f3; ex_f2; ex_f1] ex_J /\ length (basis ex_J) = 7%nat.
Proof. split; [exact (proj1 ex_incomplete)|vm_compute; reflexivity]. Qed.

(* ---- C40 ---- *)
Theorem C40_normal_form : forall (t : pos_order) (o : base_order) (n : nat) (F : list poly) (J : jpoly) (a : poly),
  (0 < n)%nat -> o <> OAlex -> jp_history false t o n F J -> ring_input t o n a ->
  exists N r, (forall fuel, (N <= fuel)%nat -> jp_nf fuel false J a = Ok r) /\ ring_input t o n r /\
    reduces_to n (among (basis J)) (terms a) (terms r) /\
    (forall m c, In (m, c) (terms r) -> forall u, ~ janet_divides n (map lead (basis J)) u (vars m)).
Proof. exact c40_nf. Qed.
Print Assumptions C40_normal_form.

Theorem C40_zero_means_member : forall (t : pos_order) (o : base_order) (n : nat) (F : list poly) (J : jpoly) (a : poly),
  (0 < n)%nat -> o <> OAlex -> jp_history false t o n F J -> ring_input t o n a ->
  exists N r, (forall fuel, (N <= fuel)%nat -> jp_nf fuel false J a = Ok r) /\
    (terms r = [] -> rational_member n (among F) (terms a)).
Proof. exact c40_zero. Qed.
Print Assumptions C40_zero_means_member.

Theorem C40_one : forall (t : pos_order) (o : base_order) (n : nat) (F : list poly) (J : jpoly) (a : poly),
  (0 < n)%nat -> o <> OAlex -> jp_history false t o n F J -> ring_input t o n a -> jone J <> None ->
  exists N r, (forall fuel, (N <= fuel)%nat -> jp_nf fuel false J a = Ok r) /\ terms r = [].
Proof. exact c40_one. Qed.
Print Assumptions C40_one.

Example C40_ex : jp_history false TOP ODegLex 3 [ex_f3; ex_f2; ex_f1] ex_J /\ ring_input TOP ODegLex 3 ex_f4 /\
  exists r, jp_nf 40 false ex_J ex_f4 = Ok r /\ terms r = [(Mon (-1) [1;0;0]%nat, 1)].
Proof.
  split; [apply ex_incomplete|]. split; [apply ex_incomplete|]. eexists. split; vm_compute; reflexivity.
Qed.

(* ---- C46 ---- *)
(** Missing: that build reaches a basis passing the local test (it does not always, see below).  When it
    does, nf decides membership in the ideal of the pushed polynomials. *)
Theorem C46_membership_partial : forall (t : pos_order) (o : base_order) (n : nat), (0 < n)%nat -> o <> OAlex ->
  forall (F : list poly) (J : jpoly) (a : poly),
  jp_history false t o n F J -> jq J = [] -> passes_local_test t o n J -> ring_input t o n a ->
  exists N r, (forall fuel, (N <= fuel)%nat -> jp_nf fuel false J a = Ok r) /\
    (terms r = [] <-> rational_member n (among F) (terms a)).
Proof. exact c46_local. Qed.
Print Assumptions C46_membership_partial.

(** ... and the leading monomial of every non-zero element of the ideal has a Janet divisor in the basis. *)
Theorem C46_leading_partial : forall (t : pos_order) (o : base_order) (n : nat), (0 < n)%nat -> o <> OAlex ->
  forall (F : list poly) (J : jpoly) (f : poly),
  jp_history false t o n F J -> jq J = [] -> passes_local_test t o n J ->
  ring_input t o n f -> terms f <> [] -> rational_member n (among F) (terms f) ->
  exists g, In g (basis J) /\ janet_divides n (map lead (basis J)) (lead g) (lead f).
Proof. exact c46_leading. Qed.
Print Assumptions C46_leading_partial.

(** x^2 - y and x y - 1: the basis has three elements and passes the test. *)
Example C46_ex : jp_history false TOP ODegLex 2 [iv_f2; iv_f1] iv_J /\ jq iv_J = [] /\ length (basis iv_J) = 3%nat /\
  passes_local_test TOP ODegLex 2 iv_J /\ janet_nm (map lead (basis iv_J)) [0;2]%nat 0.
Proof.
  split; [exact iv_history|]. split; [vm_compute; reflexivity|]. split; [vm_compute; reflexivity|]. split; [exact iv_local|].
  exists [1;1]%nat. split; [vm_compute; auto|]. split; [intros j Hj; lia|vm_compute; lia].
Qed.

(** The built basis is not complete: x * f2 is a multiple of a pushed polynomial, its normal form is not 0. *)
Theorem C46_deglex_refuted : exists (F : list poly) (J : jpoly) (a r : poly),
  jp_history false TOP ODegLex 3 F J /\ jq J = [] /\ ring_input TOP ODegLex 3 a /\
  rational_member 3 (among F) (terms a) /\ (exists fuel, jp_nf fuel false J a = Ok r) /\ terms r <> [].
Proof. exact c46_deglex. Qed.
Print Assumptions C46_deglex_refuted.

Theorem C46_lex_refuted : exists (F : list poly) (J : jpoly) (a r : poly),
  jp_history false TOP OLex 2 F J /\ jq J = [] /\ ring_input TOP OLex 2 a /\
  rational_member 2 (among F) (terms a) /\ (exists fuel, jp_nf fuel false J a = Ok r) /\ terms r <> [].
Proof. exact c46_lex. Qed.
Print Assumptions C46_lex_refuted.

(* ---- C47 ---- *)
Theorem C47_one_is_sound : forall (t : pos_order) (o : base_order) (n : nat) (F : list poly) (J : jpoly),
  (0 < n)%nat -> o <> OAlex -> jp_history false t o n F J -> jone J <> None -> rational_member n (among F) (one n).
Proof. exact c47_sound. Qed.
Print Assumptions C47_one_is_sound.

Theorem C47_one_is_complete_refuted : exists (F : list poly) (J : jpoly),
  jp_history false TOP ODegLex 1 F J /\ jq J = [] /\ rational_member 1 (among F) (one 1) /\ jone J = None.
Proof. exact c47_refuted. Qed.
Print Assumptions C47_one_is_complete_refuted.

Example C47_ex : exists J, jp_history false TOP ODegLex 1 [pol ODegLex 1 [([0]%nat, 3)]] J /\ jone J <> None.
Proof. exact c47_ex. Qed.

(** Under the local test of C46 the constants are found, although isOne() may stay false. *)
Theorem C47_constant_partial : forall (t : pos_order) (o : base_order) (n : nat), (0 < n)%nat -> o <> OAlex ->
  forall (F : list poly) (J : jpoly),
  jp_history false t o n F J -> jq J = [] -> passes_local_test t o n J ->
  (rational_member n (among F) (one n) <->
   exists g c, In g (basis J) /\ c <> 0 /\ terms g = [(Mon (-1) (repeat 0%nat n), c)]).
Proof. exact c47_local. Qed.
Print Assumptions C47_constant_partial.

Example C47_constant_ex : jp_history false TOP ODegLex 1 [on_f2; on_f1] on_J /\ jq on_J = [] /\ passes_local_test TOP ODegLex 1 on_J /\
  jone on_J = None /\ rational_member 1 (among [on_f2; on_f1]) (one 1).
Proof.
  destruct on_not_one as (H & Q & M & E). split; [exact H|]. split; [exact Q|]. split; [exact on_local|]. split; [exact E|exact M].
Qed.

(* ---- C48 ---- *)
Theorem C48_same_ideal : forall (t : pos_order) (o : base_order) (n : nat) (F : list poly) (J : jpoly) (fuel : nat) (J' : jpoly) (f : poly),
  (0 < n)%nat -> o <> OAlex -> jp_history false t o n F J -> jp_build fuel false J = Ok J' ->
  In f F -> rational_member n (among (basis J')) (terms f).
Proof. exact c48_same_ideal. Qed.
Print Assumptions C48_same_ideal.

Example C48_ex : exists J, jp_history false TOP ODegLex 3 [ex_f3; ex_f2; ex_f1] J /\ jp_build 40 false J = Ok ex_J.
Proof. exact c48_ex. Qed.

(* ---- C49 ---- *)
Theorem C49_debug_asserts_refuted : exists (F : list poly) (J : jpoly), jp_history true TOP ODegLex 2 F J /\
  jp_build 40 true J = AssertFail /\ exists J', jp_build 40 false J = Ok J'.
Proof. exact c49_refuted. Qed.
Print Assumptions C49_debug_asserts_refuted.
