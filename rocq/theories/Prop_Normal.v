(** Property C82: the normal form is the canonical representative (release build; lex and deglex; ring polynomials). *)
From Coq Require Import ZArith List Bool Arith Lia.
From Verif Require Import Outcome MonomModel MonomSpec PolyModel PolySpec JanetModel JanetSpec JanetPolyModel TQModel JanetPolySpec
  JanetPolyExamples TQExamples InvolutiveExamples NormalSpec NormalTop NormalExamples.
Import ListNotations.
Local Open Scope Z_scope.

(** After any history nf returns an irreducible polynomial without common divisor in the class of its
    argument; that it returns at all is C40_nf. *)
Theorem C82_representative : forall (t : pos_order) (o : base_order) (n : nat), (0 < n)%nat -> o <> OAlex ->
  forall (F : list poly) (J : jpoly) (a : poly) (fuel : nat) (r : poly),
  jp_history false t o n F J -> ring_input t o n a -> jp_nf fuel false J a = Ok r ->
  ring_input t o n r /\ same_class n (basis J) (terms a) (terms r) /\ irreducible n (basis J) (terms r) /\ (terms r = [] \/ primitive (terms r)).
Proof. exact c82_nf. Qed.
Print Assumptions C82_representative.

(** Up to the sign there is only one such polynomial in the class. *)
Theorem C82_unique : forall (t : pos_order) (o : base_order) (n : nat), (0 < n)%nat -> o <> OAlex ->
  forall (F : list poly) (J : jpoly) (r s : poly),
  jp_history false t o n F J -> ring_input t o n r -> ring_input t o n s ->
  irreducible n (basis J) (terms r) -> irreducible n (basis J) (terms s) ->
  (terms r = [] \/ primitive (terms r)) -> (terms s = [] \/ primitive (terms s)) -> same_class n (basis J) (terms r) (terms s) ->
  plus_minus (terms r) (terms s).
Proof. exact c82_unique. Qed.
Print Assumptions C82_unique.

(** Two polynomials have the same normal form up to the sign exactly when they are in one class. *)
Theorem C82_decides_class : forall (t : pos_order) (o : base_order) (n : nat), (0 < n)%nat -> o <> OAlex ->
  forall (F : list poly) (J : jpoly) (a b : poly) (fuel fuel' : nat) (r s : poly),
  jp_history false t o n F J -> ring_input t o n a -> ring_input t o n b ->
  jp_nf fuel false J a = Ok r -> jp_nf fuel' false J b = Ok s ->
  (plus_minus (terms r) (terms s) <-> same_class n (basis J) (terms a) (terms b)).
Proof. exact c82_class. Qed.
Print Assumptions C82_decides_class.

(** The normal form is 0 exactly when some non-zero integer multiple of the argument is in the span. *)
Theorem C82_decides_zero : forall (t : pos_order) (o : base_order) (n : nat), (0 < n)%nat -> o <> OAlex ->
  forall (F : list poly) (J : jpoly) (a : poly) (fuel : nat) (r : poly),
  jp_history false t o n F J -> ring_input t o n a -> jp_nf fuel false J a = Ok r ->
  (terms r = [] <-> exists k q, k <> 0 /\ inv_span n (basis J) q /\ forall m, coef q m = k * coef (terms a) m).
Proof. exact c82_zero. Qed.
Print Assumptions C82_decides_zero.

(** A normal form is its own normal form, sign included. *)
Theorem C82_idempotent : forall (t : pos_order) (o : base_order) (n : nat), (0 < n)%nat -> o <> OAlex ->
  forall (F : list poly) (J : jpoly) (a : poly) (fuel fuel' : nat) (r r' : poly),
  jp_history false t o n F J -> ring_input t o n a -> jp_nf fuel false J a = Ok r -> jp_nf fuel' false J r = Ok r' -> r' = r.
Proof. exact c82_again. Qed.
Print Assumptions C82_idempotent.

(** 2 x^3 + 4 y has the normal form 2 y + 1, -3 x y - 6 y has -2 y - 1. *)
Example C82_ex : jp_history false TOP ODegLex 2 [iv_f2; iv_f1] iv_J /\ length (basis iv_J) = 3%nat /\
  ring_input TOP ODegLex 2 no_a /\ ring_input TOP ODegLex 2 no_b /\
  jp_nf 40 false iv_J no_a = Ok no_r /\ jp_nf 40 false iv_J no_b = Ok no_s /\ jp_nf 40 false iv_J no_r = Ok no_r /\
  plus_minus (terms no_r) (terms no_s) /\ same_class 2 (basis iv_J) (terms no_a) (terms no_b).
Proof.
  split; [exact iv_history|]. split; [vm_compute; reflexivity|]. split; [apply no_in|]. split; [apply no_in|]. split; [apply no_nf|]. split; [apply no_nf|].
  split; [vm_compute; reflexivity|]. split; [exact no_pm|exact no_class].
Qed.

(** The sign itself is not determined by the class. *)
Theorem C82_sign_refuted : exists (F : list poly) (J : jpoly) (a b r s : poly), jp_history false TOP ODegLex 2 F J /\
  ring_input TOP ODegLex 2 a /\ ring_input TOP ODegLex 2 b /\ jp_nf 40 false J a = Ok r /\ jp_nf 40 false J b = Ok s /\
  same_class 2 (basis J) (terms a) (terms b) /\ terms r <> terms s.
Proof. exact no_sign. Qed.
Print Assumptions C82_sign_refuted.

(** Missing: that the basis passes the local test (C46).  When it does, equality of normal forms up to the
    sign is congruence modulo the ideal of the pushed polynomials. *)
Theorem C82_ideal_partial : forall (t : pos_order) (o : base_order) (n : nat), (0 < n)%nat -> o <> OAlex ->
  forall (F : list poly) (J : jpoly) (a b : poly) (fuel fuel' : nat) (r s : poly),
  jp_history false t o n F J -> jq J = [] -> passes_local_test t o n J -> ring_input t o n a -> ring_input t o n b ->
  jp_nf fuel false J a = Ok r -> jp_nf fuel' false J b = Ok s ->
  (plus_minus (terms r) (terms s) <-> same_mod_ideal n F (terms a) (terms b)).
Proof. exact c82_ideal. Qed.
Print Assumptions C82_ideal_partial.

(** ... and the normal form depends only on the ideal: not on the generators, their order, or which of the
    completion algorithms ran. *)
Theorem C82_objects_partial : forall (t : pos_order) (o : base_order) (n : nat), (0 < n)%nat -> o <> OAlex ->
  forall (F1 : list poly) (J1 : jpoly) (F2 : list poly) (J2 : jpoly) (a b : poly) (fuel fuel' : nat) (r s : poly),
  jp_history false t o n F1 J1 -> jp_history false t o n F2 J2 -> jq J1 = [] -> jq J2 = [] ->
  passes_local_test t o n J1 -> passes_local_test t o n J2 -> same_ideal n F1 F2 -> ring_input t o n a -> ring_input t o n b ->
  jp_nf fuel false J1 a = Ok r -> jp_nf fuel' false J2 b = Ok s ->
  (plus_minus (terms r) (terms s) <-> same_mod_ideal n F1 (terms a) (terms b)).
Proof. exact c82_objects. Qed.
Print Assumptions C82_objects_partial.

(** The same ideal from two and from three generators, by build and by algorithmTQ. *)
Example C82_objects_ex : jp_history false TOP ODegLex 2 [iv_f2; iv_f1] iv_J /\ jp_history false TOP ODegLex 2 [iv_f1; iv_f2; no_f3] no_J /\
  jq iv_J = [] /\ jq no_J = [] /\ passes_local_test TOP ODegLex 2 iv_J /\ passes_local_test TOP ODegLex 2 no_J /\
  same_ideal 2 [iv_f2; iv_f1] [iv_f1; iv_f2; no_f3] /\ map terms (basis no_J) <> map terms (basis iv_J) /\
  jp_nf 40 false iv_J no_a = Ok no_r /\ jp_nf 40 false no_J no_b = Ok no_s /\ plus_minus (terms no_r) (terms no_s).
Proof.
  split; [exact iv_history|]. split; [exact no_history|]. split; [vm_compute; reflexivity|]. split; [vm_compute; reflexivity|].
  split; [exact iv_local|]. split; [exact no_local|]. split; [exact no_ideal|]. split; [apply no_nf2|]. split; [apply no_nf|]. split; [apply no_nf2|exact no_pm].
Qed.

(** Without the local test congruent polynomials may have different normal forms. *)
Theorem C82_ideal_refuted : exists (F : list poly) (J : jpoly) (a b r s : poly) (fuel fuel' : nat),
  jp_history false TOP ODegLex 3 F J /\ jq J = [] /\ ring_input TOP ODegLex 3 a /\ ring_input TOP ODegLex 3 b /\
  same_mod_ideal 3 F (terms a) (terms b) /\ jp_nf fuel false J a = Ok r /\ jp_nf fuel' false J b = Ok s /\ ~ plus_minus (terms r) (terms s).
Proof. exact no_incomplete. Qed.
Print Assumptions C82_ideal_refuted.
