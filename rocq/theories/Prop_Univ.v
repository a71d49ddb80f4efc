(** Property C83: in one variable completion computes the greatest common divisor (release build; lex and deglex; ring polynomials). *)
From Coq Require Import ZArith List Bool Arith Lia.
From Verif Require Import Outcome MonomModel MonomSpec PolyModel PolySpec JanetModel JanetSpec JanetPolyModel TQModel JanetPolySpec
  JanetPolyExamples TQExamples InvolutiveExamples NormalSpec UnivSpec UnivTop UnivExamples.
Import ListNotations.
Local Open Scope Z_scope.

(** build, algorithmTQ and algorithmTQ1 end after any history; the first element of the basis they leave
    is then a greatest common divisor of all polynomials pushed so far, or all of them were 0. *)
Theorem C83_total : forall (t : pos_order) (o : base_order), o <> OAlex -> forall (F : list poly) (J : jpoly),
  jp_history false t o 1 F J ->
  (exists N J', (forall fuel, (N <= fuel)%nat -> jp_build fuel false J = Ok J') /\ gcd_done t o F J') /\
  forall one, exists N J', (forall fuel, (N <= fuel)%nat -> jp_tq one fuel false J = Ok J') /\ gcd_done t o F J'.
Proof. exact c83_total. Qed.
Print Assumptions C83_total.

(** Whenever nothing is queued the first element is a greatest common divisor, and a combination of the
    polynomials pushed with polynomial coefficients. *)
Theorem C83_gcd : forall (t : pos_order) (o : base_order), o <> OAlex -> forall (F : list poly) (J : jpoly) (g : poly),
  jp_history false t o 1 F J -> jq J = [] -> first_of (basis J) g -> is_gcd t o F g /\ rational_member 1 (among F) (terms g).
Proof. exact c83_gcd. Qed.
Print Assumptions C83_gcd.

Theorem C83_first : forall (t : pos_order) (o : base_order), o <> OAlex -> forall (F : list poly) (J : jpoly),
  jp_history false t o 1 F J -> basis J <> [] -> exists g, first_of (basis J) g.
Proof. exact c83_first. Qed.
Print Assumptions C83_first.

Theorem C83_empty : forall (t : pos_order) (o : base_order), o <> OAlex -> forall (F : list poly) (J : jpoly),
  jp_history false t o 1 F J -> jq J = [] -> (basis J = [] <-> forall f, In f F -> terms f = []).
Proof. exact c83_nil. Qed.
Print Assumptions C83_empty.

(** The ideal of the polynomials pushed is that of the first element alone. *)
Theorem C83_principal : forall (t : pos_order) (o : base_order), o <> OAlex -> forall (F : list poly) (J : jpoly) (g f : poly),
  jp_history false t o 1 F J -> jq J = [] -> first_of (basis J) g -> ring_input t o 1 f ->
  (rational_member 1 (among F) (terms f) <-> multiple_of g f).
Proof. exact c83_ideal. Qed.
Print Assumptions C83_principal.

(** The local test for involutive bases always holds, with no hypothesis on the criteria used to skip
    prolongations. *)
Theorem C83_involutive : forall (t : pos_order) (o : base_order), o <> OAlex -> forall (F : list poly) (J : jpoly),
  jp_history false t o 1 F J -> jq J = [] -> passes_local_test t o 1 J.
Proof. exact c83_local. Qed.
Print Assumptions C83_involutive.

(** So nf decides the ideal, a constant in the ideal shows in the basis, and the normal form depends on the ideal only. *)
Theorem C83_membership : forall (t : pos_order) (o : base_order), o <> OAlex -> forall (F : list poly) (J : jpoly) (a : poly),
  jp_history false t o 1 F J -> jq J = [] -> ring_input t o 1 a ->
  exists N r, (forall fuel, (N <= fuel)%nat -> jp_nf fuel false J a = Ok r) /\ (terms r = [] <-> rational_member 1 (among F) (terms a)).
Proof. exact c83_membership. Qed.
Print Assumptions C83_membership.

Theorem C83_constant : forall (t : pos_order) (o : base_order), o <> OAlex -> forall (F : list poly) (J : jpoly),
  jp_history false t o 1 F J -> jq J = [] ->
  (rational_member 1 (among F) (one 1) <-> exists g c, In g (basis J) /\ c <> 0 /\ terms g = [(Mon (-1) (repeat 0%nat 1), c)]).
Proof. exact c83_constant. Qed.
Print Assumptions C83_constant.

Theorem C83_same_ideal : forall (t : pos_order) (o : base_order), o <> OAlex ->
  forall (F1 : list poly) (J1 : jpoly) (F2 : list poly) (J2 : jpoly) (a b : poly) (fuel fuel' : nat) (r s : poly),
  jp_history false t o 1 F1 J1 -> jp_history false t o 1 F2 J2 -> jq J1 = [] -> jq J2 = [] -> same_ideal 1 F1 F2 ->
  ring_input t o 1 a -> ring_input t o 1 b -> jp_nf fuel false J1 a = Ok r -> jp_nf fuel' false J2 b = Ok s ->
  (plus_minus (terms r) (terms s) <-> same_mod_ideal 1 F1 (terms a) (terms b)).
Proof. exact c83_classes. Qed.
Print Assumptions C83_same_ideal.

(** lex, from (x - 1)(x - 2) and 2 x (x - 1)(x + 3): the basis is x - 1, x^2 - 1. *)
Example C83_gcd_case : jp_history false TOP OLex 1 [uv_f1; uv_f2] uv_J /\ jq uv_J = [] /\ basis uv_J = [uv_g; uv_h] /\
  first_of (basis uv_J) uv_g /\ is_gcd TOP OLex [uv_f1; uv_f2] uv_g.
Proof. exact (conj uv_history (conj uv_queue (conj uv_basis (conj uv_first uv_gcd)))). Qed.
Example C83_total_case : jp_history false TOP OLex 1 [uv_f1; uv_f2] uv_J0 /\ jp_build 40 false uv_J0 = Ok uv_J.
Proof. split; [exact uv_start|vm_compute; reflexivity]. Qed.
(** A prolongation that the local test is about. *)
Example C83_involutive_case : In uv_g (basis uv_J) /\ janet_nm (map lead (basis uv_J)) (lead uv_g) 0.
Proof. exact uv_nm. Qed.
(** x + 1 is not in the ideal; x - 1 and x - 2 generate everything. *)
Example C83_membership_case : ring_input TOP OLex 1 uv_a /\ ~ rational_member 1 (among [uv_f1; uv_f2]) (terms uv_a).
Proof. exact (conj uv_a_in uv_not_member). Qed.
Example C83_constant_case : jp_history false TOP ODegLex 1 [uv_c1; uv_c2] uv_K /\ jq uv_K = [] /\ rational_member 1 (among [uv_c1; uv_c2]) (one 1).
Proof. exact (conj uv_khistory (conj uv_kqueue uv_constant)). Qed.
