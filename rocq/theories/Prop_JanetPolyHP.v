(** C52: the Hilbert polynomial of a built polynomial basis (JanetPolyInt::buildHP). *)
From Coq Require Import ZArith List Bool Arith QArith Lia.
From Verif Require Import Outcome MonomModel MonomSpec PolyModel PolySpec JanetModel JanetSpec JanetPolyModel JanetPolySpec
  HilbertModel HilbertSpec JanetPolyHPModel JanetPolyHPProofs JanetPolyHPExamples JanetPolyHPAssert JanetPolyExamples InvolutiveExamples.
Import ListNotations.
Local Open Scope nat_scope.

(** From the largest degree in the basis on, the polynomial counts the monomials of degree at most s that nf leaves
    unchanged (those without Janet divisor in the basis). *)
Theorem C52_irreducible_monomials : forall (t : pos_order) (o : base_order) (n : nat), 0 < n -> o <> OAlex ->
  forall (dbg : bool) (F : list poly) (J : jpoly), jp_history false t o n F J -> jone J = None -> basis J <> [] ->
  exists h, jp_build_hp dbg J hp_none = Ok h /\ length h = S n /\ Forall lowest_terms h /\
    forall s, (forall g, In g (basis J) -> total (lead g) <= s) ->
      exists k, number_of n s (fun m => forall u, ~ janet_divides n (map lead (basis J)) u m) k /\
        (peval h (inject_Z (Z.of_nat s)) == inject_Z (Z.of_nat k))%Q.
Proof. exact c52_count. Qed.
Print Assumptions C52_irreducible_monomials.

(** When the basis passes the local test these are the monomials that are not leading monomials of elements of the ideal.
    Missing: that the built basis passes the test (C46). *)
Theorem C52_ideal_partial : forall (t : pos_order) (o : base_order) (n : nat), 0 < n -> o <> OAlex ->
  forall (dbg : bool) (F : list poly) (J : jpoly),
  jp_history false t o n F J -> jq J = [] -> passes_local_test t o n J -> jone J = None -> basis J <> [] ->
  exists h, jp_build_hp dbg J hp_none = Ok h /\ length h = S n /\ Forall lowest_terms h /\
    forall s, (forall g, In g (basis J) -> total (lead g) <= s) ->
      exists k, number_of n s (fun m => ~ leading_in_ideal t o n F m) k /\
        (peval h (inject_Z (Z.of_nat s)) == inject_Z (Z.of_nat k))%Q.
Proof. exact c52_ideal. Qed.
Print Assumptions C52_ideal_partial.

(** Without the test it can be wrong: x^2 and y^3 (lex) give s + 3 instead of 6. *)
Theorem C52_ideal_refuted : exists (F : list poly) (J : jpoly) (h : hp) (s k : nat),
  jp_history false TOP OLex 2 F J /\ jq J = [] /\ jone J = None /\ (forall g, In g (basis J) -> total (lead g) <= s) /\
  jp_build_hp true J hp_none = Ok h /\ number_of 2 s (fun m => ~ leading_in_ideal TOP OLex 2 F m) k /\
  ~ (peval h (inject_Z (Z.of_nat s)) == inject_Z (Z.of_nat k))%Q.
Proof. exact c52_refuted. Qed.
Print Assumptions C52_ideal_refuted.

(** Submodules: x e0 in one variable.  One monomial of the module, e0, is irreducible in degree at most 5; the polynomial
    gives 7, because mPos+2 also counts the ring itself. *)
Theorem C52_module_refuted : exists (a : poly) (J : jpoly) (h : hp), valid_poly a /\ in_component 0 (terms a) /\
  (do J0 <- jp_push false jp_empty a; jp_build 40 false J0) = Ok J /\ map lead (basis J) = [[1]] /\
  jp_build_hp true J hp_none = Ok h /\ number_of 1 5 (fun m => forall u, ~ janet_divides 1 [[1]] u m) 1 /\
  (peval h 5 == 7)%Q.
Proof. exact c52_module. Qed.
Print Assumptions C52_module_refuted.

(** In a debug build the assertion fails exactly for the object that is 1 and the one without elements; otherwise both
    builds do the same. *)
Theorem C52_assertion : forall (J : jpoly),
  (jp_build_hp true J hp_none = AssertFail <-> jone J <> None \/ jt J = []) /\
  (jone J = None -> jt J <> [] -> jp_build_hp true J hp_none = jp_build_hp false J hp_none).
Proof. exact c52_assert. Qed.
Print Assumptions C52_assertion.

(** x^2 - y, x y - 1: three irreducible monomials. *)
Example C52_ex : jp_history false TOP ODegLex 2 [iv_f2; iv_f1] iv_J /\ jq iv_J = [] /\ passes_local_test TOP ODegLex 2 iv_J /\
  jone iv_J = None /\ length (basis iv_J) = 3 /\ jp_build_hp true iv_J hp_none = Ok [3#1; 0#1; 0#1]%Q.
Proof.
  split; [exact iv_history|]. split; [vm_compute; reflexivity|]. split; [exact iv_local|]. split; [vm_compute; reflexivity|].
  split; vm_compute; reflexivity.
Qed.
