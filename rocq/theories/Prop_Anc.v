(** C84: what ansector(), isGB(), NM() and build() of the elements of a basis say. *)
From Coq Require Import ZArith List Bool Arith.
From Verif Require Import Outcome MonomModel MonomSpec PolyModel PolySpec JanetModel JanetSpec JanetPolyModel JanetPolySpec JanetPolyExamples
  CyMonomModel CyJanetModel AncTop AncExamples.
Import ListNotations.
Local Open Scope Z_scope.

(** isGB() compares degrees only; it holds exactly when the ancestor is the leading monomial. *)
Theorem C84_isGB : forall (t : pos_order) (o : base_order) (n : nat), (0 < n)%nat -> o <> OAlex ->
  forall (F : list poly) (J : jpoly) (ws : list wpoly), jp_history false t o n F J -> cj_iter J = Ok (Ret ws) ->
  forall w, In w ws -> (cw_isGB w = true <-> cw_ansector w = cw_lm w).
Proof. exact c84_isGB. Qed.
Print Assumptions C84_isGB.

(** The ancestor divides the leading monomial and is the leading monomial of an element of the basis with isGB(). *)
Theorem C84_ancestor : forall (t : pos_order) (o : base_order) (n : nat), (0 < n)%nat -> o <> OAlex ->
  forall (F : list poly) (J : jpoly) (ws : list wpoly), jp_history false t o n F J -> cj_iter J = Ok (Ret ws) ->
  forall w, In w ws -> divides n (vars (cw_ansector w)) (vars (cw_lm w)) /\
    exists a, In a ws /\ cw_isGB a = true /\ cw_lm a = cw_ansector w /\ lead (cw_poly a) = vars (cw_ansector w).
Proof. exact c84_ancestor. Qed.
Print Assumptions C84_ancestor.

(** The elements with isGB() have the same multiples of leading monomials as all elements. *)
Theorem C84_generators : forall (t : pos_order) (o : base_order) (n : nat), (0 < n)%nat -> o <> OAlex ->
  forall (F : list poly) (J : jpoly) (ws : list wpoly), jp_history false t o n F J -> cj_iter J = Ok (Ret ws) ->
  forall m : list nat, jone J = None ->
  (exists g, In g (basis J) /\ divides n (lead g) m) <->
  (exists w, In w ws /\ cw_isGB w = true /\ divides n (lead (cw_poly w)) m).
Proof. exact c84_generators. Qed.
Print Assumptions C84_generators.

(** So they are a Groebner basis of the ideal of the polynomials pushed, if the basis passes the local test. *)
Theorem C84_groebner : forall (t : pos_order) (o : base_order) (n : nat), (0 < n)%nat -> o <> OAlex ->
  forall (F : list poly) (J : jpoly) (ws : list wpoly), jp_history false t o n F J -> cj_iter J = Ok (Ret ws) ->
  forall f : poly, jone J = None -> jq J = [] -> passes_local_test t o n J ->
  ring_input t o n f -> terms f <> [] -> rational_member n (among F) (terms f) ->
  exists w, In w ws /\ cw_isGB w = true /\ divides n (lead (cw_poly w)) (lead f).
Proof. exact c84_leading. Qed.
Print Assumptions C84_groebner.

(** Only prolongations by non-multiplicative variables are marked as built. *)
Theorem C84_build : forall (t : pos_order) (o : base_order) (n : nat), (0 < n)%nat -> o <> OAlex ->
  forall (F : list poly) (J : jpoly) (ws : list wpoly), jp_history false t o n F J -> cj_iter J = Ok (Ret ws) ->
  forall (w : wpoly) (v : Z), In w ws -> cw_build false w v = Ok (Ret true) -> cw_NM false w v = Ok (Ret true).
Proof. exact c84_build. Qed.
Print Assumptions C84_build.

(** They are not minimal: after x^2 and then x both have isGB(). *)
Theorem C84_minimal_refuted : exists F J ws w w', jp_history false TOP ODegLex 2 F J /\ jq J = [] /\ cj_iter J = Ok (Ret ws) /\ In w ws /\ In w' ws /\
  cw_isGB w = true /\ cw_isGB w' = true /\ lead (cw_poly w) <> lead (cw_poly w') /\ divides 2 (lead (cw_poly w)) (lead (cw_poly w')).
Proof. exact an_minimal. Qed.
Print Assumptions C84_minimal_refuted.

(** Not all prolongations have been built when completion ends: after y^3 and then x^2 that of y^3 by x has not. *)
Theorem C84_built_refuted : exists F J ws w, jp_history false TOP ODegLex 2 F J /\ jq J = [] /\ cj_iter J = Ok (Ret ws) /\ In w ws /\
  cw_NM false w 0 = Ok (Ret true) /\ cw_build false w 0 = Ok (Ret false).
Proof. exact an_built. Qed.
Print Assumptions C84_built_refuted.

(** x^2 and y^2: the basis also has x y^2 with the ancestor y^2. *)
Example C84_case : jp_history false TOP ODegLex 2 [an_y2; an_x2] an_J /\ cj_iter an_J = Ok (Ret (shown an_J)) /\ jone an_J = None /\ jq an_J = [] /\
  passes_local_test TOP ODegLex 2 an_J /\ map (fun w => (vars (cw_lm w), vars (cw_ansector w), cw_isGB w)) (shown an_J) =
  [([0;2], [0;2], true); ([2;0], [2;0], true); ([1;2], [0;2], false)]%nat.
Proof. exact (conj an_history (conj an_iter (conj eq_refl (conj eq_refl (conj an_local an_shown))))). Qed.
