(** C46, C47, C82, C89 and C96 for algorithmTQ2 when it leaves all elements in the tree and the basis passes the local test
    (release build; lex and deglex; ring polynomials). *)
From Coq Require Import ZArith QArith List Bool Arith Lia.
From Verif Require Import Outcome MonomModel MonomSpec PolyModel PolySpec JanetModel JanetSpec JanetPolyModel TQModel JanetPolySpec HilbertModel HilbertSpec
  JanetPolyExamples TQExamples InvolutiveExamples NormalSpec NormalExamples ClosedSpec ClosedExamples TQ2HPModel TQ2HPSpec TQ2HPExamples TQ2Inv TQ2InvExamples.
Import ListNotations.
Local Open Scope Z_scope.

(* ---- C46 ---- *)
(** Missing: that algorithmTQ2 reaches such a basis (it does not always, see below). *)
Theorem C46_tq2_membership_partial : forall (t : pos_order) (o : base_order) (n : nat), (0 < n)%nat -> o <> OAlex ->
  forall (F : list poly) (J : jpoly) (fuel : nat) (J' : jpoly2), jp_history false t o n F J -> jp_tq2 fuel false J = Ok J' ->
  all_in_trees J' -> passes_local_test2 t o n J' -> forall a : poly, ring_input t o n a ->
  exists N r, (forall fuel', (N <= fuel')%nat -> jp2_nf fuel' false J' a = Ok r) /\ (terms r = [] <-> rational_member n (among F) (terms a)).
Proof. exact tq2_member. Qed.
Print Assumptions C46_tq2_membership_partial.

Theorem C46_tq2_leading_partial : forall (t : pos_order) (o : base_order) (n : nat), (0 < n)%nat -> o <> OAlex ->
  forall (F : list poly) (J : jpoly) (fuel : nat) (J' : jpoly2), jp_history false t o n F J -> jp_tq2 fuel false J = Ok J' ->
  all_in_trees J' -> passes_local_test2 t o n J' ->
  forall f : poly, ring_input t o n f -> terms f <> [] -> rational_member n (among F) (terms f) ->
  exists g, In g (basis2 J') /\ janet_divides n (map lead (basis2 J')) (lead g) (lead f).
Proof. exact tq2_leading. Qed.
Print Assumptions C46_tq2_leading_partial.

(** lex: y^4 - x^2 and x^2; all elements are in the tree and x y^4 is its own normal form. *)
Theorem C46_tq2_lex_refuted : exists (F : list poly) (J : jpoly) (J' : jpoly2) (a r : poly), jp_history false TOP OLex 2 F J /\ jp_tq2 60 false J = Ok J' /\ all_in_trees J' /\
  ring_input TOP OLex 2 a /\ rational_member 2 (among F) (terms a) /\ (exists fuel, jp2_nf fuel false J' a = Ok r) /\ terms r <> [].
Proof. exact tl_incomplete. Qed.
Print Assumptions C46_tq2_lex_refuted.
Theorem C46_tq2_deglex_refuted : exists (F : list poly) (J : jpoly) (J' : jpoly2) (a r : poly), jp_history false TOP ODegLex 2 F J /\ jp_tq2 30 false J = Ok J' /\
  ring_input TOP ODegLex 2 a /\ rational_member 2 (among F) (terms a) /\ (exists fuel, jp2_nf fuel false J' a = Ok r) /\ terms r <> [].
Proof. exact td_incomplete. Qed.
Print Assumptions C46_tq2_deglex_refuted.

(* ---- C47 ---- *)
Theorem C47_tq2_constant_partial : forall (t : pos_order) (o : base_order) (n : nat), (0 < n)%nat -> o <> OAlex ->
  forall (F : list poly) (J : jpoly) (fuel : nat) (J' : jpoly2), jp_history false t o n F J -> jp_tq2 fuel false J = Ok J' ->
  all_in_trees J' -> passes_local_test2 t o n J' ->
  (rational_member n (among F) (one n) <-> exists g c, In g (basis2 J') /\ c <> 0 /\ terms g = [(Mon (-1) (repeat 0%nat n), c)]).
Proof. exact tq2_constant. Qed.
Print Assumptions C47_tq2_constant_partial.

(* ---- C82 ---- *)
Theorem C82_tq2_ideal_partial : forall (t : pos_order) (o : base_order) (n : nat), (0 < n)%nat -> o <> OAlex ->
  forall (F : list poly) (J : jpoly) (fuel : nat) (J' : jpoly2), jp_history false t o n F J -> jp_tq2 fuel false J = Ok J' ->
  all_in_trees J' -> passes_local_test2 t o n J' ->
  forall (a b : poly) (fa fb : nat) (r s : poly), ring_input t o n a -> ring_input t o n b -> jp2_nf fa false J' a = Ok r -> jp2_nf fb false J' b = Ok s ->
  (plus_minus (terms r) (terms s) <-> same_mod_ideal n F (terms a) (terms b)).
Proof. exact tq2_ideal. Qed.
Print Assumptions C82_tq2_ideal_partial.

(** One object completed by build, algorithmTQ or algorithmTQ1, the other by algorithmTQ2. *)
Theorem C82_tq2_objects_partial : forall (t : pos_order) (o : base_order) (n : nat), (0 < n)%nat -> o <> OAlex ->
  forall (F1 : list poly) (J1 : jpoly) (F2 : list poly) (J : jpoly) (fuel : nat) (J2 : jpoly2),
  jp_history false t o n F1 J1 -> jq J1 = [] -> passes_local_test t o n J1 ->
  jp_history false t o n F2 J -> jp_tq2 fuel false J = Ok J2 -> all_in_trees J2 -> passes_local_test2 t o n J2 -> same_ideal n F1 F2 ->
  forall (a b : poly) (fa fb : nat) (r s : poly), ring_input t o n a -> ring_input t o n b -> jp_nf fa false J1 a = Ok r -> jp2_nf fb false J2 b = Ok s ->
  (plus_minus (terms r) (terms s) <-> same_mod_ideal n F1 (terms a) (terms b)).
Proof. exact tq2_objects. Qed.
Print Assumptions C82_tq2_objects_partial.

(* ---- C89 ---- *)
(** The polynomial printed is the Hilbert polynomial of the ideal: it counts the monomials that lead no element of the ideal. *)
Theorem C89_ideal_partial : forall (t : pos_order) (o : base_order) (n : nat), (0 < n)%nat -> o <> OAlex ->
  forall (F : list poly) (J : jpoly) (fuel : nat) (J2 : jpoly2) (h : hp),
  jp_history false t o n F J -> jp_tq2_print fuel false J = Ok (J2, Some h) -> all_in_trees J2 -> passes_local_test2 t o n J2 ->
  forall s, (forall g, In g (basis2 J2) -> (total (lead g) <= s)%nat) ->
    exists k, number_of n s (fun m => ~ leading_in_ideal t o n F m) k /\ (peval h (inject_Z (Z.of_nat s)) == inject_Z (Z.of_nat k))%Q.
Proof. exact tq2_hilbert. Qed.
Print Assumptions C89_ideal_partial.

(* ---- C96 ---- *)
Theorem C96_tq2_word : forall (t : pos_order) (o : base_order) (n : nat), (0 < n)%nat -> o <> OAlex ->
  forall (F : list poly) (J : jpoly) (fuel : nat) (J' : jpoly2) (E : list (list nat * list nat)) (a b : poly) (u v : list nat) (fa fb : nat) (r s : poly),
  jp_history false t o n F J -> jp_tq2 fuel false J = Ok J' -> all_in_trees J' -> passes_local_test2 t o n J' ->
  Forall2 (difference_of n) F E -> ring_input t o n a -> ring_input t o n b -> terms a = [(Mon (-1) u, 1)] -> terms b = [(Mon (-1) v, 1)] ->
  jp2_nf fa false J' a = Ok r -> jp2_nf fb false J' b = Ok s -> (plus_minus (terms r) (terms s) <-> generated n E u v).
Proof. exact tq2_word. Qed.
Print Assumptions C96_tq2_word.

(** x^2 - y and x y - 1, all of it: the three elements are in the tree and pass the test, 3 is printed, the relations are
    x^2 = y and x y = 1; x^4 and y^2 have one normal form, x^2 another. *)
Example C46_tq2_ex : jp_history false TOP ODegLex 2 [iv_f2; iv_f1] th_J0 /\ jp_tq2 60 false th_J0 = Ok th_J2 /\ all_in_trees th_J2 /\ passes_local_test2 TOP ODegLex 2 th_J2 /\
  length (basis2 th_J2) = 3%nat /\ jp_tq2_print 60 false th_J0 = Ok (th_J2, Some [3#1; 0#1; 0#1]%Q) /\ Forall2 (difference_of 2) [iv_f2; iv_f1] cl_E /\
  janet_nm (map lead (basis2 th_J2)) [0;2]%nat 0 /\
  exists ra rb rc, jp2_nf 40 false th_J2 cl_a = Ok ra /\ jp2_nf 40 false th_J2 cl_b = Ok rb /\ jp2_nf 40 false th_J2 cl_c = Ok rc /\
    terms ra = [(Mon (-1) [1;0]%nat, 1)] /\ terms rb = [(Mon (-1) [1;0]%nat, 1)] /\ terms rc = [(Mon (-1) [0;1]%nat, 1)].
Proof.
  destruct th_case as (A & B & C & D). split; [exact A|]. split; [exact th_tq2|]. split; [exact C|]. split; [exact th_local|]. split; [exact D|]. split; [exact B|]. split; [exact cl_diff|].
  split; [exists [1;1]%nat; split; [vm_compute; auto|]; split; [intros j Hj; lia|vm_compute; lia]|].
  do 3 eexists. repeat (split; [vm_compute; reflexivity|]). vm_compute. reflexivity.
Qed.
Example C82_tq2_objects_ex : jp_history false TOP ODegLex 2 [iv_f2; iv_f1] iv_J /\ jq iv_J = [] /\ passes_local_test TOP ODegLex 2 iv_J /\ same_ideal 2 [iv_f2; iv_f1] [iv_f2; iv_f1] /\
  jp_nf 40 false iv_J no_a = Ok no_r /\ jp2_nf 40 false th_J2 no_b = Ok no_s.
Proof.
  split; [exact iv_history|]. split; [vm_compute; reflexivity|]. split; [exact iv_local|]. split; [apply (NormalTop.same_ideal_refl TOP ODegLex 2 _ _ iv_history)|]. split; vm_compute; reflexivity.
Qed.
