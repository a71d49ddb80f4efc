(** Properties C53 and C54, and what C46 and C49 say about algorithmTQ and algorithmTQ1. *)
From Coq Require Import ZArith List Bool Arith Lia.
From Verif Require Import Outcome MonomModel MonomSpec PolyModel PolySpec JanetModel JanetSpec JanetPolyModel TQModel JanetPolySpec
  JanetPolyTop JanetPolyExamples MultipleProofs TQExamples HomogSpec HomogExamples InvolutiveExamples TQ2HPModel TQ2HPSpec TQ2HPExamples TQ2Mult MonoSpec DebugMono.
Import ListNotations.
Local Open Scope Z_scope.

(* ---- C53 ---- *)
(** [one] distinguishes algorithmTQ (false) from algorithmTQ1 (true). *)
Theorem C53_tq_same_ideal : forall (t : pos_order) (o : base_order) (n : nat) (F : list poly) (J : jpoly) (one : bool) (fuel : nat) (J' : jpoly),
  (0 < n)%nat -> o <> OAlex -> jp_history false t o n F J -> jp_tq one fuel false J = Ok J' ->
  jq J' = [] /\ (forall g, In g (basis J') -> ring_input t o n g /\ terms g <> [] /\ rational_member n (among F) (terms g)) /\
  (forall f, In f F -> rational_member n (among (basis J')) (terms f)).
Proof. exact c53_tq. Qed.
Print Assumptions C53_tq_same_ideal.

Theorem C53_tq2_same_ideal : forall (t : pos_order) (o : base_order) (n : nat) (F : list poly) (J : jpoly) (fuel : nat) (J' : jpoly2),
  (0 < n)%nat -> o <> OAlex -> jp_history false t o n F J -> jp_tq2 fuel false J = Ok J' ->
  (forall g, In g (basis2 J') -> ring_input t o n g /\ terms g <> [] /\ rational_member n (among F) (terms g)) /\
  (forall f, In f F -> rational_member n (among (basis2 J')) (terms f)).
Proof. exact c53_tq2. Qed.
Print Assumptions C53_tq2_same_ideal.

Example C53_ex : jp_history false TOP ODegLex 2 [t2_f2; t2_f1] t2_J0 /\ jp_tq2 30 false t2_J0 = Ok t2_J /\ length (basis2 t2_J) = 3%nat /\
  exists J', jp_tq true 30 false t2_J0 = Ok J' /\ length (basis J') = 3%nat.
Proof.
  split; [exact t2_history|]. split; [vm_compute; reflexivity|]. split; [vm_compute; reflexivity|]. eexists. split; vm_compute; reflexivity.
Qed.

(* ---- C54 ---- *)
(** Missing: algorithmTQ2, for which it is false (below).  [x] is the product of the monomial with exponents
    u and the basis element g; only multiplicative variables of g occur in u. *)
Theorem C54_multiples_partial : forall (t : pos_order) (o : base_order) (n : nat) (F : list poly) (J : jpoly) (g : poly) (u : list nat) (x : poly),
  (0 < n)%nat -> o <> OAlex -> jp_history false t o n F J -> In g (basis J) ->
  length u = n -> (forall i, (i < n)%nat -> (0 < expo u i)%nat -> ~ janet_nm (map lead (basis J)) (lead g) i) ->
  ring_input t o n x -> (forall m, coef (terms x) m = coef (shift u (terms g)) m) ->
  exists N r, (forall fuel, (N <= fuel)%nat -> jp_nf fuel false J x = Ok r) /\ terms r = [].
Proof. exact c54_multiples. Qed.
Print Assumptions C54_multiples_partial.

(** y^3 + 1 is an element of the basis of t0_J1, y * (y^3 + 1) has the normal form 0. *)
Example C54_ex : jp_history false TOP ODegLex 2 [t0_f2; t0_f1] t0_J1 /\ In t0_f1 (basis t0_J1) /\
  (forall i, (i < 2)%nat -> (0 < expo [0;1]%nat i)%nat -> ~ janet_nm (map lead (basis t0_J1)) (lead t0_f1) i) /\
  exists r, jp_nf 30 false t0_J1 (pol ODegLex 2 [([0;4]%nat, 1); ([0;1]%nat, 1)]) = Ok r /\ terms r = [].
Proof.
  split; [exact t0_history|]. assert (E : basis t0_J1 = [t0_f1]) by (vm_compute; reflexivity). rewrite E. split; [left; reflexivity|]. split.
  - intros [|[|i]] Hi Hu; cbn in Hu; try lia. intros (w & [<-|[]] & _ & X). cbn in X. lia.
  - eexists. split; vm_compute; reflexivity.
Qed.

Theorem C54_tq2_self_refuted : exists (F : list poly) (J0 : jpoly) (J : jpoly2) (g r : poly),
  jp_history false TOP ODegLex 2 F J0 /\ jp_tq2 30 false J0 = Ok J /\ In g (basis2 J) /\
  (exists fuel, jp2_nf fuel false J g = Ok r) /\ terms r <> [].
Proof. exact tq2_self. Qed.
Print Assumptions C54_tq2_self_refuted.

(** Two elements with the same leading monomial. *)
Theorem C54_tq2_leads_refuted : exists (F : list poly) (J0 : jpoly) (J : jpoly2),
  jp_history false TOP ODegLex 2 F J0 /\ jp_tq2 30 false J0 = Ok J /\ ~ NoDup (map lead (basis2 J)).
Proof. exact tq2_duplicates. Qed.
Print Assumptions C54_tq2_leads_refuted.

(** What remains of it: the elements that algorithmTQ2 has in its tree at the end have different leading monomials, ... *)
Theorem C54_tq2_leads_partial : forall (t : pos_order) (o : base_order) (n : nat) (F : list poly) (J : jpoly) (fuel : nat) (J' : jpoly2),
  (0 < n)%nat -> o <> OAlex -> jp_history false t o n F J -> jp_tq2 fuel false J = Ok J' -> NoDup (map lead (tree_part J')).
Proof. intros t o n F J fuel J' Hn Ho. exact (tq2_leads t o n Hn Ho F J fuel J'). Qed.
Print Assumptions C54_tq2_leads_partial.

(** ... and their multiplicative multiples have the normal form 0. *)
Theorem C54_tq2_multiples_partial : forall (t : pos_order) (o : base_order) (n : nat) (F : list poly) (J : jpoly) (fuel : nat) (J' : jpoly2)
    (g : poly) (u : list nat) (x : poly),
  (0 < n)%nat -> o <> OAlex -> jp_history false t o n F J -> jp_tq2 fuel false J = Ok J' -> In g (tree_part J') ->
  length u = n -> (forall i, (i < n)%nat -> (0 < expo u i)%nat -> ~ janet_nm (map lead (tree_part J')) (lead g) i) ->
  ring_input t o n x -> (forall m, coef (terms x) m = coef (shift u (terms g)) m) ->
  exists N r, (forall fuel', (N <= fuel')%nat -> jp2_nf fuel' false J' x = Ok r) /\ terms r = [].
Proof. intros t o n F J fuel J' g u x Hn Ho. exact (tq2_multiples t o n Hn Ho F J fuel J' g u x). Qed.
Print Assumptions C54_tq2_multiples_partial.

(** When nothing is left outside, these are all elements. *)
Theorem C54_tq2_all_partial : forall J : jpoly2, all_in_trees J -> tree_part J = basis2 J.
Proof. exact all_tree_part. Qed.
Print Assumptions C54_tq2_all_partial.

(** x^2 - y, x y - 1: all three elements are in the tree.  y (y^2 - x) has the normal form 0.
    x y^2 + x, x y + 1: one of three elements is outside the tree. *)
Example C54_tq2_ex : jp_history false TOP ODegLex 2 [iv_f2; iv_f1] th_J0 /\ jp_tq2 60 false th_J0 = Ok th_J2 /\ all_in_trees th_J2 /\
  map lead (tree_part th_J2) = [[0; 2]; [1; 1]; [2; 0]]%nat /\
  (exists r, jp2_nf 30 false th_J2 (pol ODegLex 2 [([0;3]%nat, 1); ([1;1]%nat, -1)]) = Ok r /\ terms r = []) /\
  length (basis2 t2_J) = 3%nat /\ length (tree_part t2_J) = 2%nat.
Proof.
  destruct th_case as (A & _ & B & _). split; [exact A|]. split; [vm_compute; reflexivity|]. split; [exact B|].
  split; [vm_compute; reflexivity|]. split; [eexists; split; vm_compute; reflexivity|]. split; vm_compute; reflexivity.
Qed.

(* ---- C40 ---- *)
(** nf after algorithmTQ2: it always ends, the result is congruent to a and irreducible with respect to the elements in the tree. *)
Theorem C40_tq2_normal_form : forall (t : pos_order) (o : base_order) (n : nat) (F : list poly) (J : jpoly) (fuel : nat) (J' : jpoly2) (a : poly),
  (0 < n)%nat -> o <> OAlex -> jp_history false t o n F J -> jp_tq2 fuel false J = Ok J' -> ring_input t o n a ->
  exists N r, (forall fuel', (N <= fuel')%nat -> jp2_nf fuel' false J' a = Ok r) /\ ring_input t o n r /\
    reduces_to n (among (tree_part J')) (terms a) (terms r) /\
    (forall m c, In (m, c) (terms r) -> forall u, ~ janet_divides n (map lead (tree_part J')) u (vars m)) /\
    (j2one J' <> None -> terms r = []).
Proof. intros t o n F J fuel J' a Hn Ho. exact (tq2_nf t o n Hn Ho F J fuel J' a). Qed.
Print Assumptions C40_tq2_normal_form.

Theorem C40_tq2_zero_means_member : forall (t : pos_order) (o : base_order) (n : nat) (F : list poly) (J : jpoly) (fuel : nat) (J' : jpoly2) (a : poly),
  (0 < n)%nat -> o <> OAlex -> jp_history false t o n F J -> jp_tq2 fuel false J = Ok J' -> ring_input t o n a ->
  exists N r, (forall fuel', (N <= fuel')%nat -> jp2_nf fuel' false J' a = Ok r) /\ (terms r = [] -> rational_member n (among F) (terms a)).
Proof. intros t o n F J fuel J' a Hn Ho. exact (tq2_zero t o n Hn Ho F J fuel J' a). Qed.
Print Assumptions C40_tq2_zero_means_member.

(** x^3 has the normal form 1. *)
Example C40_tq2_ex : jp_history false TOP ODegLex 2 [iv_f2; iv_f1] th_J0 /\ jp_tq2 60 false th_J0 = Ok th_J2 /\
  exists r, jp2_nf 30 false th_J2 (pol ODegLex 2 [([3;0]%nat, 1)]) = Ok r /\ terms r = [(Mon (-1) [0;0]%nat, 1)].
Proof. destruct th_case as (A & _). split; [exact A|]. split; [vm_compute; reflexivity|]. eexists. split; vm_compute; reflexivity. Qed.

(* ---- C46 ---- *)
Theorem C46_tq_refuted : exists (F : list poly) (J0 J : jpoly) (a r : poly),
  jp_history false TOP ODegLex 2 F J0 /\ jp_tq false 30 false J0 = Ok J /\ ring_input TOP ODegLex 2 a /\
  rational_member 2 (among F) (terms a) /\ (exists fuel, jp_nf fuel false J a = Ok r) /\ terms r <> [].
Proof. exact tq_incomplete. Qed.
Print Assumptions C46_tq_refuted.

Theorem C46_tq_lex_refuted : exists (F : list poly) (J0 J : jpoly) (a r : poly),
  jp_history false TOP OLex 2 F J0 /\ jp_tq false 30 false J0 = Ok J /\ ring_input TOP OLex 2 a /\
  rational_member 2 (among F) (terms a) /\ (exists fuel, jp_nf fuel false J a = Ok r) /\ terms r <> [].
Proof. exact tq_incomplete_lex. Qed.
Print Assumptions C46_tq_lex_refuted.

Theorem C46_tq1_refuted : exists (F : list poly) (J0 J : jpoly) (a r : poly),
  jp_history false TOP ODegLex 2 F J0 /\ jp_tq true 30 false J0 = Ok J /\ ring_input TOP ODegLex 2 a /\
  rational_member 2 (among F) (terms a) /\ (exists fuel, jp_nf fuel false J a = Ok r) /\ terms r <> [].
Proof. exact tq1_incomplete. Qed.
Print Assumptions C46_tq1_refuted.

(** Homogeneous polynomials do not help: y w^4 lies in the ideal of x z + w^2, y^2 z and x^2 y (deglex), and is its own
    normal form after build, algorithmTQ and algorithmTQ1. *)
Theorem C46_homogeneous_refuted : exists (F : list poly) (J : jpoly) (a r : poly),
  (forall f, In f F -> homogeneous f) /\ jp_history false TOP ODegLex 4 F J /\ ring_input TOP ODegLex 4 a /\
  rational_member 4 (among F) (terms a) /\ terms r <> [] /\
  (exists J', jp_build 40 false J = Ok J' /\ jp_nf 40 false J' a = Ok r) /\
  (forall one, exists J', jp_tq one 40 false J = Ok J' /\ jp_nf 40 false J' a = Ok r).
Proof. exact hg_incomplete. Qed.
Print Assumptions C46_homogeneous_refuted.

(* ---- C49 ---- *)
Theorem C49_tq_asserts_refuted : exists (F : list poly) (J : jpoly), jp_history true TOP ODegLex 2 F J /\
  forall one, jp_tq one 30 true J = AssertFail /\ exists J', jp_tq one 30 false J = Ok J'.
Proof. exact tq_asserts. Qed.
Print Assumptions C49_tq_asserts_refuted.
(** Two variables times constants (2 y and 3 x) are enough for algorithmTQ, algorithmTQ1 and algorithmTQ2: an element that needs
    no reduction keeps its integer content, which the assertion does not allow.  build passes. *)
Theorem C49_content_refuted : exists (F : list poly) (J : jpoly), jp_history true TOP OLex 2 F J /\ Forall single F /\ Forall (fun f => deg (Mon (-1) (lead f)) = 1%nat) F /\
  (exists J', jp_build 30 true J = Ok J') /\
  (forall one, jp_tq one 30 true J = AssertFail /\ exists J', jp_tq one 30 false J = Ok J' /\ map terms (basis J') = map terms (rev F)) /\
  jp_tq2 30 true J = AssertFail /\ exists J', jp_tq2 30 false J = Ok J' /\ map terms (basis2 J') = map terms (rev F).
Proof. exact mono_asserts. Qed.
Print Assumptions C49_content_refuted.
