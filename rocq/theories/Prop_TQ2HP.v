(** C89: algorithmTQ2 as a whole, with the Hilbert polynomial it prints. *)
From Coq Require Import ZArith List Bool Arith QArith.
From Verif Require Import Outcome MonomModel MonomSpec PolyModel PolySpec JanetModel JanetSpec JanetPolyModel TQModel JanetPolySpec JanetPolyExamples TQExamples
  HilbertModel HilbertSpec InvolutiveExamples TQ2HPModel TQ2HPSpec TQ2HPProofs TQ2HPExamples.
Import ListNotations.
Local Open Scope nat_scope.

(** If a polynomial other than 0 was pushed, a call gives a result or does not end; otherwise it dereferences a null pointer. *)
Theorem C89_ends : forall (t : pos_order) (o : base_order) (n : nat), 0 < n -> o <> OAlex ->
  forall (F : list poly) (J : jpoly) (fuel : nat), jp_history false t o n F J ->
  ((exists r, jp_tq2_print fuel false J = Ok r) \/ jp_tq2_print fuel false J = OutOfFuel) \/
  (jp_tq2_print fuel false J = Undef /\ forall f, In f F -> terms f = []).
Proof. exact c89_ends. Qed.
Print Assumptions C89_ends.
Theorem C89_crash : forall (t : pos_order) (o : base_order) (n : nat), 0 < n -> o <> OAlex ->
  forall (F : list poly) (J : jpoly) (fuel : nat), jp_history false t o n F J -> (forall f, In f F -> terms f = []) ->
  jp_tq2_print fuel false J = Undef.
Proof. exact c89_crash. Qed.
Print Assumptions C89_crash.
Theorem C89_ends_refuted : exists (F : list poly) (J : jpoly), jp_history false TOP ODegLex 2 F J /\
  forall fuel, jp_tq2_print fuel false J = Undef /\ jp_tq2_print fuel true J = AssertFail.
Proof. exact th_empty. Qed.
Print Assumptions C89_ends_refuted.

(** In a debug build the assertion of buildHP fails exactly for the object that is 1 and the one without elements;
    otherwise both builds do the same. *)
Theorem C89_assertion : forall (J : jpoly2),
  (jp2_build_hp true J hp_none = AssertFail <-> j2one J <> None \/ j2t J = []) /\
  (j2one J = None -> j2t J <> [] -> jp2_build_hp true J hp_none = jp2_build_hp false J hp_none).
Proof. exact c89_assert. Qed.
Print Assumptions C89_assertion.
Example C89_assertion_case : j2one th_J2 = None /\ length (j2t th_J2) = 3 /\ jp2_build_hp true th_J2 hp_none = Ok [3#1; 0#1; 0#1]%Q.
Proof. vm_compute. auto. Qed.

(** If all elements are in the tree, the polynomial printed counts the monomials without Janet divisor in the basis.
    Missing: when elements are outside the tree (below). *)
Theorem C89_count_partial : forall (t : pos_order) (o : base_order) (n : nat), 0 < n -> o <> OAlex ->
  forall (F : list poly) (J : jpoly) (fuel : nat) (J2 : jpoly2) (h : hp),
  jp_history false t o n F J -> jp_tq2_print fuel false J = Ok (J2, Some h) -> all_in_trees J2 ->
  length h = S n /\ Forall lowest_terms h /\
  forall s, (forall g, In g (basis2 J2) -> total (lead g) <= s) ->
    exists k, number_of n s (fun m => forall u, ~ janet_divides n (map lead (basis2 J2)) u m) k /\
      (peval h (inject_Z (Z.of_nat s)) == inject_Z (Z.of_nat k))%Q.
Proof. exact c89_count. Qed.
Print Assumptions C89_count_partial.

(** x y^2 + x and x y + 1: 3 - s is printed, which is negative for every s > 3. *)
Theorem C89_count_refuted : exists (F : list poly) (J : jpoly) (J2 : jpoly2) (h : hp), jp_history false TOP ODegLex 2 F J /\
  jp_tq2_print 30 false J = Ok (J2, Some h) /\ forall s : Z, (3 < s)%Z -> (peval h (inject_Z s) < 0)%Q.
Proof. exact th_negative. Qed.
Print Assumptions C89_count_refuted.

(** x^2 - y and x y - 1 *)
Example C89_case : jp_history false TOP ODegLex 2 [iv_f2; iv_f1] th_J0 /\ jp_tq2_print 60 false th_J0 = Ok (th_J2, Some [3#1; 0#1; 0#1]%Q) /\
  all_in_trees th_J2 /\ length (basis2 th_J2) = 3.
Proof. exact th_case. Qed.
