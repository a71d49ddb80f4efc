(** Property C49: what holds in debug builds (lex and deglex; ring polynomials). *)
From Coq Require Import ZArith List Bool Arith Lia.
From Verif Require Import Outcome MonomModel MonomSpec PolyModel PolySpec JanetModel JanetPolyModel TQModel JanetPolySpec DebugPrinc DebugPrincTQ2 DebugNf DebugNfExamples.
Import ListNotations.
Local Open Scope Z_scope.

(** If one non-zero polynomial is pushed no assertion fails: push returns, and build, algorithmTQ, algorithmTQ1 and algorithmTQ2
    end in a debug build, with the result of the release build.  Not for two or more polynomials: see the _refuted theorems. *)
Theorem C49_single_partial : forall (t : pos_order) (o : base_order) (n : nat), (0 < n)%nat -> o <> OAlex -> forall f : poly,
  ring_input t o n f -> terms f <> [] ->
  exists J, jp_push true jp_empty f = Ok J /\
  (exists N J', (forall fuel, (N <= fuel)%nat -> jp_build fuel true J = Ok J' /\ jp_build fuel false J = Ok J') /\ jq J' = []) /\
  (forall one, exists N J', (forall fuel, (N <= fuel)%nat -> jp_tq one fuel true J = Ok J' /\ jp_tq one fuel false J = Ok J') /\ jq J' = []) /\
  exists N J', forall fuel, (N <= fuel)%nat -> jp_tq2 fuel true J = Ok J' /\ jp_tq2 fuel false J = Ok J'.
Proof. exact debug_single. Qed.
Print Assumptions C49_single_partial.

(** The same for completions of an object in which that polynomial was completed before, in any order of the algorithms. *)
Theorem C49_single_again_partial : forall (t : pos_order) (o : base_order) (n : nat), (0 < n)%nat -> o <> OAlex -> forall (f : poly) (J : jpoly),
  jp_history true t o n [f] J -> terms f <> [] ->
  (exists N J', (forall fuel, (N <= fuel)%nat -> jp_build fuel true J = Ok J' /\ jp_build fuel false J = Ok J') /\ jq J' = []) /\
  forall one, exists N J', (forall fuel, (N <= fuel)%nat -> jp_tq one fuel true J = Ok J' /\ jp_tq one fuel false J = Ok J') /\ jq J' = [].
Proof. exact debug_one. Qed.
Print Assumptions C49_single_again_partial.

(** 2 x^2 - 4 y, and the constant 3. *)
Example C49_single_example : exists (f g : poly) (J K : jpoly), jp_history true TOP ODegLex 2 [f] J /\ terms f <> [] /\ length (terms f) = 2%nat /\
  jp_history true TOP ODegLex 2 [g] K /\ total (lead g) = 0%nat /\
  (exists J', jp_build 9 true J = Ok J' /\ jp_build 9 false J = Ok J' /\ length (basis J') = 1%nat) /\
  (exists K', jp_build 9 true K = Ok K' /\ map terms (basis K') = [[(Mon (-1) [0; 0]%nat, 1)]]) /\
  forall one, exists J', jp_tq one 9 true J = Ok J' /\ map terms (basis J') = [terms f].
Proof. exact debug_one_case. Qed.

(** push never stops with a failed assertion, whatever was pushed and completed before; nf does not either, so it is the completion
    that fails.  The object may be one that a release build computed. *)
Theorem C49_push_partial : forall (t : pos_order) (o : base_order) (n : nat), (0 < n)%nat -> o <> OAlex -> forall (F : list poly) (J : jpoly) (a : poly),
  jp_history false t o n F J -> ring_input t o n a -> exists J', jp_push true J a = Ok J' /\ jp_push false J a = Ok J'.
Proof. exact debug_history_push. Qed.
Print Assumptions C49_push_partial.
Theorem C49_nf_partial : forall (t : pos_order) (o : base_order) (n : nat), (0 < n)%nat -> o <> OAlex -> forall (F : list poly) (J : jpoly) (a : poly),
  jp_history false t o n F J -> ring_input t o n a ->
  exists N r, forall fuel, (N <= fuel)%nat -> jp_nf fuel true J a = Ok r /\ jp_nf fuel false J a = Ok r.
Proof. exact debug_history_nf. Qed.
Print Assumptions C49_nf_partial.
Theorem C49_nf2_partial : forall (t : pos_order) (o : base_order) (n : nat), (0 < n)%nat -> o <> OAlex ->
  forall (F : list poly) (J : jpoly) (fuel0 : nat) (J2 : jpoly2) (a : poly),
  jp_history false t o n F J -> jp_tq2 fuel0 false J = Ok J2 -> ring_input t o n a ->
  exists N, forall fuel, (N <= fuel)%nat -> exists r, jp2_nf fuel true J2 a = Ok r /\ jp2_nf fuel false J2 a = Ok r.
Proof. exact debug_history_nf2. Qed.
Print Assumptions C49_nf2_partial.

(** 2 y and 3 x: algorithmTQ fails; push and nf of 5 x y + 7 pass for what a release build computes. *)
Example C49_nf_example : exists (F : list poly) (J J' : jpoly) (J2 : jpoly2) (a r : poly), jp_history false TOP OLex 2 F J' /\ jp_history false TOP OLex 2 F J /\ jp_tq2 30 false J = Ok J2 /\
  ring_input TOP OLex 2 a /\ length (terms a) = 2%nat /\ jp_tq false 30 true J = AssertFail /\ jp_tq false 30 false J = Ok J' /\ length (basis J') = 2%nat /\
  (exists K, jp_push true J' a = Ok K /\ length (jq K) = 1%nat) /\ jp_nf 30 true J' a = Ok r /\ jp2_nf 30 true J2 a = Ok r /\ length (terms r) = 1%nat.
Proof. exact dn_case. Qed.
