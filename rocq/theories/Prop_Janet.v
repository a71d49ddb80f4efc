(** Properties C18 - C24, C44: Janet trees and monomial completion.  Specification: JanetSpec.v,
    CompletionSpec.v.  [dbg] = true is a build with asserts, false is the release build. *)
From Coq Require Import ZArith List Bool Arith Lia Permutation.
From Verif Require Import Outcome MonomModel MonomSpec JanetModel JanetSpec CompletionModel CompletionSpec
  JanetFindProofs MCompletionProofs JanetTopProofs.
Import ListNotations.
Local Open Scope nat_scope.

(** A ring monomial, for the examples. *)
Local Notation "'mm' l" := (Mon (-1)%Z l) (at level 10).

(** * C18 *)
Theorem C18_flags_after_any_inserts : forall (n : nat) (l : list monom),
  0 < n -> Forall (fun m => length (vars m) = n) l -> NoDup (map vars l) ->
  exists J, mj_push_all false jempty l = Ok J /\ jsize J = length l /\
    Permutation (map wlm (wraps (jroot J))) l /\
    forall u i, In u (wraps (jroot J)) -> i < n ->
      (nth i (wnm u) false = true <-> janet_nm (map vars l) (vars (wlm u)) i).
Proof. exact c18_release. Qed.
Print Assumptions C18_flags_after_any_inserts.

(** With asserts the same holds whenever no inserted monomial divides another one ... *)
Theorem C18_debug_build : forall (n : nat) (p : Z) (l : list monom),
  0 < n -> Forall (fun m => length (vars m) = n /\ pos m = p) l -> NoDup (map vars l) ->
  (forall a b, In a (map vars l) -> In b (map vars l) -> divides n a b -> a = b) ->
  exists J, mj_push_all true jempty l = Ok J /\ jsize J = length l /\
    Permutation (map wlm (wraps (jroot J))) l /\
    forall u i, In u (wraps (jroot J)) -> i < n ->
      (nth i (wnm u) false = true <-> janet_nm (map vars l) (vars (wlm u)) i).
Proof. exact c18_debug. Qed.
Print Assumptions C18_debug_build.

(** ... and the assertion fires when the new monomial already has a Janet divisor. *)
Theorem C18_debug_rejects : forall (n : nat) (p : Z) (l : list monom) (J : janet) (m : monom),
  0 < n -> Forall (fun m => length (vars m) = n /\ pos m = p) (m :: l) -> NoDup (map vars l) ->
  mj_push_all false jempty l = Ok J ->
  (exists u, janet_divides n (map vars l) u (vars m)) ->
  mj_push_all true J [m] = AssertFail.
Proof. exact c18_debug_assert. Qed.
Print Assumptions C18_debug_rejects.

Example C18_ex : let l := [mm [2;0;1]; mm [0;1;0]; mm [2;1;0]; mm [0;0;3]; mm [2;2;2]] in
  Forall (fun m => length (vars m) = 3) l /\ NoDup (map vars l) /\
  exists J, mj_push_all false jempty l = Ok J /\
    map (fun u => (vars (wlm u), wnm u)) (wraps (jroot J)) =
    [([0;0;3], [true;true;false]); ([0;1;0], [true;false;false]);
     ([2;0;1], [false;true;false]); ([2;1;0], [false;true;false]); ([2;2;2], [false;false;false])].
Proof.
  split; [repeat constructor|]. split; [repeat constructor; cbn; intuition discriminate|].
  eexists. split; vm_compute; reflexivity.
Qed.
Example C18_debug_ex : exists J,
  mj_push_all true jempty [mm [2;0]; mm [1;1]; mm [0;3]] = Ok J /\ mj_push_all true J [mm [2;1]] = AssertFail.
Proof. eexists. split; vm_compute; reflexivity. Qed.

(** * C19 *)
Theorem C19_find : forall (dbg : bool) (n : nat) (p : Z) (l : list monom) (m : monom),
  0 < n -> Forall (fun m => length (vars m) = n /\ pos m = p) l -> NoDup (map vars l) ->
  length (vars m) = n -> (dbg = true -> p = (-1)%Z \/ pos m = p) ->
  exists J r, mj_push_all false jempty l = Ok J /\ find dbg (jroot J) m = Ok r /\
    match r with
    | Some u => In u (wraps (jroot J)) /\ janet_divides n (map vars l) (vars (wlm u)) (vars m)
    | None => forall u, ~ janet_divides n (map vars l) u (vars m)
    end.
Proof. exact c19_find. Qed.
Print Assumptions C19_find.

Example C19_ex : exists J u, mj_push_all false jempty [mm [2;0;1]; mm [0;1;0]; mm [2;1;0]] = Ok J /\
  find false (jroot J) (mm [5;0;4]) = Ok (Some u) /\ vars (wlm u) = [2;0;1] /\
  find false (jroot J) (mm [1;4;4]) = Ok None.
Proof. do 2 eexists. split; [|split; [|split]]; vm_compute; reflexivity. Qed.

(** * C20: the copy loses elements. *)
Theorem C20_copy_find_refuted : exists (l : list monom) (m : monom) (J : janet) (u : wrap),
  Forall (fun m => length (vars m) = 2 /\ pos m = (-1)%Z) l /\ NoDup (map vars l) /\ length (vars m) = 2 /\
  mj_push_all false jempty l = Ok J /\
  find false (jroot J) m = Ok (Some u) /\ find false (jroot (janet_copy J)) m = Ok None.
Proof.
  exists [mm [0;1]; mm [1;1]], (mm [1;2]). do 2 eexists.
  split; [repeat constructor|]. split; [repeat constructor; cbn; intuition discriminate|]. split; [reflexivity|].
  split; [vm_compute; reflexivity|]. split; vm_compute; reflexivity.
Qed.
Print Assumptions C20_copy_find_refuted.

(** With asserts a query on the copy can even abort. *)
Theorem C20_copy_assert_refuted : exists (l : list monom) (m : monom) (J : janet) (u : wrap),
  Forall (fun m => length (vars m) = 2 /\ pos m = (-1)%Z) l /\ NoDup (map vars l) /\
  mj_push_all true jempty l = Ok J /\
  find true (jroot J) m = Ok (Some u) /\ find true (jroot (janet_copy J)) m = AssertFail.
Proof.
  exists [mm [0;1]], (mm [0;1]). do 2 eexists.
  split; [repeat constructor|]. split; [repeat constructor; cbn; intuition discriminate|].
  split; [vm_compute; reflexivity|]. split; vm_compute; reflexivity.
Qed.
Print Assumptions C20_copy_assert_refuted.

(** What does hold: the copy never invents elements, and with one variable it is exact. *)
Theorem C20_copy_subset_partial : forall J : janet,
  incl (wraps (jroot (janet_copy J))) (wraps (jroot J)).
Proof. exact c20_incl. Qed.
Print Assumptions C20_copy_subset_partial.

(** Exactly: an element survives the copy if and only if every variable before the last variable that occurs
    in it is non-multiplicative for it. *)
Theorem C20_copy_exact_partial : forall (n : nat) (l : list monom) (J : janet) (u : wrap),
  0 < n -> Forall (fun m => length (vars m) = n) l -> NoDup (map vars l) ->
  mj_push_all false jempty l = Ok J -> In u (wraps (jroot J)) ->
  (In u (wraps (jroot (janet_copy J))) <->
   forall i j, i < j -> j < n -> 0 < expo (vars (wlm u)) j -> janet_nm (map vars l) (vars (wlm u)) i).
Proof. exact c20_exact. Qed.
Print Assumptions C20_copy_exact_partial.

Theorem C20_copy_one_variable_partial : forall (l : list monom) (J : janet),
  Forall (fun m => length (vars m) = 1) l -> NoDup (map vars l) ->
  mj_push_all false jempty l = Ok J -> janet_copy J = J.
Proof. exact c20_one_variable. Qed.
Print Assumptions C20_copy_one_variable_partial.

Example C20_exact_ex : exists J, mj_push_all false jempty [mm [0;1]; mm [1;1]; mm [2;0]] = Ok J /\
  map (fun u => vars (wlm u)) (wraps (jroot (janet_copy J))) = [[0;1]; [1;1]; [2;0]] /\
  exists J', mj_push_all false jempty [mm [0;1]; mm [1;1]] = Ok J' /\
  map (fun u => vars (wlm u)) (wraps (jroot (janet_copy J'))) = [[0;1]].
Proof. eexists. split; [vm_compute; reflexivity|]. split; [vm_compute; reflexivity|]. eexists. split; vm_compute; reflexivity. Qed.

Example C20_ex : exists J, mj_push_all false jempty [mm [3]; mm [1]; mm [2]] = Ok J /\ janet_copy J = J.
Proof. eexists. split; vm_compute; reflexivity. Qed.

(** * C21 *)
Theorem C21_disjoint_cones : forall (n : nat) (U : list (list nat)) (u u' m : list nat),
  (forall x, In x U -> length x = n) -> janet_divides n U u m -> janet_divides n U u' m -> u = u'.
Proof. exact janet_unique. Qed.
Print Assumptions C21_disjoint_cones.

Example C21_ex : let U := [[1;0];[0;2]] in
  (forall x, In x U -> length x = 2) /\ janet_divides 2 U [1;0] [1;5] /\ ~ janet_divides 2 U [0;2] [1;5].
Proof.
  split; [|split].
  - intros x [<-|[<-|[]]]; reflexivity.
  - split; [cbn; auto|]. split.
    + intros [|[|i]] Hi; cbn; lia.
    + intros [|[|i]] Hi H (w & [<-|[<-|[]]] & A & B); cbn in *; try lia. specialize (A 0 ltac:(lia)). cbn in A. lia.
  - intros (_ & _ & M). apply (M 0); cbn; try lia. exists [1;0]. split; [cbn; auto|]. split; [intros j Hj; lia|]. cbn; lia.
Qed.

(** * C22 *)
Theorem C22_flags_and_find : forall (dbg : bool) (n : nat) (l : list monom) (m : monom),
  Forall (fun m => length (vars m) = n) l -> NoDup (map vars l) -> length (vars m) = n ->
  exists T r, mc_push_all dbg MLex [] l = Ok T /\ Permutation (map wlm T) l /\
    (forall u i, In u T -> i < n -> (nth i (wnm u) false = true <-> janet_nm (map vars l) (vars (wlm u)) i)) /\
    mc_find dbg T m = Ok r /\
    match r with
    | Some u => In u T /\ janet_divides n (map vars l) (vars (wlm u)) (vars m)
    | None => forall u, ~ janet_divides n (map vars l) u (vars m)
    end.
Proof. exact c22. Qed.
Print Assumptions C22_flags_and_find.

(** The same for each of the seven comparison functions, with the division it induces. *)
Theorem C22_flags_any_comparator : forall (dbg : bool) (n : nat) (o : mc_order) (l : list monom),
  Forall (fun m => length (vars m) = n) l -> NoDup (map vars l) ->
  exists T, mc_push_all dbg o [] l = Ok T /\ Permutation (map wlm T) l /\
    forall u i, In u T -> i < n ->
      (nth i (wnm u) false = true <-> induced_nm (mc_gt o) (map vars l) (vars (wlm u)) i).
Proof. exact c22_any. Qed.
Print Assumptions C22_flags_any_comparator.

Theorem C22_find_any_comparator : forall (dbg : bool) (n : nat) (o : mc_order) (l : list monom) (m : monom),
  Forall (fun m => length (vars m) = n) l -> NoDup (map vars l) -> length (vars m) = n ->
  exists T r, mc_push_all dbg o [] l = Ok T /\ mc_find dbg T m = Ok r /\
    match r with
    | Some u => In u T /\ induced_divides (mc_gt o) n (map vars l) (vars (wlm u)) (vars m)
    | None => forall u, ~ induced_divides (mc_gt o) n (map vars l) u (vars m)
    end.
Proof. exact mc_push_find. Qed.
Print Assumptions C22_find_any_comparator.

Example C22_ex : exists T u, mc_push_all true MLex [] [mm [2;0;1]; mm [0;1;0]; mm [2;1;0]] = Ok T /\
  map (fun u => (vars (wlm u), wnm u)) T =
    [([0;1;0], [true;false;false]); ([2;0;1], [false;true;false]); ([2;1;0], [false;false;false])] /\
  mc_find true T (mm [0;7;3]) = Ok (Some u) /\ vars (wlm u) = [0;1;0] /\
  mc_find true T (mm [1;7;3]) = Ok None.
Proof. do 2 eexists. split; [vm_compute; reflexivity|]. repeat split; vm_compute; reflexivity. Qed.
Example C22_alex_ex : exists T, mc_push_all true MAlex [] [mm [2;0;1]; mm [0;1;0]; mm [2;1;0]] = Ok T /\
  map (fun u => (vars (wlm u), wnm u)) T =
    [([2;0;1], [false;true;false]); ([2;1;0], [false;false;false]); ([0;1;0], [false;false;false])].
Proof. eexists. split; vm_compute; reflexivity. Qed.

(** * C23 *)
Theorem C23_build_terminates_with_involutive_basis : forall (dbg : bool) (n : nat) (p : Z) (l : list monom),
  Forall (fun m => length (vars m) = n /\ pos m = p) l -> NoDup (map vars l) ->
  exists T T', mc_push_all dbg MLex [] l = Ok T /\
    (exists N, forall fuel, N <= fuel -> mc_build fuel dbg MLex T = Ok T') /\
    janet_basis n (map vars l) (map vars (map wlm T')) /\
    NoDup (map wlm T') /\ incl l (map wlm T') /\
    (forall B, (forall f, In f l -> divides n (vars f) B) -> forall x, In x (map wlm T') -> divides n (vars x) B) /\
    forall m, length (vars m) = n -> exists r, mc_find dbg T' m = Ok r /\
      (r <> None <-> in_ideal n (map vars l) (vars m)) /\
      forall u, r = Some u -> In u T' /\ janet_divides n (map vars (map wlm T')) (vars (wlm u)) (vars m).
Proof. exact c23. Qed.
Print Assumptions C23_build_terminates_with_involutive_basis.

Example C23_ex : exists T T', mc_push_all true MLex [] [mm [1;0;2]; mm [0;3;0]; mm [2;1;0]] = Ok T /\
  mc_build 10 true MLex T = Ok T' /\
  map (fun u => vars (wlm u)) T' =
    [[0;3;0]; [1;0;2]; [1;1;2]; [1;2;2]; [1;3;0]; [2;0;2]; [2;1;0]] .
Proof. do 2 eexists. split; [|split]; vm_compute; reflexivity. Qed.

(** * C24 *)
Theorem C24_build_terminates_with_involutive_basis : forall (dbg : bool) (n : nat) (p : Z) (l : list monom),
  0 < n ->
  Forall (fun m => length (vars m) = n /\ pos m = p) l -> NoDup (map vars l) ->
  (dbg = true -> forall a b, In a (map vars l) -> In b (map vars l) -> divides n a b -> a = b) ->
  exists J J', mj_push_all dbg jempty l = Ok J /\
    (exists N, forall fuel, N <= fuel -> mj_build fuel dbg J = Ok J') /\
    janet_basis n (map vars l) (map vars (map wlm (wraps (jroot J')))) /\
    NoDup (map wlm (wraps (jroot J'))) /\ jsize J' = length (wraps (jroot J')) /\
    incl l (map wlm (wraps (jroot J'))) /\
    (forall B, (forall f, In f l -> divides n (vars f) B) ->
       forall x, In x (map wlm (wraps (jroot J'))) -> divides n (vars x) B) /\
    forall m, length (vars m) = n -> (dbg = true -> p = (-1)%Z \/ pos m = p) ->
      exists r, find dbg (jroot J') m = Ok r /\
      (r <> None <-> in_ideal n (map vars l) (vars m)) /\
      forall u, r = Some u -> In u (wraps (jroot J')) /\
        janet_divides n (map vars (map wlm (wraps (jroot J')))) (vars (wlm u)) (vars m).
Proof. exact c24. Qed.
Print Assumptions C24_build_terminates_with_involutive_basis.

Example C24_ex : exists J J', mj_push_all true jempty [mm [1;0;2]; mm [0;3;0]; mm [2;1;0]] = Ok J /\
  mj_build 10 true J = Ok J' /\
  map (fun u => vars (wlm u)) (wraps (jroot J')) =
    [[0;3;0]; [1;0;2]; [1;1;2]; [1;2;2]; [1;3;0]; [2;0;2]; [2;1;0]].
Proof. do 2 eexists. split; [|split]; vm_compute; reflexivity. Qed.

(** * C44: duplicates *)
(** Exactly when a duplicate push into MCompletion is harmless: when no stored element is larger.
    Otherwise the freed new object is read. *)
Theorem C44_mcompletion_exact_partial : forall (dbg : bool) (n : nat) (o : mc_order) (l : list monom) (m : monom),
  Forall (fun m => length (vars m) = n) l -> NoDup (map vars l) -> In m l ->
  exists T, mc_push_all dbg o [] l = Ok T /\
    mc_push_all dbg o T [m] =
      (if existsb (fun a => (0 <? mc_cmp o (new_wrap a) (new_wrap m))%Z) l then Undef else Ok T).
Proof. exact mc_push_dup. Qed.
Print Assumptions C44_mcompletion_exact_partial.

Theorem C44_mcompletion_refuted : exists (l : list monom) (m : monom),
  Forall (fun m => length (vars m) = 2) l /\ NoDup (map vars l) /\ In m l /\
  exists T, mc_push_all false MLex [] l = Ok T /\ mc_push_all false MLex T [m] = Undef.
Proof.
  exists [mm [0;1]; mm [1;0]], (mm [0;1]). split; [repeat constructor|].
  split; [repeat constructor; cbn; intuition discriminate|]. split; [cbn; auto|].
  eexists. split; vm_compute; reflexivity.
Qed.
Print Assumptions C44_mcompletion_refuted.

(** MJanet: the size no longer matches the elements (release) or an assertion fires (debug). *)
Theorem C44_mjanet_refuted : exists (l : list monom) (m : monom),
  Forall (fun m => length (vars m) = 2) l /\ NoDup (map vars l) /\ In m l /\
  exists J J', mj_push_all true jempty l = Ok J /\ jsize J = length (wraps (jroot J)) /\
    mj_push_all true J [m] = AssertFail /\
    mj_push_all false J [m] = Ok J' /\ jsize J' = 3 /\ length (wraps (jroot J')) = 2.
Proof.
  exists [mm [0;1]; mm [1;0]], (mm [0;1]). split; [repeat constructor|].
  split; [repeat constructor; cbn; intuition discriminate|]. split; [cbn; auto|].
  do 2 eexists. split; [vm_compute; reflexivity|]. repeat split; vm_compute; reflexivity.
Qed.
Print Assumptions C44_mjanet_refuted.
