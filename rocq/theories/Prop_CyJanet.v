(** C77: the Python class janet_poly_int: push, build, len, iteration, find, nf, janet and HilbertPoly. *)
From Coq Require Import ZArith List Bool Arith Lia QArith.
From Verif Require Import Outcome MonomModel MonomSpec PolyModel PolySpec JanetModel JanetSpec HilbertModel HilbertSpec JanetPolyModel JanetPolySpec
  JanetPolyExamples InvolutiveExamples CyMonomModel CyJanetModel CyJanetSpec CyJanetProofs.
Import ListNotations.
Local Open Scope Z_scope.

(** push accepts every polynomial of the ring; what the object yields stays the same until build. *)
Theorem C77_push t o n F J a : (0 < n)%nat -> o <> OAlex -> session t o n F J -> ring_input t o n a ->
  exists J', cj_push false J (PObj (Some a)) = Ok (Ret J') /\ session t o n (a :: F) J' /\ basis J' = basis J /\ cj_isOne J' = cj_isOne J.
Proof. intros Hn Ho. exact (push_ok_ring t o n Hn Ho F J a). Qed.
Print Assumptions C77_push.
Example C77_push_ex : exists J', cj_push false iv_J (PObj (Some iv_f1)) = Ok (Ret J') /\ basis J' = basis iv_J.
Proof. eexists. split; [vm_compute; reflexivity|reflexivity]. Qed.

(** A polynomial of another ring or order is refused once a non-zero polynomial was pushed, unless isOne(). *)
Theorem C77_push_other t o n F J f a dbg : (0 < n)%nat -> o <> OAlex -> session t o n F J -> In f F -> terms f <> [] ->
  cj_isOne J = false -> ~ of_ring t o n a ->
  cj_push dbg J (PObj (Some a)) = Ok (Raises AssertionError) /\ cj_comparable J (PObj (Some a)) = Ok (Ret false).
Proof. intros Hn Ho. exact (push_raises t o n Hn Ho F J f a dbg). Qed.
Print Assumptions C77_push_other.
Example C77_push_other_ex : session TOP ODegLex 2 [iv_f2; iv_f1] iv_J /\ terms iv_f1 <> [] /\ cj_isOne iv_J = false /\
  ~ of_ring TOP ODegLex 2 mixed /\ cj_push false iv_J (PObj (Some mixed)) = Ok (Raises AssertionError).
Proof. split; [exact iv_session|]. split; [discriminate|]. split; [reflexivity|]. split; [intros (_ & _ & E); discriminate|reflexivity]. Qed.

(** With isOne() it is accepted. *)
Theorem C77_push_other_refuted : exists F J f a, session TOP ODegLex 2 F J /\ In f F /\ terms f <> [] /\ ~ of_ring TOP ODegLex 2 a /\
  cj_comparable J (PObj (Some a)) = Ok (Ret true) /\ cj_push false J (PObj (Some a)) = Ok (Ret J).
Proof.
  exists [oj_f], oj_J, oj_f, mixed. split; [apply oj_session|]. split; [left; reflexivity|]. split; [discriminate|].
  split; [intros (_ & _ & E); discriminate|split; reflexivity].
Qed.
Print Assumptions C77_push_other_refuted.

(** Iteration: one object for each element of the basis, in its order, and len() of them.  Each shows the leading monomial
    of its polynomial and its non-multiplicative variables. *)
Theorem C77_iter t o n F J : (0 < n)%nat -> o <> OAlex -> session t o n F J -> cj_isOne J = false ->
  cj_len J = Z.of_nat (length (basis J)) /\
  exists ws, cj_iter J = Ok (Ret ws) /\ map cw_poly ws = basis J /\ Forall2 (fun w p => describes n (map lead (basis J)) w (lead p)) ws (basis J).
Proof.
  intros Hn Ho H Eo. apply (iter_ok t o n Hn Ho F J H). unfold cj_isOne, is_one in Eo. destruct (jone J); [discriminate|reflexivity].
Qed.
Print Assumptions C77_iter.
Example C77_iter_ex : session TOP ODegLex 2 [iv_f2; iv_f1] iv_J /\ cj_isOne iv_J = false /\ cj_len iv_J = 3 /\
  map lead (basis iv_J) = [[0; 2]; [1; 1]; [2; 0]]%nat.
Proof. split; [exact iv_session|]. repeat split; vm_compute; reflexivity. Qed.

(** With isOne() len is 1 and the iteration yields nothing. *)
Theorem C77_iter_refuted : exists F J, session TOP ODegLex 2 F J /\ cj_len J = 1 /\ cj_iter J = Ok (Ret []).
Proof. exists [oj_f], oj_J. split; [apply oj_session|split; reflexivity]. Qed.
Print Assumptions C77_iter_refuted.

(** What always holds of such an object: push and build do nothing, HilbertPoly raises, janet(-1).size() is undefined. *)
Theorem C77_one t o n F J : (0 < n)%nat -> o <> OAlex -> session t o n F J -> cj_isOne J = true ->
  cj_len J = 1 /\ cj_iter J = Ok (Ret []) /\ (forall a, cj_comparable J (PObj (Some a)) = Ok (Ret true)) /\
  (forall a, cj_push false J (PObj (Some a)) = Ok (Ret J)) /\ (forall fuel, cj_build fuel false J = Ok (Ret J)) /\
  cj_hilbert false J = Ok (Raises AssertionError) /\ cj_maxPos J = -1 /\ cj_janet_size false J (-1) = Undef.
Proof. intros Hn Ho. exact (after_one t o n Hn Ho F J). Qed.
Print Assumptions C77_one.
Example C77_one_ex : session TOP ODegLex 2 [oj_f] oj_J /\ cj_isOne oj_J = true.
Proof. exact oj_session. Qed.

(** NM and build of a number that is no variable read outside the arrays. *)
Theorem C77_index t o n F J ws w v : (0 < n)%nat -> o <> OAlex -> session t o n F J -> cj_isOne J = false -> cj_iter J = Ok (Ret ws) ->
  In w ws -> INT_MIN <= v <= INT_MAX -> v < 0 \/ Z.of_nat n <= v -> cw_NM false w v = Undef /\ cw_build false w v = Undef.
Proof.
  intros Hn Ho H Eo. apply (outside_undef t o n Hn Ho F J H). unfold cj_isOne, is_one in Eo. destruct (jone J); [discriminate|reflexivity].
Qed.
Print Assumptions C77_index.
Theorem C77_index_refuted : exists F J ws w, session TOP ODegLex 2 F J /\ cj_iter J = Ok (Ret ws) /\ In w ws /\ cw_NM false w (-1) = Undef.
Proof.
  do 4 eexists. split; [exact iv_session|]. split; [vm_compute; reflexivity|]. split; [left; reflexivity|reflexivity].
Qed.
Print Assumptions C77_index_refuted.

(** find yields the Janet divisor, or None when there is none. *)
Theorem C77_find t o n F J u : (0 < n)%nat -> o <> OAlex -> session t o n F J -> cj_isOne J = false -> length u = n ->
  match cj_find false J (MArg (Mon (-1) u)) with
  | Ok (Ret (Some w)) => In (cw_poly w) (basis J) /\ describes n (map lead (basis J)) w (lead (cw_poly w)) /\
                         janet_divides n (map lead (basis J)) (lead (cw_poly w)) u
  | Ok (Ret None) => forall v, ~ janet_divides n (map lead (basis J)) v u
  | _ => False
  end.
Proof.
  intros Hn Ho H Eo. apply (find_R t o n Hn Ho F J H). unfold cj_isOne, is_one in Eo. destruct (jone J); [discriminate|reflexivity].
Qed.
Print Assumptions C77_find.
Example C77_find_ex : exists w, cj_find false iv_J (MArg (Mon (-1) [3; 0]%nat)) = Ok (Ret (Some w)) /\ cw_lm w = Mon (-1) [2; 0]%nat.
Proof. eexists. split; vm_compute; reflexivity. Qed.

(** For a monomial of a module component there is none. *)
Theorem C77_find_module t o n F J m : (0 < n)%nat -> o <> OAlex -> session t o n F J -> cj_isOne J = false -> 0 <= pos m ->
  cj_find false J (MArg m) = Ok (Ret None).
Proof.
  intros Hn Ho H Eo. apply (find_module t o n Hn Ho F J H). unfold cj_isOne, is_one in Eo. destruct (jone J); [discriminate|reflexivity].
Qed.
Print Assumptions C77_find_module.
Example C77_find_module_ex : cj_find false iv_J (MArg (Mon 0 [3; 0]%nat)) = Ok (Ret None).
Proof. reflexivity. Qed.

(** With isOne() it is the 1. *)
Theorem C77_find_one t o n F J m : (0 < n)%nat -> o <> OAlex -> session t o n F J -> cj_isOne J = true ->
  exists w, cj_find false J (MArg m) = Ok (Ret (Some w)) /\ basis J = [cw_poly w] /\ terms (cw_poly w) = one n.
Proof. intros Hn Ho. exact (find_one t o n Hn Ho F J m). Qed.
Print Assumptions C77_find_one.
Example C77_find_one_ex : exists w, cj_find false oj_J (MArg (Mon (-1) [3; 0]%nat)) = Ok (Ret (Some w)) /\ cw_lm w = Mon (-1) [0; 0]%nat.
Proof. eexists. split; vm_compute; reflexivity. Qed.

(** nf: the normal form of the polynomial; find gives nothing for its monomials, and 0 means membership. *)
Theorem C77_nf t o n F J a : (0 < n)%nat -> o <> OAlex -> session t o n F J -> ring_input t o n a ->
  exists N r, (forall fuel, (N <= fuel)%nat -> cj_nf fuel false J (PObj (Some a)) = Ok (Ret r)) /\ ring_input t o n r /\
    reduces_to n (among (basis J)) (terms a) (terms r) /\
    (cj_isOne J = false -> forall m c, In (m, c) (terms r) -> forall w, cj_find false J (MArg m) <> Ok (Ret (Some w))) /\
    (terms r = [] -> rational_member n (among F) (terms a)).
Proof. intros Hn Ho. exact (nf_ok t o n Hn Ho F J a). Qed.
Print Assumptions C77_nf.
Example C77_nf_ex : exists r, cj_nf 40 false iv_J (PObj (Some iv_f1)) = Ok (Ret r) /\ terms r = [].
Proof. eexists. split; vm_compute; reflexivity. Qed.

(** nf does not check that the polynomial has the order of the basis: the result may be no polynomial (x + y^5 gives x + x). *)
Theorem C77_nf_refuted : exists F J a r, session TOP ODegLex 2 F J /\ ring_input TOP OLex 2 a /\
  cj_comparable J (PObj (Some a)) = Ok (Ret false) /\ cj_nf 40 false J (PObj (Some a)) = Ok (Ret r) /\ ~ valid_poly r.
Proof.
  destruct nf_mixed as (r & E1 & E2 & V). exists [iv_f2; iv_f1], iv_J, mixed, r. split; [exact iv_session|]. split; [exact mixed_input|]. auto.
Qed.
Print Assumptions C77_nf_refuted.

(** j.nf(w.poly()) for an object w of the iteration reduces an element of the basis by itself: always undefined. *)
Theorem C77_nf_element t o n F J k fuel : (0 < n)%nat -> o <> OAlex -> session t o n F J -> cj_isOne J = false ->
  (k < length (basis J))%nat -> cj_nf_view fuel false J k = Undef.
Proof.
  intros Hn Ho H Eo. apply (nf_view_undef t o n Hn Ho F J H). unfold cj_isOne, is_one in Eo. destruct (jone J); [discriminate|reflexivity].
Qed.
Print Assumptions C77_nf_element.
Theorem C77_nf_element_refuted : exists F J, session TOP ODegLex 2 F J /\ (0 < length (basis J))%nat /\ cj_nf_view 40 false J 0 = Undef.
Proof. exists [iv_f2; iv_f1], iv_J. split; [exact iv_session|]. split; [vm_compute; lia|vm_compute; reflexivity]. Qed.
Print Assumptions C77_nf_element_refuted.

(** janet(-1).size() is len(); janet(p) of another p raises. *)
Theorem C77_janet t o n F J : (0 < n)%nat -> o <> OAlex -> session t o n F J -> cj_isOne J = false ->
  (0 < cj_len J -> cj_janet_size false J (-1) = Ok (Ret (cj_len J))) /\
  (forall p, p < -1 \/ 0 <= p -> cj_janet_size false J p = Ok (Raises AssertionError)).
Proof.
  intros Hn Ho H Eo. assert (E : jone J = None) by (unfold cj_isOne, is_one in Eo; destruct (jone J); [discriminate|reflexivity]). split.
  - intro L. apply (janet_size_ok t o n Hn Ho F J H E). unfold cj_len, is_one in L. rewrite E in L. intro X. rewrite X in L. cbn in L. lia.
  - exact (janet_size_raises t o n Hn Ho F J H E).
Qed.
Print Assumptions C77_janet.
Example C77_janet_ex : cj_janet_size false iv_J (-1) = Ok (Ret 3).
Proof. reflexivity. Qed.
Theorem C77_janet_refuted : exists F J, session TOP ODegLex 2 F J /\ cj_maxPos J = -1 /\ cj_janet_size false J (-1) = Undef.
Proof. exists [oj_f], oj_J. split; [apply oj_session|split; reflexivity]. Qed.
Print Assumptions C77_janet_refuted.

(** HilbertPoly counts the monomials without Janet divisor, as in C52. *)
Theorem C77_hilbert t o n F J : (0 < n)%nat -> o <> OAlex -> session t o n F J -> cj_isOne J = false -> basis J <> [] ->
  exists h, cj_hilbert false J = Ok (Ret h) /\ length h = S n /\ Forall lowest_terms h /\
    forall s, (forall g, In g (basis J) -> total (lead g) <= s)%nat ->
      exists k, number_of n s (fun m => forall u, ~ janet_divides n (map lead (basis J)) u m) k /\
        (peval h (inject_Z (Z.of_nat s)) == inject_Z (Z.of_nat k))%Q.
Proof.
  intros Hn Ho H Eo. apply (hilbert_ok t o n Hn Ho F J H). unfold cj_isOne, is_one in Eo. destruct (jone J); [discriminate|reflexivity].
Qed.
Print Assumptions C77_hilbert.
Example C77_hilbert_ex : exists h, cj_hilbert false iv_J = Ok (Ret h) /\ (peval h 5 == 3)%Q.
Proof. eexists. split; vm_compute; reflexivity. Qed.

(** build removes no element: a leading monomial stays, and with it the object seen through earlier iterations. *)
Theorem C77_build_keeps t o n F J fuel J' : (0 < n)%nat -> o <> OAlex -> session t o n F J -> cj_build fuel false J = Ok (Ret J') ->
  cj_isOne J' = false -> incl (map lead (basis J)) (map lead (basis J')).
Proof. intros Hn Ho. exact (build_keeps t o n Hn Ho F J fuel J'). Qed.
Print Assumptions C77_build_keeps.
Example C77_build_keeps_ex : exists J1 J2, cj_push false iv_J (PObj (Some (pol ODegLex 2 [([0;1]%nat, 1); ([0;0]%nat, -1)]))) = Ok (Ret J1) /\
  cj_build 40 false J1 = Ok (Ret J2) /\ map lead (basis J2) = [[0; 1]; [1; 0]; [0; 2]; [1; 1]; [2; 0]]%nat.
Proof. do 2 eexists. split; [vm_compute; reflexivity|]. split; vm_compute; reflexivity. Qed.
