(** C88: what reduction(), maxEqualLm(), critI(), critII() and isZeroNf() of a basis say. *)
From Coq Require Import ZArith List Bool Arith.
From Verif Require Import Outcome MonomModel MonomSpec PolyModel PolySpec JanetModel JanetPolyModel TQModel JanetPolySpec
  CyMonomModel CyJanetModel AncExamples CntModel CntSpec CntProofs CntTop CntRed CntCrit CntExamples.
Import ListNotations.
Local Open Scope Z_scope.

(** The counters change nothing: the algorithms are those of the other theorems. *)
Theorem C88_same : forall (x : algorithm) (fuel : nat) (dbg : bool) (s : jpoly * counts),
  forget (k_run x fuel dbg s) = run_algorithm x fuel dbg (fst s).
Proof. exact k_run_same. Qed.
Print Assumptions C88_same.

(** They never go down. *)
Theorem C88_monotone : forall (x : algorithm) (fuel : nat) (dbg : bool) (s s' : jpoly * counts),
  k_run x fuel dbg s = Ok s' -> no_less (snd s) (snd s').
Proof. exact k_run_more. Qed.
Print Assumptions C88_monotone.

(** With algorithmTQ1 nothing is forgotten: every polynomial pushed and every prolongation marked as built is in the basis, is still
    waiting, was skipped by a criterion, or became zero. *)
Theorem C88_balance : forall (t : pos_order) (o : base_order) (n : nat), (0 < n)%nat -> o <> OAlex ->
  forall (F : list poly) (s : jpoly * counts) (ws : list wpoly), k_history t o n (eq ATQ1) F s -> jone (fst s) = None -> cj_iter (fst s) = Ok (Ret ws) ->
  (nonzero F + built ws = length ws + length (jq (fst s)) + n_critI (snd s) + n_critII (snd s) + n_zero (snd s))%nat.
Proof. exact c88_balance. Qed.
Print Assumptions C88_balance.

(** Whatever algorithms are called, no element is counted twice, and a criterion is applied to a prolongation at most once. *)
Theorem C88_bound : forall (t : pos_order) (o : base_order) (n : nat), (0 < n)%nat -> o <> OAlex ->
  forall (A : algorithm -> Prop) (F : list poly) (s : jpoly * counts) (ws : list wpoly), k_history t o n A F s -> jone (fst s) = None -> cj_iter (fst s) = Ok (Ret ws) ->
  (length ws + length (jq (fst s)) + n_critI (snd s) + n_critII (snd s) + n_zero (snd s) <= nonzero F + built ws)%nat /\
  (n_critI (snd s) + n_critII (snd s) <= built ws)%nat.
Proof. exact c88_bound. Qed.
Print Assumptions C88_bound.

(** If algorithmTQ has counted no reduction, the basis consists of the polynomials pushed, multiplied by monomials. *)
Theorem C88_reduction : forall (t : pos_order) (o : base_order) (n : nat) (F : list poly) (s : jpoly * counts),
  k_history t o n (eq ATQ) F s -> n_red (snd s) = 0%nat ->
  forall p, In p (basis (fst s)) -> jone (fst s) = None -> exists f, In f F /\ monomial_multiple n f p.
Proof. exact c88_reduction. Qed.
Print Assumptions C88_reduction.

(** isZeroNf() is 0 as long as only build() and algorithmTQ are called, ... *)
Theorem C88_zero : forall (t : pos_order) (o : base_order) (n : nat) (A : algorithm -> Prop) (F : list poly) (s : jpoly * counts),
  k_history t o n A F s -> ~ A ATQ1 -> n_zero (snd s) = 0%nat.
Proof. exact kh_zero. Qed.
Print Assumptions C88_zero.
(** ... although elements become zero. *)
Theorem C88_zero_refuted : forall x : algorithm, x <> ATQ1 ->
  exists F s ws, k_history TOP ODegLex 2 (eq x) F s /\ jone (fst s) = None /\ jq (fst s) = [] /\ cj_iter (fst s) = Ok (Ret ws) /\
  (length ws + n_critI (snd s) + n_critII (snd s) + n_zero (snd s) < nonzero F + built ws)%nat.
Proof. exact ct_zero. Qed.
Print Assumptions C88_zero_refuted.

(** maxEqualLm() is 0 as long as only build() is called. *)
Theorem C88_equal : forall (t : pos_order) (o : base_order) (n : nat) (A : algorithm -> Prop) (F : list poly) (s : jpoly * counts),
  k_history t o n A F s -> ~ A ATQ1 -> ~ A ATQ -> n_equal (snd s) = 0%nat.
Proof. exact kh_equal. Qed.
Print Assumptions C88_equal.

(** With the other algorithms it is at least 1 as soon as there is a basis, and never more than the number of polynomials there were. *)
Theorem C88_equal_least : forall (t : pos_order) (o : base_order) (n : nat) (A : algorithm -> Prop) (F : list poly) (s : jpoly * counts),
  k_history t o n A F s -> ~ A ABuild -> jone (fst s) = None -> basis (fst s) <> [] -> (1 <= n_equal (snd s))%nat.
Proof. exact c88_equal_least. Qed.
Print Assumptions C88_equal_least.
Theorem C88_equal_most : forall (t : pos_order) (o : base_order) (n : nat), (0 < n)%nat -> o <> OAlex ->
  forall (A : algorithm -> Prop) (F : list poly) (s : jpoly * counts) (ws : list wpoly), k_history t o n A F s -> jone (fst s) = None -> cj_iter (fst s) = Ok (Ret ws) ->
  (n_equal (snd s) <= nonzero F + built ws)%nat.
Proof. exact c88_equal_most. Qed.
Print Assumptions C88_equal_most.

(** When the prolongations of an element w of the trees are considered, critI() grows by the number of those the first criterion
    rejects, critII() by the number of those only the second one rejects, and the others become new elements of Q. *)
Theorem C88_criteria : forall (dbg : bool) (mpos : Z) (n : nat) (js : list janet) (w : wrap) (p : poly) (q : list wpoly) (c : counts) (js' : list janet) (q' : list wpoly) (c' : counts),
  NoDup (map wlm (concat (map (fun J => wraps (jroot J)) js))) -> (forall u, In u (concat (map (fun J => wraps (jroot J)) js)) -> size (wlm u) = n) ->
  In w (concat (map (fun J => wraps (jroot J)) js)) -> k_prolong dbg mpos (size (wlm w)) 0 js w p q c = Ok (js', q', c') ->
  n_critI c' = (n_critI c + how_many (fun i => considered w i && criterion1 dbg mpos js w i) (size (wlm w)))%nat /\
  n_critII c' = (n_critII c + how_many (fun i => considered w i && (negb (criterion1 dbg mpos js w i) && criterion2 dbg mpos js w i)) (size (wlm w)))%nat /\
  length q' = (length q + how_many (fun i => considered w i && (negb (criterion1 dbg mpos js w i) && negb (criterion2 dbg mpos js w i))) (size (wlm w)))%nat.
Proof. exact c88_criteria. Qed.
Print Assumptions C88_criteria.
Example C88_criteria_case : NoDup (map wlm (concat (map (fun J => wraps (jroot J)) ct_js))) /\ (forall u, In u (concat (map (fun J => wraps (jroot J)) ct_js)) -> size (wlm u) = 2%nat) /\
  In ct_w (concat (map (fun J => wraps (jroot J)) ct_js)) /\
  (exists js', k_prolong false (-1) (size (wlm ct_w)) 0 ct_js ct_w an_x2 [] counts0 = Ok (js', [], inc_critI counts0)) /\
  how_many (fun i => considered ct_w i && criterion1 false (-1) ct_js ct_w i) 2 = 1%nat.
Proof. exact ct_crit. Qed.

(** build() and algorithmTQ1 can count no reduction although x^2 + y has become y. *)
Theorem C88_reduction_refuted : forall x : algorithm, x <> ATQ ->
  exists F s p, k_history TOP ODegLex 2 (eq x) F s /\ jone (fst s) = None /\ n_red (snd s) = 0%nat /\ In p (basis (fst s)) /\
  forall f, In f F -> ~ monomial_multiple 2 f p.
Proof. exact ct_red. Qed.
Print Assumptions C88_reduction_refuted.

(** When build() takes elements from Q, reduction() grows by the number of tail reductions of the elements taken. *)
Theorem C88_taken : forall (fuel : nat) (dbg : bool) (find : monom -> outcome (option poly)) (dg : nat) (q tmp : list wpoly) (c : counts)
    (q1 tmp1 : list wpoly) (c1 : counts), k_take_block fuel dbg find dg q tmp c = Ok (Some (q1, tmp1), c1) ->
  exists taken, q = taken ++ q1 /\ n_red c1 = (n_red c + all_steps fuel dbg find taken)%nat.
Proof. exact c88_taken. Qed.
Print Assumptions C88_taken.
(** x^2 + y with y in the basis *)
Example C88_taken_case : exists q1 tmp1, k_take_block 9 false ct_find 2 [ct_wait] [] counts0 = Ok (Some (q1, tmp1), add_red 1 counts0) /\
  all_steps 9 false ct_find [ct_wait] = 1%nat.
Proof. exact ct_taken. Qed.

(** x^2, x^2 and y^2 with algorithmTQ1; x^2 and y^2 with algorithmTQ. *)
Example C88_case : k_history TOP ODegLex 2 (eq ATQ1) [an_y2; an_x2; an_x2] (ct ATQ1 [an_x2; an_x2; an_y2]) /\
  (let s := ct ATQ1 [an_x2; an_x2; an_y2] in jone (fst s) = None /\ cj_iter (fst s) = Ok (Ret (shown (fst s))) /\ length (shown (fst s)) = 3%nat /\
   built (shown (fst s)) = 2%nat /\ n_critI (snd s) = 1%nat /\ n_critII (snd s) = 0%nat /\ n_zero (snd s) = 1%nat /\ n_equal (snd s) = 2%nat) /\
  k_history TOP ODegLex 2 (eq ATQ) [an_y2; an_x2] (ct ATQ [an_x2; an_y2]) /\
  (let s := ct ATQ [an_x2; an_y2] in jone (fst s) = None /\ n_red (snd s) = 0%nat /\ length (basis (fst s)) = 3%nat) /\
  n_red (snd (ct ATQ [ct_f1; ct_f2])) = 1%nat.
Proof. exact (conj ct_h1 (conj ct_v1 (conj ct_h2 (conj ct_v2 ct_v3)))). Qed.
