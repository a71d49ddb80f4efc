(** C88 for algorithmTQ2: what reduction(), maxEqualLm(), critI(), critII() and isZeroNf() say after it. *)
From Coq Require Import ZArith List Bool Arith.
From Verif Require Import Outcome MonomModel MonomSpec PolyModel PolySpec JanetModel JanetPolyModel TQModel JanetPolySpec
  AncExamples CntModel CntSpec CntExamples Cnt2Model Cnt2Spec Cnt2Proofs Cnt2Crit Cnt2Examples.
Import ListNotations.
Local Open Scope Z_scope.

(** The counters change nothing. *)
Theorem C88_tq2_same : forall (fuel : nat) (dbg : bool) (s : jpoly * counts), forget (k_tq2 fuel dbg s) = jp_tq2 fuel dbg (fst s).
Proof. exact k_tq2_same. Qed.
Print Assumptions C88_tq2_same.

(** They never go down, and maxEqualLm() is not changed, whatever the polynomials are. *)
Theorem C88_tq2_monotone : forall (fuel : nat) (dbg : bool) (s : jpoly * counts) (J : jpoly2) (c' : counts),
  k_tq2 fuel dbg s = Ok (J, c') -> no_less (snd s) c' /\ n_equal c' = n_equal (snd s).
Proof. exact k_tq2_st. Qed.
Print Assumptions C88_tq2_monotone.

(** Every non-zero polynomial pushed is an element of the basis or counted by isZeroNf(), although all elements go back to Q
    when the degree falls. *)
Theorem C88_tq2_elements : forall (t : pos_order) (o : base_order) (n : nat) (F : list poly) (s : jpoly * counts) (fuel : nat) (J : jpoly2) (c' : counts),
  (0 < n)%nat -> o <> OAlex -> k_history t o n (eq ATQ1) F s -> k_tq2 fuel false s = Ok (J, c') -> j2one J = None ->
  (nonzero F <= length (basis2 J) + n_zero c')%nat.
Proof. exact c88_tq2_elements. Qed.
Print Assumptions C88_tq2_elements.

(** If it has counted no reduction, the basis consists of the polynomials pushed, multiplied by monomials. *)
Theorem C88_tq2_reduction : forall (t : pos_order) (o : base_order) (n : nat) (F : list poly) (s : jpoly * counts) (fuel : nat) (J : jpoly2) (c' : counts),
  k_history t o n (fun _ => False) F s -> k_tq2 fuel false s = Ok (J, c') -> n_red c' = 0%nat -> j2one J = None ->
  forall p, In p (basis2 J) -> exists f, In f F /\ monomial_multiple n f p.
Proof. exact c88_tq2_red. Qed.
Print Assumptions C88_tq2_reduction.

(** When it takes elements from Q, reduction() grows by the reductions of those that do not become zero, and isZeroNf() by the
    number of those that do. *)
Theorem C88_tq2_taken : forall (fuel : nat) (dbg : bool) (find : monom -> outcome (option poly)) (dg : nat) (q tmp : list wpoly) (c : counts)
    (q1 tmp1 : list wpoly) (c1 : counts), k_take2 fuel dbg find dg q tmp c = Ok (Some (q1, tmp1), c1) ->
  exists taken, q = taken ++ q1 /\ n_red c1 = (n_red c + both_steps fuel dbg find taken)%nat /\ n_zero c1 = (n_zero c + zeros fuel dbg find taken)%nat.
Proof. exact c88_tq2_taken. Qed.
Print Assumptions C88_tq2_taken.
Example C88_tq2_taken_case : exists q1 tmp1, k_take2 9 false ct_find 2 [c2_y; ct_wait] [] counts0 = Ok (Some (q1, tmp1), Cnt 1 0 0 0 1) /\
  both_steps 9 false ct_find [c2_y; ct_wait] = 1%nat /\ zeros 9 false ct_find [c2_y; ct_wait] = 1%nat.
Proof. exact c2_taken. Qed.

(** The prolongations of an element w that is not in the trees: critI() grows by the number of those the first criterion rejects,
    critII() by the number of those only the second one rejects, and the others become new elements of Q. *)
Theorem C88_tq2_criteria : forall (dbg : bool) (mpos : Z) (js : list janet) (w : wrap) (p : poly) (q : list wpoly) (c : counts) (w1 : wrap) (q' : list wpoly) (c' : counts),
  k_prolong_det dbg mpos (size (wlm w)) 0 js w p q c = Ok (w1, q', c') ->
  n_critI c' = (n_critI c + how_many (fun i => considered w i && criterion1 dbg mpos js w i) (size (wlm w)))%nat /\
  n_critII c' = (n_critII c + how_many (fun i => considered w i && (negb (criterion1 dbg mpos js w i) && criterion2 dbg mpos js w i)) (size (wlm w)))%nat /\
  length q' = (length q + how_many (fun i => considered w i && (negb (criterion1 dbg mpos js w i) && negb (criterion2 dbg mpos js w i))) (size (wlm w)))%nat.
Proof. exact c88_tq2_criteria. Qed.
Print Assumptions C88_tq2_criteria.
Example C88_tq2_criteria_case : (exists w1, k_prolong_det false (-1) (size (wlm ct_w)) 0 ct_js ct_w an_x2 [] counts0 = Ok (w1, [], inc_critI counts0)) /\
  how_many (fun i => considered ct_w i && criterion1 false (-1) ct_js ct_w i) 2 = 1%nat.
Proof. exact c2_crit. Qed.

(** x^2, x^2 and y^2: no reduction, one prolongation skipped, one zero, three elements.  x^2 and x^2 + y: one reduction. *)
Example C88_tq2_case : k_history TOP ODegLex 2 (eq ATQ1) [an_y2; an_x2; an_x2] (c2_s [an_x2; an_x2; an_y2]) /\
  k_tq2 60 false (c2_s [an_x2; an_x2; an_y2]) = Ok (c2 [an_x2; an_x2; an_y2]) /\ j2one (fst (c2 [an_x2; an_x2; an_y2])) = None /\
  snd (c2 [an_x2; an_x2; an_y2]) = Cnt 0 0 1 0 1 /\ length (j2t (fst (c2 [an_x2; an_x2; an_y2]))) = 3%nat.
Proof. exact c2_case1. Qed.
Example C88_tq2_case2 : k_history TOP ODegLex 2 (fun _ => False) [an_y2; an_x2; an_x2] (c2_s [an_x2; an_x2; an_y2]) /\
  snd (c2 [an_x2; ct_x2y]) = Cnt 1 0 1 0 0 /\ length (basis2 (fst (c2 [an_x2; ct_x2y]))) = 3%nat.
Proof. exact (conj c2_case2 c2_case3). Qed.
