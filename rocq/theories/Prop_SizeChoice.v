(** C106: norm() in the completion algorithms. *)
From Coq Require Import ZArith List Bool Permutation.
From Verif Require Import Outcome MonomModel JanetModel PolyModel JanetPolyModel TQModel SizeModel SizeChoice.
Import ListNotations.
Local Open Scope Z_scope.

(** build: of the elements w, l with one leading monomial, the first of minimal norm reduces the others,
    which keep their order. *)
Theorem C106_choice : forall (w : wpoly) (l : list wpoly) (v : wpoly) (r : list wpoly), min_norm w [] l = (v, r) ->
  exists l1 l2, w :: l = l1 ++ v :: l2 /\ r = l1 ++ l2 /\
    Forall (fun u => p_norm (wpol v) < p_norm (wpol u)) l1 /\ Forall (fun u => p_norm (wpol v) <= p_norm (wpol u)) l2.
Proof. exact c106_choice. Qed.
Print Assumptions C106_choice.

(** algorithmTQ, algorithmTQ1 and algorithmTQ2: one of minimal norm, and no element is lost. *)
Theorem C106_choice_tq : forall (l : list wpoly) (w v : wpoly) (r : list wpoly), swap_min w l = (v, r) ->
  Permutation (w :: l) (v :: r) /\ p_norm (wpol v) <= p_norm (wpol w) /\ Forall (fun u => p_norm (wpol v) <= p_norm (wpol u)) r.
Proof. exact c106_swap. Qed.
Print Assumptions C106_choice_tq.

(** 2^64 x + 1, x + 1, x + 2, x: the last is chosen. *)
Example C106_choice_ex :
  let x := Mon (-1) [1%nat] in let e := Mon (-1) [0%nat] in
  let f l := WP (new_wrap x) (Poly TOP OLex 1 l) in
  let a := f [(x, 2 ^ 64); (e, 1)] in let b := f [(x, 1); (e, 1)] in let c := f [(x, 1); (e, 2)] in let d := f [(x, 1)] in
  min_norm a [] [b; c; d] = (d, [a; b; c]) /\ min_norm a [] [b; c] = (b, [a; c]) /\ swap_min a [b; c; d] = (d, [a; c; b]) .
Proof. repeat split. Qed.
