(** C82 and C96 for algorithmTQ2 (release build; lex and deglex; ring polynomials).  After it nf works with the elements in the tree. *)
From Coq Require Import ZArith List Bool Arith Lia.
From Verif Require Import Outcome MonomModel MonomSpec PolyModel PolySpec JanetModel JanetSpec JanetPolyModel TQModel JanetPolySpec
  JanetPolyExamples TQExamples InvolutiveExamples NormalSpec NormalExamples ClosedSpec ClosedExamples TQ2HPModel TQ2HPSpec TQ2HPExamples TQ2Normal ClosedTQ2.
Import ListNotations.
Local Open Scope Z_scope.

(* ---- C82 ---- *)
Theorem C82_tq2_representative : forall (t : pos_order) (o : base_order) (n : nat), (0 < n)%nat -> o <> OAlex ->
  forall (F : list poly) (J : jpoly) (fuel : nat) (J' : jpoly2), jp_history false t o n F J -> jp_tq2 fuel false J = Ok J' ->
  forall (a : poly) (fuel' : nat) (r : poly), ring_input t o n a -> jp2_nf fuel' false J' a = Ok r ->
  ring_input t o n r /\ same_class n (tree_part J') (terms a) (terms r) /\ irreducible n (tree_part J') (terms r) /\ (terms r = [] \/ primitive (terms r)).
Proof. exact n2_nf. Qed.
Print Assumptions C82_tq2_representative.

Theorem C82_tq2_decides_class : forall (t : pos_order) (o : base_order) (n : nat), (0 < n)%nat -> o <> OAlex ->
  forall (F : list poly) (J : jpoly) (fuel : nat) (J' : jpoly2), jp_history false t o n F J -> jp_tq2 fuel false J = Ok J' ->
  forall (a b : poly) (fa fb : nat) (r s : poly), ring_input t o n a -> ring_input t o n b ->
  jp2_nf fa false J' a = Ok r -> jp2_nf fb false J' b = Ok s ->
  (plus_minus (terms r) (terms s) <-> same_class n (tree_part J') (terms a) (terms b)).
Proof. exact n2_class. Qed.
Print Assumptions C82_tq2_decides_class.

Theorem C82_tq2_decides_zero : forall (t : pos_order) (o : base_order) (n : nat), (0 < n)%nat -> o <> OAlex ->
  forall (F : list poly) (J : jpoly) (fuel : nat) (J' : jpoly2), jp_history false t o n F J -> jp_tq2 fuel false J = Ok J' ->
  forall (a : poly) (fuel' : nat) (r : poly), ring_input t o n a -> jp2_nf fuel' false J' a = Ok r ->
  (terms r = [] <-> exists k q, k <> 0 /\ inv_span n (tree_part J') q /\ forall m, coef q m = k * coef (terms a) m).
Proof. exact n2_zero. Qed.
Print Assumptions C82_tq2_decides_zero.

Theorem C82_tq2_idempotent : forall (t : pos_order) (o : base_order) (n : nat), (0 < n)%nat -> o <> OAlex ->
  forall (F : list poly) (J : jpoly) (fuel : nat) (J' : jpoly2), jp_history false t o n F J -> jp_tq2 fuel false J = Ok J' ->
  forall (a : poly) (fa fr : nat) (r r' : poly), ring_input t o n a -> jp2_nf fa false J' a = Ok r -> jp2_nf fr false J' r = Ok r' -> r' = r.
Proof. exact n2_again. Qed.
Print Assumptions C82_tq2_idempotent.

(** 2 x^3 + 4 y has the normal form 2 y + 1, -3 x y - 6 y has -2 y - 1. *)
Example C82_tq2_ex : jp_history false TOP ODegLex 2 [iv_f2; iv_f1] th_J0 /\ jp_tq2 60 false th_J0 = Ok th_J2 /\
  ring_input TOP ODegLex 2 no_a /\ ring_input TOP ODegLex 2 no_b /\ jp2_nf 40 false th_J2 no_a = Ok no_r /\ jp2_nf 40 false th_J2 no_b = Ok no_s.
Proof.
  destruct th_case as (A & _). split; [exact A|]. split; [vm_compute; reflexivity|]. split; [apply no_in|]. split; [apply no_in|]. split; vm_compute; reflexivity.
Qed.

(* ---- C96 ---- *)
Theorem C96_tq2_class : forall (t : pos_order) (o : base_order) (n : nat), (0 < n)%nat -> o <> OAlex ->
  forall P : list (monom * Z) -> Prop, closed_class t o n P ->
  forall (F : list poly) (J : jpoly) (fuel : nat) (J' : jpoly2), jp_history false t o n F J -> Forall (fun f => P (terms f)) F -> jp_tq2 fuel false J = Ok J' ->
  forall g, In g (basis2 J') -> P (terms g).
Proof. exact c96_tq2_basis. Qed.
Print Assumptions C96_tq2_class.

Theorem C96_tq2_class_nf : forall (t : pos_order) (o : base_order) (n : nat), (0 < n)%nat -> o <> OAlex ->
  forall P : list (monom * Z) -> Prop, closed_class t o n P ->
  forall (F : list poly) (J : jpoly) (fuel : nat) (J' : jpoly2), jp_history false t o n F J -> Forall (fun f => P (terms f)) F -> jp_tq2 fuel false J = Ok J' ->
  forall (D : list (monom * Z) -> Prop) (a : poly) (fuel' : nat) (r : poly), kept_by_elimination t o n P D -> kept_by_factors t o n D ->
  ring_input t o n a -> D (terms a) -> jp2_nf fuel' false J' a = Ok r -> terms r = [] \/ D (terms r).
Proof. exact c96_tq2_nf. Qed.
Print Assumptions C96_tq2_class_nf.

Theorem C96_tq2_homogeneous : forall (t : pos_order) (o : base_order) (n : nat), (0 < n)%nat -> o <> OAlex ->
  forall (F : list poly) (J : jpoly) (fuel : nat) (J' : jpoly2), jp_history false t o n F J -> jp_tq2 fuel false J = Ok J' ->
  forall R : list nat -> list nat -> Prop, congruence n R -> Forall (fun f => homogeneous R (terms f)) F ->
  (forall g, In g (basis2 J') -> homogeneous R (terms g)) /\
  forall a u fuel' r, ring_input t o n a -> all_in_class R u (terms a) -> jp2_nf fuel' false J' a = Ok r -> all_in_class R u (terms r).
Proof. exact c96_tq2_homogeneous. Qed.
Print Assumptions C96_tq2_homogeneous.

Theorem C96_tq2_binomials : forall (t : pos_order) (o : base_order) (n : nat), (0 < n)%nat -> o <> OAlex ->
  forall (F : list poly) (J : jpoly) (fuel : nat) (J' : jpoly2), jp_history false t o n F J -> jp_tq2 fuel false J = Ok J' ->
  Forall (fun f => (length (terms f) <= 2)%nat) F ->
  (forall g, In g (basis2 J') -> (length (terms g) <= 2)%nat) /\
  forall a fuel' r, ring_input t o n a -> jp2_nf fuel' false J' a = Ok r -> (length (terms r) <= length (terms a))%nat.
Proof. exact c96_tq2_binomials. Qed.
Print Assumptions C96_tq2_binomials.

Theorem C96_tq2_variables : forall (t : pos_order) (o : base_order) (n : nat), (0 < n)%nat -> o <> OAlex ->
  forall (F : list poly) (J : jpoly) (fuel : nat) (J' : jpoly2), jp_history false t o n F J -> jp_tq2 fuel false J = Ok J' ->
  forall V : nat -> Prop, Forall (fun f => only_variables V (terms f)) F ->
  (forall g, In g (basis2 J') -> only_variables V (terms g)) /\
  forall a fuel' r, ring_input t o n a -> only_variables V (terms a) -> jp2_nf fuel' false J' a = Ok r -> only_variables V (terms r).
Proof. exact c96_tq2_variables. Qed.
Print Assumptions C96_tq2_variables.

Theorem C96_tq2_word_nf : forall (t : pos_order) (o : base_order) (n : nat), (0 < n)%nat -> o <> OAlex ->
  forall (F : list poly) (J : jpoly) (fuel : nat) (J' : jpoly2), jp_history false t o n F J -> jp_tq2 fuel false J = Ok J' ->
  forall (E : list (list nat * list nat)) (a : poly) (u : list nat) (fuel' : nat) (r : poly), Forall2 (difference_of n) F E ->
  ring_input t o n a -> terms a = [(Mon (-1) u, 1)] -> jp2_nf fuel' false J' a = Ok r ->
  exists w s, terms r = [(Mon (-1) w, s)] /\ (s = 1 \/ s = -1) /\ length w = n /\ generated n E u w.
Proof. exact c96_tq2_word. Qed.
Print Assumptions C96_tq2_word_nf.

(** x^2 - y and x y - 1 are homogeneous modulo 3 with the weights 1, 2; x^4 has the normal form x.  x y^2 + x and x y + 1, where one
    of the elements found is outside the tree, are binomials. *)
Example C96_tq2_ex : jp_history false TOP ODegLex 2 [iv_f2; iv_f1] th_J0 /\ jp_tq2 60 false th_J0 = Ok th_J2 /\
  Forall (fun f => homogeneous (same_weight [1; 2] 3) (terms f)) [iv_f2; iv_f1] /\
  (exists r, jp2_nf 40 false th_J2 (pol ODegLex 2 [([4;0]%nat, 1)]) = Ok r /\ terms r = [(Mon (-1) [1;0]%nat, 1)]) /\
  jp_history false TOP ODegLex 2 [t2_f2; t2_f1] t2_J0 /\ jp_tq2 30 false t2_J0 = Ok t2_J /\ ~ all_in_trees t2_J /\
  map (fun g => length (terms g)) [t2_f2; t2_f1] = [2; 2]%nat /\ map (fun g => length (terms g)) (basis2 t2_J) = [2; 2; 2]%nat.
Proof.
  destruct th_case as (A & _). split; [exact A|]. split; [vm_compute; reflexivity|]. split; [exact cl_homog|].
  split; [eexists; split; vm_compute; reflexivity|]. split; [exact t2_history|]. split; [vm_compute; reflexivity|]. split; [|split; vm_compute; reflexivity].
  intro X. assert (Y : Forall (fun x => exists e, x = Att e) (j2t t2_J)) by (apply Forall_forall; exact X). vm_compute in Y.
  apply Forall_inv_tail in Y. apply Forall_inv in Y. destruct Y as (e & Y). discriminate.
Qed.
