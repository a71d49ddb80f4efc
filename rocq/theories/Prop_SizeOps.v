(** C106: how norm() grows. *)
From Coq Require Import ZArith List Bool.
From Verif Require Import Outcome MonomModel PolyModel PolySpec SizeModel SizeOps.
Import ListNotations.
Local Open Scope Z_scope.

Theorem C106_add : forall (dbg : bool) (p a r : poly) (x y n : Z), valid_poly p -> valid_poly a -> p_add dbg p a = Ok r ->
  p_norm_int p = Ok x -> p_norm_int a = Ok y -> p_norm_int r = Ok n -> n <= x + y.
Proof. exact c106_add. Qed.
Print Assumptions C106_add.
Theorem C106_sub : forall (dbg : bool) (p a r : poly) (x y n : Z), valid_poly p -> valid_poly a -> p_sub dbg p a = Ok r ->
  p_norm_int p = Ok x -> p_norm_int a = Ok y -> p_norm_int r = Ok n -> n <= x + y.
Proof. exact c106_sub. Qed.
Print Assumptions C106_sub.
Theorem C106_mult : forall (dbg : bool) (p a r : poly) (x y n : Z), valid_poly p -> valid_poly a -> p_mult dbg p a = Ok r ->
  p_norm_int p = Ok x -> p_norm_int a = Ok y -> p_norm_int r = Ok n ->
  n <= Z.of_nat (length (terms a)) * x + Z.of_nat (length (terms p)) * y.
Proof. exact c106_mult. Qed.
Print Assumptions C106_mult.

(** (2^64-1) x + 1 plus x has a coefficient of two words: 3 <= 2 + 1; its square has norm 5 <= 2 * 2 + 2 * 2. *)
Example C106_ops_ex :
  let p := Poly TOP OLex 1 [(Mon (-1) [1%nat], 2 ^ 64 - 1); (Mon (-1) [0%nat], 1)] in
  let a := Poly TOP OLex 1 [(Mon (-1) [1%nat], 1)] in
  p_norm_int p = Ok 2 /\ p_norm_int a = Ok 1 /\
  (exists r, p_add true p a = Ok r /\ p_norm_int r = Ok 3) /\ (exists r, p_mult true p p = Ok r /\ p_norm_int r = Ok 5) /\
  valid_poly p /\ valid_poly a.
Proof.
  intros p a. split; [reflexivity|]. split; [reflexivity|]. split; [eexists; split; [vm_compute; reflexivity|reflexivity]|].
  split; [eexists; split; [vm_compute; reflexivity|reflexivity]|].
  split; apply PolyProofs.canonical_iff; (split; [repeat constructor|split; repeat constructor; vm_compute; try reflexivity; discriminate]).
Qed.
