(** C106: norm() of a polynomial. *)
From Coq Require Import ZArith List Bool Lia.
From Verif Require Import Outcome MonomModel MonomSpec PolyModel PolySpec JanetPolyModel SizeModel SizeSpec SizeProofs.
Import ListNotations.
Local Open Scope Z_scope.

(** norm() answers n exactly if the coefficients have n words of 64 bits in total and n is an int. *)
Theorem C106_norm : forall (p : poly) (n : Z), p_norm_int p = Ok n <-> total_words (terms p) n /\ n <= int_max.
Proof. exact c106_norm. Qed.
Print Assumptions C106_norm.

(** Otherwise the coefficients have more words and the sum overflows. *)
Theorem C106_overflow : forall p : poly, (exists n, p_norm_int p = Ok n) \/
  (p_norm_int p = Undef /\ exists n, total_words (terms p) n /\ int_max < n).
Proof. exact c106_outcome. Qed.
Print Assumptions C106_overflow.

(** Two terms are enough for it, with coefficients GMP can hold. *)
Theorem C106_overflow_refuted : exists p : poly, valid_poly p /\ Forall (fun x => holdable (snd x)) (terms p) /\
  length (terms p) = 2%nat /\ p_norm_int p = Undef.
Proof. exact c106_refuted. Qed.
Print Assumptions C106_overflow_refuted.

(** The number of terms is a lower bound; it is the norm if and only if all coefficients fit in one word. *)
Theorem C106_length : forall (p : poly) (n : Z), valid_poly p -> p_norm_int p = Ok n ->
  Z.of_nat (length (terms p)) <= n /\
  (n = Z.of_nat (length (terms p)) <-> Forall (fun x => Z.abs (snd x) < 2 ^ 64) (terms p)).
Proof. exact c106_length. Qed.
Print Assumptions C106_length.

(** The sign does not matter, and removing the common divisor never makes the norm larger. *)
Theorem C106_minus : forall (dbg : bool) (p r : poly), p_minus dbg p = Ok r -> p_norm_int r = p_norm_int p.
Proof. exact c106_minus. Qed.
Print Assumptions C106_minus.
Theorem C106_pp : forall (dbg : bool) (p r : poly) (n : Z), p_pp dbg p = Ok r -> p_norm_int p = Ok n ->
  exists n', p_norm_int r = Ok n' /\ n' <= n.
Proof. exact c106_pp. Qed.
Print Assumptions C106_pp.

(** 2^64 x - 6: three words; without the divisor 2 two. *)
Example C106_ex :
  let p := Poly TOP OLex 1 [(Mon (-1) [1%nat], 2 ^ 64); (Mon (-1) [0%nat], -6)] in
  p_norm_int p = Ok 3 /\ (exists r, p_pp true p = Ok r /\ p_norm_int r = Ok 2) /\
  total_words (terms p) (2 + (1 + 0)) /\ valid_poly p.
Proof.
  intro p. split; [reflexivity|]. split; [eexists; split; reflexivity|]. split.
  - apply total_cons; [right; split; [lia|split; [vm_compute; discriminate|reflexivity]]|].
    apply total_cons; [right; split; [lia|split; [vm_compute; discriminate|reflexivity]]|constructor].
  - apply PolyProofs.canonical_iff. split; [repeat constructor|]. split; repeat constructor; vm_compute; try reflexivity; discriminate.
Qed.
