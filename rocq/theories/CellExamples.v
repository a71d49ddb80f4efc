(** Examples for C101. *)
From Coq Require Import ZArith List Bool.
From Verif Require Import Outcome MonomModel MonomSpec PolyModel PolySpec PolyProofs.
Import ListNotations.
Local Open Scope Z_scope.

Definition x2 := Mon (-1) [2; 0]%nat.
Definition xy := Mon (-1) [1; 1]%nat.
Definition x1 := Mon (-1) [1; 0]%nat.
Definition y1 := Mon (-1) [0; 1]%nat.
(** p = x^2 + y, q = x + y, in the order deglex *)
Definition p_ex := Poly TOP ODegLex 2 [(x2, 1); (y1, 1)].
Definition q_ex := Poly TOP ODegLex 2 [(x1, 1); (y1, 1)].
(** r = x^2 + x, s = x + 1 *)
Definition r_ex := Poly TOP ODegLex 2 [(x2, 1); (x1, 1)].
Definition s_ex := Poly TOP ODegLex 2 [(x1, 1); (Mon (-1) [0; 0]%nat, 1)].


Lemma valid_by p : monos (psize p) (terms p) -> valid_terms (pto p) (pbo p) (terms p) = true -> valid_poly p.
Proof. intros M V. apply (valid_terms_spec _ _ (psize p) _ M) in V as [S N]. apply canonical_iff. auto. Qed.
Ltac small := apply valid_by; [repeat constructor; discriminate|reflexivity].
Lemma p_valid : valid_poly p_ex. Proof. small. Qed.
Lemma q_valid : valid_poly q_ex. Proof. small. Qed.
Lemma r_valid : valid_poly r_ex. Proof. small. Qed.
Lemma s_valid : valid_poly s_ex. Proof. small. Qed.
