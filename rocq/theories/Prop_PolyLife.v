(** C42: terms of a polynomial over its whole life. *)
From Coq Require Import ZArith List Bool Arith.
From Verif Require Import Outcome MonomModel PolyModel PolyMemModel PolyMemSpec PolyLifeModel PolyLifeSpec PolyLifeProofs.
Import ListNotations.
Local Open Scope Z_scope.

(** A power loses no term: held before plus taken = held after plus given back. *)
Theorem C42_pow : forall (dbg : bool) (p : poly) (k : nat) (r : poly), p_pow dbg p k = Ok r ->
  let c := pow_mem (pto p) (pbo p) (terms p) k in
  res c = terms r /\ (length (terms p) + taken c = length (terms r) + given c)%nat.
Proof. exact c42_pow. Qed.
Print Assumptions C42_pow.

(** A constructor takes exactly the terms of the new object. *)
Theorem C42_new : forall (dbg : bool) (c : counted) (r : poly), obj_new dbg c r ->
  res c = terms r /\ taken c = (length (terms r) + given c)%nat.
Proof. exact c42_new. Qed.
Print Assumptions C42_new.

(** From a constructor through any calls to the destructor: all that was taken is given back, but for
    what the products by one term lost, all terms but one of the multiplied polynomial each. *)
Theorem C42_life : forall (dbg : bool) (k g x : nat) (r : poly), obj_life dbg k g x r ->
  k = (g + given (clear_mem (terms r)) + x)%nat.
Proof. exact c42_obj_life. Qed.
Print Assumptions C42_life.

(** (x + 1)^2: 2 terms copied, 4 made by the product; one merged, 2 of the copy and the 2 old ones freed. *)
Example C42_pow_ex :
  let c := pow_mem TOP OLex [(Mon (-1) [1%nat], 1); (Mon (-1) [0%nat], 1)] 2 in
  res c = [(Mon (-1) [2%nat], 1); (Mon (-1) [1%nat], 2); (Mon (-1) [0%nat], 1)] /\ taken c = 6%nat /\ given c = 5%nat.
Proof. repeat split. Qed.
(** x, copied; plus 1; squared; times x, which loses two of three terms. *)
Example C42_life_ex :
  obj_life true (1 + 1 + 6 + 3) (0 + 0 + 5 + 1) (0 + 0 + 0 + 2)
    (Poly TOP OLex 1 [(Mon (-1) [3%nat], 1); (Mon (-1) [2%nat], 2); (Mon (-1) [1%nat], 1)]).
Proof.
  set (x := Poly TOP OLex 1 [(Mon (-1) [1%nat], 1)]).
  set (q := Poly TOP OLex 1 [(Mon (-1) [1%nat], 1); (Mon (-1) [0%nat], 1)]).
  set (s := Poly TOP OLex 1 [(Mon (-1) [2%nat], 1); (Mon (-1) [1%nat], 2); (Mon (-1) [0%nat], 1)]).
  apply (life_call true (1 + 1 + 6) (0 + 0 + 5) (0 + 0 + 0) s (mult_mem TOP OLex (terms s) (terms x)) 2); [|apply (obj_leak true s x); [reflexivity|reflexivity|repeat constructor]].
  apply (life_call true (1 + 1) (0 + 0) (0 + 0) q (pow_mem TOP OLex (terms q) 2) 0); [|apply (obj_pow true q 2 s); reflexivity].
  apply (life_call true 1 0 0 x (add_const_mem 1 (terms x) 1) 0); [|apply obj_mem; apply (mem_add_const true x 1 (Mon (-1) [1%nat]) 1 []); reflexivity].
  apply (life_new true (new_mem (terms x)) x). apply new_copy. reflexivity.
Qed.
