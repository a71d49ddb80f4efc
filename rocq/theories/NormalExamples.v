(** Concrete normal forms. *)
From Coq Require Import ZArith List Bool Arith Lia.
From Verif Require Import Outcome MonomModel MonomSpec MonomProofs PolyModel PolySpec PolyProofs PolyNfProofs
  JanetModel JanetSpec JanetPolyModel TQModel JanetPolySpec IdealProofs JanetPolyProofs JanetPolyTop JanetPolyExamples
  TQExamples InvolutiveTop InvolutiveExamples NormalSpec NormalProofs NormalTop.
Import ListNotations.
Local Open Scope Z_scope.

(** deglex, x > y: 2 x^3 + 4 y and -3 x y - 6 y; the basis of x^2 - y and x y - 1 is y^2 - x, x y - 1, x^2 - y. *)
Definition no_a := pol ODegLex 2 [([3;0]%nat, 2); ([0;1]%nat, 4)].
Definition no_b := pol ODegLex 2 [([1;1]%nat, -3); ([0;1]%nat, -6)].
Definition no_r := pol ODegLex 2 [([0;1]%nat, 2); ([0;0]%nat, 1)].
Definition no_s := pol ODegLex 2 [([0;1]%nat, -2); ([0;0]%nat, -1)].
Lemma no_in : ring_input TOP ODegLex 2 no_a /\ ring_input TOP ODegLex 2 no_b.
Proof. split; ring_in. Qed.
Lemma no_nf : jp_nf 40 false iv_J no_a = Ok no_r /\ jp_nf 40 false iv_J no_b = Ok no_s.
Proof. split; vm_compute; reflexivity. Qed.
Lemma no_pm : plus_minus (terms no_r) (terms no_s).
Proof. right. reflexivity. Qed.
Lemma no_class : same_class 2 (basis iv_J) (terms no_a) (terms no_b).
Proof.
  apply (c82_class TOP ODegLex 2 ltac:(lia) ltac:(discriminate) _ _ no_a no_b 40 40 no_r no_s iv_history); try apply no_in; try apply no_nf. exact no_pm.
Qed.
Lemma no_sign : exists (F : list poly) (J : jpoly) (a b r s : poly), jp_history false TOP ODegLex 2 F J /\
  ring_input TOP ODegLex 2 a /\ ring_input TOP ODegLex 2 b /\ jp_nf 40 false J a = Ok r /\ jp_nf 40 false J b = Ok s /\
  same_class 2 (basis J) (terms a) (terms b) /\ terms r <> terms s.
Proof.
  exists [iv_f2; iv_f1], iv_J, no_a, no_b, no_r, no_s. split; [exact iv_history|]. split; [apply no_in|]. split; [apply no_in|].
  split; [apply no_nf|]. split; [apply no_nf|]. split; [exact no_class|discriminate].
Qed.

(** The same ideal from x^2 - y, x y - 1 and -2 y^2 + 2 x, completed by algorithmTQ. *)
Definition no_f3 := pol ODegLex 2 [([0;2]%nat, -2); ([1;0]%nat, 2)].
Lemma no_in3 : Forall (ring_input TOP ODegLex 2) [no_f3; iv_f2; iv_f1].
Proof. apply Forall_forall. intros a [<-|[<-|[<-|[]]]]; ring_in. Qed.
Definition no_J0 : jpoly := got (jp_push_all false jp_empty [no_f3; iv_f2; iv_f1]).
Definition no_J : jpoly := got (jp_tq false 40 false no_J0).
Lemma no_history : jp_history false TOP ODegLex 2 [iv_f1; iv_f2; no_f3] no_J.
Proof.
  apply (hist_tq _ _ _ _ _ no_J0 false 40).
  - apply (history_push_all false TOP ODegLex 2 [no_f3; iv_f2; iv_f1] [] jp_empty _ (hist_new _ _ _ _) no_in3). vm_compute. reflexivity.
  - vm_compute. reflexivity.
Qed.
Lemma no_local : passes_local_test TOP ODegLex 2 no_J.
Proof. eapply (test_ok TOP ODegLex 2 40); [lia|discriminate|exact no_history|]. vm_compute. reflexivity. Qed.
Lemma no_ideal : same_ideal 2 [iv_f2; iv_f1] [iv_f1; iv_f2; no_f3].
Proof.
  assert (R3 := no_in3). rewrite Forall_forall in R3.
  assert (G : forall F f, In f F -> In f [no_f3; iv_f2; iv_f1] -> rational_member 2 (among F) (terms f)).
  { intros F f I I'. apply (mem_among TOP ODegLex 2); [apply R3; exact I'|exact I]. }
  split.
  - intros f [<-|[<-|[]]]; apply G; cbn; auto.
  - intros f [<-|[<-|[<-|[]]]]; [apply G; cbn; auto|apply G; cbn; auto|].
    (* no_f3 = 2 y f1 - 2 x f2 *)
    apply (mem_lin 2 _ (shift [0;1]%nat (terms iv_f1)) (shift [1;0]%nat (terms iv_f2)) _ 2 (-2)).
    + apply mem_shift; [reflexivity|]. apply G; cbn; auto.
    + apply mem_shift; [reflexivity|]. apply G; cbn; auto.
    + intro m. unfold no_f3, iv_f1, iv_f2, pol, shift, mprod, vsum. cbn [terms map fst snd pos vars combine Nat.add].
      change (-1 =? -1) with true. cbn iota. cbn [coef].
      repeat match goal with |- context [monom_eq_dec ?x ?y] => destruct (monom_eq_dec x y); subst; try discriminate end; try lia.
Qed.
Lemma no_nf2 : jp_nf 40 false no_J no_b = Ok no_s /\ map terms (basis no_J) <> map terms (basis iv_J).
Proof. split; [vm_compute; reflexivity|vm_compute; discriminate]. Qed.

(** Without the local test the normal form of an element of the ideal may differ from that of 0. *)
Lemma no_incomplete : exists (F : list poly) (J : jpoly) (a b r s : poly) (fuel fuel' : nat),
  jp_history false TOP ODegLex 3 F J /\ jq J = [] /\ ring_input TOP ODegLex 3 a /\ ring_input TOP ODegLex 3 b /\
  same_mod_ideal 3 F (terms a) (terms b) /\ jp_nf fuel false J a = Ok r /\ jp_nf fuel' false J b = Ok s /\ ~ plus_minus (terms r) (terms s).
Proof.
  destruct c46_deglex as (F & J & a & r & H & Q & Ra & M & (fuel & E) & Nr).
  assert (R0 : ring_input TOP ODegLex 3 (Poly TOP ODegLex 3 [])) by (split; [split; [constructor|split; constructor]|repeat split; constructor]).
  destruct (c40_nf TOP ODegLex 3 F J (Poly TOP ODegLex 3 []) ltac:(lia) ltac:(discriminate) H R0) as (N & s & Es & _).
  exists F, J, a, (Poly TOP ODegLex 3 []), r, s, fuel, N. split; [exact H|]. split; [exact Q|]. split; [exact Ra|]. split; [exact R0|].
  split; [exists 1, 1, (terms a); do 2 (split; [lia|]); split; [exact M|]; intro m; cbn [terms coef]; lia|]. split; [exact E|].
  assert (X := Es N (le_n N)). split; [exact X|].
  assert (Z : terms s = []).
  { apply (c82_zero TOP ODegLex 3 ltac:(lia) ltac:(discriminate) F J (Poly TOP ODegLex 3 []) N s H R0 X).
    exists 1, []. split; [lia|]. split; [apply span_zero; reflexivity|reflexivity]. }
  rewrite Z. intros [P|P]; exact (Nr P).
Qed.
