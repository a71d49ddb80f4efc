(** C104: what a debug build computes without a failed assertion, a release build computes as well. *)
From Coq Require Import ZArith List Bool Arith.
From Verif Require Import Outcome MonomModel PolyModel JanetModel JanetPolyModel TQModel JanetPolySpec IdealProofs DebugProofs DebugTQ DebugTop.
Import ListNotations.
Local Open Scope Z_scope.

(* ---- systems of polynomials ---- *)
Theorem C104_push : forall (J : jpoly) (a : poly) (J' : jpoly), jp_push true J a = Ok J' -> jp_push false J a = Ok J'.
Proof. exact d_push. Qed.
Print Assumptions C104_push.
Theorem C104_build : forall (fuel : nat) (J J' : jpoly), jp_build fuel true J = Ok J' -> jp_build fuel false J = Ok J'.
Proof. exact d_build. Qed.
Print Assumptions C104_build.
Theorem C104_tq : forall (one : bool) (fuel : nat) (J J' : jpoly), jp_tq one fuel true J = Ok J' -> jp_tq one fuel false J = Ok J'.
Proof. exact d_tq. Qed.
Print Assumptions C104_tq.
Theorem C104_tq2 : forall (fuel : nat) (J : jpoly) (J' : jpoly2), jp_tq2 fuel true J = Ok J' -> jp_tq2 fuel false J = Ok J'.
Proof. exact d_tq2. Qed.
Print Assumptions C104_tq2.
Theorem C104_nf : forall (fuel : nat) (J : jpoly) (a r : poly), jp_nf fuel true J a = Ok r -> jp_nf fuel false J a = Ok r.
Proof. exact d_jp_nf. Qed.
Print Assumptions C104_nf.
Theorem C104_nf2 : forall (fuel : nat) (J : jpoly2) (a r : poly), jp2_nf fuel true J a = Ok r -> jp2_nf fuel false J a = Ok r.
Proof. exact d_jp2_nf. Qed.
Print Assumptions C104_nf2.
(** Every history of a debug build is one of a release build, so what is proved about those holds for it. *)
Theorem C104_history : forall (t : pos_order) (o : base_order) (n : nat) (F : list poly) (J : jpoly), jp_history true t o n F J -> jp_history false t o n F J.
Proof. exact d_history. Qed.
Print Assumptions C104_history.
Theorem C104_same_ideal : forall (t : pos_order) (o : base_order) (n : nat) (F : list poly) (J : jpoly) (fuel : nat) (J' : jpoly2),
  (0 < n)%nat -> o <> OAlex -> jp_history true t o n F J -> jp_tq2 fuel true J = Ok J' ->
  (forall g, In g (basis2 J') -> ring_input t o n g /\ terms g <> [] /\ rational_member n (among F) (terms g)) /\
  (forall f, In f F -> rational_member n (among (basis2 J')) (terms f)).
Proof. exact d_same_ideal. Qed.
Print Assumptions C104_same_ideal.

(* ---- polynomials ---- *)
Theorem C104_add : forall p a r : poly, p_add true p a = Ok r -> p_add false p a = Ok r.
Proof. exact d_add. Qed.
Print Assumptions C104_add.
Theorem C104_sub : forall p a r : poly, p_sub true p a = Ok r -> p_sub false p a = Ok r.
Proof. exact d_sub. Qed.
Print Assumptions C104_sub.
Theorem C104_mult : forall p a r : poly, p_mult true p a = Ok r -> p_mult false p a = Ok r.
Proof. exact d_mult. Qed.
Print Assumptions C104_mult.
Theorem C104_pow : forall (p : poly) (k : nat) (r : poly), p_pow true p k = Ok r -> p_pow false p k = Ok r.
Proof. exact d_pow. Qed.
Print Assumptions C104_pow.
Theorem C104_reduction : forall p a r : poly, p_reduction true p a = Ok r -> p_reduction false p a = Ok r.
Proof. exact d_reduction. Qed.
Print Assumptions C104_reduction.
Theorem C104_pp : forall p r : poly, p_pp true p = Ok r -> p_pp false p = Ok r.
Proof. exact d_pp. Qed.
Print Assumptions C104_pp.

(* ---- Janet trees ---- *)
Theorem C104_insert : forall (J : janet) (w : wrap) (J' : janet), insert true J w = Ok J' -> insert false J w = Ok J'.
Proof. exact d_insert. Qed.
Print Assumptions C104_insert.
Theorem C104_find : forall (t : tree) (m : monom) (r : option wrap), find true t m = Ok r -> find false t m = Ok r.
Proof. exact d_find. Qed.
Print Assumptions C104_find.

(** x^2 + y and x y - 1: all four algorithms end without a failed assertion. *)
Example C104_case : exists (F : list poly) (J : jpoly), jp_history true TOP ODegLex 2 F J /\ length F = 2%nat /\
  (exists J', jp_build 40 true J = Ok J' /\ length (basis J') = 3%nat) /\ (forall one, exists J', jp_tq one 40 true J = Ok J' /\ length (basis J') = 3%nat) /\
  exists J', jp_tq2 40 true J = Ok J' /\ length (basis2 J') = 3%nat /\ exists r, jp2_nf 40 true J' dg_f1 = Ok r /\ terms r = [].
Proof. exact dg_case. Qed.
