(** Property C80. *)
From Coq Require Import ZArith List Bool Arith Lia.
From Verif Require Import Outcome MonomModel MonomSpec PolyModel PolySpec JanetModel JanetSpec JanetPolyModel TQModel JanetPolySpec
  JanetPolyTop JanetPolyExamples InvolutiveExamples JanetTermSpec JanetTermTop.
Import ListNotations.
Local Open Scope Z_scope.

(* ---- C80 ---- *)
(** Full statement: for every history the calls of build, algorithmTQ and algorithmTQ1 end.  Proved here for
    one and two variables; missing: three and more, where C80_growth_partial says what else can happen. *)
Theorem C80_two_variables_partial : forall (t : pos_order) (o : base_order) (n : nat) (F : list poly) (J : jpoly),
  (0 < n)%nat -> (n <= 2)%nat -> o <> OAlex -> jp_history false t o n F J ->
  ends (fun fuel => jp_build fuel false J) /\ forall one, ends (fun fuel => jp_tq one fuel false J).
Proof. exact c80_two. Qed.
Print Assumptions C80_two_variables_partial.

Example C80_two_ex : jp_history false TOP OLex 2 [lx_f2; lx_f1] lx_J /\ length (jt lx_J) = 2%nat /\
  exists J1, jp_push false lx_J (pol OLex 2 [([1;1]%nat, 1); ([0;1]%nat, 2)]) = Ok J1 /\ jq J1 <> [] /\
    exists J2, jp_build 40 false J1 = Ok J2 /\ jp_build 80 false J1 = Ok J2 /\ (2 <= length (basis J2))%nat.
Proof.
  split; [exact (proj1 lx_incomplete)|]. split; [vm_compute; reflexivity|]. eexists. split; [vm_compute; reflexivity|]. split; [vm_compute; discriminate|].
  eexists. split; [vm_compute; reflexivity|]. split; [vm_compute; reflexivity|]. vm_compute. lia.
Qed.

(** Any number of variables: a call that does not end makes the degrees of the basis grow beyond every bound.
    Missing: that this cannot happen. *)
Theorem C80_growth_partial : forall (t : pos_order) (o : base_order) (n : nat) (F : list poly) (J : jpoly) (d : nat),
  (0 < n)%nat -> o <> OAlex -> jp_history false t o n F J ->
  (ends (fun fuel => jp_build fuel false J) \/
   exists s e, rounds (fun fuel => block_round fuel false (-1)) (start J) s /\ In e (snd s) /\ (d < total (lead (snd e)))%nat) /\
  forall one, ends (fun fuel => jp_tq one fuel false J) \/
   exists s e, rounds (fun fuel => tq_round one fuel false (-1)) (start J) s /\ In e (snd s) /\ (d < total (lead (snd e)))%nat.
Proof. exact c80_growth. Qed.
Print Assumptions C80_growth_partial.

Example C80_growth_ex : jp_history false TOP ODegLex 3 [ex_f3; ex_f2; ex_f1] ex_J /\
  exists J1, jp_push false ex_J ex_f4 = Ok J1 /\ jq J1 <> [] /\ exists J2, jp_build 40 false J1 = Ok J2 /\ jq J2 = [].
Proof.
  split; [exact (proj1 ex_incomplete)|]. eexists. split; [vm_compute; reflexivity|]. split; [vm_compute; discriminate|].
  eexists. split; vm_compute; reflexivity.
Qed.

(** The rounds are those of the loops of build (block_tq), algorithmTQ and algorithmTQ1 (tq_loop). *)
Theorem C80_rounds : forall (fuel : nat) (dbg : bool) (mpos : Z) (js : list janet) (q : list wpoly) (T : list entry),
  block_tq (S fuel) dbg mpos js q T =
    (do r <- block_round (S fuel) dbg mpos (js, q, T); match r with inl (js', q', T') => block_tq fuel dbg mpos js' q' T' | inr J => Ok J end) /\
  forall one, tq_loop one (S fuel) dbg mpos js q T =
    (do r <- tq_round one (S fuel) dbg mpos (js, q, T); match r with inl (js', q', T') => tq_loop one fuel dbg mpos js' q' T' | inr J => Ok J end).
Proof. exact c80_rounds. Qed.
Print Assumptions C80_rounds.

Example C80_rounds_ex : exists J1 s, jp_push false ex_J ex_f4 = Ok J1 /\ block_round 40 false (-1) (start J1) = Ok (inl s) /\ snd s <> [].
Proof. eexists. eexists. split; [vm_compute; reflexivity|]. split; [vm_compute; reflexivity|]. vm_compute. discriminate. Qed.
