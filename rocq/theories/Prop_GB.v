(** C43: the forest of Janet trees (class GB). *)
From Coq Require Import ZArith List Bool Arith Lia.
From Verif Require Import Outcome MonomModel MonomSpec JanetModel JanetSpec GBModel GBSpec GBProofs.
Import ListNotations.
Local Open Scope nat_scope.

(** Without asserts every insertion succeeds, whatever was inserted before, and all are counted. *)
Theorem C43_insert : forall (n : nat) (h : list entry), 0 < n -> history n h ->
  exists g, gb_insert_all false gb_new h = Ok g /\ gsize g = length h.
Proof. exact gb_insert_all_release. Qed.
Print Assumptions C43_insert.

(** After any history that was inserted without a failing assert, with or without asserts compiled in: find returns the
    stored divisor of the lowest level, which is unique, and returns nothing exactly if there is no stored divisor.
    A [forest_divides] divisor divides m ([janet_divides] says so). *)
Theorem C43_find : forall (dbg : bool) (n : nat) (h : list entry) (g : gb) (m : monom), 0 < n -> history n h ->
  (dbg = true -> Forall (fun e => pos (fst e) = (-1)%Z) h) ->
  gb_insert_all dbg gb_new h = Ok g -> length (vars m) = n ->
  exists r, gb_find dbg g m = Ok r /\
    match r with
    | Some u => forest_divides n h (wlm u, wanc u) (vars m) /\
        forall e, forest_divides n h e (vars m) -> level (wlm u, wanc u) <= level e /\ (level e = level (wlm u, wanc u) -> e = (wlm u, wanc u))
    | None => forall e, ~ forest_divides n h e (vars m)
    end.
Proof. exact gb_find_top. Qed.
Print Assumptions C43_find.

Definition hist_ex : list entry :=
  let m l := Mon (-1) l in
  [(m [1;1], m [1;1]); (m [0;3], m [0;3]); (m [4;0], m [4;0]); (m [1;2], m [1;1]); (m [3;0], m [30;0])].
Example C43_ex : history 2 hist_ex /\ Forall (fun e : entry => pos (fst e) = (-1)%Z) hist_ex /\
  (exists g, gb_insert_all false gb_new hist_ex = Ok g /\ length (gforest g) = 39 /\
     (exists u, gb_find false g (Mon (-1) [4;3]) = Ok (Some u) /\ vars (wlm u) = [1;2]) /\
     (exists u, gb_find false g (Mon (-1) [5;0]) = Ok (Some u) /\ vars (wlm u) = [4;0]) /\
     gb_find false g (Mon (-1) [0;2]) = Ok None) /\
  (exists g, gb_insert_all true gb_new (firstn 3 hist_ex) = Ok g /\ gb_find true g (Mon (-1) [0;2]) = Ok None).
Proof.
  split; [split|split; [|split]].
  - repeat constructor; unfold INT_MAX; cbn; lia.
  - intros d. unfold at_level, hist_ex. cbn [filter].
    repeat match goal with |- context [if Nat.eqb (level ?e) d then _ else _] => let x := eval vm_compute in (level e) in
      replace (level e) with x by reflexivity; destruct (Nat.eqb_spec x d); subst; cbn [filter] end; cbn;
      repeat constructor; cbn; try (intros H; repeat (destruct H as [H|H]; try discriminate)); auto; try lia.
  - repeat constructor.
  - eexists. split; [vm_compute; reflexivity|]. split; [vm_compute; reflexivity|].
    split; [eexists; split; vm_compute; reflexivity|]. split; [eexists; split; vm_compute; reflexivity|]. vm_compute; reflexivity.
  - eexists. split; vm_compute; reflexivity.
Qed.

(** With asserts: insert announces find(lm) == nullptr as its precondition, but a monomial that meets it can still abort the
    program, in the assert of the tree it is put into. *)
Theorem C43_insert_assert_refuted : exists (h : list entry) (g : gb) (w : wrap), history 2 h /\
  gb_insert_all true gb_new h = Ok g /\ gb_find true g (wlm w) = Ok None /\ gb_insert true g w = AssertFail.
Proof.
  exists [(Mon (-1) [3;0], Mon (-1) [3;0]); (Mon (-1) [0;4], Mon (-1) [0;4])].
  eexists. exists (fresh_wrap (Mon (-1) [1;4]) (Mon (-1) [0;4])). split; [split|split; [vm_compute; reflexivity|split; vm_compute; reflexivity]].
  - repeat constructor; unfold INT_MAX; cbn; lia.
  - intros d. unfold at_level. cbn [filter].
    repeat match goal with |- context [if Nat.eqb (level ?e) d then _ else _] => let x := eval vm_compute in (level e) in
      replace (level e) with x by reflexivity; destruct (Nat.eqb_spec x d); subst; cbn [filter] end; cbn;
      repeat constructor; cbn; auto; try lia.
Qed.
Print Assumptions C43_insert_assert_refuted.
