(** Which prolongations of elements outside the trees critI() and critII() count, and what algorithmTQ2 counts when it takes elements. *)
From Coq Require Import ZArith List Bool Arith Lia Permutation.
From Verif Require Import Outcome MonomModel MonomSpec JanetModel PolyModel JanetPolyModel TQModel JanetPolySpec CompletionProofs AncProofs CntModel CntSpec CntProofs CntBalance CntCrit
  Cnt2Model Cnt2Spec.
Import ListNotations.
Local Open Scope Z_scope.

Section C.
Variables (dbg : bool) (mpos : Z) (js : list janet).
Lemma is_next2 w w' k : set_build dbg w k = Ok w' -> forall i, (k < i)%nat ->
  is1 dbg mpos js w' i = is1 dbg mpos js w i /\ is2 dbg mpos js w' i = is2 dbg mpos js w i /\ is0 dbg mpos js w' i = is0 dbg mpos js w i.
Proof.
  intros E i Hi. destruct (set_build_wr _ _ _ _ E) as [(W1 & W2 & W3) Bf].
  assert (C : considered w' i = considered w i) by (unfold considered; rewrite W3, (Bf i Hi); reflexivity).
  assert (D : divisor dbg mpos js w' i = divisor dbg mpos js w i) by (unfold divisor; rewrite W1; reflexivity).
  unfold is1, is2, is0, criterion1, criterion2. rewrite C, D, W1, W2. auto.
Qed.
Lemma k_prolong_det_counts p : forall cnt k w q c w1 q' c', (k + cnt = size (wlm w))%nat -> k_prolong_det dbg mpos cnt k js w p q c = Ok (w1, q', c') ->
  n_critI c' = (n_critI c + cnt_from (is1 dbg mpos js w) k cnt)%nat /\ n_critII c' = (n_critII c + cnt_from (is2 dbg mpos js w) k cnt)%nat /\ length q' = (length q + cnt_from (is0 dbg mpos js w) k cnt)%nat.
Proof.
  induction cnt as [|cnt IH]; intros k w q c w1 q' c' Sz E; cbn [k_prolong_det] in E.
  { injection E as <- <- <-. unfold cnt_from. cbn. lia. }
  rewrite !cnt_cons. bnd E. bnd E.
  assert (Fl : considered w k = v && negb v0).
  { unfold considered, get_flag in *. destruct (nth_error (wnm w) k) eqn:E1; [|unfold oob in Ev; destruct dbg; discriminate]. destruct (nth_error (wbuild w) k) eqn:E2; [|unfold oob in Ev0; destruct dbg; discriminate].
    rewrite (nth_error_nth _ _ false E1), (nth_error_nth _ _ false E2). congruence. }
  unfold is1 at 1, is2 at 1, is0 at 1. rewrite Fl. destruct (v && negb v0) eqn:Eb.
  2:{ cbn [andb]. apply IH in E; [|lia]. lia. }
  cbn [andb]. cbv zeta in E. bnd E.
  assert (D1 : criterion1 dbg mpos js w k = match v1 with Some d => (deg (wanc w) + deg (wanc d) <=? deg (mul_var k (wlm w)))%nat | None => false end)
    by (unfold criterion1, divisor; rewrite Ev1, deg_mul by lia; reflexivity).
  assert (D2 : criterion2 dbg mpos js w k = match v1 with Some d => (lcm_deg (wanc w) (wanc d) <? deg (mul_var k (wlm w)))%nat | None => false end)
    by (unfold criterion2, divisor; rewrite Ev1, deg_mul by lia; reflexivity).
  rewrite D1, D2.
  assert (Next : forall w', set_build dbg w k = Ok w' -> forall qq cc, k_prolong_det dbg mpos cnt (S k) js w' p qq cc = Ok (w1, q', c') ->
    n_critI c' = (n_critI cc + cnt_from (is1 dbg mpos js w) (S k) cnt)%nat /\ n_critII c' = (n_critII cc + cnt_from (is2 dbg mpos js w) (S k) cnt)%nat /\ length q' = (length qq + cnt_from (is0 dbg mpos js w) (S k) cnt)%nat).
  { intros w' Es qq cc Ek. destruct (set_build_wr _ _ _ _ Es) as [(W1 & _) _]. apply IH in Ek; [|rewrite W1; lia].
    rewrite (cnt_ext (is1 dbg mpos js w) (is1 dbg mpos js w')), (cnt_ext (is2 dbg mpos js w) (is2 dbg mpos js w')), (cnt_ext (is0 dbg mpos js w) (is0 dbg mpos js w')); [exact Ek|..];
      intros i Hi; symmetry; apply (is_next2 w w' k Es); lia. }
  match type of E with (if ?b then _ else _) = _ => destruct b end.
  - bnd E. destruct (Next _ eq_refl _ _ E) as (A & B & C). cbn [inc_critI n_critI n_critII negb andb] in *. lia.
  - match type of E with (if ?b then _ else _) = _ => destruct b end.
    + bnd E. destruct (Next _ eq_refl _ _ E) as (A & B & C). cbn [inc_critII n_critI n_critII negb andb] in *. lia.
    + bnd E. destruct v2 as [nw w']. bnd E. bnd E. apply prolong_old in Ev2. apply jp_insert_perm, Permutation_length in Ev4. cbn [length] in Ev4.
      destruct (Next _ Ev2 _ _ E) as (A & B & C). cbn [negb andb] in *. lia.
Qed.
End C.
Theorem c88_tq2_criteria dbg mpos js w p q c w1 q' c' : k_prolong_det dbg mpos (size (wlm w)) 0 js w p q c = Ok (w1, q', c') ->
  n_critI c' = (n_critI c + how_many (fun i => considered w i && criterion1 dbg mpos js w i) (size (wlm w)))%nat /\
  n_critII c' = (n_critII c + how_many (fun i => considered w i && (negb (criterion1 dbg mpos js w i) && criterion2 dbg mpos js w i)) (size (wlm w)))%nat /\
  length q' = (length q + how_many (fun i => considered w i && (negb (criterion1 dbg mpos js w i) && negb (criterion2 dbg mpos js w i))) (size (wlm w)))%nat.
Proof. intro E. exact (k_prolong_det_counts dbg mpos js p (size (wlm w)) 0 w q c w1 q' c' eq_refl E). Qed.

Theorem c88_tq2_taken fuel dbg find dg : forall q tmp c q1 tmp1 c1, k_take2 fuel dbg find dg q tmp c = Ok (Some (q1, tmp1), c1) ->
  exists taken, q = taken ++ q1 /\ n_red c1 = (n_red c + both_steps fuel dbg find taken)%nat /\ n_zero c1 = (n_zero c + zeros fuel dbg find taken)%nat.
Proof.
  induction q as [|u q IH]; intros tmp c q1 tmp1 c1 E; cbn [k_take2] in E; [injection E as <- <- <-; exists []; repeat split; cbn; lia|].
  bnd E. destruct (deg v <=? dg)%nat; [|injection E as <- <- <-; exists []; repeat split; cbn; lia].
  bnd E. destruct v0 as [p r0].
  assert (T0 : head_tail_steps fuel dbg find u = match terms p with [] => 0 | _ => match p_nfTail fuel dbg find p with Ok (_, r) => r0 + r | _ => 0 end end%nat) by (unfold head_tail_steps; rewrite Ev0; reflexivity).
  assert (Z0 : becomes_zero fuel dbg find u = match terms p with [] => true | _ => false end) by (unfold becomes_zero; rewrite Ev0; reflexivity).
  unfold is_zero in E. destruct (terms p) as [|x l] eqn:Ep.
  { apply IH in E as (taken & -> & E1 & E2). exists (u :: taken). split; [reflexivity|]. unfold both_steps, zeros in *. cbn [fold_right filter]. rewrite T0, Z0. cbn [length inc_zero n_red n_zero] in *. lia. }
  bnd E. destruct (deg v0 =? 0)%nat; [discriminate|]. bnd E. destruct v1 as [p2 k]. bnd E. bnd E. cbn [snd] in E.
  apply IH in E as (taken & -> & E1 & E2). exists (u :: taken). split; [reflexivity|]. unfold both_steps, zeros in *. cbn [fold_right filter]. rewrite T0, Z0.
  destruct (Nat.eqb_spec (r0 + k) 0); cbn [n_red n_zero add_red] in *; lia.
Qed.
