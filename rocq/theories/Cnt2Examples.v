(** algorithmTQ2 with counters on concrete objects. *)
From Coq Require Import ZArith List Bool Arith Lia.
From Verif Require Import Outcome MonomModel MonomSpec PolyModel PolySpec JanetModel JanetPolyModel TQModel JanetPolySpec JanetPolyExamples TQExamples
  AncExamples CntModel CntSpec CntExamples Cnt2Model Cnt2Spec.
Import ListNotations.
Local Open Scope Z_scope.

Definition c2_s (l : list poly) : jpoly * counts := match k_push_all (jp_empty, counts0) l with Ok s => s | _ => (jp_empty, counts0) end.
Definition c2 (l : list poly) : jpoly2 * counts := match k_tq2 60 false (c2_s l) with Ok s => s | _ => (JP2 None [] (-1) None, counts0) end.
Lemma c2_history l : Forall (ring_input TOP ODegLex 2) l -> (exists s, k_push_all (jp_empty, counts0) l = Ok s) -> forall A, k_history TOP ODegLex 2 A (rev l) (c2_s l).
Proof. intros R (s & E) A. unfold c2_s. rewrite E. rewrite <- (app_nil_r (rev l)). eapply push_all_history; [constructor|exact R|exact E]. Qed.
(** x^2, x^2 and y^2: one of them becomes zero, x y^2 is added *)
Lemma c2_case1 : k_history TOP ODegLex 2 (eq ATQ1) [an_y2; an_x2; an_x2] (c2_s [an_x2; an_x2; an_y2]) /\
  k_tq2 60 false (c2_s [an_x2; an_x2; an_y2]) = Ok (c2 [an_x2; an_x2; an_y2]) /\ j2one (fst (c2 [an_x2; an_x2; an_y2])) = None /\
  snd (c2 [an_x2; an_x2; an_y2]) = Cnt 0 0 1 0 1 /\ length (j2t (fst (c2 [an_x2; an_x2; an_y2]))) = 3%nat.
Proof.
  split; [apply (c2_history [an_x2; an_x2; an_y2]); [apply Forall_forall; intros a H; apply ct_ring; cbn [In] in *; tauto|eexists; vm_compute; reflexivity]|]. vm_compute. repeat split.
Qed.
(** The same for no run of an algorithm before *)
Lemma c2_case2 : k_history TOP ODegLex 2 (fun _ => False) [an_y2; an_x2; an_x2] (c2_s [an_x2; an_x2; an_y2]).
Proof. apply (c2_history [an_x2; an_x2; an_y2]); [apply Forall_forall; intros a H; apply ct_ring; cbn [In] in *; tauto|eexists; vm_compute; reflexivity]. Qed.
(** x^2 and x^2 + y: one reduction *)
Lemma c2_case3 : snd (c2 [an_x2; ct_x2y]) = Cnt 1 0 1 0 0 /\ length (basis2 (fst (c2 [an_x2; ct_x2y]))) = 3%nat.
Proof. vm_compute. repeat split. Qed.
(** y, which becomes zero, and x^2 + y *)
Definition c2_y : wpoly := WP (new_wrap (Mon (-1) [0;1]%nat)) (pol ODegLex 2 [([0;1]%nat, 1)]).
Lemma c2_taken : exists q1 tmp1, k_take2 9 false ct_find 2 [c2_y; ct_wait] [] counts0 = Ok (Some (q1, tmp1), Cnt 1 0 0 0 1) /\
  both_steps 9 false ct_find [c2_y; ct_wait] = 1%nat /\ zeros 9 false ct_find [c2_y; ct_wait] = 1%nat.
Proof. do 2 eexists. split; [vm_compute; reflexivity|]. split; vm_compute; reflexivity. Qed.
Lemma c2_crit : (exists w1, k_prolong_det false (-1) (size (wlm ct_w)) 0 ct_js ct_w an_x2 [] counts0 = Ok (w1, [], inc_critI counts0)) /\
  how_many (fun i => considered ct_w i && criterion1 false (-1) ct_js ct_w i) 2 = 1%nat.
Proof. split; [eexists; vm_compute; reflexivity|vm_compute; reflexivity]. Qed.
