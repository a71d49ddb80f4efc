(** Concrete objects for the counters. *)
From Coq Require Import ZArith List Bool Arith Lia.
From Verif Require Import Outcome MonomModel MonomSpec PolyModel PolySpec JanetModel JanetPolyModel TQModel JanetPolySpec JanetPolyExamples TQExamples
  CyMonomModel CyJanetModel AncExamples CntModel CntSpec.
Import ListNotations.
Local Open Scope Z_scope.

(** x y^2 + 1 and x^3 - y^2, and x^2 and x^2 + y *)
Definition ct_f1 := pol ODegLex 2 [([1;2]%nat, 1); ([0;0]%nat, 1)].
Definition ct_f2 := pol ODegLex 2 [([3;0]%nat, 1); ([0;2]%nat, -1)].
Definition ct_x2y := pol ODegLex 2 [([2;0]%nat, 1); ([0;1]%nat, 1)].
Lemma ct_ring a : In a [ct_f1; ct_f2; an_x2; ct_x2y; an_y2] -> ring_input TOP ODegLex 2 a.
Proof.
  intro I. assert (H : Forall (ring_input TOP ODegLex 2) [ct_f1; ct_f2; an_x2; ct_x2y; an_y2]) by (repeat constructor; cbn; try lia; try discriminate).
  rewrite Forall_forall in H. apply H. exact I.
Qed.

Fixpoint k_push_all (s : jpoly * counts) (l : list poly) : outcome (jpoly * counts) :=
  match l with [] => Ok s | a :: l' => do s' <- k_push false s a; k_push_all s' l' end.
Definition ct (x : algorithm) (l : list poly) : jpoly * counts :=
  match (do s <- k_push_all (jp_empty, counts0) l; k_run x 60 false s) with Ok s => s | _ => (jp_empty, counts0) end.
Lemma push_all_history A : forall l F s s', k_history TOP ODegLex 2 A F s -> Forall (ring_input TOP ODegLex 2) l -> k_push_all s l = Ok s' -> k_history TOP ODegLex 2 A (rev l ++ F) s'.
Proof.
  induction l as [|a l IH]; intros F s s' H R E; cbn [k_push_all] in E; [injection E as <-; exact H|].
  destruct (k_push false s a) as [s1| | | |] eqn:E1; cbn [bind] in E; try discriminate. cbn [rev]. rewrite <- app_assoc. cbn [app].
  apply (IH (a :: F) s1); [eapply kh_push; [exact H|exact (Forall_inv R)|exact E1]|exact (Forall_inv_tail R)|exact E].
Qed.
Lemma ct_history x l s1 s : Forall (ring_input TOP ODegLex 2) l -> k_push_all (jp_empty, counts0) l = Ok s1 -> k_run x 60 false s1 = Ok s -> k_history TOP ODegLex 2 (eq x) (rev l) s.
Proof.
  intros R E1 E2. eapply kh_run; [|reflexivity|exact E2]. rewrite <- (app_nil_r (rev l)). eapply push_all_history; [constructor|exact R|exact E1].
Qed.
Ltac ct_hist x l := eapply (ct_history x l); [apply Forall_forall; intros ? ?; apply ct_ring; cbn [In] in *; tauto|vm_compute; reflexivity|vm_compute; reflexivity].

Lemma ct_h1 : k_history TOP ODegLex 2 (eq ATQ1) [an_y2; an_x2; an_x2] (ct ATQ1 [an_x2; an_x2; an_y2]).
Proof. ct_hist ATQ1 [an_x2; an_x2; an_y2]. Qed.
Lemma ct_v1 : let s := ct ATQ1 [an_x2; an_x2; an_y2] in jone (fst s) = None /\ cj_iter (fst s) = Ok (Ret (shown (fst s))) /\ length (shown (fst s)) = 3%nat /\
  built (shown (fst s)) = 2%nat /\ n_critI (snd s) = 1%nat /\ n_critII (snd s) = 0%nat /\ n_zero (snd s) = 1%nat /\ n_equal (snd s) = 2%nat.
Proof. vm_compute. repeat split. Qed.

Lemma ct_zero x : x <> ATQ1 -> exists F s ws, k_history TOP ODegLex 2 (eq x) F s /\ jone (fst s) = None /\ jq (fst s) = [] /\ cj_iter (fst s) = Ok (Ret ws) /\
  (length ws + n_critI (snd s) + n_critII (snd s) + n_zero (snd s) < nonzero F + built ws)%nat.
Proof.
  intro N. exists [an_y2; an_x2; an_x2], (ct x [an_x2; an_x2; an_y2]), (shown (fst (ct x [an_x2; an_x2; an_y2]))).
  destruct x; [| |contradiction]; (split; [match goal with |- k_history _ _ _ (eq ?x) _ _ => ct_hist x [an_x2; an_x2; an_y2] end|]);
    (split; [vm_compute; reflexivity|]); (split; [vm_compute; reflexivity|]); (split; [vm_compute; reflexivity|]); vm_compute; lia.
Qed.

(** x^2 and x^2 + y give y *)
Lemma ct_red x : x <> ATQ -> exists F s p, k_history TOP ODegLex 2 (eq x) F s /\ jone (fst s) = None /\ n_red (snd s) = 0%nat /\ In p (basis (fst s)) /\
  forall f, In f F -> ~ monomial_multiple 2 f p.
Proof.
  intro N. exists [ct_x2y; an_x2], (ct x [an_x2; ct_x2y]), (pol ODegLex 2 [([0;1]%nat, 1)]).
  destruct x; [|contradiction|]; (split; [match goal with |- k_history _ _ _ (eq ?x) _ _ => ct_hist x [an_x2; ct_x2y] end|]);
    (split; [vm_compute; reflexivity|]); (split; [vm_compute; reflexivity|]); (split; [vm_compute; left; reflexivity|]);
    intros f [<-|[<-|[]]] (e & Le & E); destruct e as [|a [|b [|]]]; try discriminate; cbn in E; injection E; intros; lia.
Qed.

(** algorithmTQ with nothing to reduce, and with one step *)
Lemma ct_h2 : k_history TOP ODegLex 2 (eq ATQ) [an_y2; an_x2] (ct ATQ [an_x2; an_y2]).
Proof. ct_hist ATQ [an_x2; an_y2]. Qed.
Lemma ct_v2 : let s := ct ATQ [an_x2; an_y2] in jone (fst s) = None /\ n_red (snd s) = 0%nat /\ length (basis (fst s)) = 3%nat.
Proof. vm_compute. repeat split. Qed.
Lemma ct_v3 : n_red (snd (ct ATQ [ct_f1; ct_f2])) = 1%nat.
Proof. vm_compute. reflexivity. Qed.

(** The element x y^2 before its prolongation by x, which the first criterion rejects because of x^2 *)
Definition ct_w := Wrap (Mon (-1) [1;2]%nat) (Mon (-1) [0;2]%nat) [true;false] [false;false] [false;false].
Definition ct_js : list janet := match jtrees (fst (ct ATQ [an_x2; an_y2])) with
  | Some x => upd_trees (fun u => Wrap (wlm u) (wanc u) (wnm u) (wnmd u) (map (fun _ => false) (wbuild u))) (wlm ct_w) x | None => [] end.
Lemma ct_crit : NoDup (map wlm (concat (map (fun J => wraps (jroot J)) ct_js))) /\ (forall u, In u (concat (map (fun J => wraps (jroot J)) ct_js)) -> size (wlm u) = 2%nat) /\
  In ct_w (concat (map (fun J => wraps (jroot J)) ct_js)) /\
  (exists js', k_prolong false (-1) (size (wlm ct_w)) 0 ct_js ct_w an_x2 [] counts0 = Ok (js', [], inc_critI counts0)) /\
  how_many (fun i => considered ct_w i && criterion1 false (-1) ct_js ct_w i) 2 = 1%nat.
Proof.
  split; [vm_compute; repeat (constructor; [cbn; intuition discriminate|]); constructor|]. split; [vm_compute; intuition (subst; reflexivity)|].
  split; [vm_compute; auto|]. split; [eexists; vm_compute; reflexivity|vm_compute; reflexivity].
Qed.

(** x^2 + y with y in the basis: one tail reduction *)
Definition ct_find (m : monom) : outcome (option poly) :=
  Ok (if match vars m with [_; Datatypes.S _] => true | _ => false end then Some (pol ODegLex 2 [([0;1]%nat, 1)]) else None).
Definition ct_wait : wpoly := WP (new_wrap (Mon (-1) [2;0]%nat)) ct_x2y.
Lemma ct_taken : exists q1 tmp1, k_take_block 9 false ct_find 2 [ct_wait] [] counts0 = Ok (Some (q1, tmp1), add_red 1 counts0) /\
  all_steps 9 false ct_find [ct_wait] = 1%nat.
Proof. do 2 eexists. split; [vm_compute; reflexivity|vm_compute; reflexivity]. Qed.
