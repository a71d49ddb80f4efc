(** Submodules of a free module with two generators e0, e1, two variables x > y: concrete runs. *)
From Coq Require Import ZArith List Bool Arith Lia.
From Verif Require Import Outcome MonomModel MonomSpec MonomProofs PolyModel PolySpec PolyProofs PolyTopProofs IdealProofs JanetModel JanetPolyModel JanetPolySpec JanetPolyProofs JanetPolyTop JanetPolyExamples TQModel ModSpec ModProofs.
Import ListNotations.
Local Open Scope Z_scope.

Definition mpol (t : pos_order) (l : list (Z * list nat * Z)) : poly :=
  Poly t ODegLex 2 (map (fun x => (Mon (fst (fst x)) (snd (fst x)), snd x)) l).
Ltac mod_in := split; [split; [apply canonical_iff; split; [repeat first [apply Sorted.SSorted_nil|apply Sorted.SSorted_cons|apply Forall_nil|apply Forall_cons|reflexivity]|split; repeat constructor; cbn; (lia || discriminate)]|split; [reflexivity|split; reflexivity]]|repeat constructor; cbn; lia].

Lemma push_all_any dbg P l : forall F J J', any_history dbg P F J -> Forall P l -> jp_push_all dbg J l = Ok J' -> any_history dbg P (rev l ++ F) J'.
Proof.
  induction l as [|a l IH]; intros F J J' H R E; cbn [jp_push_all] in E; [injection E as <-; exact H|].
  destruct (jp_push dbg J a) as [J1| | | |] eqn:E1; cbn [bind] in E; try discriminate.
  cbn [rev]. rewrite <- app_assoc. apply (IH (a :: F) J1 J'); [|exact (Forall_inv_tail R)|exact E]. eapply ah_push; [exact H|exact (Forall_inv R)|exact E1].
Qed.
Lemma run_any fuel dbg P l J : Forall P l -> run fuel dbg l = Ok J -> any_history dbg P (rev l) J.
Proof.
  intros R E. unfold run in E. destruct (jp_push_all dbg jp_empty l) as [J0| | | |] eqn:E0; cbn [bind] in E; try discriminate.
  assert (H := push_all_any dbg P l [] jp_empty J0 (ah_new _ _) R E0). rewrite app_nil_r in H. eapply ah_build; [exact H|exact E].
Qed.
Definition final (r : outcome jpoly) : jpoly := match r with Ok J => J | _ => jp_empty end.

(** The unit vector e0 *)
Definition u_f t := mpol t [(0, [0; 0]%nat, 1)].
Definition u_a t := mpol t [(1, [0; 0]%nat, 1)].
Definition u_J t := final (run 40 false [u_f t]).
Lemma unit_wrong t : any_history false (module_input t ODegLex 2 2) [u_f t] (u_J t) /\ jone (u_J t) <> None /\ module_input t ODegLex 2 2 (u_a t) /\
  ~ rational_member 2 (among [u_f t]) (terms (u_a t)) /\ exists r, jp_nf 40 false (u_J t) (u_a t) = Ok r /\ terms r = [].
Proof.
  split; [apply (run_any 40 false _ [u_f t]); [constructor; [destruct t; mod_in|constructor]|destruct t; vm_compute; reflexivity]|].
  split; [destruct t; vm_compute; discriminate|]. split; [destruct t; mod_in|]. split.
  - apply (not_member 2 (fun m => if pos m =? 1 then 1 else 0)); [intros u _; exists 1; intros [p v]; unfold mprod; cbn [pos]; change (-1 =? -1) with true; cbn iota; lia| |cbn; lia]. intros g (f & [<- | []] & <-). reflexivity.
  - eexists. split; [destruct t; vm_compute; reflexivity|reflexivity].
Qed.

(** x e1 + y e0 and y e1: y (x e1 + y e0) - x (y e1) = y^2 e0 *)
Definition c_f t := mpol t [(1, [1; 0]%nat, 1); (0, [0; 1]%nat, 1)].
Definition c_g t := mpol t [(1, [0; 1]%nat, 1)].
Definition c_a t := mpol t [(0, [0; 2]%nat, 1)].
Definition c_J t := final (run 40 false [c_f t; c_g t]).
Lemma c_member t : rational_member 2 (among [c_g t; c_f t]) (terms (c_a t)).
Proof.
  exists 1, (terms (c_a t)). split; [lia|]. split; [|intro; lia].
  apply (comb_add 2 _ _ (shift [0; 1]%nat (terms (c_f t))) [1; 0]%nat (terms (c_g t)) (-1)).
  - apply (comb_add 2 _ _ [] [0; 1]%nat (terms (c_f t)) 1); [apply comb_zero; reflexivity|exists (c_f t); split; [right; left; reflexivity|reflexivity]|reflexivity|]. intro m. cbn [coef]. lia.
  - exists (c_g t). split; [left; reflexivity|reflexivity].
  - reflexivity.
  - intro m. change (coef [(Mon 0 [0; 2]%nat, 1)] m = coef [(Mon 1 [1; 1]%nat, 1); (Mon 0 [0; 2]%nat, 1)] m + -1 * coef [(Mon 1 [1; 1]%nat, 1)] m). cbn [coef]. destruct (monom_eq_dec (Mon 0 [0; 2]%nat) m), (monom_eq_dec (Mon 1 [1; 1]%nat) m); lia.
Qed.
Lemma criterion_wrong t : any_history false (module_input t ODegLex 2 2) [c_g t; c_f t] (c_J t) /\ jq (c_J t) = [] /\ module_input t ODegLex 2 2 (c_a t) /\
  rational_member 2 (among [c_g t; c_f t]) (terms (c_a t)) /\ exists r, jp_nf 40 false (c_J t) (c_a t) = Ok r /\ terms r <> [].
Proof.
  split; [apply (run_any 40 false _ [c_f t; c_g t]); [repeat apply Forall_cons; try apply Forall_nil; destruct t; mod_in|destruct t; vm_compute; reflexivity]|].
  split; [destruct t; vm_compute; reflexivity|]. split; [destruct t; mod_in|]. split; [apply c_member|]. eexists. split; [destruct t; vm_compute; reflexivity|discriminate].
Qed.

(** x e1 and x y e1 + x y e0 + y e0 *)
Definition p_f t := mpol t [(1, [1; 0]%nat, 1)].
Definition p_g t := mpol t [(1, [1; 1]%nat, 1); (0, [1; 1]%nat, 1); (0, [0; 1]%nat, 1)].
Definition p_a t := mpol t [(0, [1; 1]%nat, 1); (0, [0; 1]%nat, 1)].
Definition p_b t := mpol t [(1, [0; 1]%nat, -1)].
Definition p_J t := final (run 40 false [p_f t; p_g t]).
Lemma p_member t : rational_member 2 (among [p_g t; p_f t]) (terms (p_a t)).
Proof.
  exists 1, (terms (p_a t)). split; [lia|]. split; [|intro; lia].
  apply (comb_add 2 _ _ (shift [0; 0]%nat (terms (p_g t))) [0; 1]%nat (terms (p_f t)) (-1)).
  - apply (comb_add 2 _ _ [] [0; 0]%nat (terms (p_g t)) 1); [apply comb_zero; reflexivity|exists (p_g t); split; [left; reflexivity|reflexivity]|reflexivity|]. intro m. cbn [coef]. lia.
  - exists (p_f t). split; [right; left; reflexivity|reflexivity].
  - reflexivity.
  - intro m. change (coef [(Mon 0 [1; 1]%nat, 1); (Mon 0 [0; 1]%nat, 1)] m = coef [(Mon 1 [1; 1]%nat, 1); (Mon 0 [1; 1]%nat, 1); (Mon 0 [0; 1]%nat, 1)] m + -1 * coef [(Mon 1 [1; 1]%nat, 1)] m).
    cbn [coef]. lia.
Qed.
(** The coefficient of e1 at x = 0, y = 1 *)
Definition p_fun (m : monom) : Z := match vars m with O :: _ => if pos m =? 1 then 1 else 0 | _ => 0 end.
Lemma p_fun_scales : scales 2 p_fun.
Proof.
  intros [|a [|b [|c u]]] L; try discriminate. exists (if (a =? 0)%nat then 1 else 0). intros [p v]. unfold p_fun, mprod. cbn [pos vars].
  change (-1 =? -1) with true. cbn iota. rewrite vsum_addv. destruct v as [|x v].
  - cbn. lia.
  - cbn. destruct a, x; cbn; destruct (p =? 1); reflexivity.
Qed.
Lemma position_wrong t : any_history false (module_input t ODegLex 2 2) [p_g t; p_f t] (p_J t) /\ jq (p_J t) = [] /\
  (In (p_b t) (basis (p_J t)) /\ ~ rational_member 2 (among [p_g t; p_f t]) (terms (p_b t))) /\
  (module_input t ODegLex 2 2 (p_a t) /\ rational_member 2 (among [p_g t; p_f t]) (terms (p_a t)) /\ exists r, jp_nf 40 false (p_J t) (p_a t) = Ok r /\ terms r <> []).
Proof.
  split; [apply (run_any 40 false _ [p_f t; p_g t]); [repeat apply Forall_cons; try apply Forall_nil; destruct t; mod_in|destruct t; vm_compute; reflexivity]|].
  split; [destruct t; vm_compute; reflexivity|]. split.
  - split; [destruct t; vm_compute; auto|].
    apply (not_member 2 p_fun); [exact p_fun_scales| |cbn; lia]. intros g (f & [<- | [<- | []]] & <-); reflexivity.
  - split; [destruct t; mod_in|]. split; [apply p_member|]. eexists. split; [destruct t; vm_compute; reflexivity|discriminate].
Qed.
