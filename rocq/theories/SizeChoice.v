From Coq Require Import ZArith List Bool Permutation Lia.
From Verif Require Import Outcome MonomModel PolyModel JanetPolyModel TQModel.
Import ListNotations.
Local Open Scope Z_scope.

Notation nrm u := (p_norm (wpol u)).
Lemma min_norm_ok l : forall w sk v r, min_norm w sk l = (v, r) -> Forall (fun u => nrm w <= nrm u) sk ->
  exists l1 l2, w :: sk ++ l = l1 ++ v :: l2 /\ r = l1 ++ l2 /\ Forall (fun u => nrm v < nrm u) l1 /\ Forall (fun u => nrm v <= nrm u) l2.
Proof.
  induction l as [|u l IH]; intros w sk v r H F; cbn [min_norm] in H.
  - injection H as <- <-. exists [], sk. rewrite app_nil_r. auto.
  - destruct (Z.ltb_spec (nrm u) (nrm w)) as [L|L].
    + destruct (min_norm u [] l) as [v' r'] eqn:E. injection H as <- <-. destruct (IH _ _ _ _ E (Forall_nil _)) as (l1 & l2 & E1 & E2 & F1 & F2).
      exists (w :: sk ++ l1), l2. cbn [app] in *. split; [rewrite E1, <- !app_assoc; reflexivity|]. split; [rewrite E2, app_assoc; reflexivity|].
      assert (V : nrm v' <= nrm u).
      { destruct l1 as [|z l1]; cbn [app] in E1; injection E1 as -> _; [lia|]. apply Forall_inv in F1. lia. }
      split; [|exact F2]. constructor; [lia|]. apply Forall_app. split; [|exact F1]. eapply Forall_impl; [|exact F]. intros z Q. cbv beta in Q. lia.
    + assert (F' : Forall (fun u => nrm w <= nrm u) (sk ++ [u])) by (apply Forall_app; split; [exact F|repeat constructor; exact L]).
      destruct (IH _ _ _ _ H F') as (l1 & l2 & E1 & R). exists l1, l2. rewrite <- app_assoc in E1. split; [exact E1|exact R].
Qed.
Lemma c106_choice w l v r : min_norm w [] l = (v, r) ->
  exists l1 l2, w :: l = l1 ++ v :: l2 /\ r = l1 ++ l2 /\ Forall (fun u => nrm v < nrm u) l1 /\ Forall (fun u => nrm v <= nrm u) l2.
Proof. intro H. exact (min_norm_ok l w [] v r H (Forall_nil _)). Qed.
Lemma c106_swap l : forall w v r, swap_min w l = (v, r) -> Permutation (w :: l) (v :: r) /\ nrm v <= nrm w /\ Forall (fun u => nrm v <= nrm u) r.
Proof.
  induction l as [|u l IH]; intros w v r H; cbn [swap_min] in H.
  - injection H as <- <-. split; [reflexivity|]. split; [lia|constructor].
  - destruct (Z.ltb_spec (nrm u) (nrm w)) as [L|L].
    + destruct (swap_min u l) as [v' r'] eqn:E. injection H as <- <-. destruct (IH _ _ _ E) as (P & V & F).
      split; [|split; [lia|constructor; [lia|exact F]]]. transitivity (w :: v' :: r'); [constructor; exact P|apply perm_swap].
    + destruct (swap_min w l) as [v' r'] eqn:E. injection H as <- <-. destruct (IH _ _ _ E) as (P & V & F).
      split; [|split; [lia|constructor; [lia|exact F]]]. transitivity (u :: w :: l); [apply perm_swap|].
      transitivity (u :: v' :: r'); [constructor; exact P|apply perm_swap].
Qed.
