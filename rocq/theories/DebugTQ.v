(** What a build with assertions computes, one without computes as well: algorithmTQ, algorithmTQ1, algorithmTQ2 and histories. *)
From Coq Require Import ZArith List Bool Arith Lia.
From Verif Require Import Outcome MonomModel JanetModel PolyModel JanetPolyModel TQModel JanetPolySpec DebugProofs.
Import ListNotations.
Local Open Scope Z_scope.

Lemma d_tail_pp fuel f g p : agree_f f g -> agree (tail_pp fuel true f p) (tail_pp fuel false g p).
Proof. intro H. unfold tail_pp. ag. Qed.
#[global] Hint Resolve d_tail_pp : ag.
Lemma d_take_tq tail fuel f g dg : agree_f f g -> forall q tmp, agree (take_tq tail fuel true f dg q tmp) (take_tq tail fuel false g dg q tmp).
Proof. intros H. induction q as [|u q IH]; intro tmp; cbn [take_tq]; ag. Qed.
Lemma d_tails fuel f g l : agree_f f g -> agree (tails fuel true f l) (tails fuel false g l).
Proof. intro H. induction l as [|u l IH]; cbn [tails]; ag. Qed.
Lemma d_red_eq a l : agree (red_eq true a l) (red_eq false a l).
Proof. induction l as [|u l IH]; cbn [red_eq]; ag. Qed.
Lemma d_insert_all l : forall q, agree (insert_all true q l) (insert_all false q l).
Proof. induction l as [|u l IH]; intro q; cbn [insert_all]; ag. Qed.
Lemma d_enter_w js u : agree (enter_w true js u) (enter_w false js u).
Proof. unfold enter_w. ag. Qed.
#[global] Hint Resolve d_take_tq d_tails d_red_eq d_insert_all d_enter_w : ag.
Lemma d_twalk fuel mpos dg cnt : forall js q d w k, agree (walk cnt fuel true mpos dg js q d w k) (walk cnt fuel false mpos dg js q d w k).
Proof. induction cnt as [|cnt IH]; intros js q d w k; cbn [walk]; ag. Qed.
#[global] Hint Resolve d_twalk : ag.
Lemma d_tq_loop one fuel : forall mpos js q t, agree (tq_loop one fuel true mpos js q t) (tq_loop one fuel false mpos js q t).
Proof.
  induction fuel as [|fuel IH]; intros mpos js [|u q] t; cbn [tq_loop]; try solve [ag]. cbv zeta.
  apply agree_bind; [ag|]. intro m. apply agree_bind; [ag|]. intros [[q1 tmp]|]; [|ag]. apply agree_assert. destruct tmp as [|v tmp]; [ag|].
  apply agree_bind; [ag|]. intro m0. apply agree_bind; [ag|]. intros [eqs rest]. apply agree_bind; [ag|]. intro w1. apply agree_bind; [ag|]. intro eqs1.
  destruct (swap_min w1 eqs1) as [w eqs2]. destruct (one && negb (length eqs2 =? 0)%nat); [ag|]. apply agree_assert.
  apply agree_bind; [ag|]. intros [js2 w']. apply agree_bind; [ag|]. intros [[js3 q3] t3].
  apply agree_skip. intro b. apply agree_check. apply IH.
Qed.
#[global] Hint Resolve d_tq_loop : ag.
Lemma d_tq one fuel J : agree (jp_tq one fuel true J) (jp_tq one fuel false J).
Proof. unfold jp_tq. ag. Qed.

Lemma d_prolong_det mpos cnt : forall k js w p q, agree (prolong_det true mpos cnt k js w p q) (prolong_det false mpos cnt k js w p q).
Proof. induction cnt as [|cnt IH]; intros k js w p q; cbn [prolong_det]; ag. Qed.
#[global] Hint Resolve d_prolong_det : ag.
Lemma d_item_step fuel mpos dg js q others x : agree (item_step fuel true mpos dg js q others x) (item_step fuel false mpos dg js q others x).
Proof. unfold item_step. ag. Qed.
#[global] Hint Resolve d_item_step : ag.
Lemma d_walk2 fuel mpos dg cnt : forall js q d w k, agree (walk2 cnt fuel true mpos dg js q d w k) (walk2 cnt fuel false mpos dg js q d w k).
Proof. induction cnt as [|cnt IH]; intros js q d w k; cbn [walk2]; ag. Qed.
#[global] Hint Resolve d_walk2 : ag.
Lemma d_tq2_loop fuel : forall mpos pref js q t, agree (tq2_loop fuel true mpos pref js q t) (tq2_loop fuel false mpos pref js q t).
Proof.
  induction fuel as [|fuel IH]; intros mpos pref js [|u q] t; cbn [tq2_loop]; try solve [ag]. cbv zeta.
  apply agree_bind; [ag|]. intro m. apply agree_bind; [ag|]. intros [[q1 tmp]|]; [|ag]. apply agree_assert. destruct tmp as [|v tmp]; [ag|].
  apply agree_bind; [ag|]. intro m0. apply agree_bind; [ag|]. intros [eqs rest]. destruct (swap_min v eqs) as [w1 eqs2]. apply agree_assert.
  apply agree_bind; [ag|]. intro p. apply agree_bind; [ag|]. intros [js2 w']. apply agree_bind; [ag|]. intros [[js3 q3] t3].
  apply agree_skip. intro b. apply agree_check. apply IH.
Qed.
#[global] Hint Resolve d_tq2_loop : ag.
Lemma d_tq2 fuel J : agree (jp_tq2 fuel true J) (jp_tq2 fuel false J).
Proof. unfold jp_tq2. ag. Qed.
Lemma d_jp2_find J : agree_f (jp2_find true J) (jp2_find false J).
Proof. intro m. unfold jp2_find. destruct (j2one J); [ag|]. apply d_find_poly. Qed.
#[global] Hint Resolve d_jp2_find : ag.
Lemma d_jp2_nf fuel J a : agree (jp2_nf fuel true J a) (jp2_nf fuel false J a).
Proof. unfold jp2_nf. ag. Qed.

(** Every history of a debug build is one of a release build. *)
Lemma d_history t o n F J : jp_history true t o n F J -> jp_history false t o n F J.
Proof.
  induction 1 as [|F J a J' _ IH In E|F J fuel J' _ IH E|F J one fuel J' _ IH E].
  - constructor.
  - exact (hist_push _ _ _ _ _ _ _ _ IH In (d_push _ _ _ E)).
  - exact (hist_build _ _ _ _ _ _ _ _ IH (d_build _ _ _ E)).
  - exact (hist_tq _ _ _ _ _ _ _ _ _ IH (d_tq _ _ _ _ E)).
Qed.
