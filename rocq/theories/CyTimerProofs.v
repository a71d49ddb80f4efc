(** Proofs about the timers of ginv.pyx. *)
From Coq Require Import ZArith List Bool Arith Lia.
From Verif Require Import Outcome UtilModel UtilProofs CyTimerModel CyTimerSpec.
Import ListNotations.
Local Open Scope Z_scope.

Lemma set_nth_length {A} (x : A) : forall l i, length (set_nth l i x) = length l.
Proof. induction l as [|y l IH]; intros [|i]; cbn; auto. Qed.
Lemma set_nth_get {A} (x : A) : forall l i j, nth_error (set_nth l i x) j = if (i =? j)%nat then (match nth_error l j with Some _ => Some x | None => None end) else nth_error l j.
Proof.
  induction l as [|y l IH]; intros [|i] [|j]; cbn [set_nth nth_error Nat.eqb]; try reflexivity; [destruct (i =? j)%nat; reflexivity|]. apply IH.
Qed.
Lemma nth_app_last {A} (l : list A) x j : nth_error (l ++ [x]) j = if (length l =? j)%nat then Some x else nth_error l j.
Proof.
  destruct (length l =? j)%nat eqn:E.
  - apply Nat.eqb_eq in E. subst j. rewrite nth_error_app2, Nat.sub_diag by lia. reflexivity.
  - apply Nat.eqb_neq in E. destruct (Nat.lt_ge_cases j (length l)) as [H|H]; [apply nth_error_app1; exact H|].
    rewrite (proj2 (nth_error_None (l ++ [x]) j)), (proj2 (nth_error_None l j)); [reflexivity|lia|rewrite app_length; cbn; lia].
Qed.

Lemma not_made h : forall k, (made h <= k)%nat -> alive k h = false /\ is_one k h = false /\ completion_time k h = Reading 0 0 0.
Proof.
  induction h as [|c h IH]; intros k H; [auto|]. destruct c; cbn [made alive is_one completion_time] in *; try (apply IH; exact H).
  - destruct (IH k ltac:(lia)) as (A & B & C). rewrite A. destruct (Nat.eqb_spec (made h) k); [lia|]. auto.
  - destruct (IH k H) as (A & B & C). rewrite A, andb_false_r. auto.
  - destruct (IH k H) as (A & B & C). rewrite A, B, C, !andb_false_r. auto.
Qed.
Lemma no_events h : forall v, (length (timers h) <= v)%nat -> events v h = [].
Proof.
  induction h as [|c h IH]; intros v H; [reflexivity|]. destruct c; cbn [timers events] in *; try (apply IH; rewrite ?app_length in H; lia).
  rewrite IH by exact H. destruct (Nat.ltb_spec v (length (timers h))); [lia|]. rewrite andb_false_r. reflexivity.
Qed.
Lemma sum_app a b : sum (a ++ b) = Reading (ruser (sum a) + ruser (sum b)) (rsys (sum a) + rsys (sum b)) (rreal (sum a) + rreal (sum b)).
Proof.
  unfold sum. cbn [ruser rsys rreal]. f_equal; (induction a as [|x a IH]; cbn [app fold_right]; [lia|rewrite IH; lia]).
Qed.
Lemma collect_sum gcs : forall t l, elapsed t = sum l -> elapsed (collect gcs t) = sum (gcs ++ l).
Proof.
  induction gcs as [|g gcs IH]; intros t l E; [exact E|]. unfold collect. cbn [fold_left]. fold (collect gcs (tm_stop (snd g) (tm_cont (fst g) t))).
  rewrite (IH _ (g :: l)). { rewrite (sum_app gcs (g :: l)), (sum_app (g :: gcs) l). unfold sum. cbn [fold_right ruser rsys rreal]. f_equal; lia. }
  cbn [tm_stop tm_cont elapsed last]. rewrite E. unfold sum. cbn [fold_right ruser rsys rreal]. f_equal; lia.
Qed.

Definition base_ok (h : list tcmd) (k : nat) (x : option (option (bool * timer))) : Prop :=
  match x with
  | Some (Some b) => alive k h = true /\ fst b = is_one k h /\ elapsed (snd b) = completion_time k h
  | _ => alive k h = false
  end.
Definition view_ok (h : list tcmd) (v : nat) (x : option tview) (y : option purpose) : Prop :=
  match x, y with
  | Some (TOwn t), Some ForOwn => t = tm_run tm_new (events v h)
  | Some (TOf (Some k)), Some (ForBasis k') => k = k'
  | Some (TOf None), Some ForNothing => True
  | Some TGC, Some ForCollections => True
  | None, None => True
  | _, _ => False
  end.
Record inv (h : list tcmd) (s : tsys) : Prop := {
  inv_made : length (tbases s) = made h;
  inv_base : forall k, base_ok h k (nth_error (tbases s) k);
  inv_gc : elapsed (tgc s) = sum (collections h);
  inv_views : forall v, view_ok h v (nth_error (tviews s) v) (nth_error (timers h) v)
}.
Lemma views_length h s : inv h s -> length (tviews s) = length (timers h).
Proof.
  intro H. destruct (Nat.lt_trichotomy (length (tviews s)) (length (timers h))) as [L|[L|L]]; [|exact L|]; exfalso.
  - assert (V := inv_views h s H (length (tviews s))). rewrite (proj2 (nth_error_None _ _)) in V by lia. destruct (nth_error (timers h) (length (tviews s))) eqn:E; [exact V|]. apply nth_error_None in E. lia.
  - assert (V := inv_views h s H (length (timers h))). rewrite (proj2 (nth_error_None (timers h) _)) in V by lia. destruct (nth_error (tviews s) (length (timers h))) as [[| [|]|]|] eqn:E; try exact V. apply nth_error_None in E. lia.
Qed.

Lemma inv_start : inv [] tsys0.
Proof. constructor; try reflexivity; intros [|k]; reflexivity || exact Logic.I. Qed.

(** Commands that change neither bases nor timer objects *)
Lemma same_bases h s c k : (forall k, alive k (c :: h) = alive k h) -> (forall k, is_one k (c :: h) = is_one k h) -> (forall k, completion_time k (c :: h) = completion_time k h) ->
  inv h s -> base_ok (c :: h) k (nth_error (tbases s) k).
Proof. intros A B C H. assert (V := inv_base h s H k). destruct (nth_error (tbases s) k) as [[b|]|]; cbn [base_ok] in *; rewrite A, ?B, ?C; exact V. Qed.
Lemma same_views h s c v : timers (c :: h) = timers h -> (forall v, events v (c :: h) = events v h) -> inv h s -> view_ok (c :: h) v (nth_error (tviews s) v) (nth_error (timers (c :: h)) v).
Proof. intros A B H. assert (V := inv_views h s H v). rewrite A. destruct (nth_error (tviews s) v) as [[| [|]|]|], (nth_error (timers h) v) as [[| | |]|]; cbn [view_ok] in *; rewrite ?B; exact V. Qed.
Lemma new_view h s c v x y : timers (c :: h) = timers h ++ [y] -> (forall v, events v (c :: h) = events v h) -> inv h s ->
  (forall w, events w h = [] -> view_ok h w (Some x) (Some y)) -> view_ok (c :: h) v (nth_error (tviews s ++ [x]) v) (nth_error (timers (c :: h)) v).
Proof.
  intros A B H N. rewrite A, !nth_app_last, (views_length h s H). destruct (length (timers h) =? v)%nat eqn:E.
  - apply Nat.eqb_eq in E. assert (Ne := no_events h v ltac:(lia)). assert (X := N v Ne). unfold view_ok in *. rewrite B. exact X.
  - assert (V := inv_views h s H v). destruct (nth_error (tviews s) v) as [[| [|]|]|], (nth_error (timers h) v) as [[| | |]|]; cbn [view_ok] in *; rewrite ?B; exact V.
Qed.

Lemma inv_step h s c s' a : inv h s -> t_step s c = Ok (s', a) -> inv (c :: h) s'.
Proof.
  intros H E. destruct c; cbn [t_step] in E.
  - (* TNew *) injection E as <- <-. constructor; cbn [tbases tgc tviews].
    + rewrite app_length, (inv_made h s H). cbn [length made]. lia.
    + intro k. rewrite nth_app_last, (inv_made h s H). unfold base_ok. cbn [alive is_one completion_time]. destruct (made h =? k)%nat eqn:Ek.
      * apply Nat.eqb_eq in Ek. destruct (not_made h k ltac:(lia)) as (_ & B & C). rewrite B, C. repeat split.
      * exact (inv_base h s H k).
    + exact (inv_gc h s H).
    + intro v. apply (same_views h s TNew v); auto.
  - (* TDel *) assert (Vk := inv_base h s H k). destruct (nth_error (tbases s) k) as [[b|]|] eqn:Ek; injection E as <- <-.
    1:{ constructor; cbn [tbases tgc tviews].
        - rewrite set_nth_length. exact (inv_made h s H).
        - intro j. rewrite set_nth_get. unfold base_ok. cbn [alive is_one completion_time]. destruct (k =? j)%nat eqn:Ej; cbn [negb andb]; [destruct (nth_error (tbases s) j); reflexivity|]. exact (inv_base h s H j).
        - exact (inv_gc h s H).
        - intro v. apply (same_views h s (TDel k) v); auto. }
    all: cbn [base_ok] in Vk; (constructor; [exact (inv_made h s H)| |exact (inv_gc h s H)|intro v; apply (same_views h s (TDel k) v); auto]);
      intro j; assert (Vj := inv_base h s H j); unfold base_ok in *; cbn [alive is_one completion_time];
      (destruct (Nat.eqb_spec k j) as [<-|N]; [rewrite Ek; reflexivity|exact Vj]).
  - (* TComplete *) assert (Vk := inv_base h s H k). destruct (nth_error (tbases s) k) as [[b|]|] eqn:Ek; injection E as <- <-.
    1:{ cbn [base_ok] in Vk. destruct Vk as (A & B & C). constructor; cbn [tbases tgc tviews].
        - rewrite set_nth_length. exact (inv_made h s H).
        - intro j. rewrite set_nth_get. assert (Vj := inv_base h s H j). unfold base_ok in *. cbn [alive is_one completion_time]. destruct (Nat.eqb_spec k j) as [<-|N]; cbn [andb orb]; [|exact Vj].
          rewrite Ek, A, <- B. unfold t_complete. destruct (fst b) eqn:Eo; cbn [negb andb]; [rewrite Eo, orb_true_r; auto|]. cbn [fst snd tm_stop tm_start elapsed last ruser rsys rreal]. rewrite orb_false_r. repeat split.
        - cbn [collections]. rewrite A, <- B. destruct (fst b); cbn [negb andb app]; [exact (inv_gc h s H)|]. apply collect_sum. exact (inv_gc h s H).
        - intro v. apply (same_views h s (TComplete k start gcs stop one) v); auto. }
    all: cbn [base_ok] in Vk; (constructor; [exact (inv_made h s H)| |cbn [collections]; rewrite Vk; exact (inv_gc h s H)|intro v; apply (same_views h s (TComplete k start gcs stop one) v); auto]);
      intro j; assert (Vj := inv_base h s H j); unfold base_ok in *; cbn [alive is_one completion_time];
      (destruct (Nat.eqb_spec k j) as [<-|N]; [rewrite Ek; exact Vk|cbn [andb orb]; exact Vj]).
  - (* TWork *) injection E as <- <-. constructor; cbn [tbases tgc tviews].
    + exact (inv_made h s H).
    + intro k. apply (same_bases h s (TWork gcs) k); auto.
    + cbn [collections]. apply collect_sum. exact (inv_gc h s H).
    + intro v. apply (same_views h s (TWork gcs) v); auto.
  - (* TTimer *) assert (Vk := inv_base h s H k). destruct (nth_error (tbases s) k) as [[b|]|] eqn:Ek; injection E as <- <-; cbn [base_ok] in Vk.
    1:{ constructor; cbn [tbases tgc tviews]; [exact (inv_made h s H)|intro j; apply (same_bases h s (TTimer k) j); auto|exact (inv_gc h s H)|].
        intro v. apply (new_view h s (TTimer k) v (TOf (Some k)) (ForBasis k)); auto; [cbn [timers]; rewrite (proj1 Vk); reflexivity|]. reflexivity. }
    all: (constructor; [exact (inv_made h s H)|intro j; apply (same_bases h s (TTimer k) j); auto|exact (inv_gc h s H)|]);
      intro v; apply (same_views h s (TTimer k) v); auto; cbn [timers]; rewrite Vk, app_nil_r; reflexivity.
  - injection E as <- <-. constructor; cbn [tbases tgc tviews]; [exact (inv_made h s H)|intro j; apply (same_bases h s TConst j); auto|exact (inv_gc h s H)|].
    intro v. apply (new_view h s TConst v (TOf None) ForNothing); auto. reflexivity.
  - injection E as <- <-. constructor; cbn [tbases tgc tviews]; [exact (inv_made h s H)|intro j; apply (same_bases h s TGCTimer j); auto|exact (inv_gc h s H)|].
    intro v. apply (new_view h s TGCTimer v TGC ForCollections); auto. reflexivity.
  - injection E as <- <-. constructor; cbn [tbases tgc tviews]; [exact (inv_made h s H)|intro j; apply (same_bases h s TOwnNew j); auto|exact (inv_gc h s H)|].
    intro v. apply (new_view h s TOwnNew v (TOwn tm_new) ForOwn); auto. intros w W. cbn [view_ok]. rewrite W. reflexivity.
  - (* TEvent *) assert (Vv := inv_views h s H v). assert (Lv := views_length h s H).
    destruct (nth_error (tviews s) v) as [[t| |]|] eqn:Ev; injection E as <- <-.
    1:{ constructor; cbn [tbases tgc tviews]; [exact (inv_made h s H)|intro j; apply (same_bases h s (TEvent v e) j); auto|exact (inv_gc h s H)|].
        intro w. rewrite set_nth_get. cbn [timers]. destruct (Nat.eqb_spec v w) as [<-|N].
        - rewrite Ev. destruct (nth_error (timers h) v) as [[| | |]|] eqn:Et; cbn [view_ok] in *; try contradiction. cbn [events]. rewrite Nat.eqb_refl.
          assert (Hl : (v < length (timers h))%nat) by (apply nth_error_Some; congruence). apply Nat.ltb_lt in Hl. rewrite Hl. cbn [andb]. rewrite tm_run_app, <- Vv. reflexivity.
        - assert (Vw := inv_views h s H w). destruct (nth_error (tviews s) w) as [[| [|]|]|], (nth_error (timers h) w) as [[| | |]|]; cbn [view_ok events] in *; try exact Vw.
          destruct (Nat.eqb_spec v w); [contradiction|]. cbn [andb]. rewrite app_nil_r. exact Vw. }
    all: (constructor; [exact (inv_made h s H)|intro j; apply (same_bases h s (TEvent v e) j); auto|exact (inv_gc h s H)|]);
      intro w; cbn [timers]; assert (Vw := inv_views h s H w);
      (destruct (nth_error (tviews s) w) as [[| [|]|]|] eqn:Ew, (nth_error (timers h) w) as [[| | |]|]; cbn [view_ok events] in *; try exact Vw);
      (destruct (Nat.eqb_spec v w) as [<-|N]; [congruence|cbn [andb]; rewrite app_nil_r; exact Vw]).
  - (* TTime *) assert (E' : s' = s) by (destruct (nth_error (tviews s) v) as [[| [|]|]|]; injection E; congruence). subst s'.
    constructor; [exact (inv_made h s H)|intro j; apply (same_bases h s (TTime v p) j); auto|exact (inv_gc h s H)|intro w; apply (same_views h s (TTime v p) w); auto].
  - assert (E' : s' = s) by (destruct (nth_error (tviews s) v) as [[| [k|]|]|]; try discriminate; try (destruct (nth_error (tbases s) k) as [[|]|]; try discriminate); injection E; congruence). subst s'.
    constructor; [exact (inv_made h s H)|intro j; apply (same_bases h s (TText v) j); auto|exact (inv_gc h s H)|intro w; apply (same_views h s (TText v) w); auto].
Qed.
Lemma program_inv h s : program h s -> inv h s.
Proof. induction 1 as [|h s c s' a H IH E]; [exact inv_start|]. eapply inv_step; [exact IH|exact E]. Qed.

(** The text of J.timer() *)
Theorem c90_text h s v k : program h s -> nth_error (timers h) v = Some (ForBasis k) ->
  t_step s (TText v) = if alive k h then Ok (s, TShown (completion_time k h)) else Undef.
Proof.
  intros P E. apply program_inv in P. cbn [t_step]. assert (V := inv_views h s P v). rewrite E in V. destruct (nth_error (tviews s) v) as [[| [k'|]|]|]; cbn [view_ok] in V; try contradiction. subst k'.
  assert (B := inv_base h s P k). destruct (nth_error (tbases s) k) as [[b|]|]; cbn [base_ok] in B; [destruct B as (-> & _ & ->); reflexivity|rewrite B; reflexivity|rewrite B; reflexivity].
Qed.
(** Its methods *)
Theorem c90_methods h s v k p : program h s -> nth_error (timers h) v = Some (ForBasis k) -> t_step s (TTime v p) = Ok (s, TNumber (component p (sum (collections h)))).
Proof.
  intros P E. apply program_inv in P. cbn [t_step]. assert (V := inv_views h s P v). rewrite E in V. destruct (nth_error (tviews s) v) as [[| [k'|]|]|]; cbn [view_ok] in V; try contradiction. rewrite (inv_gc h s P). reflexivity.
Qed.
Theorem c90_collections h s v p : program h s -> nth_error (timers h) v = Some ForCollections ->
  t_step s (TTime v p) = Ok (s, TNumber (component p (sum (collections h)))) /\ t_step s (TText v) = Ok (s, TShown (sum (collections h))).
Proof.
  intros P E. apply program_inv in P. cbn [t_step]. assert (V := inv_views h s P v). rewrite E in V. destruct (nth_error (tviews s) v) as [[| [k'|]|]|]; cbn [view_ok] in V; try contradiction. rewrite (inv_gc h s P). auto.
Qed.
Theorem c90_own h s v p : program h s -> nth_error (timers h) v = Some ForOwn ->
  t_step s (TTime v p) = Ok (s, TNumber (component p (elapsed (tm_run tm_new (events v h))))) /\ t_step s (TText v) = Ok (s, TShown (elapsed (tm_run tm_new (events v h)))).
Proof.
  intros P E. apply program_inv in P. cbn [t_step]. assert (V := inv_views h s P v). rewrite E in V. destruct (nth_error (tviews s) v) as [[| [k'|]|]|]; cbn [view_ok] in V; try contradiction. rewrite V. auto.
Qed.
Theorem c90_nothing h s v : program h s -> nth_error (timers h) v = Some ForNothing -> t_step s (TText v) = Undef.
Proof.
  intros P E. apply program_inv in P. cbn [t_step]. assert (V := inv_views h s P v). rewrite E in V. destruct (nth_error (tviews s) v) as [[| [k'|]|]|]; cbn [view_ok] in V; try contradiction. reflexivity.
Qed.
