From Coq Require Import ZArith List Bool Arith Lia.
From Verif Require Import Outcome RandPermModel RandPermProofs UtilModel UtilSpec.
Import ListNotations.
Local Open Scope Z_scope.

(* ---- Timer ---- *)
Lemma tm_run_app t a b : tm_run t (a ++ b) = tm_run (tm_run t a) b.
Proof. apply fold_left_app. Qed.
Lemma tm_conts t l : elapsed (tm_run t (map TCont l)) = elapsed t.
Proof. revert t; induction l as [|r l IH]; intros t; [reflexivity|]. cbn [map]. unfold tm_run in *. cbn [fold_left]. rewrite IH. reflexivity. Qed.
Lemma tm_interval t i : elapsed (tm_run t (interval_events i)) =
  Reading (ruser (elapsed t) + (ruser (upto i) - ruser (from i)))
          (rsys (elapsed t) + (rsys (upto i) - rsys (from i)))
          (rreal (elapsed t) + (rreal (upto i) - rreal (from i))).
Proof.
  unfold interval_events. rewrite tm_run_app. cbn [tm_run fold_left tm_step tm_cont tm_stop elapsed last].
  rewrite tm_conts. reflexivity.
Qed.
Lemma tm_intervals is : forall t, elapsed (tm_run t (flat_map interval_events is)) =
  Reading (ruser (elapsed t) + total ruser is) (rsys (elapsed t) + total rsys is) (rreal (elapsed t) + total rreal is).
Proof.
  induction is as [|i is IH]; intros t.
  - cbn. rewrite !Z.add_0_r. destruct (elapsed t); reflexivity.
  - cbn [flat_map]. rewrite tm_run_app, IH, tm_interval. cbn [ruser rsys rreal total fold_right].
    f_equal; unfold total; lia.
Qed.
Lemma c36_timer before r s is :
  elapsed (tm_run tm_new (before ++ TStart r :: TStop s :: flat_map interval_events is)) =
  Reading ((ruser s - ruser r) + total ruser is) ((rsys s - rsys r) + total rsys is) ((rreal s - rreal r) + total rreal is).
Proof.
  rewrite tm_run_app. change (TStart r :: TStop s :: flat_map interval_events is) with ([TStart r; TStop s] ++ flat_map interval_events is).
  rewrite tm_run_app, tm_intervals. cbn [tm_run fold_left tm_step tm_start tm_stop elapsed last ruser rsys rreal]. f_equal; lia.
Qed.
(** the first measurement may also begin with cont on a new timer (as the allocator's own timer does) *)
Lemma c36_timer_cont is : elapsed (tm_run tm_new (flat_map interval_events is)) =
  Reading (total ruser is) (total rsys is) (total rreal is).
Proof. rewrite tm_intervals. reflexivity. Qed.
(** start while an interval is open begins anew; an open interval is not reported *)
Lemma c36_open t l r : elapsed (tm_run t (map TCont l)) = elapsed t /\ elapsed (tm_run t [TStart r]) = Reading 0 0 0.
Proof. split; [apply tm_conts|reflexivity]. Qed.
Lemma c36_stop_twice : exists r s u, 
  elapsed (tm_run tm_new [TStart r; TStop s; TStop u]) <> elapsed (tm_run tm_new [TStart r; TStop s]).
Proof. exists (Reading 0 0 0), (Reading 1 1 1), (Reading 5 5 5). cbn. congruence. Qed.
Lemma c36_stop_unstarted : forall s, elapsed (tm_run tm_new [TStop s]) = s.
Proof. intros [a b c]. cbn. f_equal; lia. Qed.

(* ---- Stack ---- *)
Section Stack.
Context {T : Type}.
Implicit Types (s : stack T) (l : list T).

Lemma firstn_nth {A} (a : list A) k x : nth_error (firstn k a) x = if (x <? k)%nat then nth_error a x else None.
Proof.
  revert a x; induction k as [|k IH]; intros [|y a] [|x]; cbn [firstn nth_error]; auto.
  - destruct (S x <? S k)%nat; reflexivity.
  - rewrite IH. destruct (Nat.ltb_spec x k), (Nat.ltb_spec (S x) (S k)); try lia; reflexivity.
Qed.

Lemma copy_loop_ok (src : list (option T)) n : forall k dst, (k + n <= length src)%nat -> (k + n <= length dst)%nat ->
  exists dst', st_copy_loop n k dst src = Ok dst' /\ length dst' = length dst /\
    forall i, nth_error dst' i = if ((k <=? i) && (i <? k + n))%nat then nth_error src i else nth_error dst i.
Proof.
  induction n as [|n IH]; intros k dst Hs Hd; cbn [st_copy_loop].
  - exists dst. split; [reflexivity|]. split; [reflexivity|]. intros i.
    destruct (Nat.leb_spec k i), (Nat.ltb_spec i (k + 0)); cbn; try lia; reflexivity.
  - destruct (nth_error src k) as [x|] eqn:Ex; [|apply nth_error_None in Ex; lia].
    rewrite (rd_ok _ _ _ Ex). cbn [bind]. unfold wr. destruct (Nat.ltb_spec k (length dst)); [|lia]. cbn [bind].
    destruct (IH (S k) (upd dst k x)) as (d & E & L & N); [lia|rewrite upd_len; lia|].
    exists d. split; [exact E|]. split; [rewrite L; apply upd_len|]. intros i. rewrite N.
    assert (U : forall (a : list (option T)) j y i, nth_error (upd a j y) i = if ((i =? j) && (j <? length a))%nat then Some y else nth_error a i).
    { clear. induction a as [|z a IHa]; intros [|j] y [|i]; cbn [upd nth_error length]; try reflexivity.
      - rewrite andb_false_r. reflexivity.
      - rewrite IHa. cbn. destruct (Nat.eqb_spec i j), (Nat.ltb_spec j (length a)), (Nat.ltb_spec (S j) (S (length a))); cbn; try lia; reflexivity. }
    rewrite U. destruct (Nat.leb_spec (S k) i), (Nat.leb_spec k i), (Nat.ltb_spec i (S k + n)), (Nat.ltb_spec i (k + S n)),
      (Nat.eqb_spec i k), (Nat.ltb_spec k (length dst)); cbn; try lia; try reflexivity. subst i. congruence.
Qed.

Lemma holds_nth s l : holds s l <-> (length (sarr s) = scap s /\ sdeep s = length l /\ (length l <= length (sarr s))%nat /\
  forall i, (i < length l)%nat -> nth_error (sarr s) i = nth_error (map Some (rev l)) i).
Proof.
  split.
  - intros (A & B & C). split; [exact A|]. split; [exact B|].
    assert (X : (length l <= length (sarr s))%nat).
    { apply (f_equal (@length _)) in C. rewrite firstn_length, map_length, rev_length in C. lia. }
    split; [exact X|]. intros i Hi. rewrite <- C, firstn_nth. destruct (Nat.ltb_spec i (length l)); [reflexivity|lia].
  - intros (A & B & X & C). split; [exact A|]. split; [exact B|].
    apply nth_ext with (d := None) (d' := None).
    + rewrite firstn_length, map_length, rev_length. lia.
    + rewrite firstn_length. intros i Hi.
      assert (Hi' : (i < length l)%nat) by lia.
      specialize (C i Hi').
      rewrite <- (firstn_skipn (length l) (sarr s)) in C. rewrite nth_error_app1 in C by (rewrite firstn_length; lia).
      rewrite (nth_error_nth' _ None) in C by (rewrite firstn_length; lia).
      rewrite (nth_error_nth' _ None) in C by (rewrite map_length, rev_length; lia). congruence.
Qed.

Lemma resized n : ((n < (n + 1) * 12 / 10)%nat).
Proof. apply Nat.div_le_lower_bound; lia. Qed.

Lemma push_ok dbg s l x : holds s l -> dbg = false \/ (0 < scap s)%nat ->
  exists s', st_push dbg x s = Ok s' /\ holds s' (x :: l) /\ (0 < scap s')%nat.
Proof.
  intros H P. pose proof (proj1 (holds_nth s l) H) as (A & B & X & C). unfold st_push.
  assert (R : exists s1, (if (sdeep s =? scap s)%nat then st_resize dbg s else Ok s) = Ok s1 /\ holds s1 l /\ (length l < scap s1)%nat).
  { destruct (Nat.eqb_spec (sdeep s) (scap s)) as [E|E].
    - unfold st_resize, assert_. rewrite E, Nat.eqb_refl, andb_false_r. cbv zeta.
      destruct (copy_loop_ok (sarr s) (scap s) 0 (repeat None ((scap s + 1) * 12 / 10))) as (d & Ed & Ld & Nd).
      { lia. } { rewrite repeat_length. pose proof (resized (scap s)). lia. }
      rewrite Ed. cbn [bind].
      replace (dbg && negb (0 <? scap s)%nat) with false
        by (destruct P as [->|P]; [reflexivity|]; destruct (Nat.ltb_spec 0 (scap s)); [rewrite andb_false_r; reflexivity|lia]).
      eexists. split; [reflexivity|]. rewrite repeat_length in Ld. split.
      + apply holds_nth. cbn [scap sdeep sarr]. split; [exact Ld|]. split; [lia|]. pose proof (resized (scap s)). split; [lia|].
        intros i Hi. rewrite Nd. cbn [andb Nat.leb]. destruct (Nat.ltb_spec i (0 + scap s)); [|lia]. apply C. exact Hi.
      + cbn [scap]. pose proof (resized (scap s)). lia.
    - exists s. split; [reflexivity|]. split; [exact H|]. lia. }
  destruct R as (s1 & -> & H1 & L1). cbn [bind]. pose proof (proj1 (holds_nth s1 l) H1) as (A1 & B1 & X1 & C1).
  unfold wr. rewrite B1. destruct (Nat.ltb_spec (length l) (length (sarr s1))); [|lia]. cbn [bind].
  eexists. split; [reflexivity|]. split; [|cbn; lia].
  apply holds_nth. cbn [scap sdeep sarr length]. rewrite upd_len. split; [exact A1|]. split; [reflexivity|]. split; [lia|].
  intros i Hi. cbn [rev]. rewrite map_app. cbn [map].
  destruct (split_at (sarr s1) (length l)) as (a & y & b & E & La); [lia|].
  rewrite E, (upd_appn a y b) by auto. rewrite E in C1.
  destruct (Nat.eq_dec i (length l)) as [->|Ne].
  - rewrite nth_appn by auto. rewrite nth_error_app2 by (rewrite map_length, rev_length; lia).
    rewrite map_length, rev_length, Nat.sub_diag. reflexivity.
  - specialize (C1 i). rewrite nth_error_app1 in * by lia. rewrite nth_error_app1 by (rewrite map_length, rev_length; lia). apply C1. lia.
Qed.

Lemma copy_ok dbg s l : holds s l -> dbg = false \/ (0 < scap s)%nat ->
  exists s', st_copy dbg s = Ok s' /\ holds s' l /\ scap s' = scap s.
Proof.
  intros H P. pose proof (proj1 (holds_nth s l) H) as (A & B & X & C). unfold st_copy, assert_.
  replace (dbg && negb (0 <? scap s)%nat) with false
    by (destruct P as [->|P]; [reflexivity|]; destruct (Nat.ltb_spec 0 (scap s)); [rewrite andb_false_r; reflexivity|lia]).
  destruct (copy_loop_ok (sarr s) (sdeep s) 0 (repeat None (scap s))) as (d & Ed & Ld & Nd); [lia|rewrite repeat_length; lia|].
  rewrite Ed. cbn [bind]. rewrite repeat_length in Ld. eexists. split; [reflexivity|]. split; [|reflexivity].
  apply holds_nth. cbn [scap sdeep sarr]. split; [exact Ld|]. split; [exact B|]. split; [lia|].
  intros i Hi. rewrite Nd. cbn [andb Nat.leb]. destruct (Nat.ltb_spec i (0 + sdeep s)); [|lia]. apply C. exact Hi.
Qed.

Lemma assign_ok dbg s l a m : holds s l -> holds a m -> dbg = false \/ (0 < scap s)%nat ->
  exists s', st_assign dbg s a = Ok s' /\ holds s' m.
Proof.
  intros H Ha P. pose proof (proj1 (holds_nth s l) H) as (A & B & X & C).
  pose proof (proj1 (holds_nth a m) Ha) as (A' & B' & X' & C'). unfold st_assign.
  assert (R : exists s1, (if (scap s <? sdeep a)%nat then assert_ dbg (0 <? scap s)%nat (Ok (Stack (sdeep a) (sdeep s) (repeat None (sdeep a)))) else Ok s) = Ok s1
     /\ length (sarr s1) = scap s1 /\ (sdeep a <= scap s1)%nat).
  { destruct (Nat.ltb_spec (scap s) (sdeep a)).
    - unfold assert_. replace (dbg && negb (0 <? scap s)%nat) with false
        by (destruct P as [->|P]; [reflexivity|]; destruct (Nat.ltb_spec 0 (scap s)); [rewrite andb_false_r; reflexivity|lia]).
      eexists. split; [reflexivity|]. cbn. rewrite repeat_length. lia.
    - eexists. split; [reflexivity|]. lia. }
  destruct R as (s1 & -> & L1 & D1). cbn [bind].
  destruct (copy_loop_ok (sarr a) (sdeep a) 0 (sarr s1)) as (d & Ed & Ld & Nd); [lia|lia|].
  rewrite Ed. cbn [bind]. eexists. split; [reflexivity|].
  apply holds_nth. cbn [scap sdeep sarr]. split; [lia|]. split; [exact B'|]. split; [lia|].
  intros i Hi. rewrite Nd. cbn [andb Nat.leb]. destruct (Nat.ltb_spec i (0 + sdeep a)); [|lia]. apply C'. exact Hi.
Qed.

Lemma read_ok s l i x : holds s l -> nth_error (rev l) i = Some x -> st_read s i = Ok x.
Proof.
  intros H E. pose proof (proj1 (holds_nth s l) H) as (A & B & X & C).
  assert (Hi : (i < length l)%nat) by (rewrite <- rev_length; apply nth_error_Some; congruence).
  unfold st_read. specialize (C i Hi). rewrite nth_error_map, E in C. cbn in C. rewrite (rd_ok _ _ _ C). reflexivity.
Qed.

Lemma step_ok dbg s l o l' x : holds s l -> dbg = false \/ (0 < scap s)%nat -> spec_step l o = Some (l', x) ->
  exists s', st_step dbg s o = Ok (s', x) /\ holds s' l' /\ (dbg = false \/ (0 < scap s')%nat).
Proof.
  intros H P E. pose proof H as (A & B & C). destruct o as [v| | |i| | |]; cbn [spec_step st_step] in *.
  - injection E as <- <-. destruct (push_ok dbg s l v H P) as (s' & -> & H' & P'). cbn [bind]. exists s'. split; [reflexivity|]. split; [exact H'|right; exact P'].
  - destruct l as [|y l0]; [discriminate|]. injection E as <- <-. unfold st_pop, assert_. rewrite B. cbn [length Nat.ltb Nat.leb negb].
    rewrite andb_false_r. cbn [bind]. eexists. split; [reflexivity|]. split; [|exact P].
    apply holds_nth in H. destruct H as (A' & B' & X & C'). apply holds_nth. cbn [scap sdeep sarr length] in *. rewrite Nat.sub_succ, Nat.sub_0_r.
    split; [exact A|]. split; [reflexivity|]. split; [lia|]. intros i Hi. rewrite C' by lia. cbn [rev]. rewrite map_app.
    apply nth_error_app1. rewrite map_length, rev_length. exact Hi.
  - destruct l as [|y l0]; [discriminate|]. injection E as <- <-. unfold st_top, assert_. rewrite B. cbn [length Nat.ltb Nat.leb negb].
    rewrite andb_false_r. rewrite (read_ok s (y :: l0) _ y H). cbn [bind]. exists s. auto.
    cbn [rev]. rewrite Nat.sub_succ, Nat.sub_0_r. apply nth_appn. rewrite rev_length. reflexivity.
  - destruct (nth_error (rev l) i) as [y|] eqn:Ei; [|discriminate]. 
    assert (Hi : (i < length l)%nat) by (rewrite <- rev_length; apply nth_error_Some; congruence).
    assert (E2 : Some (l, OVal y) = Some (l', x)) by (destruct l; exact E). injection E2 as <- <-.
    unfold st_get, assert_. rewrite B. destruct (Nat.ltb_spec i (length l)); [|lia]. rewrite andb_false_r.
    rewrite (read_ok s l i y H Ei). cbn [bind]. exists s. auto.
  - assert (E2 : Some (l, ODepth (length l)) = Some (l', x)) by (destruct l; exact E). injection E2 as <- <-.
    rewrite B. exists s. auto.
  - assert (E2 : Some ([], ONone) = Some (l', x)) by (destruct l; exact E). injection E2 as <- <-.
    exists (st_reset s). split; [reflexivity|]. split; [|exact P]. split; [exact A|]. split; reflexivity.
  - assert (E2 : Some (l, ONone) = Some (l', x)) by (destruct l; exact E). injection E2 as <- <-.
    destruct (copy_ok dbg s l H P) as (s' & -> & H' & P'). cbn [bind]. exists s'. rewrite P'. auto.
Qed.

Lemma run_ok dbg os : forall s l l' xs, holds s l -> dbg = false \/ (0 < scap s)%nat -> spec_run l os = Some (l', xs) ->
  exists s', st_run dbg s os = Ok (s', xs) /\ holds s' l'.
Proof.
  induction os as [|o os IH]; intros s l l' xs H P E; cbn [spec_run st_run] in *.
  - injection E as <- <-. exists s. auto.
  - destruct (spec_step l o) as [[l1 x]|] eqn:E1; [|discriminate]. destruct (spec_run l1 os) as [[l2 ys]|] eqn:E2; [|discriminate].
    injection E as <- <-. destruct (step_ok dbg s l o l1 x H P E1) as (s1 & -> & H1 & P1). cbn [bind].
    destruct (IH s1 l1 l2 ys H1 P1 E2) as (s2 & -> & H2). cbn [bind]. exists s2. auto.
Qed.

Lemma c30_stack dbg n os (l' : list T) xs : dbg = false \/ (0 < n)%nat -> spec_run [] os = Some (l', xs) ->
  exists s0 s', st_new dbg n = Ok s0 /\ st_run dbg s0 os = Ok (s', xs) /\ holds s' l'.
Proof.
  intros P E. destruct (run_ok dbg os (Stack n 0 (repeat None n)) [] l' xs) as (s' & R & H); auto.
  { split; [apply repeat_length|]. split; reflexivity. }
  exists (Stack n 0 (repeat None n)), s'. split; [|split; assumption].
  unfold st_new, assert_. destruct P as [->|P]; [reflexivity|]. destruct (Nat.ltb_spec 0 n); [|lia]. rewrite andb_false_r. reflexivity.
Qed.
End Stack.

(* ---- Integer ---- *)
Lemma limbs_spec z k : 0 <= k -> (limbs z <= k <-> Z.abs z < 2 ^ (64 * k)).
Proof.
  intros Hk. unfold limbs. destruct (Z.eqb_spec z 0) as [->|N].
  - split; [intros _; change (Z.abs 0) with 0; apply Z.pow_pos_nonneg; lia|intros; lia].
  - assert (P : 0 < Z.abs z) by lia. pose proof (Z.log2_nonneg (Z.abs z)).
    rewrite (Z.log2_lt_pow2 (Z.abs z) (64 * k) P).
    pose proof (Z.div_mod (Z.log2 (Z.abs z)) 64 ltac:(lia)) as D.
    pose proof (Z.mod_pos_bound (Z.log2 (Z.abs z)) 64 ltac:(lia)). lia.
Qed.
Lemma limbs_nonneg z : 0 <= limbs z.
Proof. unfold limbs. destruct (z =? 0); [lia|]. pose proof (Z.log2_nonneg (Z.abs z)). pose proof (Z.div_pos (Z.log2 (Z.abs z)) 64). lia. Qed.
Lemma limbs_pos z : z <> 0 -> 1 <= limbs z.
Proof. intros H. unfold limbs. destruct (Z.eqb_spec z 0); [lia|]. pose proof (Z.log2_nonneg (Z.abs z)). pose proof (Z.div_pos (Z.log2 (Z.abs z)) 64). lia. Qed.
Lemma limbs_ub z : Z.abs z < 2 ^ (64 * limbs z).
Proof. apply limbs_spec; [apply limbs_nonneg|lia]. Qed.
Lemma limbs_lb z : z <> 0 -> 2 ^ (64 * (limbs z - 1)) <= Z.abs z.
Proof.
  intros H. pose proof (limbs_pos z H). destruct (Z.lt_ge_cases (Z.abs z) (2 ^ (64 * (limbs z - 1)))) as [L|L]; [|exact L].
  apply limbs_spec in L; lia.
Qed.
Lemma limbs_abs a b : Z.abs a = Z.abs b -> limbs a = limbs b.
Proof. intros H. unfold limbs. rewrite H. destruct (Z.eqb_spec a 0), (Z.eqb_spec b 0); try reflexivity; lia. Qed.
Lemma limbs_opp a : limbs (- a) = limbs a.
Proof. apply limbs_abs. lia. Qed.
Lemma limbs_le a b : Z.abs a <= Z.abs b -> limbs a <= limbs b.
Proof. intros H. apply limbs_spec; [apply limbs_nonneg|]. pose proof (limbs_ub b). lia. Qed.

Lemma limbs_add a b : limbs (a + b) <= Z.max (limbs a) (limbs b) + 1.
Proof.
  pose proof (limbs_nonneg a). pose proof (limbs_nonneg b). apply limbs_spec; [lia|].
  assert (Ha : Z.abs a < 2 ^ (64 * Z.max (limbs a) (limbs b))) by (apply limbs_spec; lia).
  assert (Hb : Z.abs b < 2 ^ (64 * Z.max (limbs a) (limbs b))) by (apply limbs_spec; lia).
  replace (64 * (Z.max (limbs a) (limbs b) + 1)) with (64 * Z.max (limbs a) (limbs b) + 64) by lia.
  rewrite Z.pow_add_r by lia. pose proof (Z.pow_pos_nonneg 2 (64 * Z.max (limbs a) (limbs b)) ltac:(lia) ltac:(lia)).
  change (2 ^ 64) with 18446744073709551616. nia.
Qed.
Lemma limbs_sub a b : limbs (a - b) <= Z.max (limbs a) (limbs b) + 1.
Proof. rewrite <- (limbs_opp b). apply limbs_add. Qed.
Lemma limbs_mul a b : limbs (a * b) <= limbs a + limbs b.
Proof.
  pose proof (limbs_nonneg a). pose proof (limbs_nonneg b). apply limbs_spec; [lia|].
  rewrite Z.mul_add_distr_l, Z.pow_add_r by lia. rewrite Z.abs_mul.
  apply Z.mul_lt_mono_nonneg; try lia; apply limbs_ub.
Qed.
Lemma limbs_div a b : b <> 0 -> a <> 0 -> (b | a) -> limbs b <= limbs a /\ limbs (a / b) <= limbs a - limbs b + 1.
Proof.
  intros Hb Ha [q E]. assert (Q : a / b = q) by (rewrite E; apply Z.div_mul; exact Hb).
  assert (Nq : q <> 0) by (intros ->; lia).
  assert (L : limbs b <= limbs a).
  { apply limbs_le. rewrite E, Z.abs_mul. assert (1 <= Z.abs q) by lia. pose proof (Z.abs_nonneg b). nia. }
  split; [exact L|]. rewrite Q. apply limbs_spec; [lia|].
  pose proof (limbs_ub a) as U. pose proof (limbs_lb b Hb) as B. pose proof (limbs_pos b Hb).
  assert (X : 2 ^ (64 * limbs a) = 2 ^ (64 * (limbs a - limbs b + 1)) * 2 ^ (64 * (limbs b - 1))).
  { rewrite <- Z.pow_add_r by lia. f_equal. lia. }
  rewrite X in U. assert (AA : Z.abs a = Z.abs q * Z.abs b) by (rewrite <- Z.abs_mul, <- E; reflexivity). rewrite AA in U.
  destruct (Z.lt_ge_cases (Z.abs q) (2 ^ (64 * (limbs a - limbs b + 1)))) as [G|G]; [exact G|exfalso].
  pose proof (Z.pow_pos_nonneg 2 (64 * (limbs b - 1)) ltac:(lia) ltac:(lia)).
  pose proof (Z.pow_pos_nonneg 2 (64 * (limbs a - limbs b + 1)) ltac:(lia) ltac:(lia)).
  apply (Z.lt_irrefl (Z.abs q * Z.abs b)). eapply Z.lt_le_trans; [exact U|]. apply Z.mul_le_mono_nonneg; lia.
Qed.
Lemma divide_abs a g : a <> 0 -> (g | a) -> Z.abs g <= Z.abs a.
Proof. intros Ha [q E]. assert (q <> 0) by (intros Q; rewrite Q in E; lia). rewrite E, Z.abs_mul. assert (1 <= Z.abs q) by lia. pose proof (Z.abs_nonneg g). nia. Qed.
Lemma limbs_gcd a b : a <> 0 -> b <> 0 -> limbs (Z.gcd a b) <= Z.min (limbs a) (limbs b).
Proof.
  intros Ha Hb. apply Z.min_glb; apply limbs_le; apply divide_abs; auto using Z.gcd_divide_l, Z.gcd_divide_r.
Qed.

Lemma realloc_ok dbg n x : dbg = false \/ 0 < n -> exists y, i_reallocate dbg n x = Ok y /\ n <= ialloc y /\ ialloc x <= ialloc y.
Proof.
  intros H. unfold i_reallocate, assert_.
  replace (dbg && negb (0 <? n)) with false by (destruct H as [->|H]; [reflexivity|]; destruct (Z.ltb_spec 0 n); [rewrite andb_false_r; reflexivity|lia]).
  eexists. split; [reflexivity|]. destruct (Z.ltb_spec (ialloc x) n); cbn; lia.
Qed.
Lemma store_ok r v x : r <= ialloc x -> limbs v <= ialloc x -> exists y, gmp_store r v x = Ok y /\ ival y = v /\ sound y.
Proof.
  intros H1 H2. unfold gmp_store. destruct (Z.leb_spec r (ialloc x)), (Z.leb_spec (limbs v) (ialloc x)); try lia. cbn.
  eexists. split; [reflexivity|]. split; [reflexivity|]. unfold sound. cbn. pose proof (limbs_nonneg v). lia.
Qed.
Lemma int_range n : 0 <= n <= INT_MAX -> int_ n = Ok n.
Proof. intros H. unfold int_, in_int, INT_MIN. destruct (Z.leb_spec (-2147483648) n), (Z.leb_spec n INT_MAX); try lia. reflexivity. Qed.

Lemma c34_add_sub dbg x a : Z.max (limbs (ival x)) (limbs (ival a)) < INT_MAX ->
  (exists r, i_add dbg x a = Ok r /\ ival r = ival x + ival a /\ sound r) /\
  (exists r, i_sub dbg x a = Ok r /\ ival r = ival x - ival a /\ sound r).
Proof.
  intros H. pose proof (limbs_nonneg (ival x)). pose proof (limbs_nonneg (ival a)).
  unfold i_add, i_sub. rewrite !int_range by lia. cbn [bind].
  destruct (realloc_ok dbg (Z.max (limbs (ival x)) (limbs (ival a)) + 1) i_new) as (t & E & L & _); [right; lia|].
  rewrite E. cbn [bind]. unfold mpz_add, mpz_sub. pose proof (limbs_add (ival x) (ival a)). pose proof (limbs_sub (ival x) (ival a)).
  split; apply store_ok; lia.
Qed.
Lemma c34_add3_sub3 dbg x a b : Z.max (limbs (ival a)) (limbs (ival b)) < INT_MAX ->
  (exists r, i_add3 dbg x a b = Ok r /\ ival r = ival a + ival b /\ sound r) /\
  (exists r, i_sub3 dbg x a b = Ok r /\ ival r = ival a - ival b /\ sound r).
Proof.
  intros H. pose proof (limbs_nonneg (ival b)). pose proof (limbs_nonneg (ival a)).
  unfold i_add3, i_sub3. rewrite !int_range by lia. cbn [bind].
  destruct (realloc_ok dbg (Z.max (limbs (ival a)) (limbs (ival b)) + 1) x) as (t & E & L & _); [right; lia|].
  rewrite E. cbn [bind]. unfold mpz_add, mpz_sub. pose proof (limbs_add (ival a) (ival b)). pose proof (limbs_sub (ival a) (ival b)).
  split; apply store_ok; lia.
Qed.
Lemma mul_request a b n : limbs a + limbs b <= n -> (if (a =? 0) || (b =? 0) then 0 else limbs a + limbs b) <= n.
Proof. intros H. pose proof (limbs_nonneg a). pose proof (limbs_nonneg b). destruct ((a =? 0) || (b =? 0)); lia. Qed.
Lemma c34_mult dbg x a : limbs (ival x) + limbs (ival a) <= INT_MAX -> dbg = false \/ ival x <> 0 \/ ival a <> 0 ->
  exists r, i_mult dbg x a = Ok r /\ ival r = ival x * ival a /\ sound r.
Proof.
  intros H D. pose proof (limbs_nonneg (ival x)). pose proof (limbs_nonneg (ival a)).
  unfold i_mult. rewrite int_range by lia. cbn [bind].
  destruct (realloc_ok dbg (limbs (ival x) + limbs (ival a)) i_new) as (t & E & L & _).
  { destruct D as [D|[D|D]]; [left; exact D|right|right]; apply limbs_pos in D; lia. }
  rewrite E. cbn [bind]. unfold mpz_mul. pose proof (limbs_mul (ival x) (ival a)).
  apply store_ok; [apply mul_request; lia|lia].
Qed.
Lemma c34_mult3 dbg x a b : limbs (ival a) + limbs (ival b) <= INT_MAX -> sound x -> dbg = false \/ ival a <> 0 \/ ival b <> 0 ->
  exists r, i_mult3 dbg x a b = Ok r /\ ival r = ival a * ival b /\ sound r.
Proof.
  intros H S D. pose proof (limbs_nonneg (ival b)). pose proof (limbs_nonneg (ival a)).
  unfold i_mult3. rewrite int_range by lia. cbn [bind].
  destruct (realloc_ok dbg (limbs (ival a) + limbs (ival b)) x) as (t & E & L & _).
  { destruct D as [D|[D|D]]; [left; exact D|right|right]; apply limbs_pos in D; lia. }
  rewrite E. cbn [bind]. unfold mpz_mul. pose proof (limbs_mul (ival a) (ival b)).
  apply store_ok; [apply mul_request; lia|lia].
Qed.
Lemma divexact_ok dbg x y a b : b <> 0 -> (b | a) -> 0 <= ialloc x -> dbg = false \/ a <> 0 -> 
  i_reallocate dbg (limbs a - limbs b + 1) x = Ok y -> exists r, mpz_divexact y a b = Ok r /\ ival r * b = a /\ sound r.
Proof.
  intros Hb D X Z E. unfold mpz_divexact. destruct (Z.eqb_spec b 0); [lia|].
  rewrite (proj2 (Z.mod_divide a b Hb) D). cbn [Z.eqb negb].
  assert (Q : a / b * b = a) by (destruct D as [q ->]; rewrite Z.div_mul by exact Hb; reflexivity).
  assert (A : limbs a - limbs b + 1 <= ialloc y /\ ialloc x <= ialloc y).
  { unfold i_reallocate, assert_ in E. destruct (dbg && _); [discriminate|]. injection E as <-. destruct (Z.ltb_spec (ialloc x) (limbs a - limbs b + 1)); cbn; lia. }
  destruct (Z.eq_dec a 0) as [->|Na].
  - rewrite Z.div_0_l by exact Hb. pose proof (limbs_pos b Hb). change (limbs 0) with 0 in *.
    destruct (Z.ltb_spec 0 (limbs b)); [|lia]. destruct (store_ok 0 0 y) as (r & E1 & V & S); [lia|change (limbs 0) with 0; lia|].
    exists r. rewrite V. auto.
  - destruct (limbs_div a b Hb Na D) as [L1 L2]. destruct (Z.ltb_spec (limbs a) (limbs b)); [lia|].
    destruct (store_ok (limbs a - limbs b + 1) (a / b) y) as (r & E1 & V & S); [lia|lia|]. exists r. rewrite V. auto.
Qed.
Lemma divisible_true a b : b <> 0 -> (b | a) -> i_divisible a b = true.
Proof. intros H D. unfold i_divisible. destruct (Z.eqb_spec b 0); [lia|]. apply Z.eqb_eq. apply Z.mod_divide; assumption. Qed.
Lemma c34_div dbg x a : ival a <> 0 -> (ival a | ival x) -> dbg = false \/ ival x <> 0 ->
  exists r, i_div dbg x a = Ok r /\ ival r * ival a = ival x /\ sound r.
Proof.
  intros Ha D Z. unfold i_div, assert_. rewrite (divisible_true _ _ Ha D), andb_false_r.
  destruct (realloc_ok dbg (limbs (ival x) - limbs (ival a) + 1) i_new) as (t & E & _).
  { destruct Z as [Z|Z]; [left; exact Z|right]. destruct (limbs_div _ _ Ha Z D). lia. }
  rewrite E. cbn [bind]. apply (divexact_ok dbg i_new); auto; cbn; lia.
Qed.
Lemma c34_div3 dbg x a b : sound x -> ival b <> 0 -> (ival b | ival a) -> dbg = false \/ ival a <> 0 ->
  exists r, i_div3 dbg x a b = Ok r /\ ival r * ival b = ival a /\ sound r.
Proof.
  intros S Hb D Z. unfold i_div3, assert_. rewrite (divisible_true _ _ Hb D), andb_false_r.
  destruct (realloc_ok dbg (limbs (ival a) - limbs (ival b) + 1) x) as (t & E & _).
  { destruct Z as [Z|Z]; [left; exact Z|right]. destruct (limbs_div _ _ Hb Z D). lia. }
  rewrite E. cbn [bind]. apply (divexact_ok dbg x); auto. unfold sound in S. lia.
Qed.
Lemma c34_gcd dbg x a : ival x <> 0 -> ival a <> 0 -> exists r, i_gcd dbg x a = Ok r /\ ival r = Z.gcd (ival x) (ival a) /\ sound r.
Proof.
  intros Hx Ha. unfold i_gcd, assert_. destruct (Z.eqb_spec (ival x) 0); [lia|]. destruct (Z.eqb_spec (ival a) 0); [lia|].
  cbn [negb andb]. rewrite andb_false_r.
  destruct (realloc_ok dbg (Z.min (limbs (ival x)) (limbs (ival a))) i_new) as (t & E & L & L0).
  { right. pose proof (limbs_pos _ Hx). pose proof (limbs_pos _ Ha). lia. }
  rewrite E. cbn [bind]. unfold mpz_gcd. pose proof (limbs_gcd _ _ Hx Ha). cbn in L0. apply store_ok; lia.
Qed.
Lemma c34_gcd3 dbg x a b : sound x -> ival a <> 0 -> ival b <> 0 -> exists r, i_gcd3 dbg x a b = Ok r /\ ival r = Z.gcd (ival a) (ival b) /\ sound r.
Proof.
  intros S Hx Ha. unfold i_gcd3, assert_. destruct (Z.eqb_spec (ival a) 0); [lia|]. destruct (Z.eqb_spec (ival b) 0); [lia|].
  cbn [negb andb]. rewrite andb_false_r.
  destruct (realloc_ok dbg (Z.min (limbs (ival a)) (limbs (ival b))) x) as (t & E & L & L0).
  { right. pose proof (limbs_pos _ Hx). pose proof (limbs_pos _ Ha). lia. }
  rewrite E. cbn [bind]. unfold mpz_gcd. pose proof (limbs_gcd _ _ Hx Ha). unfold sound in S. apply store_ok; lia.
Qed.
Lemma c34_assign dbg x a : sound x -> dbg = false \/ ival a <> 0 ->
  (exists r, i_assign dbg x a = Ok r /\ ival r = ival a /\ sound r) /\ (exists r, i_copy dbg a = Ok r /\ ival r = ival a /\ sound r) /\
  (exists r, i_parse dbg (ival a) = Ok r /\ ival r = ival a /\ sound r).
Proof.
  intros S D. unfold i_assign, i_copy, i_parse, sound in *.
  assert (P : dbg = false \/ 0 < limbs (ival a)) by (destruct D as [D|D]; [left; exact D|right; apply limbs_pos in D; lia]).
  destruct (realloc_ok dbg (limbs (ival a)) x P) as (t & -> & L & L0). cbn [bind].
  destruct (realloc_ok dbg (limbs (ival a)) i_new P) as (t' & -> & L' & L0'). cbn in L0'. cbn [bind]. unfold mpz_set.
  split; [|split]; apply store_ok; lia.
Qed.
Lemma c34_set dbg x v : - 2 ^ 63 <= v < 2 ^ 64 -> exists r, i_set_si dbg x v = Ok r /\ ival r = v /\ sound r.
Proof.
  intros H. unfold i_set_si. destruct (realloc_ok dbg 1 x) as (t & -> & L & L0); [right; lia|]. cbn [bind]. unfold mpz_set.
  assert (limbs v <= 1) by (apply limbs_spec; [lia|]; change (2 ^ (64 * 1)) with (2 ^ 64); lia). apply store_ok; lia.
Qed.
Lemma c34_tests x : sound x ->
  (i_isZero x = true <-> ival x = 0) /\ (i_isOne x = true <-> ival x = 1) /\ (i_isAbsOne x = true <-> Z.abs (ival x) = 1) /\
  i_sgn x = Z.sgn (ival x) /\ ival (i_neg x) = - ival x /\ sound (i_neg x).
Proof.
  intros S. unfold i_isZero, i_isOne, i_isAbsOne. rewrite !Z.eqb_eq.
  repeat split; auto; unfold sound, i_neg in *; cbn [ival ialloc] in *; rewrite limbs_opp; lia.
Qed.
Lemma c34_refuted : i_mult true i_new i_new = AssertFail /\ i_copy true i_new = AssertFail /\ i_assign true i_new i_new = AssertFail /\
  i_parse true 0 = AssertFail /\ i_div true i_new (Int 1 5) = AssertFail.
Proof. repeat split. Qed.

(* ---- buffers ---- *)
Lemma grow_ok size b : 0 <= size -> size <= grow size b /\ b <= grow size b.
Proof.
  intros H. unfold grow. destruct (Z.ltb_spec b size); [|lia].
  assert (size <= size * 15 / 10) by (apply Z.div_le_lower_bound; lia).
  pose proof (Z.div_mod (size * 15 / 10) 4096 ltac:(lia)). pose proof (Z.mod_pos_bound (size * 15 / 10) 4096 ltac:(lia)). lia.
Qed.
Lemma text_bound b v k : digits b v k -> 0 < text_bytes v k <= k + 2.
Proof. unfold digits, text_bytes. destruct (v <? 0); lia. Qed.

Lemma c35_get_str dbg b v k sib buf : 2 <= b <= 62 -> 2 <= buf -> v <> 0 -> digits b v k -> k <= sib ->
  exists buf', get_str dbg b v sib (text_bytes v k) buf = Ok buf' /\ buf <= buf' /\ text_bytes v k <= buf'.
Proof.
  intros Hb Hbuf Nv D S. unfold get_str, assert_. destruct (Z.leb_spec 2 b), (Z.leb_spec b 62); try lia. cbn [andb negb]. rewrite andb_false_r.
  destruct (Z.eqb_spec v 0); [lia|]. pose proof (text_bound _ _ _ D). destruct (grow_ok (sib + 2) buf); [destruct D; lia|].
  cbv zeta. destruct (Z.leb_spec (sib + 2) (grow (sib + 2) buf)); [|lia]. rewrite andb_false_r.
  destruct (Z.leb_spec (text_bytes v k) (grow (sib + 2) buf)); [|lia]. eexists. split; [reflexivity|]. lia.
Qed.
Lemma c35_zero dbg b sib w buf : 2 <= b <= 62 -> 2 <= buf -> get_str dbg b 0 sib w buf = Ok buf.
Proof.
  intros Hb Hbuf. unfold get_str, assert_. destruct (Z.leb_spec 2 b), (Z.leb_spec b 62); try lia. cbn [andb negb]. rewrite andb_false_r.
  cbn [Z.eqb]. destruct (Z.leb_spec 2 buf); [reflexivity|lia].
Qed.
Lemma c35_hilbert dbg num kn kd den sibn sibd buf : num <> 0 -> 0 < den -> 2 <= buf -> digits 10 num kn -> digits 10 den kd -> kn <= sibn -> kd <= sibd ->
  exists buf', hp_str dbg num sibn sibd (text_bytes num kn + 1 + kd) buf = Ok buf' /\ buf <= buf' /\ text_bytes num kn + 1 + kd <= buf'.
Proof.
  intros Nn Pd Hbuf D1 D2 S1 S2. unfold hp_str, assert_. destruct (Z.eqb_spec num 0); [lia|]. pose proof (text_bound _ _ _ D1).
  destruct (grow_ok (sibn + sibd + 3) buf); [destruct D1, D2; lia|]. cbv zeta.
  destruct (Z.leb_spec (sibn + sibd + 3) (grow (sibn + sibd + 3) buf)); [|lia]. rewrite andb_false_r.
  destruct (Z.leb_spec (text_bytes num kn + 1 + kd) (grow (sibn + sibd + 3) buf)); [|lia]. eexists. split; [reflexivity|]. lia.
Qed.
Lemma c35_history dbg cs : forall buf, 2 <= buf -> Forall good_call cs -> exists buf', calls dbg cs buf = Ok buf' /\ buf <= buf'.
Proof.
  induction cs as [|[b v k sib] cs IH]; intros buf Hb F; cbn [calls].
  - exists buf. split; [reflexivity|lia].
  - apply Forall_cons_iff in F. destruct F as [[B G] F]. destruct (Z.eq_dec v 0) as [->|N].
    + rewrite c35_zero by assumption. cbn [bind]. apply IH; assumption.
    + destruct (G N) as [D S]. destruct (c35_get_str dbg b v k sib buf B Hb N D S) as (b' & -> & L & _). cbn [bind].
      destruct (IH b') as (b2 & E & L2); [lia|exact F|]. exists b2. split; [exact E|lia].
Qed.

Lemma c34_zero_debug : exists zero five : integer, ival zero = 0 /\ ival five = 5 /\ sound zero /\ sound five /\
  i_mult true zero zero = AssertFail /\ i_copy true zero = AssertFail /\ i_assign true zero zero = AssertFail /\
  i_parse true 0 = AssertFail /\ i_div true zero five = AssertFail.
Proof. exists i_new, (Int 1 5). unfold sound. repeat split; vm_compute; congruence. Qed.
Lemma c35_hilbert_zero (dbg : bool) (sibn sibd w buf : Z) : 2 <= buf -> hp_str dbg 0 sibn sibd w buf = Ok buf.
Proof. intro H. unfold hp_str. cbn. apply Z.leb_le in H. now rewrite H. Qed.
Lemma c35_ex : digits 10 (-12345) 5 /\ text_bytes (-12345) 5 = 7 /\ get_str true 10 (-12345) 5 7 buffer0 = Ok 65536 /\
  Forall good_call [Call 10 (-12345) 5 5; Call 2 (2 ^ 70000) 70001 70001; Call 62 0 0 1] /\
  calls true [Call 10 (-12345) 5 5; Call 2 (2 ^ 70000) 70001 70001; Call 62 0 0 1] buffer0 = Ok 106496.
Proof.
  assert (P : digits 2 (2 ^ 70000) 70001).
  { unfold digits. rewrite Z.abs_eq by (apply Z.pow_nonneg; easy). change (70001 - 1) with 70000.
    split; [easy|]. split; [apply Z.le_refl|]. apply Z.pow_lt_mono_r; easy. }
  split; [unfold digits; vm_compute; intuition congruence|]. split; [reflexivity|]. split; [reflexivity|]. split.
  - constructor; [|constructor; [|constructor; [|constructor]]]; (split; [easy|]); intros N.
    + unfold digits. vm_compute. intuition congruence.
    + split; [exact P|apply Z.le_refl].
    + now destruct N.
  - vm_compute. reflexivity.
Qed.

Lemma c30_new_debug (T : Type) n : @st_new T true n = AssertFail <-> n = 0%nat.
Proof. unfold st_new, assert_. destruct n; cbn; split; intro H; try reflexivity; discriminate. Qed.
Lemma c34_asserts (x a : integer) :
  (ival x = 0 \/ ival a = 0 -> i_gcd true x a = AssertFail) /\
  (ival a <> 0 -> ~ (ival a | ival x) -> i_div true x a = AssertFail) /\
  (ival a = 0 -> ival x <> 0 -> i_div true x a = AssertFail).
Proof.
  unfold i_gcd, i_div, i_divisible, assert_. split; [|split].
  - intros [E|E]; rewrite E; cbn; rewrite ?andb_false_r; reflexivity.
  - intros N D. destruct (Z.eqb_spec (ival a) 0); [contradiction|]. destruct (Z.eqb_spec (ival x mod ival a) 0) as [E|E]; [|reflexivity].
    destruct D. now apply Z.mod_divide.
  - intros E N. rewrite E. cbn [Z.eqb]. destruct (Z.eqb_spec (ival x) 0); [contradiction|reflexivity].
Qed.
Lemma c34_zero_by_zero : exists zero : integer, ival zero = 0 /\ sound zero /\ i_div true zero zero = Undef.
Proof. exists (Int 1 0). repeat split; vm_compute; congruence. Qed.
Lemma gmp_alloc r v x y : gmp_store r v x = Ok y -> ialloc y = ialloc x.
Proof. unfold gmp_store. destruct (_ && _); [|discriminate]. intros [= <-]. reflexivity. Qed.
Lemma realloc_new dbg n y : 0 <= n -> i_reallocate dbg n i_new = Ok y -> ialloc y = n.
Proof.
  unfold i_reallocate, assert_. intros Hn. destruct (dbg && _); [discriminate|]. intros [= <-]. cbn [ialloc i_new].
  destruct (Z.ltb_spec 0 n); cbn; lia.
Qed.
Lemma c34_storage dbg (x a r : integer) :
  (i_add dbg x a = Ok r \/ i_sub dbg x a = Ok r -> ialloc r = Z.max (limbs (ival x)) (limbs (ival a)) + 1) /\
  (i_mult dbg x a = Ok r -> ialloc r = limbs (ival x) + limbs (ival a)) /\
  (ival x <> 0 -> ival a <> 0 -> i_gcd dbg x a = Ok r -> ialloc r = Z.min (limbs (ival x)) (limbs (ival a))) /\
  (i_copy dbg a = Ok r -> ialloc r = limbs (ival a)).
Proof.
  assert (Lx := limbs_nonneg (ival x)). assert (La := limbs_nonneg (ival a)).
  assert (B : forall (A B : Type) (v : outcome A) (f : A -> outcome B) y, (do z <- v; f z) = Ok y -> exists z, v = Ok z /\ f z = Ok y).
  { intros A B v f y. destruct v; cbn; try discriminate. eauto. }
  assert (II : forall n m, int_ n = Ok m -> m = n) by (intros n m; unfold int_; destruct (in_int n); [intros [= <-]; reflexivity|discriminate]).
  split; [|split; [|split]].
  - intros [H|H]; unfold i_add, i_sub in H; destruct (B _ _ _ _ _ H) as (n & E1 & H1); apply II in E1; subst n; destruct (B _ _ _ _ _ H1) as (t & E2 & H2);
      apply gmp_alloc in H2; rewrite H2; (eapply realloc_new; [|exact E2]); lia.
  - intros H. unfold i_mult in H. destruct (B _ _ _ _ _ H) as (n & E1 & H1); apply II in E1; subst n. destruct (B _ _ _ _ _ H1) as (t & E2 & H2).
    apply gmp_alloc in H2; rewrite H2; (eapply realloc_new; [|exact E2]); lia.
  - intros _ _ H. unfold i_gcd in H. unfold assert_ in H. destruct (dbg && _); [discriminate|]. destruct (B _ _ _ _ _ H) as (t & E2 & H2).
    apply gmp_alloc in H2; rewrite H2; (eapply realloc_new; [|exact E2]); lia.
  - intros H. unfold i_copy in H. destruct (B _ _ _ _ _ H) as (t & E2 & H2). apply gmp_alloc in H2; rewrite H2; (eapply realloc_new; [|exact E2]); lia.
Qed.
