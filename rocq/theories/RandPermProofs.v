From Coq Require Import ZArith List Bool Arith Lia Permutation.
From Verif Require Import Outcome MonomModel MonomSpec MonomProofs MonomCProofs RandPermModel.
Import ListNotations.
Local Open Scope nat_scope.

Lemma upd_len {A} (l : list A) i x : length (upd l i x) = length l.
Proof. revert i; induction l as [|y l IH]; intros [|i]; cbn; auto. Qed.
Lemma upd_app {A} (a : list A) y b x : upd (a ++ y :: b) (length a) x = a ++ x :: b.
Proof. induction a; cbn; [reflexivity|]. f_equal. exact IHa. Qed.
Lemma upd_appn {A} (a : list A) y b x n : n = length a -> upd (a ++ y :: b) n x = a ++ x :: b.
Proof. intros ->. apply upd_app. Qed.
Lemma nth_app {A} (a : list A) y b : nth_error (a ++ y :: b) (length a) = Some y.
Proof. rewrite nth_error_app2 by lia. rewrite Nat.sub_diag. reflexivity. Qed.
Lemma nth_appn {A} (a : list A) y b n : n = length a -> nth_error (a ++ y :: b) n = Some y.
Proof. intros ->. apply nth_app. Qed.

Lemma split_at {A} (l : list A) i : i < length l -> exists a x b, l = a ++ x :: b /\ length a = i.
Proof.
  intros H. destruct (nth_error l i) as [x|] eqn:E; [|apply nth_error_None in E; lia].
  apply nth_error_split in E. destruct E as (a & b & -> & L). eauto.
Qed.

(** the swap moves the j-th element of the prefix to its end *)
Lemma rp_swap_ok p s i j : length p = S i -> j <= i ->
  exists q x, rp_swap (p ++ s) i j = Ok (q ++ x :: s) /\ length q = i /\ nth_error p j = Some x /\ Permutation p (q ++ [x]).
Proof.
  intros L Hj. destruct (Nat.eq_dec j i) as [->|N].
  - destruct (split_at p i) as (a & x & b & -> & La); [lia|].
    rewrite app_length in L. cbn in L. destruct b; [|cbn in L; lia].
    exists a, x. repeat rewrite <- app_assoc. cbn [app].
    unfold rp_swap, rd, wr. rewrite (nth_appn a x s) by auto. cbn [bind].
    assert (Hl : (i <? length (a ++ x :: s)) = true) by (apply Nat.ltb_lt; rewrite app_length; cbn; lia).
    rewrite Hl. cbn [bind]. rewrite (upd_appn a x s) by auto. rewrite Hl. rewrite (upd_appn a x s) by auto.
    repeat split; auto. apply nth_appn; auto.
  - destruct (split_at p j) as (a & x & b & -> & La); [lia|].
    rewrite app_length in L. cbn in L.
    destruct b as [|b0 b1] using rev_ind; [cbn in L; lia|]. clear IHb1.
    rewrite app_length in L. cbn in L.
    exists (a ++ b0 :: b1), x.
    assert (E1 : (a ++ x :: b1 ++ [b0]) ++ s = a ++ x :: (b1 ++ b0 :: s)).
    { rewrite <- app_assoc. cbn. rewrite <- app_assoc. reflexivity. }
    rewrite E1.
    assert (E2 : forall z, a ++ z :: (b1 ++ b0 :: s) = (a ++ z :: b1) ++ b0 :: s).
    { intros z. rewrite <- app_assoc. reflexivity. }
    unfold rp_swap, rd, wr. rewrite (nth_appn a x) by auto. cbn [bind].
    rewrite (E2 x). rewrite (nth_appn (a ++ x :: b1) b0 s) by (rewrite app_length; cbn; lia). cbn [bind].
    assert (Hl : (j <? length ((a ++ x :: b1) ++ b0 :: s)) = true) by (apply Nat.ltb_lt; rewrite !app_length; cbn; lia).
    rewrite Hl. cbn [bind]. rewrite <- (E2 x), (upd_appn a x) by auto. rewrite (E2 b0).
    assert (Hl' : (i <? length ((a ++ b0 :: b1) ++ b0 :: s)) = true) by (apply Nat.ltb_lt; rewrite !app_length; cbn; lia).
    rewrite Hl'. rewrite (upd_appn (a ++ b0 :: b1)) by (rewrite app_length; cbn; lia).
    split; [reflexivity|]. split; [rewrite app_length; cbn; lia|]. split; [apply nth_appn; auto|].
    rewrite <- app_assoc. cbn. apply Permutation_app_head.
    transitivity (x :: b0 :: b1); [apply perm_skip; symmetry; apply Permutation_cons_append|].
    transitivity (b0 :: x :: b1); [apply perm_swap|]. apply perm_skip. apply Permutation_cons_append.
Qed.

Lemma rp_loop_ok {G} (u : nat -> G -> nat * G) (H : forall b g, fst (u b g) <= b) i : forall p s g, length p = S i ->
  exists q g', rp_loop u i (p ++ s) g = Ok (q ++ s, g') /\ Permutation p q.
Proof.
  induction i as [|i IH]; intros p s g L.
  - exists p, g. split; [reflexivity|apply Permutation_refl].
  - cbn [rp_loop]. specialize (H (S i) g) as Hj. destruct (u (S i) g) as [j g1]. cbn in Hj.
    destruct (rp_swap_ok p s (S i) j L Hj) as (q & x & E & Lq & _ & P). rewrite E. cbn [bind].
    destruct (IH q (x :: s) g1 Lq) as (q' & g' & E' & P').
    exists (q' ++ [x]), g'. rewrite E'. rewrite <- app_assoc. split; [reflexivity|].
    rewrite P. apply Permutation_app_tail. exact P'.
Qed.

Lemma rp_next_ok {G} (u : nat -> G -> nat * G) (H : forall b g, fst (u b g) <= b) l g : l <> [] ->
  exists l' g', rp_next u l g = Ok (l', g') /\ Permutation l l'.
Proof.
  intros N. destruct (rp_loop_ok u H (length l - 1) l [] g) as (q & g' & E & P).
  { destruct l; [congruence|cbn; lia]. }
  rewrite !app_nil_r in E. exists q, g'. split; assumption.
Qed.

Lemma rp_calls_ok {G} (u : nat -> G -> nat * G) (H : forall b g, fst (u b g) <= b) k : forall l g, l <> [] ->
  exists l' g', rp_calls u k l g = Ok (l', g') /\ Permutation l l'.
Proof.
  induction k as [|k IH]; intros l g N; cbn [rp_calls].
  - exists l, g. split; [reflexivity|apply Permutation_refl].
  - destruct (rp_next_ok u H l g N) as (l1 & g1 & E & P). rewrite E. cbn [bind].
    destruct (IH l1 g1) as (l2 & g2 & E2 & P2); [intros ->; apply Permutation_sym, Permutation_nil in P; congruence|].
    exists l2, g2. split; [exact E2|]. etransitivity; eassumption.
Qed.

Lemma c08_permutation {G} (u : nat -> G -> nat * G) : (forall b g, fst (u b g) <= b) -> forall dbg n, 0 < n ->
  exists l0, rp_new dbg n = Ok l0 /\
  forall k g, exists l g', rp_calls u k l0 g = Ok (l, g') /\ Permutation (seq 0 n) l.
Proof.
  intros H dbg n Hn. exists (seq 0 n). split.
  - unfold rp_new, assert_. destruct (Nat.ltb_spec 0 n); [|lia]. rewrite andb_false_r. reflexivity.
  - intros k g. apply (rp_calls_ok u H). destruct n; [lia|discriminate].
Qed.

(** which sequences of draws are in range for a call of next on n elements: bounds n-1, ..., 1 *)
Fixpoint in_range (i : nat) (d : list nat) : Prop :=
  match i, d with O, [] => True | S i', j :: d' => j <= i /\ in_range i' d' | _, _ => False end.

Lemma reach i : forall p q s, length p = S i -> Permutation p q ->
  exists d, in_range i d /\ forall e, rp_loop playback i (p ++ s) (d ++ e) = Ok (q ++ s, e).
Proof.
  induction i as [|i IH]; intros p q s L P.
  - exists []. split; [exact I|]. intros e. cbn.
    destruct p as [|x [|]]; cbn in L; try lia. apply Permutation_length_1_inv in P. subst q. reflexivity.
  - assert (Lq : length q = S (S i)) by (rewrite <- (Permutation_length P); exact L).
    destruct q as [|y q0 _] using rev_ind; [discriminate|].
    rewrite app_length in Lq. cbn in Lq.
    assert (Hy : In y p) by (eapply Permutation_in; [symmetry; exact P|apply in_or_app; right; left; reflexivity]).
    apply In_nth_error in Hy. destruct Hy as [j Hj].
    assert (Bj : j <= S i) by (assert (j < length p) by (apply nth_error_Some; congruence); lia).
    destruct (rp_swap_ok p s (S i) j L Bj) as (q & x & E & Lq' & Ex & P').
    rewrite Hj in Ex. injection Ex as <-.
    destruct (IH q q0 (y :: s) Lq') as (d & Hd & E').
    { apply (Permutation_app_inv_r [y]). rewrite <- P'. exact P. }
    exists (j :: d). split; [split; assumption|]. intros e. cbn [rp_loop playback hd tl app].
    rewrite E. cbn [bind]. rewrite E', <- app_assoc. reflexivity.
Qed.

Lemma inj i : forall p s d d' e e' r, length p = S i -> NoDup p -> in_range i d -> in_range i d' ->
  rp_loop playback i (p ++ s) (d ++ e) = Ok (r, e) -> rp_loop playback i (p ++ s) (d' ++ e') = Ok (r, e') -> d = d'.
Proof.
  induction i as [|i IH]; intros p s [|j d] [|j' d'] e e' r L N R R' E E'; cbn [in_range] in R, R'; try tauto.
  destruct R as [R0 R], R' as [R0' R']. cbn [rp_loop playback hd tl app] in E, E'.
  destruct (rp_swap_ok p s (S i) j L R0) as (q & x & Q & Lq & Ex & P). rewrite Q in E. cbn [bind] in E.
  destruct (rp_swap_ok p s (S i) j' L R0') as (q' & x' & Q' & Lq' & Ex' & P'). rewrite Q' in E'. cbn [bind] in E'.
  destruct (rp_loop_ok (G:=list nat) (fun b g => (Nat.min b (hd 0 g), tl g))
     (fun b g => Nat.le_min_l b _) i q (x :: s) (d ++ e) Lq) as (w & g & W & _).
  assert (SM : forall k a b c, in_range k b -> rp_loop (fun b g => (Nat.min b (hd 0 g), tl g)) k a (b ++ c) = rp_loop playback k a (b ++ c)).
  { clear. induction k as [|k IH]; intros a b c H; [reflexivity|]. destruct b as [|j b]; [contradiction H|].
    destruct H as [H H']. cbn [rp_loop playback hd tl app]. rewrite (Nat.min_r _ _ H). destruct (rp_swap a (S k) j); cbn [bind]; auto. }
  rewrite SM in W by assumption. rewrite W in E. injection E as E _.
  destruct (rp_loop_ok (G:=list nat) (fun b g => (Nat.min b (hd 0 g), tl g))
     (fun b g => Nat.le_min_l b _) i q' (x' :: s) (d' ++ e') Lq') as (w' & g' & W' & _).
  rewrite SM in W' by assumption. rewrite W' in E'. injection E' as E' _.
  assert (Ls : length w = S i /\ length w' = S i).
  { assert (T : length r = length p + length s).
    { rewrite <- E. rewrite app_length. cbn.
      pose proof (rp_loop_ok (G:=list nat) (fun b g => (Nat.min b (hd 0 g), tl g)) (fun b g => Nat.le_min_l b _) i q (x :: s) (d ++ e) Lq) as (w2 & g2 & W2 & P2).
      rewrite SM in W2 by assumption. rewrite W in W2. injection W2 as W2 _. apply app_inv_tail in W2. subst w2.
      rewrite <- (Permutation_length P2). lia. }
    rewrite <- E in T at 1. rewrite app_length in T. cbn in T. split; [lia|].
    assert (T' : length r = length p + length s) by (rewrite <- E, app_length; cbn; lia).
    rewrite <- E', app_length in T'. cbn in T'. lia. }
  subst r. 
  assert (Ew : w' = w /\ x' :: s = x :: s).
  { apply app_inj_tail_iff || idtac. assert (A : firstn (S i) (w' ++ x' :: s) = firstn (S i) (w ++ x :: s)) by congruence.
    assert (B : skipn (S i) (w' ++ x' :: s) = skipn (S i) (w ++ x :: s)) by congruence.
    destruct Ls as [L1 L2]. rewrite <- L1 in A at 2. rewrite <- L2 in A at 1. rewrite <- L1 in B at 2. rewrite <- L2 in B at 1.
    rewrite !firstn_app, !firstn_all, !Nat.sub_diag in A. rewrite !skipn_app, !skipn_all, !Nat.sub_diag in B. cbn in A, B.
    rewrite !app_nil_r in A. split; assumption. }
  destruct Ew as [-> Ex2]. injection Ex2 as ->.
  assert (j = j').
  { apply (proj1 (NoDup_nth_error p) N); [apply nth_error_Some; congruence|congruence]. }
  subst j'. rewrite Q in Q'. injection Q' as Q'. apply app_inv_tail in Q'. subst q'.
  f_equal. apply (IH q (x :: s) d d' e e' (w ++ x :: s) Lq); auto.
  - assert (Hn : NoDup (q ++ [x])) by (eapply Permutation_NoDup; [exact P|exact N]).
    apply NoDup_remove_1 in Hn. rewrite app_nil_r in Hn. exact Hn.
  - rewrite W. f_equal. f_equal.
    pose proof (rp_loop_ok (G:=list nat)). clear - W R. 
    assert (X : forall k a b c r g, in_range k b -> rp_loop playback k a (b ++ c) = Ok (r, g) -> g = c).
    { clear. induction k as [|k IH]; intros a [|j b] c r g H E; cbn [in_range] in H; try tauto.
      - injection E as _ E. auto.
      - cbn [rp_loop playback hd tl app] in E. destruct (rp_swap a (S k) j); try discriminate. cbn [bind] in E. eapply IH; [apply H|exact E]. }
    eapply X; eassumption.
  - rewrite W'. f_equal. f_equal.
    assert (X : forall k a b c r g, in_range k b -> rp_loop playback k a (b ++ c) = Ok (r, g) -> g = c).
    { clear. induction k as [|k IH]; intros a [|j b] c r g H E; cbn [in_range] in H; try tauto.
      - injection E as _ E. auto.
      - cbn [rp_loop playback hd tl app] in E. destruct (rp_swap a (S k) j); try discriminate. cbn [bind] in E. eapply IH; [apply H|exact E]. }
    eapply X; eassumption.
Qed.

Lemma c08_reachable (l q : list nat) : l <> [] -> NoDup l -> Permutation l q ->
  exists! d, in_range (length l - 1) d /\ rp_next playback l d = Ok (q, []).
Proof.
  intros N D P. assert (L : length l = S (length l - 1)) by (destruct l; [congruence|cbn; lia]).
  destruct (reach (length l - 1) l q [] L P) as (d & R & E). specialize (E []). rewrite !app_nil_r in E.
  exists d. split; [split; assumption|]. intros d' [R' E'].
  apply (inj (length l - 1) l [] d d' [] [] q L D R R'); rewrite !app_nil_r; assumption.
Qed.

(** Monom::permutation *)
Lemma rd_ok {A} (l : list A) i x : nth_error l i = Some x -> rd l i = Ok x.
Proof. unfold rd. intros ->. reflexivity. Qed.

Lemma permute_loop_ok dbg (src : list Z) k : forall p1 p2 d1 d2, length p2 = k -> length d2 = k -> length d1 = length p1 ->
  Forall (fun j => j < length src) p2 ->
  permute_loop dbg false k (length d1) (d1 ++ d2) src (p1 ++ p2) = Ok (d1 ++ map (fun j => nth j src 0%Z) p2).
Proof.
  induction k as [|k IH]; intros p1 p2 d1 d2 L2 Ld E F.
  - destruct p2; [|discriminate]. destruct d2; [|discriminate]. reflexivity.
  - destruct p2 as [|j p2]; [discriminate|]. destruct d2 as [|y d2]; [discriminate|].
    apply Forall_cons_iff in F. destruct F as [Fj F]. cbn [permute_loop].
    unfold rp_get. rewrite assert_true by (apply Nat.ltb_lt; rewrite app_length; cbn; lia).
    rewrite (rd_ok _ _ j) by (rewrite E; apply nth_app). cbn [bind].
    rewrite (rd_ok src j (nth j src 0%Z)) by (apply nth_error_nth'; exact Fj). cbn [bind].
    unfold wr. replace (length d1 <? length (d1 ++ y :: d2)) with true by (symmetry; apply Nat.ltb_lt; rewrite app_length; cbn; lia).
    cbn [bind]. rewrite upd_app.
    specialize (IH (p1 ++ [j]) p2 (d1 ++ [nth j src 0%Z]) d2).
    rewrite !app_length in IH. cbn [length] in IH. rewrite <- !app_assoc in IH. cbn [app] in IH.
    replace (length d1 + 1) with (S (length d1)) in IH by lia.
    rewrite IH by (cbn in *; auto; lia). cbn [map]. reflexivity.
Qed.

Lemma map_nth_seq (l : list Z) : map (fun j => nth j l 0%Z) (seq 0 (length l)) = l.
Proof.
  induction l as [|x l IH]; [reflexivity|]. cbn [length seq map nth]. f_equal. rewrite <- seq_shift, map_map. exact IH.
Qed.

Lemma zsum_perm a b : Permutation a b -> fold_right Z.add 0%Z a = fold_right Z.add 0%Z b.
Proof. induction 1; cbn; lia. Qed.

Lemma c08_permute dbg n m a p : cvalid n m -> cvalid n a -> Permutation (seq 0 n) p ->
  exists r, c_permutation dbg false m a p = Ok r /\ cvalid n r /\ cdegree r = cdegree a /\ cpos r = cpos m /\
    Permutation (cvars r) (cvars a) /\
    forall v j, nth_error p v = Some j -> nth_error (cvars r) v = nth_error (cvars a) j.
Proof.
  intros Vm Va P.
  pose proof (cvalid_facts n m Vm) as (Sm & Lm & Fm & Dm & Rm & Pm & Nm).
  pose proof (cvalid_facts n a Va) as (Sa & La & Fa & Da & Ra & Pa & Na).
  assert (Lp : length p = n) by (rewrite <- (Permutation_length P), seq_length; reflexivity).
  assert (Fp : Forall (fun j => j < length (cvars a)) p).
  { apply Forall_forall. intros j Hj. apply (Permutation_in _ (Permutation_sym P)) in Hj. apply in_seq in Hj. lia. }
  assert (PP : Permutation (map (fun j => nth j (cvars a) 0%Z) p) (cvars a)).
  { rewrite <- (Permutation_map (fun j => nth j (cvars a) 0%Z) P). rewrite <- La at 1. rewrite map_nth_seq. apply Permutation_refl. }
  exists (CMon (csize m) (cpos m) (cdegree a) (map (fun j => nth j (cvars a) 0%Z) p)).
  assert (V : cvalid n (CMon (csize m) (cpos m) (cdegree a) (map (fun j => nth j (cvars a) 0%Z) p))).
  { split; [exact Sm|]. split; [exact Nm|]. split; [cbn; rewrite map_length; exact Lp|]. split; [exact Pm|].
    split; [|split; [|exact (proj2 Ra)]].
    - cbn. apply Forall_forall. intros x Hx. apply (Permutation_in _ PP) in Hx. rewrite Forall_forall in Fa. apply Fa. exact Hx.
    - cbn. rewrite Da. symmetry. apply zsum_perm. exact PP. }
  split.
  - unfold c_permutation. rewrite !assert_true by (apply Z.eqb_eq; congruence).
    rewrite Sm, Nat2Z.id.
    pose proof (permute_loop_ok dbg (cvars a) n [] p [] (cvars m) Lp Lm eq_refl Fp) as E. cbn [length app] in E. rewrite E.
    cbn [bind]. rewrite <- Sm. apply (assert_valid_ok n). exact V.
  - split; [exact V|]. split; [reflexivity|]. split; [reflexivity|]. split; [exact PP|].
    intros v j H. cbn. rewrite nth_error_map, H. cbn. symmetry. apply nth_error_nth'.
    rewrite Forall_forall in Fp. apply Fp. eapply nth_error_In. exact H.
Qed.

(** permuting a monomial onto itself loses exponents *)
Lemma c08_permute_self_refuted : exists m p r, cvalid 2 m /\ Permutation (seq 0 2) p /\
  c_permutation false true m m p = Ok r /\ ~ Permutation (cvars r) (cvars m) /\ ~ cvalid 2 r.
Proof.
  exists (CMon 2 (-1) 3 [1; 2]%Z), [1; 0], (CMon 2 (-1) 3 [2; 2]%Z).
  split. { unfold cvalid. cbn. repeat split; try lia; try discriminate. repeat constructor; lia. }
  split. { apply perm_swap. }
  split. { reflexivity. }
  split.
  - cbn. intros H.
    assert (X : In 1%Z [2; 2]%Z) by (apply (Permutation_in 1%Z (Permutation_sym H)); left; reflexivity).
    cbn in X. lia.
  - unfold cvalid. cbn. lia.
Qed.

Lemma rp_new_cases dbg n : rp_new dbg n = if 0 <? n then Ok (seq 0 n) else if dbg then AssertFail else Undef.
Proof. unfold rp_new, assert_. destruct dbg, (0 <? n); reflexivity. Qed.
