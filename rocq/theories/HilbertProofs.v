From Coq Require Import ZArith List Bool Arith QArith Qreduction Lia Lqa Permutation.
From Verif Require Import Outcome MonomModel MonomSpec JanetModel JanetSpec JanetProofs JanetFindProofs HilbertModel HilbertSpec.
Import ListNotations.
Local Open Scope nat_scope.

Lemma inject_Z_minus a b : (inject_Z (a - b) == inject_Z a - inject_Z b)%Q.
Proof. unfold Qeq. cbn. lia. Qed.

(** ** polynomials *)
Lemma Qred_lowest q : lowest_terms (Qred q).
Proof.
  unfold lowest_terms. destruct q as (a, b). unfold Qred.
  pose proof (Z.ggcd_correct_divisors a (Zpos b)) as D. pose proof (Z.ggcd_gcd a (Zpos b)) as G.
  pose proof (Z.gcd_nonneg a (Zpos b)) as Gn.
  assert (G0 : (Z.gcd a (Zpos b) <> 0)%Z) by (intros E; apply Z.gcd_eq_0_r in E; discriminate).
  destruct (Z.ggcd a (Zpos b)) as (g, (aa, bb)). cbn [fst snd] in *. destruct D as (Da & Db). subst g.
  set (g := Z.gcd a (Zpos b)) in *.
  assert (Bp : (0 < bb)%Z) by nia. cbn [Qnum Qden]. rewrite Z2Pos.id by exact Bp.
  assert (E : (Z.gcd (g * aa) (g * bb) = g * Z.gcd aa bb)%Z) by (apply Z.gcd_mul_mono_l_nonneg; lia).
  rewrite <- Da, <- Db in E. fold g in E. nia.
Qed.

Lemma peval_zeros k x : (peval (repeat 0%Q k) x == 0)%Q.
Proof. induction k; cbn [repeat peval]; [reflexivity|]. rewrite IHk. ring. Qed.
Lemma peval_app c k x : (peval (c ++ repeat 0%Q k) x == peval c x)%Q.
Proof. induction c as [|a c IH]; cbn [app peval]; [apply peval_zeros|]. rewrite IH. reflexivity. Qed.
Lemma peval_red c x : (peval (map Qred c) x == peval c x)%Q.
Proof. induction c as [|a c IH]; cbn [map peval]; [reflexivity|]. rewrite IH, Qred_correct. reflexivity. Qed.
Lemma peval_map c q f x : (forall y, f y == y * q)%Q -> (peval (map f c) x == peval c x * q)%Q.
Proof. intros H. induction c as [|a c IH]; cbn [map peval]; [ring|]. rewrite IH, H. ring. Qed.
Lemma peval_add_lists a b x : (peval (add_lists a b) x == peval a x + peval b x)%Q.
Proof.
  revert b; induction a as [|y a IH]; intros [|z b]; cbn [add_lists peval]; try ring. rewrite IH. ring.
Qed.
Lemma length_add_lists a b : length (add_lists a b) = Nat.max (length a) (length b).
Proof. revert b; induction a as [|y a IH]; intros [|z b]; cbn; auto. Qed.

Lemma hp_zip_ok f g a : forall b, length a <= length b -> (forall x y, f x y == x + g * y)%Q -> (forall x y, lowest_terms (f x y)) ->
  exists r, hp_zip f a b = Ok r /\ length r = length a /\ Forall lowest_terms r /\
    (length a = length b -> forall x, peval r x == peval a x + g * peval b x)%Q.
Proof.
  induction a as [|x a IH]; intros [|y b] L H Hl; cbn [length] in L; try lia.
  - exists []. split; [reflexivity|]. split; [reflexivity|]. split; [constructor|]. intros _ z. cbn. ring.
  - exists []. split; [reflexivity|]. split; [reflexivity|]. split; [constructor|]. discriminate.
  - destruct (IH b ltac:(lia) H Hl) as (r & E & Lr & Fr & V). cbn [hp_zip]. rewrite E. cbn [bind]. exists (f x y :: r).
    split; [reflexivity|]. split; [cbn; lia|]. split; [constructor; auto|]. intros Le z. cbn [peval]. rewrite V by (cbn in Le; lia). rewrite H. ring.
Qed.

Lemma hp_add_ok a b : length a = length b ->
  exists r, hp_add a b = Ok r /\ length r = length a /\ Forall lowest_terms r /\ forall x, (peval r x == peval a x + peval b x)%Q.
Proof.
  intros L. destruct (hp_zip_ok (fun x y => Qred (x + y)) 1 a b) as (r & E & Lr & Fr & V); [lia|intros; rewrite Qred_correct; ring|intros; apply Qred_lowest|].
  exists r. split; [exact E|]. split; [exact Lr|]. split; [exact Fr|]. intros x. rewrite V by exact L. ring.
Qed.
Lemma hp_sub_ok a b : length a = length b ->
  exists r, hp_sub a b = Ok r /\ length r = length a /\ Forall lowest_terms r /\ forall x, (peval r x == peval a x - peval b x)%Q.
Proof.
  intros L. destruct (hp_zip_ok (fun x y => Qred (x - y)) (-1) a b) as (r & E & Lr & Fr & V); [lia|intros; rewrite Qred_correct; ring|intros; apply Qred_lowest|].
  exists r. split; [exact E|]. split; [exact Lr|]. split; [exact Fr|]. intros x. rewrite V by exact L. ring.
Qed.
Lemma hp_mult_ok h a : length (hp_mult h a) = length h /\ Forall lowest_terms (hp_mult h a) /\
  forall x, (peval (hp_mult h a) x == inject_Z a * peval h x)%Q.
Proof.
  unfold hp_mult. split; [apply map_length|]. split.
  - apply Forall_forall. intros q I. apply in_map_iff in I as (y & <- & _). apply Qred_lowest.
  - intros x. rewrite (peval_map h (inject_Z a)); [ring|]. intros y. rewrite Qred_correct. reflexivity.
Qed.
Lemma hp_isZero_ok dbg h k : k < length h -> exists b, hp_isZero dbg h k = Ok b /\ (b = true <-> (nth k h 0 == 0)%Q).
Proof.
  intros Hk. unfold hp_isZero, assert_. rewrite (proj2 (Nat.leb_le k (length h))) by lia. rewrite andb_comm. cbn [andb negb].
  rewrite (nth_error_nth' h 0%Q Hk). eexists. split; [reflexivity|]. destruct (nth k h 0%Q) as (a, b). cbn [Qnum].
  rewrite Z.eqb_eq. unfold Qeq. cbn. lia.
Qed.

Lemma bin_step_ok c a p x : 2 <= p ->
  (peval (bin_step c a p) x == peval c x * ((x + inject_Z a - inject_Z (Z.of_nat (p - 1))) / inject_Z (Z.of_nat p)))%Q.
Proof.
  intros Hp. unfold bin_step. rewrite peval_add_lists. change [0%Q] with (repeat 0%Q 1). rewrite peval_app. cbn [peval].
  assert (Hn : ~ (inject_Z (Z.of_nat p) == 0)%Q) by (unfold Qeq; cbn; lia).
  assert (I1 : (1 # Pos.of_nat p == / inject_Z (Z.of_nat p))%Q).
  { apply (Qmult_inj_l _ _ (inject_Z (Z.of_nat p))); [exact Hn|]. rewrite Qmult_inv_r by exact Hn. unfold Qeq. cbn. lia. }
  unfold bin_scale, bin_tmp.
  rewrite (peval_map c ((a - (Z.of_nat p - 1)) # Pos.of_nat p)) by reflexivity.
  rewrite (peval_map c (1 # Pos.of_nat p)) by reflexivity.
  assert (I2 : ((a - (Z.of_nat p - 1)) # Pos.of_nat p == (inject_Z a - inject_Z (Z.of_nat (p - 1))) * / inject_Z (Z.of_nat p))%Q).
  { transitivity (inject_Z (a - (Z.of_nat p - 1)) * (1 # Pos.of_nat p))%Q; [unfold Qeq; cbn; lia|]. rewrite I1.
    replace (Z.of_nat p - 1)%Z with (Z.of_nat (p - 1)) by lia. rewrite inject_Z_minus. reflexivity. }
  rewrite I1, I2. field. exact Hn.
Qed.
Lemma bin_step_len c a p : length (bin_step c a p) = S (length c).
Proof. unfold bin_step. rewrite length_add_lists, app_length. unfold bin_scale, bin_tmp. cbn. rewrite !map_length. lia. Qed.

Lemma choose_S x k : choose x (S k) = (choose x k * ((x - inject_Z (Z.of_nat k)) / inject_Z (Z.of_nat (S k))))%Q.
Proof. reflexivity. Qed.

Lemma bin_loop_ok a x : forall k p c, 2 <= p -> (peval c x == choose (x + inject_Z a) (p - 1))%Q ->
  (peval (bin_loop k p a c) x == choose (x + inject_Z a) (p - 1 + k))%Q.
Proof.
  induction k as [|k IH]; intros p c Hp E; cbn [bin_loop].
  - rewrite E, Nat.add_0_r. reflexivity.
  - rewrite IH; [|lia|].
    + replace (S p - 1 + k) with (p - 1 + S k) by lia. reflexivity.
    + rewrite bin_step_ok by exact Hp. rewrite E. replace (S p - 1) with (S (p - 1)) by lia. rewrite choose_S.
      replace (S (p - 1)) with p by lia. reflexivity.
Qed.
Lemma bin_loop_len a : forall k p c, length (bin_loop k p a c) = k + length c.
Proof. induction k as [|k IH]; intros p c; cbn [bin_loop]; [reflexivity|]. rewrite IH, bin_step_len. lia. Qed.

Lemma choose_0 x : choose x 0 = 1%Q.
Proof. reflexivity. Qed.
Lemma choose_1 x : (choose x 1 == x)%Q.
Proof. rewrite choose_S, choose_0. cbn [Z.of_nat]. change (inject_Z 0) with 0%Q. change (inject_Z (Z.of_nat 1)) with 1%Q. field. Qed.

Lemma hp_binomial_ok h a b : b < length h ->
  exists r, hp_binomial h a b = Ok r /\ length r = length h /\ Forall lowest_terms r /\
    (forall x, peval r x == choose (x + inject_Z a) b)%Q /\ forall i, b < i -> (nth i r 0 == 0)%Q.
Proof.
  intros Hb. unfold hp_binomial. rewrite (proj2 (Nat.ltb_lt _ _) Hb).
  set (c := match b with 0 => [1%Q] | S b' => bin_loop b' 2 a [inject_Z a; 1%Q] end).
  assert (Lc : length c = S b) by (unfold c; destruct b; [reflexivity|rewrite bin_loop_len; cbn; lia]).
  eexists. split; [reflexivity|]. split; [rewrite map_length, app_length, repeat_length; lia|]. split; [|split].
  - apply Forall_forall. intros q I. apply in_map_iff in I as (y & <- & _). apply Qred_lowest.
  - intros x. rewrite peval_red, peval_app. unfold c. destruct b as [|b'].
    + cbn [peval choose]. ring.
    + rewrite bin_loop_ok; [replace (2 - 1 + b') with (S b') by lia; reflexivity|lia|].
      replace (2 - 1) with 1 by lia. rewrite choose_1. cbn [peval]. ring.
  - intros i Hi. rewrite map_app. rewrite app_nth2 by (rewrite map_length; lia).
    set (j := i - length (map Qred c)). clearbody j. generalize (length h - S b). intros k. revert j.
    induction k as [|k IH]; intros [|j]; cbn; try reflexivity. apply IH.
Qed.

(** ** binomial numbers *)
Fixpoint binom (n k : nat) : nat :=
  match k with O => 1 | S k' => match n with O => 0 | S n' => binom n' k' + binom n' k end end.

Lemma binom_0 n : binom n 0 = 1. Proof. destruct n; reflexivity. Qed.
Lemma binom_SS n k : binom (S n) (S k) = binom n k + binom n (S k). Proof. reflexivity. Qed.
Lemma binom_big n : forall k, n < k -> binom n k = 0.
Proof. induction n as [|n IH]; intros [|k] H; try lia; [reflexivity|]. rewrite binom_SS, !IH by lia. reflexivity. Qed.
Lemma binom_step n : forall k, (Z.of_nat (binom n (S k)) * Z.of_nat (S k) = Z.of_nat (binom n k) * (Z.of_nat n - Z.of_nat k))%Z.
Proof.
  induction n as [|n IH]; intros k.
  - destruct k; [reflexivity|]. rewrite (binom_big 0 (S k)), (binom_big 0 (S (S k))) by lia. lia.
  - rewrite binom_SS. destruct k as [|k]; [rewrite !binom_0; specialize (IH 0); rewrite binom_0 in IH; lia|].
    rewrite (binom_SS n k). pose proof (IH k). pose proof (IH (S k)). nia.
Qed.
Lemma choose_binom n k : (choose (inject_Z (Z.of_nat n)) k == inject_Z (Z.of_nat (binom n k)))%Q.
Proof.
  induction k as [|k IH]; [rewrite binom_0; reflexivity|]. rewrite choose_S, IH.
  assert (Hn : ~ (inject_Z (Z.of_nat (S k)) == 0)%Q) by (unfold Qeq; cbn; lia).
  apply (Qmult_inj_r _ _ _ Hn). unfold Qdiv. rewrite <- Qmult_assoc. rewrite <- (Qmult_assoc _ (/ _)). rewrite (Qmult_comm (/ _)), Qmult_inv_r by exact Hn.
  rewrite Qmult_1_r. rewrite <- inject_Z_minus, <- !inject_Z_mult. rewrite <- binom_step. reflexivity.
Qed.
Lemma choose_ext x y k : (x == y)%Q -> (choose x k == choose y k)%Q.
Proof. intros E. induction k as [|k IH]; [reflexivity|]. rewrite !choose_S, IH, E. reflexivity. Qed.

Definition sumn (l : list nat) : nat := fold_right Nat.add 0 l.
Lemma hockey n : forall k, sumn (map (fun i => binom (i + n) n) (seq 0 (S k))) = binom (S k + n) (S n).
Proof.
  assert (SA : forall a b, sumn (a ++ b) = sumn a + sumn b) by (unfold sumn; induction a; intros; cbn; [reflexivity|rewrite IHa; lia]).
  induction k as [|k IH].
  - cbn [seq map sumn fold_right]. replace (0 + n) with n by lia. change (1 + n) with (S n). rewrite binom_SS, (binom_big n (S n)) by lia. lia.
  - rewrite seq_S, map_app, SA, IH. cbn [map sumn fold_right]. replace (S (S k) + n) with (S (S k + n)) by lia. rewrite binom_SS.
    replace (0 + S k + n) with (S k + n) by lia. lia.
Qed.

(** ** the monomials u*v, v in the variables of the mask, deg v <= k *)
Fixpoint cone (u : list nat) (mk : list bool) (k : nat) : list (list nat) :=
  match u, mk with
  | x :: u', true :: mk' => flat_map (fun i => map (cons (x + i)) (cone u' mk' (k - i))) (seq 0 (S k))
  | x :: u', false :: mk' => map (cons x) (cone u' mk' k)
  | _, _ => [[]]
  end.
Definition ntrue (mk : list bool) : nat := length (filter (fun b => b) mk).

Lemma sumn_perm a b : Permutation a b -> sumn a = sumn b.
Proof. unfold sumn. induction 1; cbn [fold_right]; lia. Qed.
Lemma sumn_rev_seq (f : nat -> nat) k : sumn (map (fun i => f (k - i)) (seq 0 (S k))) = sumn (map f (seq 0 (S k))).
Proof.
  assert (P : Permutation (map (fun i => k - i) (seq 0 (S k))) (seq 0 (S k))).
  { apply NoDup_Permutation_bis.
    - apply (NoDup_map_inv (fun i => k - i)). rewrite map_map.
      rewrite (map_ext_in _ (fun i => i)); [rewrite map_id; apply seq_NoDup|]. intros i I. apply in_seq in I. lia.
    - rewrite map_length. lia.
    - intros y I. apply in_map_iff in I as (i & <- & I). apply in_seq in I. apply in_seq. lia. }
  rewrite <- (map_map (fun i => k - i) f). apply (Permutation_map f) in P.
  apply sumn_perm, P.
Qed.

Lemma flat_map_len {A B} (f : A -> list B) l : length (flat_map f l) = sumn (map (fun a => length (f a)) l).
Proof. induction l as [|a l IH]; cbn; [reflexivity|]. rewrite app_length, IH. reflexivity. Qed.

Lemma cone_len : forall u mk k, length mk = length u -> length (cone u mk k) = binom (k + ntrue mk) (ntrue mk).
Proof.
  induction u as [|x u IH]; intros [|b mk] k L; try discriminate; [cbn; rewrite binom_0; reflexivity|].
  cbn [length] in L. destruct b; unfold ntrue; cbn [cone filter]; fold (ntrue mk).
  - rewrite flat_map_len. cbn [length]. fold (ntrue mk).
    rewrite (map_ext _ (fun i => binom (k - i + ntrue mk) (ntrue mk))) by (intros i; rewrite map_length, IH by lia; reflexivity).
    rewrite (sumn_rev_seq (fun j => binom (j + ntrue mk) (ntrue mk)) k), hockey. f_equal. lia.
  - rewrite map_length, IH by lia. reflexivity.
Qed.

Lemma expo_S x l i : expo (x :: l) (S i) = expo l i. Proof. reflexivity. Qed.
Lemma expo_O x l : expo (x :: l) 0 = x. Proof. reflexivity. Qed.

Lemma cone_in : forall u mk k m, length mk = length u ->
  (In m (cone u mk k) <-> length m = length u /\ (forall i, i < length u -> expo u i <= expo m i) /\
     (forall i, i < length u -> expo u i < expo m i -> nth i mk false = true) /\ total m <= total u + k).
Proof.
  induction u as [|x u IH]; intros [|b mk] k m L; try discriminate.
  - cbn [cone length]. split.
    + intros [<-|[]]. split; [reflexivity|]. split; [intros; lia|]. split; [intros; lia|cbn; lia].
    + intros (E & _). destruct m; [left; reflexivity|discriminate].
  - cbn [length] in L. assert (Lm : length mk = length u) by lia.
    assert (G : In m (cone (x :: u) (b :: mk) k) <-> exists y m', m = y :: m' /\ x <= y /\ (x < y -> b = true) /\ y <= x + k /\ In m' (cone u mk (k - (y - x)))).
    { destruct b; cbn [cone].
      - rewrite in_flat_map. split.
        + intros (i & Ii & I). apply in_map_iff in I as (m' & <- & I). apply in_seq in Ii. exists (x + i), m'.
          split; [reflexivity|]. split; [lia|]. split; [auto|]. split; [lia|]. replace (x + i - x) with i by lia. exact I.
        + intros (y & m' & -> & H1 & _ & H2 & I). exists (y - x). split; [apply in_seq; lia|]. apply in_map_iff. exists m'.
          split; [f_equal; lia|exact I].
      - rewrite in_map_iff. split.
        + intros (m' & <- & I). exists x, m'. split; [reflexivity|]. split; [lia|]. split; [lia|]. split; [lia|]. rewrite Nat.sub_diag, Nat.sub_0_r. exact I.
        + intros (y & m' & -> & H1 & H2 & H3 & I). assert (y = x) as -> by (destruct (Nat.eq_dec x y); [auto|]; specialize (H2 ltac:(lia)); discriminate).
          rewrite Nat.sub_diag, Nat.sub_0_r in I. exists m'. auto. }
    rewrite G. split.
    + intros (y & m' & -> & H1 & H2 & H3 & I). apply IH in I as (A & B & C & D); [|exact Lm]. cbn [length total]. split; [lia|].
      split; [|split; [|lia]].
      * intros [|i] Hi; rewrite ?expo_S, ?expo_O; [lia|apply B; lia].
      * intros [|i] Hi; rewrite ?expo_S, ?expo_O; cbn [nth]; [exact H2|apply C; lia].
    + intros (A & B & C & D). destruct m as [|y m']; [discriminate|]. exists y, m'. split; [reflexivity|]. cbn [length] in *.
      pose proof (B 0 ltac:(lia)) as B0. pose proof (C 0 ltac:(lia)) as C0. rewrite !expo_O in *. cbn [nth] in C0.
      assert (TT : total u <= total m').
      { assert (TL : forall a c : list nat, length a = length c -> (forall i, i < length a -> expo a i <= expo c i) -> total a <= total c).
        { induction a as [|p a IHa]; intros [|q c] E H; try discriminate; [cbn; lia|]. cbn [total].
          pose proof (H 0 ltac:(cbn; lia)) as H0. rewrite !expo_O in H0. cbn [length] in *.
          assert (total a <= total c); [apply IHa; [lia|]|lia]. intros i Hi. specialize (H (S i) ltac:(lia)). rewrite !expo_S in H. exact H. }
        apply TL; [lia|]. intros i Hi. specialize (B (S i) ltac:(lia)). rewrite !expo_S in B. exact B. }
      cbn [total] in D. split; [lia|]. split; [exact C0|]. split; [lia|]. apply IH; [exact Lm|]. split; [lia|]. split; [|split; [|lia]].
      * intros i Hi. specialize (B (S i) ltac:(lia)). rewrite !expo_S in B. exact B.
      * intros i Hi Hl. specialize (C (S i) ltac:(lia)). rewrite !expo_S in C. cbn [nth] in C. auto.
Qed.

Lemma NoDup_app_intro {A} (a b : list A) : NoDup a -> NoDup b -> (forall x, In x a -> In x b -> False) -> NoDup (a ++ b).
Proof.
  induction a as [|x a IH]; cbn; intros Ha Hb D; [exact Hb|]. inversion Ha; subst. constructor.
  - intros I. apply in_app_or in I as [I|I]; [auto|eapply D; eauto].
  - apply IH; auto. intros y I1 I2. eapply D; eauto.
Qed.
Lemma NoDup_flat {A B} (f : A -> list B) l : NoDup l -> (forall a, In a l -> NoDup (f a)) ->
  (forall a b x, In a l -> In b l -> In x (f a) -> In x (f b) -> a = b) -> NoDup (flat_map f l).
Proof.
  induction l as [|a l IH]; cbn; intros N F D; [constructor|]. inversion N; subst. apply NoDup_app_intro.
  - apply F; auto.
  - apply IH; auto. intros; eapply D; eauto.
  - intros x I1 I2. apply in_flat_map in I2 as (b & Ib & I2). assert (a = b) by (eapply D; eauto). subst b. auto.
Qed.
Lemma NoDup_map_inj {A B} (f : A -> B) l : (forall a b, f a = f b -> a = b) -> NoDup l -> NoDup (map f l).
Proof. intros Inj. induction 1; cbn; constructor; auto. intros I. apply in_map_iff in I as (y & E & I). apply Inj in E. subst. auto. Qed.

Lemma cone_nodup : forall u mk k, NoDup (cone u mk k).
Proof.
  induction u as [|x u IH]; intros [|b mk] k; try (constructor; [auto|constructor]). destruct b; cbn [cone].
  - apply NoDup_flat.
    + apply seq_NoDup.
    + intros a _. apply NoDup_map_inj; [congruence|apply IH].
    + intros a b m _ _ I1 I2. apply in_map_iff in I1 as (m1 & E1 & _). apply in_map_iff in I2 as (m2 & E2 & _). rewrite <- E2 in E1. injection E1. lia.
  - apply NoDup_map_inj; [congruence|apply IH].
Qed.

(** all monomials of degree at most s *)
Definition all_upto (n s : nat) : list (list nat) := cone (repeat 0 n) (repeat true n) s.
Lemma ntrue_repeat n : ntrue (repeat true n) = n.
Proof. unfold ntrue. induction n; cbn; auto. Qed.
Lemma total_zeros n : total (repeat 0 n) = 0.
Proof. induction n; cbn; auto. Qed.
Lemma nth_repeat_true n i : i < n -> nth i (repeat true n) false = true.
Proof. revert i; induction n; intros [|i] H; try lia; cbn; auto. apply IHn; lia. Qed.
Lemma expo_zeros n i : expo (repeat 0 n) i = 0.
Proof. unfold expo. revert i; induction n; intros [|i]; cbn; auto. Qed.
Lemma all_upto_len n s : length (all_upto n s) = binom (s + n) n.
Proof. unfold all_upto. rewrite cone_len by (rewrite !repeat_length; reflexivity). rewrite ntrue_repeat. reflexivity. Qed.
Lemma all_upto_in n s m : In m (all_upto n s) <-> length m = n /\ total m <= s.
Proof.
  unfold all_upto. rewrite cone_in by (rewrite !repeat_length; reflexivity). rewrite repeat_length, total_zeros. split; [tauto|].
  intros (L & T). split; [exact L|]. split; [intros; rewrite expo_zeros; lia|]. split; [|exact T]. intros. apply nth_repeat_true. auto.
Qed.

(** in_ideal is decidable *)
Definition divides_b (n : nat) (u m : list nat) : bool := forallb (fun i => Nat.leb (expo u i) (expo m i)) (seq 0 n).
Definition in_ideal_b (n : nat) (F : list (list nat)) (m : list nat) : bool := existsb (fun u => divides_b n u m) F.
Lemma in_ideal_b_ok n F m : in_ideal_b n F m = true <-> in_ideal n F m.
Proof.
  unfold in_ideal_b, in_ideal. rewrite existsb_exists. split; intros (u & I & D); exists u; split; auto.
  - intros i Hi. unfold divides_b in D. rewrite forallb_forall in D. apply Nat.leb_le, D, in_seq. lia.
  - unfold divides_b. apply forallb_forall. intros i Hi. apply in_seq in Hi. apply Nat.leb_le, D. lia.
Qed.

(** ** the count *)
Definition umask (u : wrap) : list bool := map negb (wnm u).
Lemma umask_true u : ntrue (umask u) = multi u.
Proof. unfold ntrue, umask, multi. induction (wnm u) as [|b l IH]; cbn; [reflexivity|]. destruct b; cbn; auto. Qed.
Lemma umask_nth u i n : length (wnm u) = n -> i < n -> nth i (umask u) false = negb (fl u i).
Proof.
  intros L H. unfold umask, fl. rewrite (nth_indep _ false (negb false)) by (rewrite map_length; lia). apply map_nth.
Qed.

Definition ucone (s : nat) (u : wrap) : list (list nat) := cone (lv u) (umask u) (s - total (lv u)).

Lemma ucone_in n t u s m : jinv n t -> In u (wraps t) -> total (lv u) <= s ->
  (In m (ucone s u) <-> length m = n /\ total m <= s /\ janet_divides n (lms (wraps t)) (lv u) m).
Proof.
  intros J I Hs. assert (O : okw n u) by (destruct J as [_ _ O _]; rewrite Forall_forall in O; auto). destruct O as (O1 & O2 & _).
  unfold ucone. rewrite cone_in by (unfold umask; rewrite map_length; lia). rewrite O1.
  assert (E : total (lv u) + (s - total (lv u)) = s) by lia. rewrite E. rewrite <- (jd_janet n t u m J I). unfold jd. split.
  - intros (A & B & C & D). split; [exact A|]. split; [exact D|]. intros i Hi. split; [auto|]. intros Hl.
    specialize (C i Hi Hl). rewrite (umask_nth u i n O2 Hi) in C. destruct (fl u i); [discriminate|reflexivity].
  - intros (A & D & B). split; [exact A|]. split; [intros; apply B; auto|]. split; [|exact D]. intros i Hi Hl.
    rewrite (umask_nth u i n O2 Hi). destruct (B i Hi) as (_ & B2). rewrite (B2 Hl). reflexivity.
Qed.

Lemma nodup_wraps n t : jinv n t -> NoDup (wraps t).
Proof. intros [_ _ _ N]. unfold lms in N. eapply NoDup_map_inv; eauto. Qed.

Lemma count_ok n t F s : jinv n t -> janet_basis n F (lms (wraps t)) -> (forall u, In u (wraps t) -> total (lv u) <= s) ->
  exists k, hilbert_function n F s k /\
    binom (s + n) n = k + sumn (map (fun u => binom (s - total (lv u) + multi u) (multi u)) (wraps t)).
Proof.
  intros J (B1 & B2) Hs.
  set (L := filter (fun m => negb (in_ideal_b n F m)) (all_upto n s)).
  exists (length L). split.
  - exists L. split; [apply NoDup_filter, cone_nodup|]. split; [reflexivity|]. intros m. unfold L. rewrite filter_In, all_upto_in, negb_true_iff.
    rewrite <- in_ideal_b_ok. destruct (in_ideal_b n F m); intuition congruence.
  - assert (P : Permutation (all_upto n s) (L ++ flat_map (ucone s) (wraps t))).
    { apply NoDup_Permutation.
      - apply cone_nodup.
      - apply NoDup_app_intro.
        + apply NoDup_filter, cone_nodup.
        + apply NoDup_flat; [eapply nodup_wraps; eauto|intros; apply cone_nodup|].
          intros a b m Ia Ib Ha Hb. apply (ucone_in n t) in Ha; auto. apply (ucone_in n t) in Hb; auto.
          destruct Ha as (Lm & _ & Ha). destruct Hb as (_ & _ & Hb). apply (nodup_lms_eq (wraps t)); auto; [apply J|].
          eapply (janet_unique n (lms (wraps t))); eauto. intros x Ix. eapply jinv_len; eauto.
        + intros m I1 I2. apply in_flat_map in I2 as (u & Iu & I2). apply (ucone_in n t) in I2; auto.
          destruct I2 as (_ & _ & (Iu' & D & _)). unfold L in I1. apply filter_In in I1 as (_ & I1). apply negb_true_iff in I1.
          assert (in_ideal_b n F m = true); [|congruence]. apply in_ideal_b_ok.
          destruct (B1 _ Iu') as (f & If & Df). exists f. split; [exact If|]. intros i Hi. specialize (D i Hi). specialize (Df i Hi). lia.
      - intros m. rewrite in_app_iff. unfold L. rewrite filter_In, all_upto_in, in_flat_map. split.
        + intros (Lm & Tm). destruct (in_ideal_b n F m) eqn:E; [|left; auto]. right. apply in_ideal_b_ok in E.
          destruct (B2 m Lm E) as (x & D). pose proof D as (Ix & _). apply in_map_iff in Ix as (u & <- & Iu). exists u. split; [exact Iu|].
          apply (ucone_in n t); auto.
        + intros [(A & _)|(u & Iu & I)]; [exact A|]. apply (ucone_in n t) in I; auto. tauto. }
    apply Permutation_length in P. rewrite all_upto_len, app_length, flat_map_len in P. rewrite P. f_equal. f_equal.
    apply map_ext_in. intros u Iu. assert (O : okw n u) by (destruct J as [_ _ O _]; rewrite Forall_forall in O; auto). destruct O as (O1 & O2 & _).
    unfold ucone. rewrite cone_len by (unfold umask; rewrite map_length; lia). rewrite umask_true. reflexivity.
Qed.

(** ** buildHP *)
Fixpoint build_list (dbg : bool) (l : list wrap) (s : hp * hp) : outcome (hp * hp) :=
  match l with [] => Ok s | w :: l' => do s1 <- build_one dbg w s; build_list dbg l' s1 end.
Lemma build_list_app dbg a b s : build_list dbg (a ++ b) s = do s1 <- build_list dbg a s; build_list dbg b s1.
Proof. revert s; induction a as [|w a IH]; intros s; cbn [app build_list bind]; [reflexivity|]. destruct (build_one dbg w s); cbn [bind]; auto. Qed.
Lemma build_tree_list dbg t : forall s, build_hp_tree dbg t s = build_list dbg (wraps t) s.
Proof.
  induction t as [|dg ow nd IHd nv IHv]; intros s; cbn [build_hp_tree wraps build_list]; [reflexivity|].
  rewrite !build_list_app. destruct ow as [w|]; cbn [build_list].
  - destruct (build_one dbg w s) as [s1| | | |]; cbn [bind]; auto. rewrite IHv, build_list_app. destruct (build_list dbg (wraps nv) s1); cbn [bind]; auto.
  - cbn [bind]. rewrite IHv, ?build_list_app. destruct (build_list dbg (wraps nv) s); cbn [bind]; auto.
Qed.

Definition uterm (x : Q) (u : wrap) : Q := choose (x + inject_Z (Z.of_nat (multi u) - Z.of_nat (deg (wlm u)))) (multi u).
Definition sumq (l : list Q) : Q := fold_right Qplus 0%Q l.

Lemma build_list_ok dbg n : forall l h t, length h = S n -> length t = S n -> Forall (fun u => multi u <= n) l ->
  exists h' t', build_list dbg l (h, t) = Ok (h', t') /\ length h' = S n /\ (l <> [] -> Forall lowest_terms h') /\
    forall x, (peval h' x == peval h x - sumq (map (uterm x) l))%Q.
Proof.
  induction l as [|u l IH]; intros h t Lh Lt F; cbn [build_list].
  - exists h, t. split; [reflexivity|]. split; [exact Lh|]. split; [congruence|]. intros x. cbn. ring.
  - inversion F as [|? ? Fu Fl]; subst. unfold build_one.
    destruct (hp_binomial_ok t (Z.of_nat (multi u) - Z.of_nat (deg (wlm u))) (multi u)) as (r & Er & Lr & _ & Vr & _); [lia|].
    replace (match h with [] => _ | _ :: _ => Ok (h, t) end) with (@Ok (hp * hp) (h, t)) by (destruct h; [discriminate|reflexivity]). cbn [bind].
    rewrite Er. cbn [bind]. destruct (hp_sub_ok h r) as (h1 & E1 & L1 & T1 & V1); [lia|]. rewrite E1. cbn [bind].
    destruct (IH h1 r) as (h' & t' & E' & L' & T' & V'); [lia|lia|exact Fl|]. exists h', t'. split; [exact E'|]. split; [exact L'|]. split.
    + intros _. destruct l as [|u' l]; [cbn [build_list] in E'; injection E' as <- <-; exact T1|apply T'; discriminate].
    + intros x. rewrite V', V1, Vr. cbn [map sumq fold_right]. fold (sumq (map (uterm x) l)). unfold uterm at 2. ring.
Qed.

Lemma filter_le {A} (f : A -> bool) l : length (filter f l) <= length l.
Proof. induction l as [|a l IH]; cbn; [lia|]. destruct (f a); cbn; lia. Qed.

Lemma build_hp_value dbg n J : jinv n (jroot J) -> jroot J <> Nil ->
  exists h, build_hp dbg J hp_none = Ok h /\ length h = S n /\ Forall lowest_terms h /\
    forall x, (peval h x == choose (x + inject_Z (Z.of_nat n)) n - sumq (map (uterm x) (wraps (jroot J))))%Q.
Proof.
  intros Ji NN. unfold build_hp, assert_. cbn [hp_none]. assert (Nn : is_nil (jroot J) = false) by (destruct (jroot J); [congruence|reflexivity]).
  rewrite Nn. cbn [andb negb]. rewrite andb_false_r. rewrite build_tree_list.
  pose proof (wf_nonempty n 0 _ (ji_wf _ _ Ji) NN) as NE.
  assert (O : Forall (okw n) (wraps (jroot J))) by apply Ji.
  destruct (wraps (jroot J)) as [|u l]; [congruence|]. inversion O as [|? ? Ou Ol]; subst.
  assert (FM : Forall (fun u => multi u <= n) (u :: l)).
  { eapply Forall_impl; [|exact O]. intros a (_ & L2 & _). unfold multi. rewrite <- L2. apply filter_le. }
  assert (Sz : size (wlm u) = n) by apply Ou.
  destruct (hp_binomial_ok (hp_new n) (Z.of_nat n) n) as (r & Er & Lr & Tr & Vr & _); [unfold hp_new; rewrite repeat_length; lia|].
  assert (Ln : length (hp_new n) = S n) by apply repeat_length. rewrite Ln in Lr.
  destruct (build_list_ok dbg n (u :: l) r (hp_new n) Lr Ln FM) as (h' & t' & E' & L' & T' & V').
  assert (E : build_list dbg (u :: l) ([], hp_none) = build_list dbg (u :: l) (r, hp_new n)).
  { cbn [build_list]. f_equal. unfold build_one, hp_setDim, assert_, hp_none. cbn [negb]. rewrite andb_false_r. cbn [bind].
    rewrite Sz, Er. cbn [bind]. destruct r; [discriminate|reflexivity]. }
  match goal with |- context [build_list dbg (u :: l) ?s] =>
    replace (build_list dbg (u :: l) s) with (@Ok (hp * hp) (h', t')) by (symmetry; rewrite <- E'; exact E) end. cbn [bind fst]. exists h'. split; [reflexivity|]. split; [exact L'|].
  split; [apply T'; discriminate|]. intros x. rewrite V', Vr. reflexivity.
Qed.

Lemma uterm_binom n u s : okw n u -> total (lv u) <= s ->
  (uterm (inject_Z (Z.of_nat s)) u == inject_Z (Z.of_nat (binom (s - total (lv u) + multi u) (multi u))))%Q.
Proof.
  intros _ Hs. unfold uterm. rewrite <- choose_binom. apply choose_ext. rewrite <- inject_Z_plus.
  assert (Ed : deg (wlm u) = total (lv u)) by (unfold deg, lv; apply MonomProofs.degv_total). rewrite Ed. f_equiv. lia.
Qed.

Lemma build_hp_ok dbg n J F : jinv n (jroot J) -> jroot J <> Nil -> janet_basis n F (lms (wraps (jroot J))) ->
  exists h, build_hp dbg J hp_none = Ok h /\ length h = S n /\ Forall lowest_terms h /\
    forall s, (forall u, In u (wraps (jroot J)) -> total (lv u) <= s) ->
      exists k, hilbert_function n F s k /\ (peval h (inject_Z (Z.of_nat s)) == inject_Z (Z.of_nat k))%Q.
Proof.
  intros Ji NN B. destruct (build_hp_value dbg n J Ji NN) as (h & E & L & T & V). exists h. split; [exact E|]. split; [exact L|].
  split; [exact T|]. intros s Hs. destruct (count_ok n (jroot J) F s Ji B Hs) as (k & Hk & C). exists k. split; [exact Hk|].
  rewrite V. rewrite <- inject_Z_plus, <- Nat2Z.inj_add, choose_binom, C.
  assert (O : Forall (okw n) (wraps (jroot J))) by apply Ji.
  assert (S : (sumq (map (uterm (inject_Z (Z.of_nat s))) (wraps (jroot J))) ==
     inject_Z (Z.of_nat (sumn (map (fun u => binom (s - total (lv u) + multi u) (multi u)) (wraps (jroot J))))))%Q).
  { clear -O Hs. induction (wraps (jroot J)) as [|u l IH]; [reflexivity|]. inversion O; subst. cbn [map sumq sumn fold_right].
    fold (sumq (map (uterm (inject_Z (Z.of_nat s))) l)). rewrite (uterm_binom n) by (auto; apply Hs; left; reflexivity).
    rewrite IH by (auto; intros; apply Hs; right; auto). rewrite <- inject_Z_plus, <- Nat2Z.inj_add. reflexivity. }
  rewrite S. rewrite Nat2Z.inj_add, inject_Z_plus. ring.
Qed.

Lemma hp_index_ok (dbg : bool) (h : hp) (k : nat) : h <> [] ->
  ((Z.of_nat k <= hp_dim h)%Z -> exists b, hp_isZero dbg h k = Ok b) /\
  ((hp_dim h + 1 < Z.of_nat k)%Z -> hp_isZero true h k = AssertFail).
Proof.
  intro N. unfold hp_dim. split; intro H.
  - destruct (hp_isZero_ok dbg h k) as (b & E & _); [lia|]. exists b. exact E.
  - unfold hp_isZero, assert_. rewrite (proj2 (Nat.leb_gt k (length h))) by lia. reflexivity.
Qed.
