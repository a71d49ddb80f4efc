(** The statements of Prop_Hilbert.v. *)
From Coq Require Import ZArith List Bool Arith QArith Qabs Qreduction Lia Lqa Permutation.
From Verif Require Import Outcome MonomModel MonomSpec JanetModel JanetSpec JanetProofs JanetFindProofs CompletionModel CompletionProofs
  MJanetProofs JanetTopProofs GBProofs HilbertModel HilbertSpec HilbertProofs.
Import ListNotations.
Local Open Scope nat_scope.

(** ** a polynomial is determined by its values *)
Definition coef_sum (c : list Q) : Q := fold_right (fun a s => (Qabs a + s)%Q) 0%Q c.
Lemma coef_sum_nonneg c : (0 <= coef_sum c)%Q.
Proof. induction c as [|a c IH]; cbn [coef_sum fold_right]; [lra|]. fold (coef_sum c). pose proof (Qabs_nonneg a). lra. Qed.
Lemma peval_bound c x : (0 <= x)%Q -> (x <= 1)%Q -> (Qabs (peval c x) <= coef_sum c)%Q.
Proof.
  intros H0 H1. induction c as [|a c IH]; cbn [peval coef_sum fold_right]; [cbn; lra|]. fold (coef_sum c).
  pose proof (Qabs_triangle a (x * peval c x)) as T. rewrite Qabs_Qmult, (Qabs_pos x H0) in T.
  pose proof (Qabs_nonneg (peval c x)) as N.
  assert (x * Qabs (peval c x) <= 1 * Qabs (peval c x))%Q by (apply Qmult_le_compat_r; auto). lra.
Qed.
Lemma vanish_coeffs c : (forall x, (0 < x)%Q -> (x <= 1)%Q -> (peval c x == 0)%Q) -> Forall (fun a => (a == 0)%Q) c.
Proof.
  induction c as [|a c IH]; intros V; [constructor|]. cbn [peval] in V.
  set (M := (coef_sum c + 1)%Q). assert (HM : (1 <= M)%Q) by (unfold M; pose proof (coef_sum_nonneg c); lra).
  assert (B : forall x, (0 < x)%Q -> (x <= 1)%Q -> (Qabs a <= x * M)%Q).
  { intros x H0 H1. pose proof (V x H0 H1) as E. assert (Ea : (a == - (x * peval c x))%Q) by lra.
    rewrite Ea, Qabs_opp, Qabs_Qmult, (Qabs_pos x) by lra. rewrite (Qmult_comm x _), (Qmult_comm x M). apply Qmult_le_compat_r; [|lra].
    unfold M. pose proof (peval_bound c x). lra. }
  assert (A0 : (a == 0)%Q).
  { pose proof (Qabs_nonneg a) as N. destruct (Qlt_le_dec 0 (Qabs a)) as [P|P].
    - exfalso. set (x := (Qabs a / (2 * M))%Q).
      assert (M0 : ~ (2 * M == 0)%Q) by lra.
      assert (Ex : (x * M == Qabs a * (1 # 2))%Q) by (unfold x; field; lra).
      assert (X0 : (0 < x)%Q) by (unfold x; apply Qlt_shift_div_l; lra).
      assert (X1 : (x <= 1)%Q) by (unfold x; apply Qle_shift_div_r; [lra|]; pose proof (B 1%Q ltac:(lra) ltac:(lra)); lra).
      pose proof (B x X0 X1). lra.
    - assert (Qabs a == 0)%Q as Z0 by lra. destruct (Qlt_le_dec a 0) as [L|L]; [rewrite Qabs_neg in Z0 by lra; lra|rewrite Qabs_pos in Z0 by lra; lra]. }
  constructor; [exact A0|]. apply IH. intros x H0 H1. pose proof (V x H0 H1) as E. rewrite A0 in E.
  assert (E' : (x * peval c x == x * 0)%Q) by lra. apply Qmult_inj_l in E'; [exact E'|lra].
Qed.

Lemma lowest_eq a b : lowest_terms a -> lowest_terms b -> (a == b)%Q -> a = b.
Proof.
  intros La Lb E. assert (Q : forall q, lowest_terms q -> Qred q = q).
  { intros (x, y) L. unfold lowest_terms in L. cbn [Qnum Qden] in L. unfold Qred.
    pose proof (Z.ggcd_correct_divisors x (Zpos y)) as D. pose proof (Z.ggcd_gcd x (Zpos y)) as G. rewrite L in G.
    destruct (Z.ggcd x (Zpos y)) as (g, (xx, yy)). cbn [fst snd] in *. subst g. destruct D as (D1 & D2).
    rewrite Z.mul_1_l in D1, D2. subst xx yy. reflexivity. }
  rewrite <- (Q a La), <- (Q b Lb). apply Qred_complete, E.
Qed.

Lemma coeffs_determined (c d : list Q) : length c = length d -> Forall lowest_terms c -> Forall lowest_terms d ->
  (forall x, peval c x == peval d x)%Q -> c = d.
Proof.
  intros L Fc Fd E.
  assert (G : Forall (fun a => (a == 0)%Q) (map (fun p => (fst p - snd p)%Q) (combine c d))).
  { apply vanish_coeffs. intros x _ _. specialize (E x). revert d L E Fd. clear Fc.
    assert (K : forall c d : list Q, length c = length d -> (peval (map (fun p => (fst p - snd p)%Q) (combine c d)) x == peval c x - peval d x)%Q).
    { induction c0 as [|a c0 IH]; intros [|b d] L; try discriminate; cbn [combine map peval fst snd]; [ring|]. rewrite IH by (cbn in L; lia). ring. }
    intros d L E _. rewrite K by exact L. rewrite E. ring. }
  clear E. revert d L Fd G. induction c as [|a c IH]; intros [|b d] L Fd G; try discriminate; [reflexivity|].
  inversion Fc; subst. inversion Fd; subst. cbn [combine map fst snd] in G. inversion G as [|? ? G0 G1]; subst. f_equal.
  - apply lowest_eq; auto. lra.
  - apply IH; auto.
Qed.

(** ** C26 *)
Lemma total_mono (a b : list nat) : length a = length b -> divides (length b) a b -> total a <= total b.
Proof.
  revert b; induction a as [|x a IH]; intros [|y b] L D; try discriminate; [cbn; lia|]. cbn [total].
  pose proof (D 0 ltac:(cbn; lia)) as D0. cbn in D0. assert (total a <= total b); [|lia]. apply IH; [cbn in L; lia|].
  intros i Hi. apply (D (S i)). cbn; lia.
Qed.

Lemma c26_inserts dbg n l F : 0 < n -> l <> [] -> Forall (fun m => length (vars m) = n) l -> NoDup (map vars l) ->
  janet_basis n F (map vars l) ->
  exists J h, mj_push_all false jempty l = Ok J /\ build_hp dbg J hp_none = Ok h /\ length h = S n /\ Forall lowest_terms h /\
    forall s, (forall m, In m l -> total (vars m) <= s) ->
      exists k, hilbert_function n F s k /\ (peval h (inject_Z (Z.of_nat s)) == inject_Z (Z.of_nat k))%Q.
Proof.
  intros Hn NE L ND B. destruct (push_all_spec false n (-1)%Z l Hn L ND) as (J & E & T & P & _); [discriminate|].
  assert (PL : Permutation (lms (wraps (jroot J))) (map vars l)) by (rewrite <- map_vars_wlm; apply Permutation_map, P).
  destruct (build_hp_ok dbg n J F) as (h & Eh & Lh & Th & V).
  - apply T.
  - intros Nn. rewrite Nn in P. cbn in P. apply Permutation_nil in P. congruence.
  - destruct B as (B1 & B2). split.
    + intros u I. apply B1. eapply Permutation_in; eauto.
    + intros m Lm I. destruct (B2 m Lm I) as (u & D). exists u. eapply janet_divides_perm; [apply Permutation_sym, PL|exact D].
  - exists J, h. split; [exact E|]. split; [exact Eh|]. split; [exact Lh|]. split; [exact Th|]. intros s Hs. apply V.
    intros u Iu. apply (Hs (wlm u)). eapply Permutation_in; [exact P|]. apply in_map, Iu.
Qed.

Lemma c26_build dbg n p l : 0 < n -> l <> [] ->
  Forall (fun m => length (vars m) = n /\ pos m = p) l -> NoDup (map vars l) ->
  (dbg = true -> forall a b, In a (map vars l) -> In b (map vars l) -> divides n a b -> a = b) ->
  exists J J' h, mj_push_all dbg jempty l = Ok J /\
    (exists N, forall fuel, N <= fuel -> mj_build fuel dbg J = Ok J') /\
    build_hp dbg J' hp_none = Ok h /\ length h = S n /\ Forall lowest_terms h /\
    (forall u, In u (wraps (jroot J')) -> forall B, length B = n -> (forall f, In f l -> divides n (vars f) B) -> total (vars (wlm u)) <= total B) /\
    forall s, (forall u, In u (wraps (jroot J')) -> total (vars (wlm u)) <= s) ->
      exists k, hilbert_function n (map vars l) s k /\ (peval h (inject_Z (Z.of_nat s)) == inject_Z (Z.of_nat k))%Q.
Proof.
  intros Hn NE L ND D. destruct (mj_all dbg n p l Hn L ND D) as (J & J' & E & B & S & JB).
  pose proof (st_t _ _ _ _ _ S) as TI. pose proof (st_c _ _ _ _ _ S) as C.
  destruct (build_hp_ok dbg n J' (map vars l)) as (h & Eh & Lh & Th & V).
  - apply TI.
  - intros Nn. destruct l as [|m l]; [congruence|]. pose proof (ci_in _ _ _ _ C (vars m) (or_introl eq_refl)) as I. rewrite Nn in I. destruct I.
  - exact JB.
  - exists J, J', h. split; [exact E|]. split; [exact B|]. split; [exact Eh|]. split; [exact Lh|]. split; [exact Th|]. split; [|exact V].
    intros u Iu b Lb Hb. apply total_mono; [|rewrite Lb].
    + rewrite Lb. apply (jinv_len n (jroot J')); [apply TI|]. apply (in_map lv), Iu.
    + apply (ci_box _ _ _ _ C); [|apply (in_map lv), Iu]. intros f If. apply in_map_iff in If as (m & <- & Im). auto.
Qed.

Lemma hp_new_ok dim : length (hp_new dim) = S dim /\ hp_dim (hp_new dim) = Z.of_nat dim /\ Forall lowest_terms (hp_new dim) /\ (forall x, (peval (hp_new dim) x == 0)%Q) /\
  forall dbg k, (k <= dim)%nat -> hp_isZero dbg (hp_new dim) k = Ok true.
Proof.
  unfold hp_new. split; [apply repeat_length|]. split; [unfold hp_dim; rewrite repeat_length; lia|].
  split; [apply Forall_forall; intros q Iq; apply repeat_spec in Iq; subst q; reflexivity|].
  split; [intro x; induction (S dim) as [|k IH]; cbn [repeat peval]; [reflexivity|rewrite IH; ring]|].
  intros dbg k Lk. unfold hp_isZero. rewrite repeat_length. assert (X : Nat.leb k (S dim) = true) by (apply Nat.leb_le; lia). rewrite X.
  assert (Y : nth_error (repeat 0%Q (S dim)) k = Some 0%Q).
  { destruct (nth_error (repeat 0%Q (S dim)) k) as [q|] eqn:E; [apply nth_error_In, repeat_spec in E; congruence|]. apply nth_error_None in E. rewrite repeat_length in E. lia. }
  rewrite Y. unfold assert_. cbn [negb]. rewrite andb_false_r. reflexivity.
Qed.
Lemma hp_setDim_ok dbg h dim : hp_setDim dbg h dim = if (dbg && negb (Nat.eqb (length h) 0))%bool then AssertFail else Ok (hp_new dim).
Proof. unfold hp_setDim, assert_. destruct dbg, h; reflexivity. Qed.

Lemma build_hp_used J h : h <> [] -> build_hp true J h = AssertFail /\ (wraps (jroot J) <> [] -> build_hp false J h = Undef).
Proof.
  intro N. destruct h as [|q h]; [congruence|]. split; [reflexivity|]. intro W. unfold build_hp, assert_. cbn [andb]. rewrite build_tree_list.
  destruct (wraps (jroot J)) as [|w l]; [congruence|]. reflexivity.
Qed.
Lemma build_hp_empty h : build_hp true jempty h = AssertFail /\ build_hp false jempty h = Ok h.
Proof. destruct h; split; reflexivity. Qed.
