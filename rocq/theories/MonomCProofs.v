(** The C++ Monom object (cmonom) refines the abstract monomial. *)
From Coq Require Import ZArith List Bool Arith Lia.
From Verif Require Import Outcome MonomModel MonomSpec MonomProofs.
Import ListNotations.
Open Scope Z_scope.
Local Arguments Nat.ltb : simpl never.
Local Arguments Nat.eqb : simpl never.

Definition zsum (l : list Z) : Z := fold_right Z.add 0 l.
Notation nonneg := (Forall (fun x => 0 <= x)).

Lemma zsum_cons x l : zsum (x :: l) = x + zsum l.
Proof. reflexivity. Qed.

Lemma zsum_nonneg l : nonneg l -> 0 <= zsum l.
Proof. induction 1; [cbn; lia|]. rewrite zsum_cons. lia. Qed.

Lemma zsum_degv l : nonneg l -> zsum l = Z.of_nat (degv (map Z.to_nat l)).
Proof.
  induction 1 as [|x l Hx Hl IH]; [reflexivity|].
  cbn [map]. rewrite zsum_cons, degv_cons, IH. lia.
Qed.

Lemma int_ok z : INT_MIN <= z -> z <= INT_MAX -> int_ z = Ok z.
Proof.
  intros H1 H2. unfold int_, in_int.
  destruct (Z.leb_spec INT_MIN z), (Z.leb_spec z INT_MAX); cbn; try lia. reflexivity.
Qed.
Lemma int_pos z : 0 <= z -> z <= INT_MAX -> int_ z = Ok z.
Proof. intros. apply int_ok; unfold INT_MIN; lia. Qed.
Lemma int_over z : INT_MAX < z -> int_ z = Undef.
Proof.
  intros H. unfold int_, in_int. destruct (Z.leb_spec z INT_MAX); [lia|].
  rewrite andb_false_r. reflexivity.
Qed.

Lemma sum_loop_ok acc l : nonneg l -> 0 <= acc -> acc + zsum l <= INT_MAX ->
  sum_loop acc l = Ok (acc + zsum l).
Proof.
  revert acc; induction l as [|x l IH]; intros acc F A S; cbn [sum_loop].
  - f_equal. cbn. lia.
  - inversion F; subst. rewrite zsum_cons in *. pose proof (zsum_nonneg l H2).
    rewrite int_pos by lia. cbn [bind]. rewrite IH by (try assumption; lia). f_equal. lia.
Qed.

Lemma cvalid_facts n c : cvalid n c ->
  csize c = Z.of_nat n /\ length (cvars c) = n /\ nonneg (cvars c) /\ cdegree c = zsum (cvars c) /\
  0 <= cdegree c <= INT_MAX /\ -1 <= cpos c /\ n <> 0%nat.
Proof.
  intros (H1 & H2 & H3 & H4 & H5 & H6 & H7).
  pose proof (zsum_nonneg _ H5). unfold zsum in *. repeat split; auto; lia.
Qed.

Lemma cvalid_mono n c : cvalid n c -> mono n (value c).
Proof. intros H. apply cvalid_facts in H. split; cbn; [rewrite map_length|]; tauto. Qed.

Lemma cvalid_deg n c : cvalid n c -> Z.of_nat (deg (value c)) = cdegree c.
Proof.
  intros H. apply cvalid_facts in H as (_ & _ & F & D & _). rewrite D, zsum_degv by exact F. reflexivity.
Qed.

Lemma assert_valid_ok n dbg c : cvalid n c -> assert_valid dbg c = Ok c.
Proof.
  intros H. destruct dbg; [|reflexivity]. cbn. unfold c_assertValid.
  apply cvalid_facts in H as (S & L & F & D & R & P & N).
  destruct (Z.ltb_spec 0 (csize c)); [|lia]. destruct (Z.leb_spec (-1) (cpos c)); [|lia].
  cbn [andb]. rewrite sum_loop_ok by (try assumption; lia). cbn [bind].
  replace (0 + zsum (cvars c) =? cdegree c) with true by (symmetry; apply Z.eqb_eq; lia). reflexivity.
Qed.

Lemma assert_true {A} dbg c (k : outcome A) : c = true -> assert_ dbg c k = k.
Proof. intros ->. unfold assert_. destruct dbg; reflexivity. Qed.

Lemma nonempty_do_zip f a b : a <> [] -> do_zip f a b = zip_loop f a b.
Proof. destruct a; [congruence|reflexivity]. Qed.

Lemma length_nonempty {A} (l : list A) n : length l = n -> n <> 0%nat -> l <> [].
Proof. destruct l; cbn; congruence || lia. Qed.

(** ** zips *)
Lemma zip_copy a b : length a = length b -> zip_loop (fun _ y => Ok y) a b = Ok b.
Proof.
  revert b; induction a as [|x a IH]; intros [|y b] H; cbn in *; try lia; [reflexivity|].
  rewrite IH by lia. reflexivity.
Qed.

Fixpoint zadd (a b : list Z) : list Z :=
  match a, b with x :: a', y :: b' => (x + y) :: zadd a' b' | _, _ => [] end.
Fixpoint zsub (a b : list Z) : list Z :=
  match a, b with x :: a', y :: b' => (x - y) :: zsub a' b' | _, _ => [] end.

Lemma zip_add a b : length a = length b -> nonneg a -> nonneg b -> zsum a + zsum b <= INT_MAX ->
  zip_loop (fun x y => int_ (x + y)) a b = Ok (zadd a b).
Proof.
  revert b; induction a as [|x a IH]; intros [|y b] L Fa Fb S; cbn [length zip_loop zadd] in *; try lia; [reflexivity|].
  inversion Fa; inversion Fb; subst. rewrite !zsum_cons in S.
  pose proof (zsum_nonneg a). pose proof (zsum_nonneg b).
  rewrite int_pos by intuition lia. cbn [bind]. rewrite IH by (try assumption; intuition lia). reflexivity.
Qed.

Lemma zadd_facts a b : length a = length b -> nonneg a -> nonneg b ->
  length (zadd a b) = length a /\ nonneg (zadd a b) /\ zsum (zadd a b) = zsum a + zsum b /\
  map Z.to_nat (zadd a b) = addv (map Z.to_nat a) (map Z.to_nat b).
Proof.
  revert b; induction a as [|x a IH]; intros [|y b] L Fa Fb; cbn [length zadd map addv] in *; try lia.
  - repeat split; auto.
  - inversion Fa; inversion Fb; subst. destruct (IH b) as (I1 & I2 & I3 & I4); auto.
    rewrite !zsum_cons, I1, I3, I4. repeat split; auto.
    + constructor; [lia|exact I2].
    + lia.
    + f_equal. lia.
Qed.

Definition zmulc (n : Z) (a : list Z) : list Z := map (fun x => x * n) a.
Lemma zip_mulc n a b : length a = length b -> nonneg a -> 0 <= n -> zsum a * n <= INT_MAX ->
  zip_loop (fun x _ => int_ (x * n)) a b = Ok (zmulc n a).
Proof.
  revert b; induction a as [|x a IH]; intros [|y b] L F Hn S; cbn [length zip_loop zmulc map] in *; try lia; [reflexivity|].
  inversion F; subst. rewrite zsum_cons in S. pose proof (zsum_nonneg a H2).
  assert (0 <= x * n) by nia. assert (0 <= zsum a * n) by nia.
  rewrite int_pos by nia. cbn [bind]. rewrite IH by (try assumption; nia). reflexivity.
Qed.
Lemma zmulc_facts n a : nonneg a -> 0 <= n ->
  length (zmulc n a) = length a /\ nonneg (zmulc n a) /\ zsum (zmulc n a) = zsum a * n /\
  map Z.to_nat (zmulc n a) = map (fun x => (x * Z.to_nat n)%nat) (map Z.to_nat a).
Proof.
  intros F Hn. induction F as [|x a Hx Fa IH]; cbn [zmulc map length]; [repeat split; auto|].
  destruct IH as (I1 & I2 & I3 & I4). unfold zmulc in *. rewrite !zsum_cons, I1, I3, I4. repeat split; auto.
  - constructor; [nia|exact I2].
  - lia.
  - f_equal. rewrite Z2Nat.inj_mul by lia. reflexivity.
Qed.

Lemma zip_sub a b : length a = length b -> nonneg a -> nonneg b -> zsum a <= INT_MAX -> zsum b <= INT_MAX ->
  zip_loop (fun x y => int_ (x - y)) a b = Ok (zsub a b).
Proof.
  revert b; induction a as [|x a IH]; intros [|y b] L Fa Fb Sa Sb; cbn [length zip_loop zsub] in *; try lia; [reflexivity|].
  inversion Fa; inversion Fb; subst. rewrite !zsum_cons in *.
  pose proof (zsum_nonneg a). pose proof (zsum_nonneg b).
  rewrite int_ok by (unfold INT_MIN, INT_MAX in *; intuition lia).
  cbn [bind]. rewrite IH by (try assumption; intuition lia). reflexivity.
Qed.

Lemma zsub_facts a b : length a = length b -> nonneg a -> nonneg b ->
  gev (map Z.to_nat a) (map Z.to_nat b) = true ->
  length (zsub a b) = length a /\ nonneg (zsub a b) /\ zsum (zsub a b) = zsum a - zsum b /\
  map Z.to_nat (zsub a b) = subv (map Z.to_nat a) (map Z.to_nat b).
Proof.
  revert b; induction a as [|x a IH]; intros [|y b] L Fa Fb G; cbn [length zsub map subv gev] in *; try lia.
  - repeat split; auto.
  - inversion Fa; inversion Fb; subst. destruct (Nat.leb_spec (Z.to_nat y) (Z.to_nat x)); [|discriminate].
    destruct (IH b) as (I1 & I2 & I3 & I4); auto.
    rewrite !zsum_cons, I1, I3, I4. repeat split; auto.
    + constructor; [lia|exact I2].
    + lia.
    + f_equal. lia.
Qed.

Lemma c_incr_ok v l n : length l = n -> nonneg l -> zsum l + 1 <= INT_MAX -> 0 <= v < Z.of_nat n ->
  exists l', c_incr v l = Ok l' /\ length l' = n /\ nonneg l' /\ zsum l' = zsum l + 1 /\
             map Z.to_nat l' = incr (Z.to_nat v) (map Z.to_nat l).
Proof.
  intros L F S V. unfold c_incr. destruct (Z.ltb_spec v 0); [lia|].
  remember (Z.to_nat v) as k eqn:Hk. assert (Kn : (k < n)%nat) by lia. clear Hk V H v.
  revert n k L F S Kn. induction l as [|x l IH]; intros n k L F S Kn; cbn [length] in L; [lia|].
  inversion F; subst. rewrite zsum_cons in S. pose proof (zsum_nonneg l H2).
  destruct k as [|k]; cbn [c_incr_at].
  - rewrite int_pos by lia. cbn [bind]. eexists. split; [reflexivity|].
    cbn [length map incr]. rewrite !zsum_cons. repeat split; auto; try lia.
    + constructor; [lia|assumption].
    + f_equal. lia.
  - destruct (IH (length l) k) as (l' & E & L' & F' & S' & M'); auto; try lia.
    rewrite E. cbn [bind]. eexists. split; [reflexivity|].
    cbn [length map incr]. rewrite !zsum_cons, L', M'. repeat split; auto; try lia.
Qed.

(** ** Constructors and mutators *)

Notation refines := yields.

Lemma refines_intro n c m dbg : cvalid n c -> value c = m -> refines n (assert_valid dbg c) m.
Proof. intros H E. exists c. rewrite (assert_valid_ok n) by exact H. auto. Qed.

Lemma cvalid_intro n p d l : n <> 0%nat -> length l = n -> -1 <= p -> nonneg l -> d = zsum l -> d <= INT_MAX ->
  cvalid n (CMon (Z.of_nat n) p d l).
Proof. intros. repeat split; cbn; auto. Qed.

Lemma repeat_facts n : length (repeat 0 n) = n /\ nonneg (repeat 0 n) /\ zsum (repeat 0 n) = 0 /\
  map Z.to_nat (repeat 0 n) = repeat 0%nat n.
Proof.
  induction n as [|n (I1 & I2 & I3 & I4)]; cbn [repeat length map]; [repeat split; auto|].
  rewrite zsum_cons, I1, I3, I4. repeat split; auto. constructor; [lia|exact I2].
Qed.

Lemma c_unit_refines dbg n p : n <> 0%nat -> -1 <= p -> refines n (c_unit dbg (Z.of_nat n) p) (unit_monom n p).
Proof.
  intros Hn Hp. unfold c_unit. rewrite !assert_true by (try apply Z.ltb_lt; try apply Z.leb_le; lia).
  destruct (Z.leb_spec (Z.of_nat n) 0); [lia|]. rewrite Nat2Z.id.
  destruct (repeat_facts n) as (R1 & R2 & R3 & R4).
  apply refines_intro; [|unfold value, unit_monom; cbn; congruence].
  apply cvalid_intro; auto. unfold INT_MAX. lia.
Qed.

Lemma c_var_refines dbg v n p : (v < n)%nat -> -1 <= p ->
  refines n (c_var dbg (Z.of_nat v) (Z.of_nat n) p) (var_monom v n p).
Proof.
  intros Hv Hp. unfold c_var.
  rewrite !assert_true by (rewrite ?andb_true_iff; try apply Z.ltb_lt; try apply Z.leb_le;
    try (split; [apply Z.leb_le|apply Z.ltb_lt]); lia).
  destruct (Z.leb_spec (Z.of_nat n) 0); [lia|]. rewrite Nat2Z.id.
  destruct (repeat_facts n) as (R1 & R2 & R3 & R4).
  destruct (c_incr_ok (Z.of_nat v) (repeat 0 n) n) as (l & E & L & F & S & M); auto; try (unfold INT_MAX; lia).
  rewrite E. cbn [bind]. rewrite Nat2Z.id in M.
  apply refines_intro; [|unfold value, var_monom; cbn; congruence].
  apply cvalid_intro; auto; try lia. unfold INT_MAX. lia.
Qed.

Lemma c_copy_refines dbg n a : cvalid n a -> refines n (c_copy dbg a) (value a).
Proof.
  intros V. pose proof (cvalid_facts n a V) as (S & L & F & D & R & P & N). unfold c_copy.
  rewrite nonempty_do_zip by (eapply length_nonempty; eauto). rewrite zip_copy by reflexivity. cbn [bind].
  destruct a as [sz p d l]. cbn in *. apply refines_intro; [exact V|reflexivity].
Qed.

Lemma c_mulvar_refines dbg n v a : cvalid n a -> (v < n)%nat ->
  if cdegree a + 1 <=? INT_MAX then refines n (c_mulvar dbg (Z.of_nat v) a) (mul_var v (value a))
  else c_mulvar dbg (Z.of_nat v) a = Undef.
Proof.
  intros V Hv. pose proof (cvalid_facts n a V) as (S & L & F & D & R & P & N). unfold c_mulvar.
  destruct (Z.leb_spec (cdegree a + 1) INT_MAX) as [I|I].
  - rewrite int_pos by lia. cbn [bind].
    rewrite assert_true by (rewrite andb_true_iff; split; [apply Z.leb_le|apply Z.ltb_lt]; lia).
    rewrite nonempty_do_zip by (eapply length_nonempty; eauto). rewrite zip_copy by reflexivity. cbn [bind].
    destruct (c_incr_ok (Z.of_nat v) (cvars a) n) as (l & E & L' & F' & S' & M); auto; try lia.
    rewrite E. cbn [bind]. rewrite Nat2Z.id in M. rewrite S.
    apply refines_intro; [|unfold value, mul_var; cbn; congruence].
    apply cvalid_intro; auto; lia.
  - rewrite int_over by lia. reflexivity.
Qed.

Lemma c_multv_refines dbg n v m a : cvalid n m -> cvalid n a -> (v < n)%nat ->
  if cdegree a + 1 <=? INT_MAX then refines n (c_multv dbg m (Z.of_nat v) a) (mul_var v (value a))
  else c_multv dbg m (Z.of_nat v) a = Undef.
Proof.
  intros Vm V Hv. pose proof (cvalid_facts n a V) as (S & L & F & D & R & P & N).
  pose proof (cvalid_facts n m Vm) as (Sm & Lm & Fm & Dm & Rm & Pm & Nm). unfold c_multv.
  rewrite !assert_true by (rewrite ?andb_true_iff; try (split; [apply Z.leb_le|apply Z.ltb_lt]; lia); apply Z.eqb_eq; lia).
  destruct (Z.leb_spec (cdegree a + 1) INT_MAX) as [I|I].
  - rewrite int_pos by lia. cbn [bind].
    rewrite nonempty_do_zip by (eapply length_nonempty; eauto). rewrite zip_copy by lia. cbn [bind].
    destruct (c_incr_ok (Z.of_nat v) (cvars a) n) as (l & E & L' & F' & S' & M); auto; try lia.
    rewrite E. cbn [bind]. rewrite Nat2Z.id in M. rewrite Sm.
    apply refines_intro; [|unfold value, mul_var; cbn; congruence].
    apply cvalid_intro; auto; lia.
  - rewrite int_over by lia. reflexivity.
Qed.

Lemma pos_ok_b a b : cpos a = -1 \/ cpos b = -1 -> (cpos a =? -1) || (cpos b =? -1) = true.
Proof. intros [->| ->]; rewrite Z.eqb_refl, ?orb_true_r; reflexivity. Qed.

Lemma mul_pos_valid p q : -1 <= p -> -1 <= q -> -1 <= mul_pos p q.
Proof. intros. unfold mul_pos. destruct (Z.leb_spec 0 q), (Z.eqb_spec p (-1)); lia. Qed.

Lemma c_mul_refines dbg n a b : cvalid n a -> cvalid n b -> cpos a = -1 \/ cpos b = -1 ->
  if cdegree a + cdegree b <=? INT_MAX then refines n (c_mul dbg a b) (mul (value a) (value b))
  else c_mul dbg a b = Undef.
Proof.
  intros Va Vb HP. pose proof (cvalid_facts n a Va) as (Sa & La & Fa & Da & Ra & Pa & Na).
  pose proof (cvalid_facts n b Vb) as (Sb & Lb & Fb & Db & Rb & Pb & Nb). unfold c_mul.
  destruct (Z.leb_spec (cdegree a + cdegree b) INT_MAX) as [I|I].
  - rewrite int_pos by lia. cbn [bind].
    rewrite !assert_true by (try (apply Z.eqb_eq; lia); apply pos_ok_b; exact HP).
    rewrite nonempty_do_zip by (eapply length_nonempty; eauto). rewrite zip_add by (try assumption; lia).
    cbn [bind]. destruct (zadd_facts (cvars a) (cvars b)) as (L & F & S & M); auto; try lia.
    rewrite Sa. apply refines_intro; [|unfold value, mul; cbn; congruence].
    apply cvalid_intro; auto; try lia. apply mul_pos_valid; assumption.
  - rewrite int_over by lia. reflexivity.
Qed.

Lemma c_mult_refines dbg n a b : cvalid n a -> cvalid n b -> cpos a = -1 \/ cpos b = -1 ->
  if cdegree a + cdegree b <=? INT_MAX then refines n (c_mult dbg a b) (mul (value a) (value b))
  else c_mult dbg a b = Undef.
Proof.
  intros Va Vb HP. pose proof (cvalid_facts n a Va) as (Sa & La & Fa & Da & Ra & Pa & Na).
  pose proof (cvalid_facts n b Vb) as (Sb & Lb & Fb & Db & Rb & Pb & Nb). unfold c_mult.
  rewrite !assert_true by (try (apply Z.eqb_eq; lia); apply pos_ok_b; exact HP).
  destruct (Z.leb_spec (cdegree a + cdegree b) INT_MAX) as [I|I].
  - rewrite int_pos by lia. cbn [bind].
    rewrite nonempty_do_zip by (eapply length_nonempty; eauto). rewrite zip_add by (try assumption; lia).
    cbn [bind]. destruct (zadd_facts (cvars a) (cvars b)) as (L & F & S & M); auto; try lia.
    rewrite Sa. rewrite <- (mult_mul n) by (try (apply cvalid_mono; assumption); exact HP).
    apply refines_intro; [|unfold value, mult; cbn; congruence].
    apply cvalid_intro; auto; try lia. unfold mult_pos. destruct (Z.eqb_spec (cpos a) (-1)); lia.
  - rewrite int_over by lia. reflexivity.
Qed.

Lemma c_pow_refines dbg n a k : cvalid n a -> 0 <= k ->
  if cdegree a * k <=? INT_MAX then refines n (c_pow dbg a k) (powm (value a) (Z.to_nat k))
  else c_pow dbg a k = Undef.
Proof.
  intros Va Hk. pose proof (cvalid_facts n a Va) as (Sa & La & Fa & Da & Ra & Pa & Na). unfold c_pow.
  destruct (Z.leb_spec (cdegree a * k) INT_MAX) as [I|I].
  - assert (0 <= cdegree a * k) by nia. rewrite int_pos by lia. cbn [bind].
    rewrite assert_true by (apply Z.leb_le; exact Hk).
    rewrite nonempty_do_zip by (eapply length_nonempty; eauto).
    rewrite zip_mulc by (try assumption; try reflexivity; rewrite <- Da; exact I).
    cbn [bind]. destruct (zmulc_facts k (cvars a)) as (L & F & S & M); auto.
    rewrite Sa. apply refines_intro; [|unfold value, powm; cbn; congruence].
    apply cvalid_intro; auto; try lia.
  - rewrite int_over by lia. reflexivity.
Qed.

(** ** Comparisons and divisibility *)
Lemma scan_ge a b : length a = length b -> nonneg a -> nonneg b ->
  exists r, scan_loop (fun x y => if y <=? x then None else Some 1) a b = Ok r /\
            (r =? 0) = gev (map Z.to_nat a) (map Z.to_nat b).
Proof.
  revert b; induction a as [|x a IH]; intros [|y b] L Fa Fb; cbn [length scan_loop map gev] in *; try lia.
  - exists 0. auto.
  - inversion Fa; inversion Fb; subst.
    destruct (Z.leb_spec y x), (Nat.leb_spec (Z.to_nat y) (Z.to_nat x)); try lia.
    + apply IH; auto.
    + exists 1. auto.
Qed.

Lemma scan_eq a b : length a = length b -> nonneg a -> nonneg b ->
  exists r, scan_loop (fun x y => if x =? y then None else Some 1) a b = Ok r /\
            (r =? 0) = eqv (map Z.to_nat a) (map Z.to_nat b).
Proof.
  revert b; induction a as [|x a IH]; intros [|y b] L Fa Fb; cbn [length scan_loop map eqv] in *; try lia.
  - exists 0. auto.
  - inversion Fa; inversion Fb; subst.
    destruct (Z.eqb_spec x y), (Nat.eqb_spec (Z.to_nat x) (Z.to_nat y)); try lia.
    + apply IH; auto.
    + exists 1. auto.
Qed.

Lemma do_scan_nonempty f a b : a <> [] -> do_scan f a b = scan_loop f a b.
Proof. destruct a; [congruence|reflexivity]. Qed.
Lemma do_scan3_nonempty f m a b : m <> [] -> do_scan3 f m a b = scan3_loop f m a b.
Proof. destruct m; [congruence|reflexivity]. Qed.

Lemma c_divisiable_ok dbg n m a : cvalid n m -> cvalid n a ->
  c_divisiable dbg m a = Ok (divisiable (value m) (value a)).
Proof.
  intros Va Vb. pose proof (cvalid_facts n m Va) as (Sa & La & Fa & Da & Ra & Pa & Na).
  pose proof (cvalid_facts n a Vb) as (Sb & Lb & Fb & Db & Rb & Pb & Nb).
  unfold c_divisiable, divisiable. rewrite assert_true by (apply Z.eqb_eq; lia). cbn [pos value vars].
  destruct ((cpos a =? -1) || (cpos m =? cpos a)); [|reflexivity].
  rewrite do_scan_nonempty by (eapply length_nonempty; eauto).
  destruct (scan_ge (cvars m) (cvars a)) as (r & E & G); auto; try lia.
  rewrite E. cbn [bind andb]. rewrite G. reflexivity.
Qed.

Lemma c_eq_ok dbg n m a : cvalid n m -> cvalid n a -> c_eq dbg m a = Ok (eqm (value m) (value a)).
Proof.
  intros Va Vb. pose proof (cvalid_facts n m Va) as (Sa & La & Fa & Da & Ra & Pa & Na).
  pose proof (cvalid_facts n a Vb) as (Sb & Lb & Fb & Db & Rb & Pb & Nb).
  pose proof (cvalid_deg n m Va). pose proof (cvalid_deg n a Vb).
  unfold c_eq, eqm. rewrite assert_true by (apply Z.eqb_eq; lia). cbn [value vars].
  fold (value m) (value a).
  destruct (Z.eqb_spec (cdegree m) (cdegree a)), (Nat.eqb_spec (deg (value m)) (deg (value a))); try lia.
  - rewrite do_scan_nonempty by (eapply length_nonempty; eauto).
    destruct (scan_eq (cvars m) (cvars a)) as (r & E & G); auto; try lia.
    rewrite E. cbn [bind andb]. rewrite G. reflexivity.
  - reflexivity.
Qed.

Lemma scan_cmp a b : length a = length b -> nonneg a -> nonneg b ->
  scan_loop cmp_step a b = Ok (lexv (map Z.to_nat a) (map Z.to_nat b)).
Proof.
  revert b; induction a as [|x a IH]; intros [|y b] L Fa Fb; cbn [length scan_loop map lexv] in *; try lia; [reflexivity|].
  inversion Fa; inversion Fb; subst. unfold cmp_step at 1.
  destruct (Z.eqb_spec x y), (Nat.eqb_spec (Z.to_nat x) (Z.to_nat y)); try lia.
  - apply IH; auto.
  - destruct (Z.ltb_spec y x), (Nat.ltb_spec (Z.to_nat y) (Z.to_nat x)); try lia; reflexivity.
Qed.

Lemma scan_cmp_neg a b : length a = length b -> nonneg a -> nonneg b ->
  scan_loop (fun x y => cmp_step y x) a b = Ok (- lexv (map Z.to_nat a) (map Z.to_nat b)).
Proof.
  revert b; induction a as [|x a IH]; intros [|y b] L Fa Fb; cbn [length scan_loop map lexv] in *; try lia; [reflexivity|].
  inversion Fa; inversion Fb; subst. unfold cmp_step at 1.
  destruct (Z.eqb_spec y x), (Nat.eqb_spec (Z.to_nat x) (Z.to_nat y)); try lia.
  - apply IH; auto.
  - destruct (Z.ltb_spec x y), (Nat.ltb_spec (Z.to_nat y) (Z.to_nat x)); try lia; reflexivity.
Qed.

Lemma rev_nonempty {A} (l : list A) : l <> [] -> rev l <> [].
Proof. destruct l; [congruence|]. cbn. intros _ H. apply (f_equal (@length A)) in H. rewrite app_length in H. cbn in H. lia. Qed.


Lemma c_bcmp_ok dbg o n m a : cvalid n m -> cvalid n a ->
  c_bcmp dbg o m a = Ok (bcmp o (value m) (value a)).
Proof.
  intros Va Vb. pose proof (cvalid_facts n m Va) as (Sa & La & Fa & Da & Ra & Pa & Na).
  pose proof (cvalid_facts n a Vb) as (Sb & Lb & Fb & Db & Rb & Pb & Nb).
  pose proof (cvalid_deg n m Va) as Dm'. pose proof (cvalid_deg n a Vb) as Da'.
  assert (NE : cvars m <> []) by (eapply length_nonempty; eauto).
  assert (SZ : (csize m =? csize a) = true) by (apply Z.eqb_eq; lia).
  destruct o; cbn [c_bcmp bcmp].
  - unfold c_lex, lex. rewrite assert_true by exact SZ. rewrite do_scan_nonempty by exact NE.
    cbn [value vars]. apply scan_cmp; auto; lia.
  - unfold c_deglex, deglex, deglexv. rewrite assert_true by exact SZ. cbn [value vars].
    fold (value m) (value a). change (degv (map Z.to_nat (cvars m))) with (deg (value m)).
    change (degv (map Z.to_nat (cvars a))) with (deg (value a)).
    destruct (Z.ltb_spec (cdegree a) (cdegree m)), (Nat.ltb_spec (deg (value a)) (deg (value m))); try lia; [reflexivity|].
    destruct (Z.ltb_spec (cdegree m) (cdegree a)), (Nat.ltb_spec (deg (value m)) (deg (value a))); try lia; [reflexivity|].
    destruct (Z.eqb_spec (cdegree m) 0), (Nat.eqb_spec (deg (value m)) 0); try lia; [reflexivity|].
    rewrite do_scan_nonempty by (apply rev_nonempty; exact NE). rewrite <- !map_rev.
    apply scan_cmp_neg; [rewrite !rev_length; lia|apply Forall_rev; assumption|apply Forall_rev; assumption].
  - unfold c_alex, alex, alexv. rewrite assert_true by exact SZ. cbn [value vars].
    fold (value m) (value a). change (degv (map Z.to_nat (cvars m))) with (deg (value m)).
    change (degv (map Z.to_nat (cvars a))) with (deg (value a)).
    destruct (Z.ltb_spec (cdegree a) (cdegree m)), (Nat.ltb_spec (deg (value a)) (deg (value m))); try lia; [reflexivity|].
    destruct (Z.ltb_spec (cdegree m) (cdegree a)), (Nat.ltb_spec (deg (value m)) (deg (value a))); try lia; [reflexivity|].
    destruct (Z.eqb_spec (cdegree m) 0), (Nat.eqb_spec (deg (value m)) 0); try lia; [reflexivity|].
    rewrite do_scan_nonempty by exact NE. apply scan_cmp; auto; lia.
Qed.

Lemma scan3_cmp m a b : length m = length a -> length m = length b -> nonneg m -> nonneg a -> nonneg b ->
  zsum a + zsum b <= INT_MAX ->
  scan3_loop cmp_step m a b = Ok (lex3v (map Z.to_nat m) (map Z.to_nat a) (map Z.to_nat b)).
Proof.
  revert a b; induction m as [|x m IH]; intros [|y a] [|z b] L1 L2 Fm Fa Fb S;
    cbn [length scan3_loop map lex3v] in *; try lia; [reflexivity|].
  inversion Fm; inversion Fa; inversion Fb; subst. rewrite !zsum_cons in S.
  pose proof (zsum_nonneg a). pose proof (zsum_nonneg b).
  rewrite int_pos by intuition lia. cbn [bind]. unfold cmp_step at 1.
  destruct (Z.eqb_spec x (y + z)), (Nat.eqb_spec (Z.to_nat x) (Z.to_nat y + Z.to_nat z)); try lia.
  - apply IH; auto; intuition lia.
  - destruct (Z.ltb_spec (y + z) x), (Nat.ltb_spec (Z.to_nat y + Z.to_nat z) (Z.to_nat x)); try lia; reflexivity.
Qed.
Lemma scan3_cmp_neg m a b : length m = length a -> length m = length b -> nonneg m -> nonneg a -> nonneg b ->
  zsum a + zsum b <= INT_MAX ->
  scan3_loop (fun x y => cmp_step y x) m a b = Ok (- lex3v (map Z.to_nat m) (map Z.to_nat a) (map Z.to_nat b)).
Proof.
  revert a b; induction m as [|x m IH]; intros [|y a] [|z b] L1 L2 Fm Fa Fb S;
    cbn [length scan3_loop map lex3v] in *; try lia; [reflexivity|].
  inversion Fm; inversion Fa; inversion Fb; subst. rewrite !zsum_cons in S.
  pose proof (zsum_nonneg a). pose proof (zsum_nonneg b).
  rewrite int_pos by intuition lia. cbn [bind]. unfold cmp_step at 1.
  destruct (Z.eqb_spec (y + z) x), (Nat.eqb_spec (Z.to_nat x) (Z.to_nat y + Z.to_nat z)); try lia.
  - apply IH; auto; intuition lia.
  - destruct (Z.ltb_spec x (y + z)), (Nat.ltb_spec (Z.to_nat y + Z.to_nat z) (Z.to_nat x)); try lia; reflexivity.
Qed.

Lemma zsum_rev l : zsum (rev l) = zsum l.
Proof.
  assert (A : forall u v, zsum (u ++ v) = zsum u + zsum v).
  { induction u as [|x u IH]; intros v; cbn [app]; [reflexivity|]. rewrite !zsum_cons, IH. lia. }
  induction l as [|x l IH]; [reflexivity|]. cbn [rev]. rewrite A, IH, !zsum_cons. cbn. lia.
Qed.

Lemma c_bcmp3_ok dbg o n m a b : cvalid n m -> cvalid n a -> cvalid n b -> cpos a = -1 \/ cpos b = -1 ->
  cdegree a + cdegree b <= INT_MAX ->
  c_bcmp3 dbg o m a b = Ok (bcmp3 o (value m) (value a) (value b)).
Proof.
  intros Vm Va Vb HP Fit.
  pose proof (cvalid_facts n m Vm) as (Sm & Lm & Fm & Dm & Rm & Pm & Nm).
  pose proof (cvalid_facts n a Va) as (Sa & La & Fa & Da & Ra & Pa & Na).
  pose proof (cvalid_facts n b Vb) as (Sb & Lb & Fb & Db & Rb & Pb & Nb).
  pose proof (cvalid_deg n m Vm) as Dm'. pose proof (cvalid_deg n a Va) as Da'. pose proof (cvalid_deg n b Vb) as Db'.
  assert (NE : cvars m <> []) by (eapply length_nonempty; eauto).
  assert (SZ : (csize m =? csize a) && (csize m =? csize b) = true)
    by (apply andb_true_iff; split; apply Z.eqb_eq; lia).
  destruct o; cbn [c_bcmp3 bcmp3].
  - unfold c_lex3, lex3. rewrite assert_true by exact SZ. rewrite assert_true by (apply pos_ok_b; exact HP).
    rewrite do_scan3_nonempty by exact NE. apply scan3_cmp; auto; try lia.
  - unfold c_deglex3, deglex3. rewrite assert_true by exact SZ. rewrite assert_true by (apply pos_ok_b; exact HP).
    rewrite int_pos by lia. cbn [bind].
    destruct (Z.ltb_spec (cdegree a + cdegree b) (cdegree m)), (Nat.ltb_spec (deg (value a) + deg (value b)) (deg (value m))); try lia; [reflexivity|].
    destruct (Z.ltb_spec (cdegree m) (cdegree a + cdegree b)), (Nat.ltb_spec (deg (value m)) (deg (value a) + deg (value b))); try lia; [reflexivity|].
    destruct (Z.eqb_spec (cdegree m) 0), (Nat.eqb_spec (deg (value m)) 0); try lia; [reflexivity|].
    rewrite do_scan3_nonempty by (apply rev_nonempty; exact NE). cbn [value vars]. rewrite <- !map_rev.
    apply scan3_cmp_neg; rewrite ?rev_length, ?zsum_rev; try apply Forall_rev; auto; lia.
  - unfold c_alex3, alex3. rewrite assert_true by exact SZ. rewrite assert_true by (apply pos_ok_b; exact HP).
    rewrite int_pos by lia. cbn [bind].
    destruct (Z.ltb_spec (cdegree a + cdegree b) (cdegree m)), (Nat.ltb_spec (deg (value a) + deg (value b)) (deg (value m))); try lia; [reflexivity|].
    destruct (Z.ltb_spec (cdegree m) (cdegree a + cdegree b)), (Nat.ltb_spec (deg (value m)) (deg (value a) + deg (value b))); try lia; [reflexivity|].
    destruct (Z.eqb_spec (cdegree m) 0), (Nat.eqb_spec (deg (value m)) 0); try lia; [reflexivity|].
    rewrite do_scan3_nonempty by exact NE. apply scan3_cmp; auto; try lia.
Qed.

Lemma c_div_refines dbg n m a : cvalid n m -> cvalid n a -> divisiable (value m) (value a) = true ->
  refines n (c_div dbg m a) (div (value m) (value a)).
Proof.
  intros Vm Va Hd. pose proof (cvalid_facts n m Vm) as (Sm & Lm & Fm & Dm & Rm & Pm & Nm).
  pose proof (cvalid_facts n a Va) as (Sa & La & Fa & Da & Ra & Pa & Na). unfold c_div.
  assert (E1 : (if dbg then c_divisiable dbg m a else Ok true) = Ok true).
  { destruct dbg; [|reflexivity]. rewrite (c_divisiable_ok _ n) by assumption. rewrite Hd. reflexivity. }
  rewrite E1. cbn [bind]. rewrite assert_true by reflexivity.
  assert (G : gev (map Z.to_nat (cvars m)) (map Z.to_nat (cvars a)) = true).
  { unfold divisiable in Hd. apply andb_true_iff in Hd. exact (proj2 Hd). }
  destruct (zsub_facts (cvars m) (cvars a)) as (L & F & S & M); auto; try lia.
  pose proof (zsum_nonneg _ F).
  rewrite int_pos by lia. cbn [bind].
  rewrite nonempty_do_zip by (eapply length_nonempty; eauto). rewrite zip_sub by (try assumption; lia).
  cbn [bind]. rewrite Sm. apply refines_intro; [|unfold value, div; cbn; congruence].
  apply cvalid_intro; auto; lia.
Qed.

Lemma c_div_assert n m a : cvalid n m -> cvalid n a -> divisiable (value m) (value a) = false ->
  c_div true m a = AssertFail.
Proof.
  intros Vm Va H. unfold c_div. rewrite (c_divisiable_ok _ n) by assumption. rewrite H. reflexivity.
Qed.

Lemma fold_min a b acc : length a = length b -> nonneg a -> nonneg b -> 0 <= acc ->
  acc + zsum a <= INT_MAX ->
  fold_loop (fun x y => if x <=? y then x else y) acc a b
  = Ok (acc + Z.of_nat (degv (minv (map Z.to_nat a) (map Z.to_nat b)))).
Proof.
  revert b acc; induction a as [|x a IH]; intros [|y b] acc L Fa Fb A S; cbn [length fold_loop map minv] in *; try lia.
  - f_equal. cbn. lia.
  - inversion Fa; inversion Fb; subst. rewrite zsum_cons in S. pose proof (zsum_nonneg a H2).
    rewrite degv_cons.
    assert (E : (if x <=? y then x else y) = Z.of_nat (Nat.min (Z.to_nat x) (Z.to_nat y)))
      by (destruct (Z.leb_spec x y); lia). rewrite E.
    rewrite int_pos by lia. cbn [bind]. rewrite IH by (auto; lia). f_equal. lia.
Qed.

Lemma fold_max a b acc : length a = length b -> nonneg a -> nonneg b -> 0 <= acc ->
  fold_loop (fun x y => if y <=? x then x else y) acc a b
  = let r := acc + Z.of_nat (degv (maxv (map Z.to_nat a) (map Z.to_nat b))) in
    if r <=? INT_MAX then Ok r else match a with [] => Ok r | _ => Undef end.
Proof.
  cbn zeta.
  revert b acc; induction a as [|x a IH]; intros [|y b] acc L Fa Fb A; cbn [length fold_loop map maxv] in *; try lia.
  - cbn [degv fold_right]. change (Z.of_nat 0) with 0. rewrite Z.add_0_r. destruct (acc <=? INT_MAX); reflexivity.
  - inversion Fa; inversion Fb; subst.
    rewrite degv_cons.
    assert (E : (if y <=? x then x else y) = Z.of_nat (Nat.max (Z.to_nat x) (Z.to_nat y)))
      by (destruct (Z.leb_spec y x); lia). rewrite E.
    set (mx := Z.of_nat (Nat.max (Z.to_nat x) (Z.to_nat y))).
    destruct (Z.leb_spec (acc + mx) INT_MAX) as [I|I].
    + rewrite int_pos by lia. cbn [bind]. rewrite IH by (auto; lia).
      replace (acc + mx + Z.of_nat (degv (maxv (map Z.to_nat a) (map Z.to_nat b))))
        with (acc + Z.of_nat (Nat.max (Z.to_nat x) (Z.to_nat y) + degv (maxv (map Z.to_nat a) (map Z.to_nat b)))) by lia.
      destruct (Z.leb_spec (acc + Z.of_nat (Nat.max (Z.to_nat x) (Z.to_nat y) + degv (maxv (map Z.to_nat a) (map Z.to_nat b)))) INT_MAX); [reflexivity|].
      destruct a; [|reflexivity]. destruct b; [|cbn in L; lia]. cbn in H. exfalso. unfold mx in I. lia.
    + rewrite int_over by lia. cbn [bind].
      destruct (Z.leb_spec (acc + Z.of_nat (Nat.max (Z.to_nat x) (Z.to_nat y) + degv (maxv (map Z.to_nat a) (map Z.to_nat b)))) INT_MAX); [lia|reflexivity].
Qed.

Lemma c_gcd_ok dbg n m a : cvalid n m -> cvalid n a -> cpos m = -1 \/ cpos a = -1 ->
  c_gcd dbg m a = Ok (Z.of_nat (gcd_deg (value m) (value a))).
Proof.
  intros Vm Va HP. pose proof (cvalid_facts n m Vm) as (Sm & Lm & Fm & Dm & Rm & Pm & Nm).
  pose proof (cvalid_facts n a Va) as (Sa & La & Fa & Da & Ra & Pa & Na). unfold c_gcd.
  rewrite !assert_true by (try (apply Z.eqb_eq; lia); apply pos_ok_b; exact HP).
  rewrite fold_min by (auto; lia). reflexivity.
Qed.

Lemma c_lcm_ok dbg n m a : cvalid n m -> cvalid n a -> cpos m = -1 \/ cpos a = -1 ->
  c_lcm dbg m a = (if Z.of_nat (lcm_deg (value m) (value a)) <=? INT_MAX
                   then Ok (Z.of_nat (lcm_deg (value m) (value a))) else Undef).
Proof.
  intros Vm Va HP. pose proof (cvalid_facts n m Vm) as (Sm & Lm & Fm & Dm & Rm & Pm & Nm).
  pose proof (cvalid_facts n a Va) as (Sa & La & Fa & Da & Ra & Pa & Na). unfold c_lcm.
  rewrite !assert_true by (try (apply Z.eqb_eq; lia); apply pos_ok_b; exact HP).
  rewrite fold_max by (auto; lia). cbn zeta. rewrite Z.add_0_l.
  change (degv (maxv (map Z.to_nat (cvars m)) (map Z.to_nat (cvars a)))) with (lcm_deg (value m) (value a)).
  destruct (Z.of_nat (lcm_deg (value m) (value a)) <=? INT_MAX); [reflexivity|].
  destruct (cvars m); [cbn in Lm; lia|reflexivity].
Qed.

(** In a debug build the product constructor succeeds exactly on matching operands that fit. *)
Lemma c_mul_debug_iff na nb a b : cvalid na a -> cvalid nb b ->
  ((exists c, c_mul true a b = Ok c) <->
   na = nb /\ (cpos a = -1 \/ cpos b = -1) /\ cdegree a + cdegree b <= INT_MAX).
Proof.
  intros Va Vb. pose proof (cvalid_facts na a Va) as (Sa & La & Fa & Da & Ra & Pa & Na).
  pose proof (cvalid_facts nb b Vb) as (Sb & Lb & Fb & Db & Rb & Pb & Nb). split.
  - intros (c & H). unfold c_mul in H.
    destruct (Z.leb_spec (cdegree a + cdegree b) INT_MAX) as [I|I]; [|rewrite int_over in H by lia; discriminate].
    rewrite int_pos in H by lia. cbn [bind] in H. unfold assert_ in H. cbn [andb] in H.
    destruct (Z.eqb_spec (csize a) (csize b)) as [E|E]; cbn [negb] in H; [|discriminate].
    destruct (Z.eqb_spec (cpos a) (-1)); [split; [lia|]; auto|].
    destruct (Z.eqb_spec (cpos b) (-1)); [split; [lia|]; auto|]. discriminate.
  - intros (<- & HP & I). pose proof (c_mul_refines true na a b Va Vb HP) as H.
    destruct (Z.leb_spec (cdegree a + cdegree b) INT_MAX); [|lia].
    destruct H as (c & E & _). eauto.
Qed.

(** rand_next: any in-range draws *)
Lemma rand_loop_ok n draws l : length l = n -> nonneg l -> zsum l + Z.of_nat (length draws) <= INT_MAX ->
  Forall (fun v => 0 <= v < Z.of_nat n) draws ->
  exists l', rand_loop l draws = Ok l' /\ length l' = n /\ nonneg l' /\ zsum l' = zsum l + Z.of_nat (length draws).
Proof.
  revert l; induction draws as [|v ds IH]; intros l L F S D; cbn [rand_loop length] in *.
  - exists l. repeat split; auto. lia.
  - inversion D; subst. destruct (c_incr_ok v l (length l)) as (l1 & E & L1 & F1 & S1 & _); auto; try lia.
    rewrite E. cbn [bind]. destruct (IH l1) as (l' & E' & L' & F' & S'); auto; try lia.
    exists l'. repeat split; auto. lia.
Qed.

Lemma c_rand_next_ok dbg n a d draws : cvalid n a -> Z.of_nat (length draws) = d -> 0 < d <= INT_MAX ->
  Forall (fun v => 0 <= v < Z.of_nat n) draws ->
  exists c, c_rand_next dbg a d draws = Ok c /\ cvalid n c /\ cdegree c = d /\ cpos c = cpos a.
Proof.
  intros Va Hd R D. pose proof (cvalid_facts n a Va) as (Sa & La & Fa & Da & Ra & Pa & Na).
  unfold c_rand_next. rewrite nonempty_do_zip by (eapply length_nonempty; eauto).
  assert (Z0 : forall u v : list Z, length u = length v ->
      zip_loop (fun _ _ => Ok 0) u v = Ok (repeat 0 (length u))).
  { induction u as [|x u IH]; intros [|y v] H; cbn in *; try lia; [reflexivity|]. rewrite IH by lia. reflexivity. }
  rewrite Z0 by reflexivity. cbn [bind]. rewrite La.
  destruct (repeat_facts n) as (R1 & R2 & R3 & R4).
  destruct (rand_loop_ok n draws (repeat 0 n)) as (l & E & L & F & S); auto; try lia.
  rewrite E. cbn [bind].
  assert (V : cvalid n (CMon (csize a) (cpos a) d l)) by (rewrite Sa; apply cvalid_intro; auto; lia).
  exists (CMon (csize a) (cpos a) d l). rewrite (assert_valid_ok n) by exact V. auto.
Qed.

Lemma c_get_ok dbg n m i : cvalid n m -> (i < n)%nat -> c_get dbg m (Z.of_nat i) = Ok (Z.of_nat (nth i (vars (value m)) 0%nat)).
Proof.
  intros (S & N & L & _ & F & _) Hi. unfold c_get, assert_.
  destruct (Z.leb_spec 0 (Z.of_nat i)); [|lia]. destruct (Z.ltb_spec (Z.of_nat i) (csize m)); [|lia]. rewrite andb_comm. cbn [andb negb].
  destruct (Z.ltb_spec (Z.of_nat i) 0); [lia|]. rewrite Nat2Z.id. destruct (nth_error (cvars m) i) as [x|] eqn:E.
  - f_equal. cbn [value vars]. rewrite (nth_error_nth (map Z.to_nat (cvars m)) i 0%nat (x := Z.to_nat x)) by (rewrite nth_error_map, E; reflexivity).
    apply nth_error_In in E. rewrite Forall_forall in F. specialize (F x E). lia.
  - apply nth_error_None in E. lia.
Qed.
