(** The statements of properties C55-C58, from PyMonomProofs, PyPolyProofs and PyRedProofs. *)
From Coq Require Import ZArith List Bool Arith Lia Sorted Znumtheory.
From Verif Require Import Outcome MonomModel MonomSpec MonomProofs PolyModel PolySpec PolyProofs PolyRedProofs PolyNfProofs
  PyMonomModel PyMonomSpec PyMonomProofs PyPolyModel PyPolySpec PyPolyProofs PyRedProofs.
Import ListNotations.
Local Open Scope Z_scope.

(* ---------------------------------------------------------------- C55 *)

Lemma py_above o n a b : mono n a -> mono n b ->
  (py_gt o a b = true <-> py_greater o a b) /\ (py_lt o a b = true <-> py_greater o b a) /\
  (py_ge o a b = true <-> ~ py_greater o b a) /\ (py_le o a b = true <-> ~ py_greater o a b) /\ (py_eq o a b = true <-> a = b).
Proof.
  intros A B. destruct (py_total o n) as (R & E & S & T).
  rewrite <- (py_meaning o n a b A B), <- (py_meaning o n b a B A), <- (E a b A B). rewrite (S a b A B).
  unfold py_gt, py_lt, py_ge, py_le, py_eq. rewrite !Z.ltb_lt, !Z.leb_le, Z.eqb_eq.
  destruct (R a b A B) as [H|[H|H]]; rewrite H; repeat split; intro X; lia.
Qed.

Lemma py_mul_monotone o n a b c a' b' : mono n a -> mono n b -> mono n c ->
  py_mul a c = Ok a' -> py_mul b c = Ok b' -> py_greater o a b -> py_greater o a' b'.
Proof.
  intros A B C Ha Hb G. apply (py_meaning o n); [apply (py_mul_mul n) in Ha; tauto|apply (py_mul_mul n) in Hb; tauto|].
  rewrite (py_cmp_mul o n a b c a' b') by assumption. apply (py_meaning o n); assumption.
Qed.

Lemma py_unit_least o n a : mono n a -> a <> py_unit n -> py_greater o a (py_unit n).
Proof.
  intros A N. apply (py_meaning o n); [exact A|split; [apply repeat_length|cbn; lia]|]. apply py_unit_min; assumption.
Qed.

Lemma py_no_descent o n k (f : nat -> monom) : ~ (forall i, pmono n k (f i) /\ py_greater o (f i) (f (S i))).
Proof.
  intro H. apply (py_no_chain o n k f). intro i. split; [apply H|]. apply (py_meaning o n); try apply H.
Qed.
Lemma py_descent o : exists f : nat -> monom, forall i, mono 0 (f i) /\ py_greater o (f i) (f (S i)).
Proof.
  destruct (py_chain o) as (f & H). exists f. intro i. split; [apply H|]. apply (py_meaning o 0); apply H.
Qed.

(* ---------------------------------------------------------------- C56 *)

Lemma py_product n a b : mono n a -> mono n b ->
  py_mul a b = (if (pos a =? -1) || (pos b =? -1) then Ok (mprod a b) else AssertFail).
Proof.
  intros [La Pa] [Lb Pb]. unfold py_mul, assert_, mprod. cbn [andb]. rewrite py_zip_add, vsum_addv.
  destruct (Z.eqb_spec (pos a) (-1)), (Z.eqb_spec (pos b) (-1)); cbn [orb negb]; [..|reflexivity]; do 2 f_equal; lia.
Qed.

Lemma py_divisible_iff n m a : mono n m -> mono n a -> (py_divisible m a = true <-> mdivides a m).
Proof.
  intros [Lm Pm] [La Pa]. unfold py_divisible, mdivides.
  assert (F : forall u v, length u = length v ->
    (forallb (fun p => negb (Nat.ltb (fst p) (snd p))) (combine u v) = true <-> forall i, (expo v i <= expo u i)%nat)).
  { induction u as [|x u IH]; intros [|y v] L; try discriminate; [split; intros; [lia|reflexivity]|].
    cbn [combine forallb fst snd]. rewrite andb_true_iff, IH by (now injection L). split.
    - intros [H1 H2] [|i]; [|apply H2]. unfold expo. cbn [nth]. destruct (Nat.ltb_spec x y); [discriminate|assumption].
    - intro H. split; [|intro i; apply (H (S i))]. specialize (H 0%nat). unfold expo in H. cbn [nth] in H. destruct (Nat.ltb_spec x y); [lia|reflexivity]. }
  destruct (Z.eqb_spec (pos m) (pos a)) as [E|E]; cbn [negb andb].
  - rewrite F by congruence. split; [intro H; split; [right; congruence|split; [congruence|exact H]]|intros (_ & _ & H); exact H].
  - destruct (Z.eqb_spec (pos a) (-1)) as [E'|E']; cbn [negb andb].
    + rewrite F by congruence. split; [intro H; split; [now left|split; [congruence|exact H]]|intros (_ & _ & H); exact H].
    + split; [discriminate|]. intros ([H|H] & _); congruence.
Qed.

Lemma py_quotient n m a : mono n m -> mono n a ->
  (mdivides a m -> exists q, py_div m a = Ok q /\ mono n q) /\ (~ mdivides a m -> py_div m a = AssertFail) /\
  (forall q, mono n q -> (py_div m a = Ok q <-> (pos q = -1 \/ pos a = -1) /\ mprod q a = m)).
Proof.
  intros M A.
  assert (X : forall q, mono n q -> (py_mul q a = Ok m <-> (pos q = -1 \/ pos a = -1) /\ mprod q a = m)).
  { intros q Q. rewrite (py_product n q a Q A). destruct (Z.eqb_spec (pos q) (-1)), (Z.eqb_spec (pos a) (-1)); cbn [orb].
    1-3: split; [intro H; split; [tauto|congruence]|intros [_ H]; congruence]. split; [discriminate|]. intros [[|] _]; congruence. }
  split; [|split].
  - intro D. apply (py_divisible_iff n) in D; [|assumption..]. assert (E := py_div_ok n m a M A). rewrite D in E. eexists. split; [exact E|].
    apply (py_div_mul n m a _ M A E).
  - intro D. rewrite (py_div_ok n) by assumption. destruct (py_divisible m a) eqn:E; [|reflexivity].
    apply (py_divisible_iff n) in E; [contradiction|assumption..].
  - intros q Q. rewrite <- X by exact Q. split; intro H; [apply (py_div_mul n m a q M A H)|apply (py_mul_div n q a m Q A H)].
Qed.

Lemma py_true_divisor n m a : mono n m -> mono n a ->
  (py_divisible_true m a = true <-> mdivides a m /\ vars a <> vars m).
Proof.
  intros M A. assert (D := py_divisible_iff n m a M A).
  unfold py_divisible_true. rewrite andb_true_iff, D, Nat.ltb_lt. unfold py_degree. fold (degv (vars m)) (degv (vars a)).
  split; intros [H1 H2]; (split; [exact H1|]).
  - intro E. rewrite E in H2. lia.
  - destruct H1 as (_ & L & H1). clear D M A. revert L H1 H2. generalize (vars a) (vars m). unfold degv.
    induction l as [|x l IH]; intros [|y r] L H N; try discriminate; [congruence|]. cbn [fold_right].
    assert (X := H 0%nat). unfold expo in X. cbn [nth] in X.
    destruct (list_eq_dec Nat.eq_dec l r) as [->|E]; [assert (x <> y) by congruence; lia|].
    specialize (IH r ltac:(now injection L) (fun i => H (S i)) E). lia.
Qed.

Lemma py_prolongation n m v : mono n m ->
  ((v < n)%nat -> py_prolong m v = Ok (mprod m (Mon (-1) (incr v (repeat 0%nat n))))) /\ ((n <= v)%nat -> py_prolong m v = AssertFail).
Proof.
  intro M. split; intro V.
  - rewrite (py_prolong_ok n) by assumption. rewrite (mul_var_mul n) by assumption. f_equal. unfold mul, mprod, var_monom. cbn [pos vars].
    rewrite vsum_addv. reflexivity.
  - unfold py_prolong, assert_. destruct M as [L _]. destruct (Nat.ltb_spec v (length (vars m))); [lia|reflexivity].
Qed.

Lemma py_power_monom n m j : mono n m ->
  py_pow m (Z.of_nat j) = (if pos m =? -1 then Ok (Mon (-1) (map (fun x => (x * j)%nat) (vars m))) else AssertFail).
Proof.
  intros [L P]. unfold py_pow, assert_. destruct (pos m =? -1); cbn [andb negb]; [|reflexivity].
  destruct (Z.leb_spec 0 (Z.of_nat j)); [|lia]. cbn [negb]. now rewrite Nat2Z.id.
Qed.

Lemma py_lcm_ring n a b : mono n a -> mono n b -> pos a = -1 \/ pos b = -1 \/ pos a = pos b ->
  exists c d, py_lcm a b = Ok c /\ py_gcd a b = Ok d /\ mono n c /\ mono n d /\ pos c = -1 /\ pos d = -1 /\
    forall i, (i < n)%nat -> expo (vars c) i = Nat.max (expo (vars a) i) (expo (vars b) i) /\ expo (vars d) i = Nat.min (expo (vars a) i) (expo (vars b) i).
Proof.
  intros A B H. destruct (py_lcm_ok n a b A B H) as (c & E & C & P & X). destruct (py_gcd_ok n a b A B H) as (d & E' & C' & P' & X').
  exists c, d. repeat (split; [assumption|]). intros i I. split; auto.
Qed.

Lemma py_lcm_loses_function n a b : mono n a -> mono n b -> pos a = pos b -> pos a <> -1 ->
  exists c, py_lcm a b = Ok c /\ ~ mdivides a c /\ ~ mdivides b c.
Proof.
  intros A B E N. destruct (py_lcm_ok n a b A B (or_intror (or_intror E))) as (c & Ec & C & P & _). exists c. split; [exact Ec|].
  split; intros ([H|H] & _); congruence.
Qed.

Lemma py_nonmult_least n a b : mono n a -> mono n b -> pos a = pos b ->
  (forall v, py_nonmult a b = Ok v <-> (v < n)%nat /\ (expo (vars a) v < expo (vars b) v)%nat /\
     forall j, (j < v)%nat -> (expo (vars b) j <= expo (vars a) j)%nat) /\
  (py_nonmult a b = AssertFail <-> mdivides b a).
Proof.
  intros A B E. split; [intro v; apply (py_nonmult_spec n); assumption|].
  rewrite (py_nonmult_fails n) by assumption. apply (py_divisible_iff n); assumption.
Qed.

Lemma py_expand_spec n m : mono n m -> forall v, count v (py_expand m) = expo (vars m) v.
Proof. intros _ v. apply py_expand_count. Qed.

Lemma py_hash_eq o n h a b : mono n a -> mono n b -> py_eq o a b = true -> py_hash h a = py_hash h b.
Proof. apply py_eq_hash. Qed.

(* ---------------------------------------------------------------- C57, C58 *)

Lemma py_below_iff o n k m l : mono n m -> pmonos n k l -> (pbelow o m l <-> py_below o m l).
Proof.
  intros M L. unfold pbelow, py_below, pmonos, pgt in *. rewrite !Forall_forall in *.
  split; intros H x X; apply (py_meaning o n); auto; apply (L x X).
Qed.

Lemma py_times_product o n k p q : py_canonical o n k p -> py_canonical o n k q -> ring_poly p \/ ring_poly q ->
  py_yields o n k (py_times o p q) (prod_coef p q).
Proof. intros P Q R. apply py_times_yields; [assumption..|]. apply ring_compatible; assumption. Qed.

Lemma dict_fails o n k q : pmonos n k q -> (exists y, In y q /\ pos (fst y) <> -1) -> forall p, pmonos n k p ->
  (exists x, In x p /\ pos (fst x) <> -1) -> forall t, pmonos n k t -> NoDup (keys t) -> py_dict o p q t = AssertFail.
Proof.
  intros Q Y. induction p as [|[m c] p IH]; intros P (x & X & Nx) t T N; [destruct X|]. inversion P as [|? ? Pm Pp]; subst. cbn [py_dict fst] in *.
  destruct (Z.eq_dec (pos m) (-1)) as [E|E].
  - destruct (dict_row_ok o n k (fun _ => 0) m c q Pm Q (fun y _ => or_introl E) t T N) as (t' & -> & T' & N' & _). cbn [bind].
    apply IH; auto. exists x. destruct X as [<-|X]; [cbn in Nx; congruence|auto].
  - rewrite (dict_row_fails o n k m c q E Q Y t). reflexivity.
Qed.

Lemma py_times_fails o n k p q : py_canonical o n k p -> py_canonical o n k q -> ~ ring_poly p -> ~ ring_poly q ->
  py_times o p q = AssertFail.
Proof.
  intros P Q Rp Rq. apply py_canonical_iff in P as (_ & P & _). apply py_canonical_iff in Q as (_ & Q & _).
  assert (X : forall l : ppoly, ~ ring_poly l -> exists y, In y l /\ pos (fst y) <> -1).
  { induction l as [|y l IH]; intro H; [exfalso; apply H; constructor|]. destruct (Z.eq_dec (pos (fst y)) (-1)) as [E|E].
    - destruct IH as (z & Z & N); [intro R; apply H; constructor; assumption|]. exists z. split; [now right|exact N].
    - exists y. split; [now left|exact E]. }
  unfold py_times. rewrite (dict_fails o n k q Q (X q Rq) p P (X p Rp)); [reflexivity|constructor|constructor].
Qed.

Lemma py_reduction_spec o n k p i m c u d q : 0 <= k -> py_canonical o n k p -> nth_error p i = Some (m, c) ->
  py_canonical o n k ((u, d) :: q) -> pos u = pos m -> mdivides u m ->
  exists r k1 k2 s, py_reduction o p i ((u, d) :: q) = Ok r /\ py_canonical o n k r /\ k1 <> 0 /\ length s = n /\
    (forall x, coef r x = k1 * coef p x + k2 * coef (shift s ((u, d) :: q)) x) /\
    coef r m = 0 /\ (forall x, mono n x -> py_greater o x m -> coef r x = k1 * coef p x).
Proof.
  intros K Cp E Cq P D. apply nth_error_split in E as (A & B & -> & <-).
  destruct (py_reduction_ok o n k A m c B u d q Cp Cq P D K) as (r' & k1 & k2 & s & E' & C' & Br & K1 & Ls & H).
  exists (scaled k1 A ++ r'), k1, k2, s. split; [exact E'|]. split; [exact C'|]. split; [exact K1|]. split; [exact Ls|]. split; [exact H|].
  assert (Mm := pcanonical_mono o n k _ _ _ _ Cp).
  pose proof Cp as Cp'. apply py_canonical_iff in Cp' as (Sp & MA & _). apply psorted_app in Sp as (SA & Sp & BA). apply pmonos_app in MA as (MA & _).
  apply psorted_cons in Sp as [BB SB]. cbn [fst] in BB.
  apply py_canonical_iff in C' as (S' & M' & _). apply psorted_app in S' as (_ & Sr & _). apply pmonos_app in M' as (_ & Mr).
  assert (Z : forall x (l : ppoly), pbelow o m l -> x = m \/ pgt o x m -> pmonos n k l -> mono n x -> coef l x = 0).
  { intros x l Bl X Ml Mx. apply (pcoef_below o n k x l Mx Ml). destruct X as [->|X]; [exact Bl|].
    eapply (pbelow_trans o n k); [exact X|exact Bl|exact Mx|apply Mm|exact Ml]. }
  assert (SC : forall x, coef (scaled k1 A) x = k1 * coef A x) by (intro x; rewrite !coef_sumc; apply scaled_sumc).
  split.
  - rewrite coef_app, SC. rewrite (Z m r' Br (or_introl eq_refl) Mr (proj1 Mm)).
    assert (coef A m = 0); [|lia]. apply coef_notin. intro I. apply in_map_iff in I as (y & Ey & Y). rewrite Forall_forall in BA.
    assert (W := Forall_inv (BA y Y)). cbn [fst] in W. rewrite Ey in W. apply (pgt_irrefl o n m); [apply Mm|exact W].
  - intros x Mx X. apply (py_meaning o n) in X; [|exact Mx|apply Mm].
    rewrite !coef_app, SC, (Z x r' Br (or_intror X) Mr Mx). cbn [coef].
    destruct (monom_eq_dec m x) as [->|]; [exfalso; apply (pgt_irrefl o n x Mx X)|].
    rewrite (Z x B BB (or_intror X)); [lia| |exact Mx]. apply py_canonical_iff in Cp as (_ & MM & _). apply pmonos_app in MM as (_ & MM). exact (Forall_inv_tail MM).
Qed.

Lemma py_nfhead_spec o n k G find p : 0 <= k -> py_good_find o n k G find -> py_canonical o n k p ->
  exists N r, (forall fuel, (N <= fuel)%nat -> py_nfhead fuel o find p = Ok r) /\ py_canonical o n k r /\ congruent n G p r /\
    (r = [] \/ exists m c l, r = (m, c) :: l /\ irreducible find m).
Proof. intros K F C. exact (nfhead_ok o n k G find F K p C). Qed.

Lemma py_nftail_spec o n k G find m c p : 0 <= k -> py_good_find o n k G find -> py_canonical o n k ((m, c) :: p) ->
  exists N d r, (forall fuel, (N <= fuel)%nat -> py_nftail fuel o find ((m, c) :: p) = Ok ((m, d) :: r)) /\
    py_canonical o n k ((m, d) :: r) /\ congruent n G ((m, c) :: p) ((m, d) :: r) /\ Forall (fun x => irreducible find (fst x)) r.
Proof. intros K F C. exact (nftail_ok o n k G find F K m c p C). Qed.

Lemma py_spoly_ring o n k mp kp p mq kq q : 0 <= k -> py_canonical o n k ((mp, kp) :: p) -> py_canonical o n k ((mq, kq) :: q) ->
  pos mp = -1 -> pos mq = -1 ->
  exists r s t g l, py_spoly o ((mp, kp) :: p) ((mq, kq) :: q) = Ok r /\ py_canonical o n k r /\
    length s = n /\ length t = n /\ g <> 0 /\ length l = n /\
    (forall i, (i < n)%nat -> expo l i = Nat.max (expo (vars mp) i) (expo (vars mq) i)) /\
    mprod (Mon (-1) s) mp = Mon (-1) l /\ mprod (Mon (-1) t) mq = Mon (-1) l /\
    (forall x, g * coef r x = kq * coef (shift s ((mp, kp) :: p)) x - kp * coef (shift t ((mq, kq) :: q)) x) /\
    py_below o (Mon (-1) l) r.
Proof.
  intros K Cp Cq Pp Pq. destruct (spoly_ring o n k mp kp p mq kq q K Cp Cq Pp Pq) as (r & s & t & g & l & H1 & H2 & H3 & H4 & H5 & H6 & H7 & H8 & H9 & H10 & H11).
  exists r, s, t, g, l. repeat (split; [assumption|]). apply (py_below_iff o n k); [split; [exact H6|cbn; lia]| |exact H11].
  apply py_canonical_iff in H2. tauto.
Qed.

Lemma py_spoly_module o n k mp kp p mq kq q : py_canonical o n k ((mp, kp) :: p) -> py_canonical o n k ((mq, kq) :: q) ->
  pos mp <> -1 \/ pos mq <> -1 -> py_spoly o ((mp, kp) :: p) ((mq, kq) :: q) = AssertFail.
Proof.
  intros Cp Cq. apply (spoly_module o n); [apply (pcanonical_mono o n k [] _ _ _ Cp)|apply (pcanonical_mono o n k [] _ _ _ Cq)].
Qed.

(** A single ring polynomial as the set of reducers of ring polynomials (k = 0: no unknown functions). *)
Lemma py_find1_good o n q : q <> [] -> py_canonical o n 0 q -> py_good_find o n 0 (eq q) (py_find1 q).
Proof.
  intros Nq C m [M Pm]. destruct q as [|[u d] q]; [congruence|]. cbn [py_find1]. eexists. split; [reflexivity|].
  assert (Mu := pcanonical_mono o n 0 [] _ _ _ C). destruct Mu as [Mu Pu].
  destruct (py_divisible m u) eqn:D; [|discriminate]. intros q' [= <-]. split; [exact C|]. split; [reflexivity|].
  exists u, d, q. split; [reflexivity|]. split; [destruct M, Mu; lia|]. apply (py_divisible_iff n); assumption.
Qed.
