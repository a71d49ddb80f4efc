(** Proofs about Hilbert polynomials of pyginv. *)
From Coq Require Import ZArith List Bool Arith QArith Lia Lqa Permutation.
From Verif Require Import Outcome MonomModel MonomSpec MonomProofs JanetSpec JanetProofs JanetFindProofs HilbertSpec HilbertProofs PyMonomModel PyJanetModel PyJanetSpec PyJanetProofs PyJanetTop PyHPModel PyHPSpec.
Import ListNotations.
Local Open Scope nat_scope.

(** subs is evaluation *)
Lemma subs_from l x : forall i a, (fold_left (fun a y => (a + snd y * qpow x (fst y))%Q) (combine (seq i (length l)) l) a == a + qpow x i * peval l x)%Q.
Proof.
  induction l as [|c l IH]; intros i a; cbn [length seq combine fold_left peval]; [ring|]. rewrite IH. cbn [fst snd].
  cbn [qpow]. ring.
Qed.
Lemma py_subs_ok l x : (py_subs l x == peval l x)%Q.
Proof. unfold py_subs. rewrite subs_from. cbn [qpow]. ring. Qed.

Lemma add_shifted_ok x : forall a b c, length a = length b -> (peval (add_shifted a b c) x == peval a x + c + x * peval b x)%Q.
Proof.
  induction a as [|p a IH]; intros [|q b] c L; try discriminate L; cbn [add_shifted peval]; [ring|]. rewrite IH by (cbn in L; lia). ring.
Qed.
Lemma add_shifted_len : forall a b c, length a = length b -> length (add_shifted a b c) = S (length a).
Proof. induction a as [|p a IH]; intros [|q b] c L; try discriminate L; cbn [add_shifted length]; [reflexivity|]. rewrite IH by (cbn in L; lia). reflexivity. Qed.

Lemma comb_step_ok n d l i x : 0 < i -> l <> [] ->
  (peval (comb_step n d l i) x == peval l x * ((x + inject_Z (Z.of_nat n - Z.of_nat i - d)) / inject_Z (Z.of_nat i)))%Q /\ length (comb_step n d l i) = S (length l).
Proof.
  intros I NE. unfold comb_step. set (k := ((Z.of_nat n - Z.of_nat i - d) # Pos.of_nat i)%Q).
  assert (Ki : (k == inject_Z (Z.of_nat n - Z.of_nat i - d) / inject_Z (Z.of_nat i))%Q).
  { unfold k. rewrite Qmake_Qdiv. rewrite <- positive_nat_Z, Nat2Pos.id by lia. reflexivity. }
  assert (NZ : ~ (inject_Z (Z.of_nat i) == 0)%Q) by (unfold Qeq; cbn; lia).
  destruct l as [|c l]; [congruence|]. cbn [map]. cbn [peval length]. split.
  - rewrite add_shifted_ok by (rewrite !map_length; reflexivity). rewrite (peval_map l k) by (intro; ring). rewrite (peval_map l (/ inject_Z (Z.of_nat i))) by (intro; field; exact NZ).
    rewrite Ki. field. exact NZ.
  - rewrite add_shifted_len, map_length by (rewrite !map_length; reflexivity). reflexivity.
Qed.
(** the factors (x + n-1-d-(i-1))/i build up the binomial *)
Lemma comb_fold_ok n d x : forall j i l, 0 < i -> l <> [] -> (peval l x == choose (x + inject_Z (Z.of_nat n - 1 - d)) (i - 1))%Q ->
  let r := fold_left (comb_step n d) (seq i j) l in (peval r x == choose (x + inject_Z (Z.of_nat n - 1 - d)) (i - 1 + j))%Q /\ length r = length l + j.
Proof.
  induction j as [|j IH]; intros i l I NE V; cbn [seq fold_left].
  - rewrite Nat.add_0_r. split; [exact V|lia].
  - destruct (comb_step_ok n d l i x I NE) as [E L]. destruct (IH (S i) (comb_step n d l i)) as [E' L'].
    + lia. + intro X. rewrite X in L. discriminate L.
    + rewrite E, V. replace (S i - 1) with (S (i - 1)) by lia. rewrite choose_S. replace (S (i - 1)) with i by lia.
      assert (Y : (x + inject_Z (Z.of_nat n - Z.of_nat i - d) == x + inject_Z (Z.of_nat n - 1 - d) - inject_Z (Z.of_nat (i - 1)))%Q).
      { rewrite Nat2Z.inj_sub by lia. rewrite !inject_Z_minus. cbn [Z.of_nat Pos.of_succ_nat]. ring. }
      rewrite Y. reflexivity.
    + split; [rewrite E'; replace (S i - 1 + j) with (i - 1 + S j) by lia; reflexivity|lia].
Qed.
Lemma comb_repet_ok m d : exists l, comb_repet (Z.of_nat m + 1) d = Ok l /\ length l = S m /\
  forall x, (peval l x == choose (x + inject_Z (Z.of_nat m - d)) m)%Q.
Proof.
  unfold comb_repet, assert_. destruct (Z.leb_spec 0 (Z.of_nat m + 1)%Z); [|lia]. cbn [andb negb]. replace (Z.to_nat (Z.of_nat m + 1)) with (S m) by lia.
  replace (S m - 1) with m by lia. eexists. split; [reflexivity|]. pose proof (fun x => comb_fold_ok (S m) d x m 1 [1%Q]) as C. cbv zeta in C.
  split; [destruct (C 0%Q ltac:(lia) ltac:(discriminate)) as [_ L]; [cbn; ring|]; rewrite L; reflexivity|].
  intro x. destruct (C x ltac:(lia) ltac:(discriminate)) as [E _]; [cbn; ring|]. rewrite E. replace (1 - 1 + m) with m by lia.
  replace (Z.of_nat (S m) - 1 - d)%Z with (Z.of_nat m - d)%Z by lia. reflexivity.
Qed.
Lemma comb_repet_neg n d : (n < 0)%Z -> comb_repet n d = AssertFail.
Proof. intro N. unfold comb_repet, assert_. destruct (Z.leb_spec 0 n); [lia|reflexivity]. Qed.

Lemma sub_prefix_ok x : forall a b, length b <= length a -> (peval (sub_prefix a b) x == peval a x - peval b x)%Q /\ length (sub_prefix a b) = length a.
Proof.
  induction a as [|p a IH]; intros [|q b] L; cbn [sub_prefix peval length] in *; try lia; try (split; [ring|reflexivity]).
  destruct (IH b) as [E L']; [lia|]. split; [rewrite E; ring|lia].
Qed.
Lemma hilbert_add_ok a b : length a = length b -> exists r, hilbert_add a b = Ok r /\ length r = length a /\ forall x, (peval r x == peval a x + peval b x)%Q.
Proof.
  intro L. unfold hilbert_add. rewrite L, Nat.eqb_refl. cbn [assert_ andb negb]. eexists. split; [reflexivity|]. split; [rewrite map_length, combine_length; lia|].
  intro x. revert b L. induction a as [|p a IH]; intros [|q b] L; try discriminate L; cbn [combine map peval fst snd]; [ring|]. rewrite IH by (cbn in L; lia). ring.
Qed.

Definition pterm_q (x : Q) (w : pwrap) : Q := choose (x + inject_Z (Z.of_nat (w_multi w) - Z.of_nat (w_degree w))) (w_multi w).
Definition sumqs (l : list Q) : Q := fold_right Qplus 0%Q l.
Lemma hp_loop_ok n ws : forall h, Forall (fun w => w_multi w <= n) ws -> length h = S n ->
  exists r, hp_loop ws h = Ok r /\ length r = S n /\ forall x, (peval r x == peval h x - sumqs (map (pterm_q x) ws))%Q.
Proof.
  induction ws as [|w ws IH]; intros h F L; cbn [hp_loop].
  - exists h. split; [reflexivity|]. split; [exact L|]. intro x. cbn. ring.
  - inversion F as [|? ? M F']; subst. destruct (comb_repet_ok (w_multi w) (Z.of_nat (w_degree w))) as (c & E & Lc & V). rewrite E. cbn [bind].
    unfold hilbert_sub. rewrite (proj2 (Nat.leb_le (length c) (length h))) by lia. cbn [assert_ andb negb bind].
    destruct (IH (sub_prefix h c) F') as (r & Er & Lr & Vr); [destruct (sub_prefix_ok 0%Q h c) as [_ X]; lia|].
    exists r. split; [exact Er|]. split; [exact Lr|]. intro x. rewrite Vr. destruct (sub_prefix_ok x h c) as [X _]; [lia|]. rewrite X, V. cbn [map sumqs fold_right]. fold (sumqs (map (pterm_q x) ws)).
    unfold pterm_q at 2. ring.
Qed.

(** counting *)
Definition pmask (w : pwrap) : list bool := map negb (pw_nonmult w).
Lemma pmask_true w : ntrue (pmask w) = w_multi w.
Proof. unfold ntrue, pmask, w_multi. induction (pw_nonmult w) as [|b l IH]; cbn; [reflexivity|]. destruct b; cbn; auto. Qed.
Definition pcone (s : nat) (w : pwrap) : list (list nat) := cone (exps w) (pmask w) (s - total (exps w)).

Lemma pcone_in n J w s m : 0 < n -> built n J -> In w (elems J) -> total (exps w) <= s ->
  (In m (pcone s w) <-> length m = n /\ total m <= s /\ janet_divides n (tree_exps J) (exps w) m).
Proof.
  intros N B W Hs. destruct (built_inv n J N B) as [[R _] _]. destruct (rok_wok n n 0 _ w R W) as [O1 O2]. change (length (exps w) = n) in O1.
  unfold pcone. rewrite cone_in by (unfold pmask; rewrite map_length; lia). rewrite O1. replace (total (exps w) + (s - total (exps w))) with s by lia.
  assert (Mk : forall i, i < n -> (nth i (pmask w) false = true <-> ~ janet_nm (tree_exps J) (exps w) i)).
  { intros i Hi. rewrite <- (pyj_flags n J w i N B W Hi). unfold pmask. rewrite (nth_indep _ false (negb false)) by (rewrite map_length; lia). rewrite map_nth.
    destruct (nth i (pw_nonmult w) false); cbn; intuition congruence. }
  split.
  - intros (A & D & C & T). split; [exact A|]. split; [exact T|]. split; [apply in_map, W|]. split; [exact D|]. intros i Hi L. apply Mk; auto.
  - intros (A & T & (_ & D & C)). split; [exact A|]. split; [exact D|]. split; [|exact T]. intros i Hi L. apply Mk; auto.
Qed.

Lemma count_free n J s : 0 < n -> built n J -> (forall w, In w (elems J) -> total (exps w) <= s) ->
  exists k, janet_free n (tree_exps J) s k /\
    binom (s + n) n = k + sumn (map (fun w => binom (s - total (exps w) + w_multi w) (w_multi w)) (elems J)).
Proof.
  intros N B Hs. set (C := flat_map (pcone s) (elems J)). destruct (built_inv n J N B) as [I _]. destruct (built_extra n J N B) as [D _].
  assert (Cin : forall m, In m C <-> length m = n /\ total m <= s /\ exists u, janet_divides n (tree_exps J) u m).
  { intro m. unfold C. rewrite in_flat_map. split.
    - intros (w & W & X). apply (pcone_in n J w s m N B W (Hs w W)) in X. destruct X as (A & T & X). split; [exact A|]. split; [exact T|]. eauto.
    - intros (A & T & (u & X)). pose proof X as [Xi _]. apply in_map_iff in Xi. destruct Xi as (w & <- & W). exists w. split; [exact W|]. apply (pcone_in n J w s m N B W (Hs w W)). auto. }
  assert (Cn : NoDup C).
  { apply NoDup_flat; [exact (NoDup_map_inv _ _ D)|intros; apply cone_nodup|]. intros a b m Ia Ib Ha Hb.
    apply (pcone_in n J a s m N B Ia (Hs a Ia)) in Ha. apply (pcone_in n J b s m N B Ib (Hs b Ib)) in Hb. destruct Ha as (_ & _ & Ha). destruct Hb as (_ & _ & Hb).
    apply (same_exps_eq (elems J)); auto. exact (janet_unique n _ _ _ _ (fun x => tree_lengths n J x I) Ha Hb). }
  set (L := filter (fun m => negb (if in_dec (list_eq_dec Nat.eq_dec) m C then true else false)) (all_upto n s)).
  assert (Lin : forall m, In m L <-> (length m = n /\ total m <= s) /\ ~ In m C).
  { intro m. unfold L. rewrite filter_In, all_upto_in. destruct (in_dec (list_eq_dec Nat.eq_dec) m C); cbn; intuition congruence. }
  exists (length L). split.
  - exists L. split; [apply NoDup_filter, cone_nodup|]. split; [reflexivity|]. intro m. rewrite Lin, Cin. tauto.
  - assert (P : Permutation (all_upto n s) (L ++ C)).
    { apply NoDup_Permutation; [apply cone_nodup| |].
      - apply NoDup_app_intro; [apply NoDup_filter, cone_nodup|exact Cn|]. intros m X Y. apply Lin in X. tauto.
      - intro m. rewrite in_app_iff, Lin, all_upto_in. destruct (in_dec (list_eq_dec Nat.eq_dec) m C) as [Y|Y]; [|tauto]. pose proof (proj1 (Cin m) Y). tauto. }
    apply Permutation_length in P. rewrite all_upto_len, app_length in P. rewrite P. f_equal. unfold C. rewrite flat_map_len. f_equal.
    apply map_ext_in. intros w W. destruct I as [R _]. destruct (rok_wok n n 0 _ w R W) as [O1 O2]. unfold pcone. rewrite cone_len by (unfold pmask; rewrite map_length; unfold exps; lia).
    rewrite pmask_true. reflexivity.
Qed.

Lemma degree_total l : fold_right Nat.add 0 l = total l.
Proof. induction l; cbn; auto. Qed.
Lemma term_binom s w : total (exps w) <= s -> (pterm_q (inject_Z (Z.of_nat s)) w == inject_Z (Z.of_nat (binom (s - total (exps w) + w_multi w) (w_multi w))))%Q.
Proof.
  intro Hs. unfold pterm_q. rewrite <- choose_binom. apply choose_ext. rewrite <- inject_Z_plus. unfold w_degree, py_degree. rewrite degree_total. fold (exps w). f_equiv. lia.
Qed.

Lemma pyj_HP n J : 0 < n -> built n J ->
  exists h, pj_HP n J = Ok h /\ length h = S n /\
    forall s, (forall w, In w (elems J) -> total (exps w) <= s) ->
      exists k, janet_free n (tree_exps J) s k /\ (py_subs h (inject_Z (Z.of_nat s)) == inject_Z (Z.of_nat k))%Q.
Proof.
  intros N B. unfold pj_HP, hilbert_poly, assert_. destruct (Z.ltb_spec 0 (Z.of_nat n)); [|lia]. cbn [andb negb].
  destruct (comb_repet_ok n 0) as (h0 & E0 & L0 & V0). rewrite E0. cbn [bind].
  assert (F : Forall (fun w => w_multi w <= n) (elems J)).
  { apply Forall_forall. intros w W. destruct (built_inv n J N B) as [[R _] _]. destruct (rok_wok n n 0 _ w R W) as [_ O2]. rewrite <- O2. apply filter_le. }
  destruct (hp_loop_ok n (elems J) h0 F L0) as (h & E & L & V). exists h. split; [exact E|]. split; [exact L|]. intros s Hs.
  destruct (count_free n J s N B Hs) as (k & K & C). exists k. split; [exact K|]. rewrite py_subs_ok, V, V0.
  rewrite <- inject_Z_plus. replace (Z.of_nat s + (Z.of_nat n - 0))%Z with (Z.of_nat (s + n)) by lia. rewrite choose_binom, C.
  assert (S : (sumqs (map (pterm_q (inject_Z (Z.of_nat s))) (elems J)) == inject_Z (Z.of_nat (sumn (map (fun w => binom (s - total (exps w) + w_multi w) (w_multi w)) (elems J)))))%Q).
  { clear - Hs. induction (elems J) as [|w l IH]; [reflexivity|]. cbn [map sumqs sumn fold_right]. fold (sumqs (map (pterm_q (inject_Z (Z.of_nat s))) l)).
    rewrite term_binom by (apply Hs; now left). rewrite IH by (intros; apply Hs; now right). rewrite <- inject_Z_plus, <- Nat2Z.inj_add. reflexivity. }
  rewrite S, Nat2Z.inj_add, inject_Z_plus. ring.
Qed.

(** when the tree is a Janet basis, the monomials without Janet divisor are those outside the ideal *)
Lemma free_hilbert n F U s k : janet_basis n F U -> janet_free n U s k -> hilbert_function n F s k.
Proof.
  intros [B1 B2] (L & D & E & I). exists L. split; [exact D|]. split; [exact E|]. intro m. rewrite I. split.
  - intros (A & T & X). split; [exact A|]. split; [exact T|]. intro Y. apply X. exact (B2 m A Y).
  - intros (A & T & X). split; [exact A|]. split; [exact T|]. intros (u & (Iu & Du & _)). apply X. destruct (B1 u Iu) as (f & If & Df). exists f. split; [exact If|].
    intros i Hi. specialize (Df i Hi). specialize (Du i Hi). lia.
Qed.
Lemma pyj_HP_basis n J F : 0 < n -> built n J -> janet_basis n F (tree_exps J) ->
  exists h, pj_HP n J = Ok h /\ length h = S n /\
    forall s, (forall w, In w (elems J) -> total (exps w) <= s) ->
      exists k, hilbert_function n F s k /\ (py_subs h (inject_Z (Z.of_nat s)) == inject_Z (Z.of_nat k))%Q.
Proof.
  intros N B Ba. destruct (pyj_HP n J N B) as (h & E & L & V). exists h. split; [exact E|]. split; [exact L|]. intros s Hs. destruct (V s Hs) as (k & K & X). exists k. split; [exact (free_hilbert n F _ s k Ba K)|exact X].
Qed.
Lemma comb_repet_subs (m : nat) (d : Z) : exists l, comb_repet (Z.of_nat m + 1) d = Ok l /\ length l = S m /\
  forall x, (py_subs l x == choose (x + inject_Z (Z.of_nat m - d)) m)%Q.
Proof. destruct (comb_repet_ok m d) as (l & E & L & V). exists l. split; [exact E|]. split; [exact L|]. intro x. rewrite py_subs_ok. apply V. Qed.
Lemma hilbert_add_subs (a b : list Q) :
  (length a = length b -> exists r, hilbert_add a b = Ok r /\ length r = length a /\ forall x, (py_subs r x == py_subs a x + py_subs b x)%Q) /\
  (length a <> length b -> hilbert_add a b = AssertFail).
Proof.
  split; intro L.
  - destruct (hilbert_add_ok a b L) as (r & E & Lr & V). exists r. split; [exact E|]. split; [exact Lr|]. intro x. rewrite !py_subs_ok. apply V.
  - unfold hilbert_add, assert_. destruct (Nat.eqb_spec (length a) (length b)) as [X|X]; [contradiction|reflexivity].
Qed.
Lemma hilbert_sub_subs (a b : list Q) :
  (length b <= length a -> exists r, hilbert_sub a b = Ok r /\ length r = length a /\ forall x, (py_subs r x == py_subs a x - py_subs b x)%Q) /\
  (length a < length b -> hilbert_sub a b = AssertFail).
Proof.
  split; intro L; unfold hilbert_sub, assert_.
  - destruct (Nat.leb_spec (length b) (length a)) as [_|X]; [|lia]. exists (sub_prefix a b). split; [reflexivity|]. split; [exact (proj2 (sub_prefix_ok 0%Q a b L))|].
    intro x. rewrite !py_subs_ok. exact (proj1 (sub_prefix_ok x a b L)).
  - destruct (Nat.leb_spec (length b) (length a)) as [X|_]; [lia|reflexivity].
Qed.
