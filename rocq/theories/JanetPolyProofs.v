(** Proofs about JanetPolyModel, release build: build() never goes wrong on ring polynomials and keeps
    its invariant. *)
From Coq Require Import ZArith List Bool Arith Lia Permutation Sorted.
From Verif Require Import Outcome MonomModel MonomSpec MonomProofs PolyModel PolySpec PolyProofs PolyRedProofs PolyNfProofs
  PolyTopProofs JanetModel JanetSpec JanetProofs JanetFindProofs CompletionProofs JanetPolyModel JanetPolySpec IdealProofs.
Import ListNotations.
Local Open Scope Z_scope.

(** Ok with the property, or the step bound was too small; nothing goes wrong. *)
Definition safe {A} (P : A -> Prop) (r : outcome A) : Prop :=
  match r with Ok x => P x | OutOfFuel => True | _ => False end.
Lemma safe_bind {A B} (P : A -> Prop) (Q : B -> Prop) r f : safe P r -> (forall x, P x -> safe Q (f x)) -> safe Q (bind r f).
Proof. destruct r; cbn; auto; contradiction. Qed.
Lemma safe_ok {A} (P : A -> Prop) r x : r = Ok x -> P x -> safe P r.
Proof. intros -> H. exact H. Qed.
Lemma safe_impl {A} (P Q : A -> Prop) r : safe P r -> (forall x, P x -> Q x) -> safe Q r.
Proof. destruct r; cbn; auto. Qed.

Definition hd (p : poly) (m : monom) : Prop := exists c l, terms p = (m, c) :: l.
(** r and f generate the same ideal together with a. *)
Definition lin (r f a : poly) : Prop :=
  exists k1 k2, k1 <> 0 /\ forall w, coef (terms r) w = k1 * coef (terms f) w + k2 * coef (terms a) w.
Lemma hd_fun p m m' : hd p m -> hd p m' -> m = m'.
Proof. intros (c & l & E) (c' & l' & E'). congruence. Qed.

Section P.
Variables (t : pos_order) (o : base_order) (n : nat) (G : list term -> Prop).
Hypothesis (Hn : (0 < n)%nat) (Ho : o <> OAlex).

Definition goodz (p : poly) : Prop :=
  pvalid p /\ inring t o n p /\ ring_poly (terms p) /\ rational_member n G (terms p).
Definition good (p : poly) : Prop := goodz p /\ terms p <> [].

Lemma good_hd p : good p -> exists m, hd p m.
Proof. intros [_ N]. destruct (terms p) as [|[m c] l] eqn:E; [congruence|]. exists m, c, l. exact E. Qed.
Lemma hd_lm dbg p m : hd p m -> p_lm dbg p = Ok m.
Proof. intros (c & l & E). unfold p_lm. now rewrite E. Qed.
Lemma hd_nz p m : hd p m -> terms p <> [].
Proof. intros (c & l & E). congruence. Qed.

Lemma goodz_canon p : goodz p -> canonical t o n (terms p).
Proof. intros (P & (E1 & E2 & E3) & _). unfold pvalid, valid_poly in P. congruence. Qed.
Lemma goodz_mono p m : goodz p -> In m (map fst (terms p)) -> mono n m /\ pos m = -1.
Proof.
  intros H I. apply in_map_iff in I as ([u c] & <- & I). split.
  - apply goodz_canon in H. apply canonical_iff in H as (_ & M & _). unfold monos in M. rewrite Forall_forall in M. exact (M _ I).
  - destruct H as (_ & _ & R & _). unfold ring_poly in R. rewrite Forall_forall in R. exact (R _ I).
Qed.
Lemma hd_in p m : hd p m -> In m (map fst (terms p)).
Proof. intros (c & l & E). rewrite E. cbn. auto. Qed.
Lemma hd_mono p m : goodz p -> hd p m -> mono n m /\ pos m = -1.
Proof. intros H E. apply (goodz_mono p); [exact H|apply hd_in; exact E]. Qed.
Lemma goodz_same p a : goodz p -> goodz a -> same_ring p a.
Proof. intros (_ & (A1 & A2 & A3) & _) (_ & (B1 & B2 & B3) & _). split; [|split]; congruence. Qed.

Lemma in_coef p m : goodz p -> In m (map fst (terms p)) -> coef (terms p) m <> 0.
Proof.
  intros H I. apply in_map_iff in I as ([u c] & <- & I). cbn [fst].
  destruct (canonical_coef _ _ _ _ _ _ (goodz_canon _ H) I) as [E N]. congruence.
Qed.
Lemma coef_nz_in (l : list term) m : coef l m <> 0 -> In m (map fst l).
Proof. intro H. destruct (in_dec monom_eq_dec m (map fst l)); [assumption|]. exfalso. apply H. apply coef_notin. assumption. Qed.

(** The monomials after the first are smaller. *)
Lemma hd_below p m x : goodz p -> hd p m -> In x (map fst (terms p)) -> x = m \/ cmp1 t o m x = 1.
Proof.
  intros H (c & l & E) I. apply goodz_canon in H. apply canonical_iff in H as (S & _ & _). rewrite E in *.
  apply sorted_below in S as [B _]. destruct I as [I|I]; [left; symmetry; exact I|right].
  apply in_map_iff in I as (y & <- & I). unfold below in B. rewrite Forall_forall in B. exact (B _ I).
Qed.
Lemma cmp1_refl m : cmp1 t o m m = 0.
Proof. apply cmp1_eq; reflexivity. Qed.
Lemma hd_char p m : goodz p -> In m (map fst (terms p)) -> (forall x, In x (map fst (terms p)) -> x = m \/ cmp1 t o m x = 1) -> hd p m.
Proof.
  intros H I B. destruct (terms p) as [|[u c] l] eqn:E; [destruct I|]. assert (Hu : hd p u) by (exists c, l; exact E).
  rewrite <- E in I, B. destruct (hd_below p u m H Hu I) as [->|C]; [exact Hu|].
  destruct (B u (hd_in _ _ Hu)) as [->|C']; [exact Hu|].
  assert (A := cmp1_antisym t o m u). destruct (goodz_mono p m H I) as [M1 _]. destruct (hd_mono p u H Hu) as [M2 _].
  rewrite A in C by (eapply mono_size; eassumption). lia.
Qed.

(** An r that is a linear combination of f and a. *)
Lemma lin_good f a r k1 k2 : goodz f -> goodz a -> pvalid r -> same_ring f r ->
  (forall w, coef (terms r) w = k1 * coef (terms f) w + k2 * coef (terms a) w) ->
  goodz r /\ forall m, In m (map fst (terms r)) -> In m (map fst (terms f)) \/ In m (map fst (terms a)).
Proof.
  intros Hf Ha V (S1 & S2 & S3) C.
  assert (I : inring t o n r) by (destruct Hf as (_ & (A1 & A2 & A3) & _); split; [|split]; congruence).
  assert (Cr : canonical t o n (terms r)) by (destruct I as (A1 & A2 & A3); unfold pvalid, valid_poly in V; congruence).
  split.
  - split; [exact V|]. split; [exact I|]. split.
    + eapply ring_of_coef; [exact Cr|]. intros m N. rewrite C, !coef_ring; [lia|apply Ha|exact N|apply Hf|exact N].
    + eapply mem_lin; [apply Hf|apply Ha|exact C].
  - intros m I'. apply in_map_iff in I' as ([u c] & <- & I'). cbn [fst].
    destruct (canonical_coef _ _ _ _ _ _ Cr I') as [E N]. rewrite C in E.
    destruct (Z.eq_dec (coef (terms f) u) 0) as [Z1|Z1]; [|left; apply coef_nz_in; exact Z1].
    right. apply coef_nz_in. intro Z2. rewrite Z1, Z2 in E. lia.
Qed.

Lemma mprod_cancel u v : length u = length (vars v) -> mprod (Mon (-1) u) v = v -> u = repeat 0%nat (length (vars v)).
Proof.
  unfold mprod. cbn [pos vars]. intros L E. destruct v as [p v]. cbn [pos vars] in *. apply (f_equal vars) in E. cbn [vars] in E. rewrite vsum_addv in E.
  clear p. revert v L E. induction u as [|x u IH]; intros [|y v] L E; cbn in *; try lia; [reflexivity|].
  injection E as E1 E2. f_equal; [lia|]. apply IH; [lia|exact E2].
Qed.

Lemma good_reduction f a m : good f -> good a -> hd f m -> hd a m ->
  exists r, p_reduction false f a = Ok r /\ goodz r /\ lin r f a /\
    (forall x, In x (map fst (terms r)) -> In x (map fst (terms f)) \/ In x (map fst (terms a))) /\
    forall x, In x (map fst (terms r)) -> mlt t o n x m.
Proof.
  intros [Hf Nf] [Ha Na] (c & f' & Ef) (d & a' & Ea).
  destruct (hd_mono f m Hf) as [Mm Pm]; [exists c, f'; exact Ef|].
  destruct (c14 false f a m c f' m d a') as (r & k1 & k2 & u & E & SR & V & K1 & _ & Lu & Hu & S & _ & Bel);
    [apply Hf|apply Ha|apply goodz_same; assumption|exact Ef|exact Ea| | |].
  - split; [right; reflexivity|]. split; [reflexivity|]. intro; lia.
  - split; [|discriminate]. rewrite Pm. apply Ha.
  - exists r. split; [exact E|].
    assert (S' : forall w, coef (terms r) w = k1 * coef (terms f) w + (- k2) * coef (terms a) w).
    2:{ destruct (lin_good f a r k1 (- k2) Hf Ha V SR S') as [X Y]. split; [exact X|]. split; [exists k1, (- k2); auto|]. split; [exact Y|].
        intros x Ix. destruct (goodz_mono r x X Ix) as [Mx _]. split; [exact Mx|]. split; [exact Mm|].
        apply in_map_iff in Ix as (y & <- & Iy). unfold all_below in Bel. rewrite Forall_forall in Bel. specialize (Bel y Iy).
        destruct Hf as (_ & (_ & T2 & T3) & _). rewrite T2, T3 in Bel. apply (cmp1_spec t o); [eapply mono_size; eassumption|exact Bel]. }
    intro w. rewrite S. assert (Eu : u = repeat 0%nat n).
    { apply mprod_cancel in Hu; [|destruct Mm as [Lm _]; rewrite Lu, Lm; apply Hf]. destruct Mm as [Lm _]. now rewrite Lm in Hu. }
    rewrite Eu, (shift_unit n); [ring|]. assert (Ca := goodz_canon _ Ha). apply canonical_iff in Ca. tauto.
Qed.

Lemma good_redMaybe f a m v : good f -> good a -> hd f m -> hd a v -> cmp1 t o m v = 1 ->
  exists r, p_redMaybe false f a = Ok r /\ good r /\ hd r m /\ lin r f a /\
    forall x, In x (map fst (terms r)) -> In x (map fst (terms f)) \/ In x (map fst (terms a)).
Proof.
  intros [Hf Nf] [Ha Na] Hm Hv C. destruct Hv as (d & a' & Ea). assert (Hv : hd a v) by (exists d, a'; exact Ea).
  destruct (c16_redMaybe false f a v d a') as (r & k1 & k2 & E & SR & V & K1 & S & _);
    [apply Hf|apply Ha|apply goodz_same; assumption|exact Nf|exact Ea|apply Hf|apply Ha|].
  destruct (lin_good f a r k1 (- k2) Hf Ha V SR) as [Hr Inc]; [intro w; rewrite S; ring|].
  destruct (hd_mono f m Hf Hm) as [Mm _]. destruct (hd_mono a v Ha Hv) as [Mv _].
  assert (Ir : In m (map fst (terms r))).
  { apply coef_nz_in. rewrite S. assert (Za : coef (terms a) m = 0).
    { apply coef_notin. intro I. destruct (hd_below a v m Ha Hv I) as [->|C'].
      - rewrite cmp1_refl in C. lia.
      - rewrite cmp1_antisym in C' by (eapply mono_size; eassumption). lia. }
    rewrite Za. assert (X := in_coef f m Hf (hd_in _ _ Hm)). nia. }
  assert (Hr' : hd r m).
  { apply hd_char; [exact Hr|exact Ir|]. intros x I. destruct (Inc x I) as [I'|I'].
    - apply (hd_below f); assumption.
    - right. destruct (hd_below a v x Ha Hv I') as [->|C']; [exact C|].
      destruct (goodz_mono a x Ha I') as [Mx _]. eapply cmp1_trans; [eapply mono_size; [exact Mm|exact Mv]|eapply mono_size; [exact Mv|exact Mx]|exact C|exact C']. }
  exists r. split; [exact E|]. split; [split; [exact Hr|eapply hd_nz; exact Hr']|]. split; [exact Hr'|]. split; [|exact Inc].
  exists k1, (- k2). split; [exact K1|]. intro w. rewrite S. ring.
Qed.

Lemma good_pp p m : good p -> hd p m -> exists r, p_pp false p = Ok r /\ good r /\ hd r m /\ (forall K, rational_member n K (terms r) -> rational_member n K (terms p)) /\ map fst (terms r) = map fst (terms p).
Proof.
  intros [Hp Np] Hm. destruct (p_pp_ok false p (proj1 Hp)) as (r & g & E & C & V & Hg & Mf & F & _).
  assert (SR : same_ring p r) by (apply comparable_same_ring; exact C).
  assert (Hr : goodz r).
  { split; [exact V|]. split; [destruct Hp as (_ & (A1 & A2 & A3) & _), SR as (S1 & S2 & S3); split; [|split]; congruence|]. split.
    - destruct Hp as (_ & _ & R & _). unfold ring_poly in *. rewrite Forall_forall in *. intros [u c] I.
      assert (I' : In u (map fst (terms p))) by (rewrite <- Mf; apply in_map_iff; exists (u, c); auto).
      apply in_map_iff in I' as ([u' c'] & E' & I'). cbn [fst] in *. subst u'. exact (R _ I').
    - destruct Hp as (_ & _ & _ & M). eapply mem_div; [exact Hg|exact M|exact F]. }
  assert (Hd : hd r m).
  { destruct Hm as (c & l & El). rewrite El in Mf. destruct (terms r) as [|[u d] l'] eqn:Er; [discriminate|].
    cbn [map fst] in Mf. injection Mf as -> _. exists d, l'. exact Er. }
  exists r. split; [exact E|]. split; [split; [exact Hr|eapply hd_nz; exact Hd]|]. split; [exact Hd|]. split; [|exact Mf].
  intros K M. eapply (mem_lin _ _ (terms r) [] _ g 0); [exact M|apply mem_zero; reflexivity|]. intro x. rewrite F. cbn. ring.
Qed.

Lemma shift_var k p : (k < n)%nat -> goodz p ->
  map (fun x => (mul_var k (fst x), snd x)) (terms p) = shift (incr k (repeat 0%nat n)) (terms p).
Proof.
  intros K H. unfold shift. apply map_ext_in. intros [x c] I. cbn [fst snd]. f_equal.
  destruct (goodz_mono p x H) as [[L _] _]; [apply in_map_iff; exists (x, c); auto|].
  unfold mul_var, mprod. cbn [pos vars]. change (-1 =? -1) with true. cbn iota. f_equal. rewrite vsum_addv.
  rewrite addv_comm. clear -L K. rewrite <- L in K |- *. generalize (vars x) K. clear. intro l. revert k.
  induction l as [|y l IH]; intros k K; [cbn in K; lia|]. cbn [length] in *. destruct k as [|k].
  - cbn. f_equal; [lia|]. now rewrite addv_zero.
  - cbn. rewrite Nat.add_0_r. f_equal. apply IH. lia.
Qed.

Lemma good_mul_var k p m : (k < n)%nat -> good p -> hd p m -> exists r, p_mul_var false k p = Ok r /\ good r /\ hd r (mul_var k m).
Proof.
  intros K [Hp Np] Hm. destruct (c09_mul_var false k p) as (r & E & (S1 & S2 & S3) & V & _); [apply Hp|destruct Hp as (_ & (A & _) & _); lia|].
  assert (Er : terms r = map (fun x => (mul_var k (fst x), snd x)) (terms p)).
  { unfold p_mul_var, checked, assert_ in E. cbn [andb] in E. injection E as <-. reflexivity. }
  exists r. split; [exact E|]. destruct Hm as (c & l & El).
  assert (Hd : hd r (mul_var k m)) by (exists c; eexists; rewrite Er, El; reflexivity).
  split; [|exact Hd]. split; [|eapply hd_nz; exact Hd].
  split; [exact V|]. split; [destruct Hp as (_ & (A1 & A2 & A3) & _); split; [|split]; congruence|].
  rewrite Er, (shift_var k p K Hp). split; [apply ring_shift; apply Hp|].
  apply mem_shift; [rewrite incr_length; apply repeat_length|apply Hp].
Qed.

(* ------------------------------------------------------------------------------------------ *)
(** * Looking up reducers *)

Definition GM : list term -> Prop := fun l => ring_poly l /\ rational_member n G l.

(** The elements of the basis. *)
Definition GT (T : list entry) : list term -> Prop := fun l => GM l /\ exists e, In e T /\ terms (snd e) = l.

Record tinv (J : janet) (T : list entry) : Prop := {
  ti_inv : jinv n (jroot J);
  ti_size : jsize J = length (wraps (jroot J));
  ti_pos : Forall (fun u => pos (wlm u) = -1) (wraps (jroot J));
  ti_perm : Permutation (map wlm (wraps (jroot J))) (map fst T);
  ti_good : Forall (fun e => good (snd e) /\ hd (snd e) (fst e)) T }.

Lemma same_key_spec a b : length (vars a) = length (vars b) -> (same_key a b = true <-> a = b).
Proof.
  intro L. unfold same_key. rewrite andb_true_iff, Z.eqb_eq, eqv_spec by exact L. destruct a, b. cbn. split; [intros [-> ->]; reflexivity|].
  intro E. injection E as -> ->. auto.
Qed.

Lemma lookup_in (T : list entry) k p : (forall e, In e T -> length (vars (fst e)) = n) -> length (vars k) = n -> NoDup (map fst T) ->
  In (k, p) T -> lookup T k = Some p.
Proof.
  intros L Lk ND I. induction T as [|[k' p'] T IH]; [destruct I|]. cbn [lookup]. cbn [map fst] in ND. apply NoDup_cons_iff in ND as [NI ND].
  assert (L' : length (vars k') = n) by (apply (L (k', p')); left; reflexivity).
  destruct (same_key k' k) eqn:E.
  - apply same_key_spec in E; [|congruence]. subst k'. destruct I as [I|I]; [congruence|]. exfalso. apply NI. apply in_map_iff. exists (k, p). auto.
  - destruct I as [I|I]; [|apply IH; auto; intros; apply L; right; assumption].
    injection I as -> ->. assert (X : same_key k k = true) by (apply same_key_spec; reflexivity). congruence.
Qed.

Lemma tinv_len J T e : tinv J T -> In e T -> length (vars (fst e)) = n /\ pos (fst e) = -1.
Proof.
  intros H I. destruct H as [_ _ _ _ H]. rewrite Forall_forall in H. destruct (H e I) as [[Hg _] Hd].
  destruct (hd_mono _ _ Hg Hd) as [[L _] P]. auto.
Qed.
Lemma tinv_nd J T : tinv J T -> NoDup (map fst T).
Proof.
  intros [Ji _ _ P _]. eapply Permutation_NoDup; [exact P|]. assert (N := ji_nd _ _ Ji). unfold lms in N.
  assert (E : map lv (wraps (jroot J)) = map vars (map wlm (wraps (jroot J)))) by (rewrite map_map; reflexivity).
  rewrite E in N. eapply NoDup_map_inv; exact N.
Qed.

Lemma find_wrap_ok J m : jinv n (jroot J) -> mono n m ->
  exists r, find_wrap false (-1) (Some [J]) m = Ok r /\
    match r with
    | Some u => pos m = -1 /\ In u (wraps (jroot J)) /\ janet_divides n (lms (wraps (jroot J))) (lv u) (vars m)
    | None => pos m = -1 -> forall u, ~ janet_divides n (lms (wraps (jroot J))) u (vars m)
    end.
Proof.
  intros Ji [L P]. unfold find_wrap. destruct (Z.ltb_spec (-1) (pos m)).
  - exists None. split; [reflexivity|]. intro; lia.
  - assert (E : pos m = -1) by lia. rewrite E. unfold tree_at. cbn [Z.ltb Z.compare Z.add Z.to_nat nth_error bind].
    change (-1 <? -1) with false. cbn iota.
    destruct (find_janet false n (jroot J) m Ji Hn L) as (r & Er & R); [apply Forall_forall; intros u _ X; discriminate|].
    exists r. split; [exact Er|]. destruct r as [u|]; [destruct R; auto|intros _; exact R].
Qed.

Lemma find_poly_ok J T m : tinv J T -> mono n m ->
  exists w, find_poly false (-1) (Some [J]) T m = Ok w /\
    match w with
    | Some a => exists k, In (k, a) T /\ good a /\ hd a k /\ pos m = -1 /\ janet_divides n (lms (wraps (jroot J))) (vars k) (vars m)
    | None => pos m = -1 -> forall u, ~ janet_divides n (lms (wraps (jroot J))) u (vars m)
    end.
Proof.
  intros H Hm. unfold find_poly. destruct (find_wrap_ok J m (ti_inv _ _ H) Hm) as (r & -> & R). cbn [bind].
  destruct r as [u|]; [|exists None; auto]. destruct R as (Pm & Iu & D).
  assert (I : In (wlm u) (map fst T)) by (eapply Permutation_in; [apply (ti_perm _ _ H)|apply in_map; exact Iu]).
  apply in_map_iff in I as ([k a] & Ek & I). cbn [fst] in Ek. subst k.
  rewrite (lookup_in T (wlm u) a); [|intros e Ie; apply (tinv_len J T e H Ie)|apply (tinv_len J T (wlm u, a) H I)|apply (tinv_nd J T H)|exact I].
  exists (Some a). split; [reflexivity|]. exists (wlm u). split; [exact I|]. assert (Hg := ti_good _ _ H). rewrite Forall_forall in Hg.
  destruct (Hg _ I) as [Ga Ha]. auto.
Qed.

Lemma janet_div_mdiv U u m v : janet_divides n U u (vars m) -> pos m = -1 -> length (vars m) = n -> vars v = u -> length u = n -> pos v = -1 ->
  mdivides v m.
Proof.
  intros (_ & D & _) Pm Lm Ev Lu Pv. split; [left; exact Pv|]. split; [congruence|]. intro i. rewrite Ev.
  destruct (Nat.lt_ge_cases i n) as [Hi|Hi]; [apply D; exact Hi|]. rewrite expo_ge by lia. lia.
Qed.

Lemma good_find_T J T : tinv J T -> good_find false t o n (GT T) (find_poly false (-1) (Some [J]) T).
Proof.
  intros H m Hm. destruct (find_poly_ok J T m H Hm) as (w & E & W). exists w. split; [exact E|]. intros a ->.
  destruct W as (k & I & [Ga Na] & (d & a' & Ea) & Pm & D).
  assert (Hk : hd a k) by (exists d, a'; exact Ea). destruct (hd_mono a k Ga Hk) as [[Lk _] Pk].
  destruct Ga as (V & (S1 & S2 & S3) & R & M).
  split; [exact V|]. split; [exact S1|]. split; [exact S2|]. split; [exact S3|]. split; [split; [split; assumption|exists (k, a); auto]|].
  split; [split; [rewrite Pm; exact R|discriminate]|]. exists k, d, a'. split; [exact Ea|].
  eapply janet_div_mdiv; try eassumption; [exact (proj1 Hm)|reflexivity].
Qed.

(* ------------------------------------------------------------------------------------------ *)
(** * Normal forms *)

Section S.
Variable SS : list term -> Prop.
Hypothesis HSS : forall g, SS g -> GM g.
Lemma congruent_goodz f r : goodz f -> pvalid r -> inring t o n r -> congruent n SS (terms f) (terms r) -> goodz r.
Proof.
  intros (_ & _ & R & M) V I C. split; [exact V|]. split; [exact I|].
  assert (Cr : canonical t o n (terms r)) by (destruct I as (A1 & A2 & A3); unfold pvalid, valid_poly in V; congruence).
  split.
  - eapply congruent_ring; [|exact R|exact Cr|exact C]. intros g Hg. apply (HSS g Hg).
  - eapply mem_congruent; [|exact M|exact C]. intros g Hg. apply (HSS g Hg).
Qed.

Lemma nf_ok_or_fuel find : good_find false t o n SS find -> forall fuel f r0, pvalid f -> inring t o n f ->
  nf_loop fuel false find r0 f = OutOfFuel \/ exists r k, nf_loop fuel false find r0 f = Ok (r, k).
Proof.
  intros F. induction fuel as [|fuel IH]; intros f r0 V I; cbn [nf_loop]; destruct (terms f) as [|[m c] l] eqn:E;
    try (right; eauto; fail).
  - destruct (F m) as (w & -> & _); [|cbn [bind]; destruct w; eauto].
    apply canonical_iff in V as (_ & M & _). rewrite E in M. apply Forall_inv in M. destruct I as (<- & _). exact M.
  - destruct (F m) as (w & Ew & _); [|rewrite Ew; cbn [bind]; destruct w as [a|]; [|eauto]].
    + apply canonical_iff in V as (_ & M & _). rewrite E in M. apply Forall_inv in M. destruct I as (<- & _). exact M.
    + destruct (nf_step false t o n SS find F f m c l a V I E Ew) as (r & -> & Vr & Ir & _ & _). cbn [bind]. apply IH; assumption.
Qed.

Lemma nf_safe find fuel p : good_find false t o n SS find -> goodz p ->
  safe (fun r => goodz (fst r) /\ congruent n SS (terms p) (terms (fst r)) /\ (terms (fst r) = [] \/ exists m, hd (fst r) m /\ find m = Ok None)) (p_nf fuel false find p).
Proof.
  intros F H. unfold p_nf. destruct H as (V & I & R & M).
  destruct (nf_ok_or_fuel find F fuel p 0%nat V I) as [->|(r & k & E)]; [exact Logic.I|].
  rewrite E. cbn [safe fst]. destruct (nf_partial false t o n SS find F fuel p 0%nat r k V I E) as (Vr & Ir & C & D).
  split; [apply (congruent_goodz p); try assumption; split; [|split; [|split]]; assumption|]. split; [exact C|].
  destruct D as [D|(m & c & l & Er & N)]; [left; exact D|right]. exists m. split; [exists c, l; exact Er|exact N].
Qed.

Lemma mono_of_valid f pre m c rest : pvalid (with_terms f (pre ++ (m, c) :: rest)) -> inring t o n f -> mono n m.
Proof.
  intros V (A & _). apply canonical_iff in V as (_ & M & _). cbn [with_terms terms psize] in M. apply Forall_app in M as [_ M].
  apply Forall_inv in M. rewrite A in M. exact M.
Qed.

(** nfTail only asks for monomials below the leading one. *)
Lemma nft_ext find find' lm : good_find false t o n SS find -> (forall m, mono n m -> cmp1 t o lm m = 1 -> find' m = find m) ->
  forall fuel f pre rest r0, pvalid (with_terms f (pre ++ rest)) -> inring t o n f -> head_mon pre = Some lm ->
  nft_loop fuel false find' r0 f pre rest = nft_loop fuel false find r0 f pre rest.
Proof.
  intros F E. induction fuel as [|fuel IH]; intros f pre rest r0 V I Hd; cbn [nft_loop]; [reflexivity|].
  destruct rest as [|[m c] rest]; [reflexivity|].
  assert (Hm : mono n m) by (eapply mono_of_valid; eassumption).
  assert (B : cmp1 t o lm m = 1).
  { destruct pre as [|[u d] pre]; [discriminate|]. cbn [head_mon fst] in Hd. injection Hd as ->.
    apply canonical_iff in V as (S & _ & _). cbn [with_terms terms pto pbo] in S. destruct I as (_ & A2 & A3). rewrite A2, A3 in S.
    apply (sorted_below t o) in S as [B _]. unfold below in B. rewrite Forall_forall in B. apply (B (m, c)). apply in_or_app. right. left. reflexivity. }
  rewrite (E m Hm B). destruct (F m Hm) as (w & Ew & _). rewrite Ew. cbn [bind]. destruct w as [a|].
  - destruct (nft_step false t o n SS find F f pre m c rest a V I Ew) as (k1 & l & K & -> & V' & _ & _). cbn [bind].
    apply IH; [exact V'|exact I|]. rewrite head_scale. exact Hd.
  - apply IH; [rewrite <- app_assoc; exact V|exact I|]. destruct pre; [discriminate|exact Hd].
Qed.

Lemma nft_ok_or_fuel find : good_find false t o n SS find -> forall fuel f pre rest r0, pvalid (with_terms f (pre ++ rest)) -> inring t o n f ->
  nft_loop fuel false find r0 f pre rest = OutOfFuel \/ exists r k, nft_loop fuel false find r0 f pre rest = Ok (r, k).
Proof.
  intros F. induction fuel as [|fuel IH]; intros f pre rest r0 V I; cbn [nft_loop]; destruct rest as [|[m c] rest]; try (right; eauto; fail); [left; reflexivity|].
  assert (Hm : mono n m) by (eapply mono_of_valid; eassumption).
  destruct (F m Hm) as (w & Ew & _). rewrite Ew. cbn [bind]. destruct w as [a|].
  - destruct (nft_step false t o n SS find F f pre m c rest a V I Ew) as (k1 & l & K & -> & V' & _ & _). cbn [bind]. apply IH; assumption.
  - apply IH; [rewrite <- app_assoc; exact V|exact I].
Qed.

Lemma with_same p : with_terms p (terms p) = p.
Proof. destruct p. reflexivity. Qed.

Lemma nft_safe find find' fuel p lm : good_find false t o n SS find -> good p -> hd p lm ->
  (forall m, mono n m -> cmp1 t o lm m = 1 -> find' m = find m) ->
  safe (fun r => good (fst r) /\ hd (fst r) lm /\ congruent n SS (terms p) (terms (fst r)) /\ forall x, In x (tl (map fst (terms (fst r)))) -> find x = Ok None) (p_nfTail fuel false find' p).
Proof.
  intros F [H N] Hd E. unfold p_nfTail. destruct H as (V & I & R & M). destruct Hd as (c & l & El). rewrite El.
  assert (V' : pvalid (with_terms p ([(lm, c)] ++ l))) by (cbn [app]; rewrite <- El, with_same; exact V).
  rewrite (nft_ext find find' lm F E fuel p [(lm, c)] l 0%nat V' I eq_refl).
  destruct (nft_ok_or_fuel find F fuel p [(lm, c)] l 0%nat V' I) as [->|(r & k & Er)]; [exact Logic.I|].
  rewrite Er. cbn [safe fst].
  destruct (nft_partial false t o n SS find F fuel p [(lm, c)] l 0%nat r k) as (Vr & Ir & C & Pa & Hh);
    [discriminate|exact V'|exact I|constructor|exact Er|].
  assert (Hr : hd r lm).
  { cbn in Hh. destruct (terms r) as [|[u d] l'] eqn:Et; [discriminate|]. cbn in Hh. injection Hh as ->. exists d, l'. exact Et. }
  split; [split; [|eapply hd_nz; exact Hr]|split; [exact Hr|split; [first [exact C|rewrite <- El in C; exact C|cbn [app with_terms terms] in C; exact C]|]]].
  - apply (congruent_goodz p); [split; [|split; [|split]]; assumption|exact Vr|exact Ir|]. rewrite El. exact C.
  - destruct Hr as (d & l' & Et). rewrite Et in *. cbn [map tl]. cbn in Pa. intros x Ix. apply in_map_iff in Ix as (y & <- & Iy).
    rewrite Forall_forall in Pa. exact (Pa _ Iy).
Qed.
End S.

(* ------------------------------------------------------------------------------------------ *)
(** * Stores into the elements of the tree *)

Definition kp (u u' : wrap) : Prop := wlm u' = wlm u /\ wanc u' = wanc u /\ wnm u' = wnm u /\ (okw n u -> okw n u').
Lemma kp_refl u : kp u u.
Proof. repeat split; auto; apply H. Qed.
Lemma kp_lms l l' : Forall2 kp l l' -> lms l' = lms l.
Proof. induction 1 as [|a b l l' (H & _) _ IH]; unfold lms in *; cbn [map]; [reflexivity|]. rewrite IH. unfold lv. now rewrite H. Qed.
Lemma kp_wlms l l' : Forall2 kp l l' -> map wlm l' = map wlm l.
Proof. induction 1 as [|a b l l' (H & _) _ IH]; cbn [map]; [reflexivity|]. rewrite IH. now rewrite H. Qed.

Lemma kp_wf v r r' : trel kp r r' -> wf n v r -> wf n v r'.
Proof.
  intros T; revert v; induction T as [|d ow ow' nd nd' nv nv' H T1 IH1 T2 IH2]; intros v W; [exact I|].
  cbn [wf] in *. destruct W as (Hv & A & K & B & C & D & Wd & Wv).
  pose proof (trel_wraps _ _ _ T1) as F1. pose proof (trel_wraps _ _ _ T2) as F2.
  split; [auto|]. split; [|split; [|split; [|split; [|split; [|split; auto]]]]].
  - intros u' ->. destruct ow as [u|]; [|destruct H]. destruct H as (E & _). unfold lv. rewrite E. apply A; auto.
  - intros ->. destruct ow; [destruct H|]. specialize (K eq_refl). inversion T2; subst; [congruence|discriminate].
  - intros u' I. destruct (Forall2_in_r _ _ _ _ F2 I) as (u & Iu & E & _). unfold lv. rewrite E. apply B; auto.
  - intros u' I. destruct (Forall2_in_r _ _ _ _ F1 I) as (u & Iu & E & _). unfold lv. rewrite E. apply C; auto.
  - inversion T1; subst; auto.
Qed.

Lemma kp_flags v r r' : trel kp r r' -> flagsT n v r -> flagsT n v r'.
Proof.
  intros T; revert v; induction T as [|d ow ow' nd nd' nv nv' H T1 IH1 T2 IH2]; intros v W; [exact I|].
  cbn [flagsT] in *. destruct W as (A & B & C & D).
  pose proof (trel_wraps _ _ _ T2) as F2.
  assert (NN : nd <> Nil <-> nd' <> Nil) by (inversion T1; subst; split; congruence).
  assert (FE : forall u u' i, kp u u' -> fl u' i = fl u i) by (intros u u' i (_ & _ & E & _); unfold fl; now rewrite E).
  split; [|split; [|split; auto]].
  - intros u' ->. destruct ow as [u|]; [|destruct H]. destruct (A u eq_refl) as (A1 & A2). rewrite (FE _ _ _ H), <- NN.
    split; auto. intros i Hi1 Hi2. rewrite (FE _ _ _ H), (A2 i Hi1 Hi2), (kp_lms _ _ F2).
    destruct H as (E & _). unfold lv. rewrite E. tauto.
  - intros u' I. destruct (Forall2_in_r _ _ _ _ F2 I) as (u & Iu & E). rewrite (FE _ _ _ E), <- NN. auto.
Qed.

Lemma kp_jinv r r' : trel kp r r' -> jinv n r -> jinv n r'.
Proof.
  intros R [W F O N]. assert (F2 := trel_wraps _ _ _ R). split.
  - eapply kp_wf; eassumption.
  - eapply kp_flags; eassumption.
  - apply Forall_forall. intros u' I. destruct (Forall2_in_r _ _ _ _ F2 I) as (u & Iu & (_ & _ & _ & E)). apply E.
    rewrite Forall_forall in O. auto.
  - rewrite (kp_lms _ _ F2). exact N.
Qed.

Lemma upd_trel f m r : (forall u, In u (wraps r) -> same_key (wlm u) m = true -> kp u (f u)) -> trel kp r (upd_tree f m r).
Proof.
  induction r as [|d ow nd IHd nv IHv]; intro H; cbn [upd_tree]; [constructor|]. cbn [wraps] in H.
  constructor; [|apply IHd; intros; apply H; auto; rewrite !in_app_iff; auto|apply IHv; intros; apply H; auto; rewrite !in_app_iff; auto].
  destruct ow as [u|]; [|exact I]. destruct (same_key (wlm u) m) eqn:E; [|apply kp_refl]. apply H; [|exact E]. rewrite !in_app_iff. cbn. auto.
Qed.
Lemma upd_in f m r u : In u (wraps r) -> same_key (wlm u) m = true -> In (f u) (wraps (upd_tree f m r)).
Proof.
  induction r as [|d ow nd IHd nv IHv]; intros I E; cbn [upd_tree wraps] in *; [destruct I|].
  rewrite !in_app_iff in *. destruct I as [I|[I|I]]; auto.
  left. destruct ow as [v|]; [|destruct I]. destruct I as [->|[]]. rewrite E. cbn. auto.
Qed.

Lemma tinv_kp J r T : tinv J T -> trel kp (jroot J) r -> tinv (JT (jsize J) r) T.
Proof.
  intros [A B C D E] R. assert (F2 := trel_wraps _ _ _ R). split; cbn [jroot jsize].
  - eapply kp_jinv; eassumption.
  - rewrite B. clear -F2. induction F2; cbn; congruence.
  - apply Forall_forall. intros u' I. destruct (Forall2_in_r _ _ _ _ F2 I) as (u & Iu & (El & _)). rewrite El. rewrite Forall_forall in C. auto.
  - rewrite (kp_wlms _ _ F2). exact D.
  - exact E.
Qed.

Lemma tinv_perm J T T' : tinv J T -> Permutation T T' -> tinv J T'.
Proof.
  intros [A B C D E] P. split; auto.
  - eapply perm_trans; [exact D|]. apply Permutation_map. exact P.
  - eapply Permutation_Forall; eassumption.
Qed.

(** The wrap with leading monomial (wlm w) is w. *)
Lemma tinv_key J T u w : tinv J T -> In u (wraps (jroot J)) -> In w (wraps (jroot J)) -> same_key (wlm u) (wlm w) = true -> u = w.
Proof.
  intros H Iu Iw E. assert (Ji := ti_inv _ _ H). assert (O := ji_ok _ _ Ji). rewrite Forall_forall in O.
  apply same_key_spec in E; [|destruct (O u Iu) as [L1 _], (O w Iw) as [L2 _]; unfold lv in *; congruence].
  assert (N := ji_nd _ _ Ji). unfold lms in N. assert (El : lv u = lv w) by (unfold lv; now rewrite E).
  clear -Iu Iw N El. induction (wraps (jroot J)) as [|x l IH]; [destruct Iu|]. cbn [map] in N. apply NoDup_cons_iff in N as [NI N].
  destruct Iu as [->|Iu], Iw as [->|Iw]; auto.
  - exfalso. apply NI. rewrite El. apply in_map. exact Iw.
  - exfalso. apply NI. rewrite <- El. apply in_map. exact Iu.
Qed.

Lemma store_ok J T w w' : tinv J T -> In w (wraps (jroot J)) -> kp w w' ->
  exists J', upd_trees (fun _ => w') (wlm w) [J] = [J'] /\ tinv J' T /\ In w' (wraps (jroot J')).
Proof.
  intros H I K. eexists. split; [reflexivity|].
  assert (R : trel kp (jroot J) (upd_tree (fun _ => w') (wlm w) (jroot J))).
  { apply upd_trel. intros u Iu E. rewrite (tinv_key J T u w H Iu I E). exact K. }
  split; [apply tinv_kp; assumption|]. cbn [jroot]. apply (upd_in (fun _ => w') (wlm w) (jroot J) w I).
  apply same_key_spec; reflexivity.
Qed.

(* ------------------------------------------------------------------------------------------ *)
(** * Sorted lists of polynomials *)

Definition plm (u : wpoly) : monom := match terms (wpol u) with (m, _) :: _ => m | [] => Mon (-1) [] end.
Definition okq (u : wpoly) : Prop :=
  good (wpol u) /\ okw n (wwrap u) /\ pos (wlm (wwrap u)) = -1 /\ forall i, (i < n)%nat -> fl (wwrap u) i = false.
Definition le (a b : wpoly) : Prop := cmp1 t o (plm a) (plm b) <> 1.
Definition lt (a b : wpoly) : Prop := cmp1 t o (plm b) (plm a) = 1.

Lemma plm_hd u : good (wpol u) -> hd (wpol u) (plm u).
Proof. intros [_ N]. unfold plm. destruct (terms (wpol u)) as [|[m c] l] eqn:E; [congruence|]. exists c, l. exact E. Qed.
Lemma plm_eq u m : hd (wpol u) m -> plm u = m.
Proof. intros (c & l & E). unfold plm. now rewrite E. Qed.
Lemma plm_mono u : good (wpol u) -> mono n (plm u) /\ pos (plm u) = -1.
Proof. intro H. apply (hd_mono (wpol u)); [apply H|apply plm_hd; exact H]. Qed.
Lemma plm_size u v : good (wpol u) -> good (wpol v) -> size (plm u) = size (plm v).
Proof. intros H K. eapply mono_size; [apply plm_mono; exact H|apply plm_mono; exact K]. Qed.
Lemma lm_plm dbg u : good (wpol u) -> p_lm dbg (wpol u) = Ok (plm u).
Proof. intro H. apply hd_lm, plm_hd, H. Qed.
Lemma cmp_plm dbg u v : good (wpol u) -> good (wpol v) -> p_cmp dbg (wpol u) (wpol v) = Ok (cmp1 t o (plm u) (plm v)).
Proof.
  intros H K. unfold p_cmp. rewrite (lm_plm dbg u H), (lm_plm dbg v K). cbn [bind]. destruct H as [(_ & (_ & -> & ->) & _) _]. reflexivity.
Qed.

Lemma le_cases u v : good (wpol u) -> good (wpol v) -> le u v -> lt u v \/ plm u = plm v.
Proof.
  intros H K L. unfold le, lt in *. assert (S := plm_size u v H K). destruct (cmp1_range t o (plm u) (plm v)) as [E|[E|E]]; [congruence| |].
  - right. apply cmp1_eq in E; assumption.
  - left. rewrite (cmp1_antisym t o (plm u) (plm v) S), E. reflexivity.
Qed.
Lemma lt_le u v : good (wpol u) -> good (wpol v) -> lt u v -> le u v.
Proof. intros H K. unfold lt, le. rewrite (cmp1_antisym t o (plm u) (plm v)) by (apply plm_size; assumption). lia. Qed.
Lemma lt_trans u v w : good (wpol u) -> good (wpol v) -> good (wpol w) -> lt u v -> lt v w -> lt u w.
Proof.
  intros A B C L1 L2. unfold lt in *. eapply cmp1_trans; [| |exact L2|exact L1]; apply plm_size; assumption.
Qed.
Lemma le_lt u v w : good (wpol u) -> good (wpol v) -> good (wpol w) -> le u v -> lt v w -> lt u w.
Proof. intros A B C L1 L2. destruct (le_cases u v A B L1) as [L|E]; [eapply lt_trans; [| |exact C|exact L|exact L2]; assumption|]. unfold lt in *. now rewrite E. Qed.
Lemma lt_le_trans u v w : good (wpol u) -> good (wpol v) -> good (wpol w) -> lt u v -> le v w -> lt u w.
Proof. intros A B C L1 L2. destruct (le_cases v w B C L2) as [L|E]; [eapply lt_trans; [| |exact C|exact L1|exact L]; assumption|]. unfold lt in *. now rewrite <- E. Qed.
Lemma le_trans u v w : good (wpol u) -> good (wpol v) -> good (wpol w) -> le u v -> le v w -> le u w.
Proof.
  intros A B C L1 L2. destruct (le_cases u v A B L1) as [L|E]; [|unfold le in *; now rewrite E].
  apply lt_le; try assumption. eapply lt_le_trans; [| |exact C|exact L|exact L2]; assumption.
Qed.
Lemma lt_neq u v : lt u v -> plm u <> plm v.
Proof. unfold lt. intros L E. rewrite E, cmp1_refl in L. lia. Qed.

Definition gw (u : wpoly) : Prop := good (wpol u).

Lemma place_ok dbg w : gw w -> forall l, Forall gw l ->
  exists l', place dbg l w = Ok l' /\ Permutation l' (w :: l) /\ (StronglySorted le l -> StronglySorted le l').
Proof.
  intro Hw. induction l as [|u l IH]; intro F; cbn [place].
  - exists [w]. split; [reflexivity|]. split; [reflexivity|]. intros _. repeat constructor.
  - assert (Hu := Forall_inv F). apply Forall_inv_tail in F. unfold gw in *. rewrite (cmp_plm dbg w u Hw Hu). cbn [bind].
    destruct (IH F) as (r & Er & Pr & Sr). destruct (Z.ltb_spec 0 (cmp1 t o (plm w) (plm u))) as [C|C].
    + rewrite Er. cbn [bind]. exists (u :: r). split; [reflexivity|]. split; [rewrite Pr; apply perm_swap|].
      intro S. apply StronglySorted_inv in S as [S Fu]. constructor; [auto|].
      eapply Permutation_Forall; [apply Permutation_sym; exact Pr|]. constructor; [|exact Fu].
      apply lt_le; [exact Hu|exact Hw|]. unfold lt. destruct (cmp1_range t o (plm w) (plm u)) as [X|[X|X]]; lia.
    + exists (w :: u :: l). split; [reflexivity|]. split; [reflexivity|]. intro S. constructor; [exact S|].
      assert (L : le w u) by (unfold le; lia). constructor; [exact L|]. apply StronglySorted_inv in S as [_ Fu].
      rewrite Forall_forall in *. intros v Iv. eapply le_trans; [exact Hw|exact Hu|apply F; exact Iv|exact L|apply Fu; exact Iv].
Qed.
Lemma insert_w dbg l w : gw w -> Forall gw l ->
  exists l', jp_insert dbg l w = Ok l' /\ Permutation l' (w :: l) /\ (StronglySorted le l -> StronglySorted le l').
Proof.
  intros Hw F. unfold jp_insert, assert_. replace (is_zero (wpol w)) with false by (unfold is_zero; destruct Hw as [_ N]; destruct (terms (wpol w)); congruence).
  rewrite andb_false_r. apply place_ok; assumption.
Qed.

Lemma okq_gw l : Forall okq l -> Forall gw l.
Proof. apply Forall_impl. intros u H. apply H. Qed.

(* ------------------------------------------------------------------------------------------ *)
(** * prolong *)

Lemma get_flag_ok dbg l k : length l = n -> (k < n)%nat -> get_flag dbg l k = Ok (nth k l false).
Proof. intros L K. unfold get_flag. rewrite (nth_error_nth' l false) by lia. reflexivity. Qed.
Lemma set_build_ok dbg w k : okw n w -> (k < n)%nat -> exists w', set_build dbg w k = Ok w' /\ kp w w'.
Proof.
  intros (A & B & C & D) K. unfold set_build. destruct (set_at_spec (wbuild w) k) as (l' & E & L & _); [lia|].
  rewrite E. eexists. split; [reflexivity|]. repeat split; cbn; try assumption; try reflexivity; congruence.
Qed.
Lemma fl_repeat m i k : nth i (repeat false k) m = m \/ nth i (repeat false k) m = false.
Proof. revert i. induction k; intros [|i]; cbn; auto. Qed.
Lemma nth_false i k : nth i (repeat false k) false = false.
Proof. destruct (fl_repeat false i k); assumption. Qed.
Lemma okw_new m : length (vars m) = n -> okw n (new_wrap m) /\ forall i, fl (new_wrap m) i = false.
Proof.
  intro L. split; [unfold okw, new_wrap, lv; cbn; rewrite !repeat_length; unfold size; auto|]. intro i. unfold fl, new_wrap. cbn. apply nth_false.
Qed.

Lemma jp_prolong_ok T e : forall cnt k J w q, (k + cnt = n)%nat -> tinv J T -> In w (wraps (jroot J)) ->
  good e -> hd e (wlm w) -> Forall okq q ->
  exists J' q', jp_prolong false (-1) cnt k [J] w e q = Ok ([J'], q') /\ tinv J' T /\ Forall okq q' /\ incl q q'.
Proof.
  induction cnt as [|cnt IH]; intros k J w q K H Iw Ge He Q; cbn [jp_prolong].
  - exists J, q. split; [reflexivity|]. split; [exact H|]. split; [exact Q|apply incl_refl].
  - assert (Ow : okw n w) by (assert (O := ji_ok _ _ (ti_inv _ _ H)); rewrite Forall_forall in O; auto).
    destruct Ow as (O1 & O2 & O3 & O4). rewrite !get_flag_ok by (assumption || lia). cbn [bind].
    destruct (nth k (wnm w) false && negb (nth k (wbuild w) false)) eqn:B.
    2:{ apply IH; try assumption; lia. }
    destruct (set_build_ok false w k) as (w' & Ew & Kw); [repeat split; assumption|lia|].
    destruct (store_ok J T w w' H Iw Kw) as (J1 & E1 & H1 & I1).
    assert (He' : hd e (wlm w')) by (destruct Kw as (-> & _); exact He).
    destruct (hd_mono e (wlm w) (proj1 Ge) He) as [[Lw Pw] Pw'].
    assert (Mm : mono n (mul_var k (wlm w))) by (split; cbn [mul_var vars pos]; [rewrite incr_length; exact Lw|exact Pw]).
    destruct (find_wrap_ok J (mul_var k (wlm w)) (ti_inv _ _ H) Mm) as (d & -> & _). cbn [bind].
    match goal with |- context [if ?b then _ else _] => destruct b end.
    + rewrite Ew. cbn [bind]. rewrite E1. apply IH; try assumption; lia.
    + unfold prolong_wrap. rewrite !get_flag_ok by (assumption || lia). cbn [bind]. unfold assert_. cbn [andb].
      rewrite Ew. cbn [bind].
      destruct (good_mul_var k e (wlm w)) as (pv & -> & Gpv & Hpv); [lia|exact Ge|exact He|]. cbn [bind].
      destruct (insert_w false q (WP (Wrap (mul_var k (wlm w)) (wanc w) (repeat false (size (wlm w))) (repeat false (size (wlm w))) (repeat false (size (wlm w)))) pv))
        as (q1 & -> & P1 & _); [exact Gpv|apply okq_gw; exact Q|]. cbn [bind]. rewrite E1.
      assert (Q1 : Forall okq q1).
      { eapply Permutation_Forall; [apply Permutation_sym; exact P1|]. constructor; [|exact Q].
        split; [exact Gpv|]. split; [unfold okw, lv, size; cbn; rewrite incr_length, !repeat_length, Lw; auto|]. split; [exact Pw'|].
        intros i Hi. unfold fl. cbn. apply nth_false. }
      destruct (IH (S k) J1 w' q1) as (J' & q' & E & H' & Q' & Inc); try assumption; [lia|].
      exists J', q'. split; [exact E|]. split; [exact H'|]. split; [exact Q'|]. intros x Ix. apply Inc.
      eapply Permutation_in; [apply Permutation_sym; exact P1|right; exact Ix].
Qed.

Lemma get_wrap_ok J T e : tinv J T -> In e T -> exists w, get_wrap [J] (fst e) = Some w /\ In w (wraps (jroot J)) /\ wlm w = fst e.
Proof.
  intros H I. unfold get_wrap. cbn [map concat]. rewrite app_nil_r.
  destruct (List.find (fun u => same_key (wlm u) (fst e)) (wraps (jroot J))) as [w|] eqn:E.
  - apply find_some in E as [Iw E]. exists w. split; [reflexivity|]. split; [exact Iw|]. apply same_key_spec; [|exact E].
    assert (O := ji_ok _ _ (ti_inv _ _ H)). rewrite Forall_forall in O. destruct (O w Iw) as [L _]. destruct (tinv_len J T e H I) as [L' _]. unfold lv in L. congruence.
  - exfalso. assert (X : In (fst e) (map wlm (wraps (jroot J)))).
    { eapply Permutation_in; [apply Permutation_sym; apply (ti_perm _ _ H)|]. apply in_map. exact I. }
    apply in_map_iff in X as (w & Ew & Iw). eapply find_none in E; [|exact Iw]. cbv beta in E. rewrite Ew in E.
    assert (Y : same_key (fst e) (fst e) = true) by (apply same_key_spec; reflexivity). congruence.
Qed.

Lemma prolong_if_ok dg J T e q : tinv J T -> In e T -> Forall okq q ->
  exists J' q', prolong_if false (-1) dg [J] e q = Ok ([J'], q') /\ tinv J' T /\ Forall okq q' /\ incl q q'.
Proof.
  intros H I Q. unfold prolong_if. destruct (deg (fst e) <=? dg)%nat.
  2:{ exists J, q. split; [reflexivity|]. split; [exact H|]. split; [exact Q|apply incl_refl]. }
  unfold prolong_entry. destruct (get_wrap_ok J T e H I) as (w & -> & Iw & Ew).
  assert (Hg := ti_good _ _ H). rewrite Forall_forall in Hg. destruct (Hg e I) as [Ge He].
  apply (jp_prolong_ok T (snd e)); auto; [|rewrite Ew; exact He].
  unfold size. rewrite Ew. apply (tinv_len J T e H I).
Qed.

(* ------------------------------------------------------------------------------------------ *)
(** * The first loop: reduction of a block of mQ *)

Definition memK (K : list term -> Prop) (p : poly) : Prop := rational_member n K (terms p).
Definition memW (K : list term -> Prop) (l : list wpoly) : Prop := Forall (fun u => memK K (wpol u)) l.
Definition memT (K : list term -> Prop) (l : list entry) : Prop := Forall (fun e => memK K (snd e)) l.

(** No monomial of u is Janet-divisible by the tree. *)
Definition irr (J : janet) (u : wpoly) : Prop :=
  forall m, In m (map fst (terms (wpol u))) -> forall v, ~ janet_divides n (lms (wraps (jroot J))) v (vars m).
Definition okt (J : janet) (u : wpoly) : Prop := okq u /\ irr J u.

Lemma find_none_irr J T m : tinv J T -> mono n m -> pos m = -1 -> find_poly false (-1) (Some [J]) T m = Ok None ->
  forall v, ~ janet_divides n (lms (wraps (jroot J))) v (vars m).
Proof.
  intros H Mm Pm E. destruct (find_poly_ok J T m H Mm) as (w & E' & W). rewrite E in E'. injection E' as <-. exact (W Pm).
Qed.

Lemma GT_mem K T : memT K T -> forall g, GT T g -> rational_member n K g.
Proof. intros M g [_ (e & I & <-)]. unfold memT in M. rewrite Forall_forall in M. exact (M e I). Qed.

Lemma deg_zero m : mono n m -> pos m = -1 -> deg m = 0%nat -> m = unit_monom n (-1).
Proof.
  intros [L _] P D. destruct m as [p v]. cbn in *. unfold unit_monom. subst p. f_equal. unfold deg in D. cbn in D.
  revert v L D. clear. induction n as [|k IH]; intros [|x v] L D; cbn in *; try lia; [reflexivity|]. f_equal; [lia|]. apply IH; lia.
Qed.

(** A polynomial of degree 0 is a non-zero constant. *)
Lemma const_member p m : good p -> hd p m -> deg m = 0%nat -> rational_member n G (one n).
Proof.
  intros [Hp Np] Hm D. destruct (hd_mono p m Hp Hm) as [Mm Pm]. assert (E := deg_zero m Mm Pm D). subst m.
  destruct Hm as (c & l & El). assert (Ca := goodz_canon _ Hp). apply canonical_iff in Ca as (S & M & N). rewrite El in *.
  apply (sorted_below t o) in S as [B _]. cbn [fst] in B. destruct l as [|[x d] l].
  - destruct Hp as (_ & _ & _ & Me). rewrite El in Me. apply (mem_div _ _ _ (one n) c) in Me; [exact Me|apply Forall_inv in N; exact N|].
    intro w. unfold one, unit_monom. cbn [coef]. destruct (monom_eq_dec _ w); lia.
  - exfalso. unfold below in B. assert (Bx := Forall_inv B). cbn [fst] in Bx. apply Forall_inv_tail in M. assert (Mx := Forall_inv M). cbn [fst] in Mx.
    destruct (monom_eq_dec x (unit_monom n (-1))) as [->|Ne]; [rewrite cmp1_refl in Bx; lia|].
    rewrite cmp1_antisym in Bx by (eapply mono_size; [exact Mx|split; [apply repeat_length|cbn; lia]]).
    rewrite (unit_below t o n x Ho Mx Ne) in Bx. lia.
Qed.

Lemma take_block_ok J T dg fuel : tinv J T -> forall q tmp, Forall okq q -> Forall (okt J) tmp -> StronglySorted le tmp ->
  safe (fun r => match r with
                 | None => rational_member n G (one n)
                 | Some (q1, tmp1) => Forall okq q1 /\ Forall (okt J) tmp1 /\ StronglySorted le tmp1 /\
                     forall K, memT K T -> memW K q1 -> memW K tmp1 -> memW K q /\ memW K tmp
                 end)
    (take_block fuel false (find_poly false (-1) (Some [J]) T) dg q tmp).
Proof.
  intro H. assert (GF := good_find_T J T H).
  assert (HS : forall g, GT T g -> GM g) by (intros g [X _]; exact X).
  induction q as [|u q IH]; intros tmp Q Tm S; cbn [take_block].
  - cbn [safe]. split; [exact Q|]. split; [exact Tm|]. split; [exact S|]. auto.
  - assert (Hu := Forall_inv Q). assert (Q' := Forall_inv_tail Q). rewrite (lm_plm false u (proj1 Hu)). cbn [bind].
    destruct (deg (plm u) <=? dg)%nat.
    2:{ cbn [safe]. split; [exact Q|]. split; [exact Tm|]. split; [exact S|]. auto. }
    eapply safe_bind; [apply (nf_safe (GT T) HS _ fuel (wpol u) GF); apply Hu|].
    intros [p c0] (Gp & Cp & Dp). cbn [fst] in *.
    destruct (is_zero p) eqn:Zp.
    { eapply safe_impl; [apply IH; assumption|]. intros [[q1 tmp1]|]; [|auto]. intros (A & B & C & D). split; [exact A|]. split; [exact B|]. split; [exact C|].
      intros K MT M1 M2. destruct (D K MT M1 M2) as [X Y]. split; [|exact Y]. constructor; [|exact X].
      unfold memK. eapply congruent_mem; [apply GT_mem; exact MT| |exact Cp].
      unfold is_zero in Zp. destruct (terms p); [|discriminate]. apply mem_zero. reflexivity. }
    destruct Dp as [Dp|(m & Hm & Fm)]; [unfold is_zero in Zp; rewrite Dp in Zp; discriminate|].
    assert (Gp' : good p) by (split; [exact Gp|eapply hd_nz; exact Hm]).
    rewrite (hd_lm false p m Hm). cbn [bind]. destruct (deg m =? 0)%nat eqn:Dm.
    { cbn [safe]. apply Nat.eqb_eq in Dm. eapply const_member; eassumption. }
    eapply safe_bind; [apply (nft_safe (GT T) HS _ (find_poly false (-1) (Some [J]) T) fuel p m GF Gp' Hm); auto|].
    intros [p2 c] (G2 & H2 & C2 & Z2). cbn [fst] in *.
    eapply safe_bind with (P := fun p3 => good p3 /\ hd p3 m /\ (forall K, memK K p3 -> memK K p2) /\ map fst (terms p3) = map fst (terms p2)).
    { destruct (c =? 0)%nat; [cbn [safe]; auto|]. destruct (good_pp p2 m G2 H2) as (p3 & -> & A & B & C & D). cbn [safe]. auto. }
    intros p3 (G3 & H3 & B3 & M3).
    assert (Ot : okt J (WP (wwrap u) p3)).
    { split; [split; [exact G3|]; apply Hu|]. intros x Ix. cbn [wpol] in Ix. destruct (goodz_mono p3 x (proj1 G3) Ix) as [Mx Px].
      apply (find_none_irr J T x H Mx Px). rewrite M3 in Ix. destruct H2 as (d & l & E2). rewrite E2 in Ix, Z2. cbn [map tl fst] in Ix, Z2.
      destruct Ix as [<-|Ix]; [exact Fm|apply Z2; exact Ix]. }
    destruct (insert_w false tmp (WP (wwrap u) p3)) as (tmp1 & -> & P1 & S1);
      [exact G3|eapply Forall_impl; [|exact Tm]; intros v Hv; apply Hv|]. cbn [bind].
    eapply safe_impl; [apply IH|].
    + exact Q'.
    + eapply Permutation_Forall; [apply Permutation_sym; exact P1|]. constructor; assumption.
    + auto.
    + intros [[q1 tmp2]|]; [|auto]. intros (A & B & C & D). split; [exact A|]. split; [exact B|]. split; [exact C|].
      intros K MT M1 M2. destruct (D K MT M1 M2) as [X Y]. unfold memW in Y. apply (Permutation_Forall P1) in Y.
      split; [|exact (Forall_inv_tail Y)]. constructor; [|exact X]. apply Forall_inv in Y. cbn [wpol] in Y.
      unfold memK. eapply congruent_mem; [apply GT_mem; exact MT| |exact Cp].
      eapply congruent_mem; [apply GT_mem; exact MT| |exact C2]. apply B3. exact Y.
Qed.

(* ------------------------------------------------------------------------------------------ *)
(** * The loop over the block *)

Lemma lin_mem K r f a : lin r f a -> memK K r -> memK K a -> memK K f.
Proof.
  intros (k1 & k2 & N & E) Mr Ma. unfold memK in *. eapply (mem_div n K (scale k1 (terms f)) (terms f) k1); [exact N| |].
  - eapply (mem_lin n K (terms r) (terms a) _ 1 (- k2)); [exact Mr|exact Ma|]. intro m. rewrite coef_scale, E. ring.
  - intro m. apply coef_scale.
Qed.

Lemma irr_union J u v w : irr J u -> irr J v ->
  (forall x, In x (map fst (terms (wpol w))) -> In x (map fst (terms (wpol u))) \/ In x (map fst (terms (wpol v)))) -> irr J w.
Proof. intros A B I m Im. destruct (I m Im); [apply A|apply B]; assumption. Qed.

Lemma okt_gw J l : Forall (okt J) l -> Forall gw l.
Proof. apply Forall_impl. intros u H. apply H. Qed.

Lemma red_all_ok J a : okt J a -> forall l, Forall (okt J) l -> Forall (lt a) l ->
  exists l', red_all false (wpol a) l = Ok l' /\ Forall (okt J) l' /\ map plm l' = map plm l /\
    forall K, memK K (wpol a) -> memW K l' -> memW K l.
Proof.
  intro Ha. induction l as [|u l IH]; intros O L; cbn [red_all].
  - exists []. split; [reflexivity|]. split; [constructor|]. split; [reflexivity|]. auto.
  - assert (Hu := Forall_inv O). assert (Lu := Forall_inv L).
    destruct (good_redMaybe (wpol u) (wpol a) (plm u) (plm a)) as (r & -> & Gr & Hr & Lin & Inc);
      [apply Hu|apply Ha|apply plm_hd; apply Hu|apply plm_hd; apply Ha|exact Lu|]. cbn [bind]. unfold assert_. cbn [andb].
    destruct (IH (Forall_inv_tail O) (Forall_inv_tail L)) as (l' & -> & O' & P' & B'). cbn [bind].
    eexists. split; [reflexivity|]. split; [|split].
    + constructor; [|exact O']. split; [split; [exact Gr|]; apply Hu|].
      apply (irr_union J u a); [apply Hu|apply Ha|exact Inc].
    + cbn [map]. f_equal; [apply plm_eq; exact Hr|exact P'].
    + intros K Ma M. constructor; [|apply B'; [exact Ma|exact (Forall_inv_tail M)]].
      eapply lin_mem; [exact Lin| |exact Ma]. exact (Forall_inv M).
Qed.

Lemma same_deg_ok d : forall l, Forall gw l -> exists a b, same_deg false d l = Ok (a, b) /\ l = a ++ b.
Proof.
  induction l as [|u l IH]; intro F; cbn [same_deg]; [exists [], []; auto|].
  rewrite (lm_plm false u (Forall_inv F)). cbn [bind]. destruct (deg (plm u) =? d)%nat; [|exists [], (u :: l); auto].
  destruct (IH (Forall_inv_tail F)) as (a & b & -> & ->). cbn [bind fst snd]. exists (u :: a), b. auto.
Qed.

Lemma same_lm_ok m : mono n m -> pos m = -1 -> forall l, Forall gw l ->
  exists a b, same_lm false m l = Ok (a, b) /\ l = a ++ b /\ Forall (fun u => plm u = m) a /\
    match b with [] => True | u :: _ => plm u <> m end.
Proof.
  intros Mm Pm. induction l as [|u l IH]; intro F; cbn [same_lm]; [exists [], []; auto|].
  assert (Hu := Forall_inv F). destruct (plm_mono u Hu) as [Mu Pu].
  rewrite (lm_plm false u Hu). cbn [bind]. destruct (eqm (plm u) m) eqn:E.
  - destruct (IH (Forall_inv_tail F)) as (a & b & -> & -> & A & B). cbn [bind fst snd]. exists (u :: a), b. repeat split; auto. constructor; [|exact A].
    apply (eqm_spec n) in E; [|exact Mu|exact Mm]. destruct (plm u), m. cbn in *. congruence.
  - exists [], (u :: l). repeat split; auto. intro X. assert (Y : eqm (plm u) m = true) by (apply (eqm_spec n); [exact Mu|exact Mm|now rewrite X]). congruence.
Qed.

Lemma ss_map (l l' : list wpoly) (R : monom -> monom -> Prop) : map plm l' = map plm l ->
  StronglySorted (fun a b => R (plm a) (plm b)) l -> StronglySorted (fun a b => R (plm a) (plm b)) l'.
Proof.
  revert l'. induction l as [|u l IH]; intros [|u' l'] E S; try discriminate; [constructor|]. cbn [map] in E. injection E as E1 E2.
  apply StronglySorted_inv in S as [S F]. constructor; [apply IH; assumption|].
  clear -E1 E2 F. revert l' E2. induction F as [|v l H _ IH]; intros [|v' l'] E2; try discriminate; [constructor|].
  cbn [map] in E2. injection E2 as E3 E4. constructor; [rewrite E1, E3; exact H|apply IH; exact E4].
Qed.
Lemma ss_app {A} (R : A -> A -> Prop) a b : StronglySorted R (a ++ b) <->
  StronglySorted R a /\ StronglySorted R b /\ Forall (fun x => Forall (R x) b) a.
Proof.
  induction a as [|x a IH]; cbn [app].
  - split; [intro H; split; [constructor|split; [exact H|constructor]]|tauto].
  - split.
    + intro H. apply StronglySorted_inv in H as [H F]. apply IH in H as (H1 & H2 & H3). apply Forall_app in F as [F1 F2].
      split; [constructor; assumption|]. split; [exact H2|]. constructor; assumption.
    + intros (H1 & H2 & H3). apply StronglySorted_inv in H1 as [H1 F]. constructor.
      * apply IH. split; [exact H1|]. split; [exact H2|exact (Forall_inv_tail H3)].
      * apply Forall_app. split; [exact F|exact (Forall_inv H3)].
Qed.

Lemma scan_ok J : forall cnt pre l, Forall (okt J) (pre ++ l) -> StronglySorted lt pre -> StronglySorted le l ->
  Forall (fun a => Forall (lt a) l) pre -> (length l <= cnt)%nat ->
  exists tmp tmp2, scan cnt false pre l = Ok (tmp, tmp2) /\ Forall (okt J) (tmp ++ tmp2) /\
    (forall K, memW K (tmp ++ tmp2) -> memW K (pre ++ l)) /\
    Permutation (map plm (tmp ++ tmp2)) (map plm (pre ++ l)) /\
    match tmp2 with
    | [] => StronglySorted lt tmp /\ (tmp = [] -> pre ++ l = [])
    | w :: r => StronglySorted le tmp /\ Forall (fun u => plm u = plm w) r /\ r <> []
    end.
Proof.
  induction cnt as [|cnt IH]; intros pre l O Sp Sl X Len.
  { destruct l; [|cbn in Len; lia]. cbn [scan]. exists pre, []. split; [reflexivity|]. split; [exact O|]. split; [auto|]. split; [reflexivity|]. split; [exact Sp|]. intros ->. reflexivity. }
  destruct l as [|k l]; cbn [scan].
  { exists pre, []. split; [reflexivity|]. split; [exact O|]. split; [auto|]. split; [reflexivity|]. split; [exact Sp|]. intros ->. reflexivity. }
  assert (O' := O). apply Forall_app in O' as [Op Ol]. assert (Hk := Forall_inv Ol). assert (Ol' := Forall_inv_tail Ol).
  assert (Gl := okt_gw J _ Ol'). destruct (plm_mono k (proj1 (proj1 Hk))) as [Mk Pk].
  rewrite (lm_plm false k (proj1 (proj1 Hk))). cbn [bind].
  destruct (same_lm_ok (plm k) Mk Pk l Gl) as (eqs & rest & -> & El & Ae & Br). cbn [bind].
  apply StronglySorted_inv in Sl as [Sl Fk].
  destruct eqs as [|e eqs].
  - cbn [app] in El. subst rest.
    assert (Lk : Forall (lt k) l).
    { destruct l as [|v l]; [constructor|]. assert (Hv := Forall_inv Gl).
      assert (L0 : lt k v) by (destruct (le_cases k v (proj1 (proj1 Hk)) Hv (Forall_inv Fk)) as [L|E]; [exact L|congruence]).
      constructor; [exact L0|]. apply StronglySorted_inv in Sl as [_ Fv]. apply Forall_inv_tail in Gl. rewrite Forall_forall in *.
      intros w Iw. eapply lt_le_trans; [apply Hk|exact Hv|apply Gl; exact Iw|exact L0|apply Fv; exact Iw]. }
    destruct (red_all_ok J k Hk l Ol' Lk) as (l' & -> & Ol2 & Pl & Bl). cbn [bind].
    assert (Tr : forall a, Forall (lt a) l -> Forall (lt a) l').
    { intros a. unfold lt. clear -Pl. revert l Pl. induction l' as [|v' l' IHl]; intros [|v l] Pl F; try discriminate; [constructor|].
      cbn [map] in Pl. injection Pl as P1 P2. constructor; [rewrite P1; exact (Forall_inv F)|apply (IHl l P2); exact (Forall_inv_tail F)]. }
    destruct (IH (pre ++ [k]) l') as (tmp & tmp2 & E & A1 & A2 & A5 & A3).
    + rewrite <- app_assoc. apply Forall_app. split; [exact Op|]. constructor; assumption.
    + apply ss_app. split; [exact Sp|]. split; [repeat constructor|]. eapply Forall_impl; [|exact X]. intros a Fa. constructor; [exact (Forall_inv Fa)|constructor].
    + exact (ss_map l l' (fun a b => cmp1 t o a b <> 1) Pl Sl).
    + apply Forall_app. split; [|constructor; [apply Tr; exact Lk|constructor]].
      eapply Forall_impl; [|exact X]. intros a Fa. apply Tr. exact (Forall_inv_tail Fa).
    + assert (Y := f_equal (@length _) Pl). rewrite !map_length in Y. cbn [length] in Len. lia.
    + exists tmp, tmp2. split; [exact E|]. split; [exact A1|]. split.
      * intros K M. apply A2 in M. rewrite <- app_assoc in M. apply Forall_app in M as [M1 M2]. apply Forall_app. split; [exact M1|].
        cbn [app] in M2. constructor; [exact (Forall_inv M2)|]. apply Bl; [exact (Forall_inv M2)|exact (Forall_inv_tail M2)].
      * split; [rewrite A5, <- app_assoc, !map_app; cbn [app map]; rewrite Pl; reflexivity|].
        destruct tmp2; [|exact A3]. destruct A3 as [A3 A4]. split; [exact A3|]. intro Z. apply A4 in Z. destruct pre; discriminate.
  - exists (pre ++ rest), (k :: rev (e :: eqs)). split; [reflexivity|].
    assert (Pm : Permutation ((pre ++ rest) ++ k :: rev (e :: eqs)) (pre ++ k :: l)).
    { rewrite <- app_assoc. apply Permutation_app_head. rewrite El. etransitivity; [apply Permutation_sym, Permutation_middle|]. constructor.
      etransitivity; [apply Permutation_app_comm|]. apply Permutation_app_tail. apply Permutation_sym, Permutation_rev. }
    split; [eapply Permutation_Forall; [apply Permutation_sym; exact Pm|exact O]|].
    split; [intros K M; eapply Permutation_Forall; [exact Pm|exact M]|].
    split; [apply Permutation_map; exact Pm|].
    split; [|split].
    + rewrite El in Sl, X. apply ss_app in Sl as (_ & Sr & _). apply ss_app.
      split; [|split; [exact Sr|]].
      * assert (Gp := okt_gw J _ Op). clear -Sp Gp Hn Ho. induction Sp as [|a p S IH F]; [constructor|]. constructor; [apply IH; exact (Forall_inv_tail Gp)|].
        rewrite Forall_forall in *. intros b Ib. apply lt_le; [apply Gp; left; reflexivity|apply Gp; right; exact Ib|apply F; exact Ib].
      * assert (Gp := okt_gw J _ Op). rewrite El in Gl. apply Forall_app in Gl as [_ Gr]. rewrite Forall_forall in *. intros a Ia. assert (Xa := X a Ia).
        apply Forall_inv_tail in Xa. apply Forall_app in Xa as [_ Xa]. rewrite Forall_forall in Xa. rewrite Forall_forall. intros b Ib.
        apply lt_le; [apply Gp; exact Ia|apply Gr; exact Ib|apply Xa; exact Ib].
    + apply Forall_rev. exact Ae.
    + intro Z. apply (f_equal (@rev _)) in Z. rewrite rev_involutive in Z. discriminate.
Qed.

Lemma min_norm_ok : forall l w sk, let r := min_norm w sk l in Permutation (w :: sk ++ l) (fst r :: snd r).
Proof.
  induction l as [|u l IH]; intros w sk; cbn [min_norm]; cbv zeta; [rewrite app_nil_r; reflexivity|].
  destruct (p_norm (wpol u) <? p_norm (wpol w)).
  - specialize (IH u []). cbv zeta in IH. destruct (min_norm u [] l) as [v r]. cbn [fst snd] in *. cbn [app] in IH |- *.
    change (w :: sk ++ u :: l) with ((w :: sk) ++ u :: l). rewrite IH. rewrite <- Permutation_middle. reflexivity.
  - specialize (IH w (sk ++ [u])). cbv zeta in IH. rewrite <- app_assoc in IH. exact IH.
Qed.

Lemma red_by_ok J a : okt J a -> forall l tmp, Forall (okt J) l -> Forall (fun u => plm u = plm a) l -> Forall (okt J) tmp -> StronglySorted le tmp ->
  exists tmp', red_by false (wpol a) l tmp = Ok tmp' /\ Forall (okt J) tmp' /\ StronglySorted le tmp' /\ incl tmp tmp' /\
    (forall K, memK K (wpol a) -> memW K tmp' -> memW K l) /\
    exists zs, Permutation (map plm tmp') (zs ++ map plm tmp) /\ Forall (fun z => mlt t o n z (plm a)) zs.
Proof.
  intro Ha. induction l as [|u l IH]; intros tmp O L Tm S; cbn [red_by].
  - exists tmp. split; [reflexivity|]. split; [exact Tm|]. split; [exact S|]. split; [apply incl_refl|]. split; [constructor|]. exists []. split; [reflexivity|constructor].
  - assert (Hu := Forall_inv O).
    destruct (good_reduction (wpol u) (wpol a) (plm a)) as (r & -> & Gr & Lin & Inc & Blw);
      [apply Hu|apply Ha|rewrite <- (Forall_inv L); apply plm_hd; apply Hu|apply plm_hd; apply Ha|]. cbn [bind].
    destruct (is_zero r) eqn:Zr.
    + destruct (IH tmp (Forall_inv_tail O) (Forall_inv_tail L) Tm S) as (tmp' & E & A & B & C & D & F).
      exists tmp'. split; [exact E|]. split; [exact A|]. split; [exact B|]. split; [exact C|]. split; [|exact F]. intros K Ma M. constructor; [|apply D; assumption].
      eapply lin_mem; [exact Lin| |exact Ma]. unfold memK. unfold is_zero in Zr. destruct (terms r); [|discriminate]. apply mem_zero. reflexivity.
    + assert (Gr' : good r) by (split; [exact Gr|intro E; unfold is_zero in Zr; rewrite E in Zr; discriminate]).
      assert (Or : okt J (WP (wwrap u) r)).
      { split; [split; [exact Gr'|]; apply Hu|]. apply (irr_union J u a); [apply Hu|apply Ha|exact Inc]. }
      destruct (insert_w false tmp (WP (wwrap u) r)) as (tmp1 & -> & P1 & S1); [exact Gr'|eapply okt_gw; exact Tm|]. cbn [bind].
      destruct (IH tmp1 (Forall_inv_tail O) (Forall_inv_tail L)) as (tmp' & E & A & B & C & D & zs & F1 & F2).
      * eapply Permutation_Forall; [apply Permutation_sym; exact P1|]. constructor; assumption.
      * auto.
      * exists tmp'. split; [exact E|]. split; [exact A|]. split; [exact B|].
        assert (C' : incl (WP (wwrap u) r :: tmp) tmp').
        { intros x Ix. apply C. eapply Permutation_in; [apply Permutation_sym; exact P1|exact Ix]. }
        split; [intros x Ix; apply C'; right; exact Ix|].
        split.
        { intros K Ma M. constructor; [|apply D; assumption]. eapply lin_mem; [exact Lin| |exact Ma].
          unfold memW in M. rewrite Forall_forall in M. apply (M (WP (wwrap u) r)). apply C'. left. reflexivity. }
        exists (plm (WP (wwrap u) r) :: zs). split; [rewrite F1, (Permutation_map plm P1); symmetry; apply Permutation_middle|].
        constructor; [|exact F2]. apply Blw. apply (hd_in _ _ (plm_hd (WP (wwrap u) r) Gr')).
Qed.

Lemma block_loop_ok J : forall fuel tmp q, tmp <> [] -> Forall (okt J) tmp -> StronglySorted le tmp -> Forall okq q ->
  safe (fun r => let '(tmp2, q2, dg) := r in Forall (okt J) tmp2 /\ StronglySorted lt tmp2 /\ Forall okq q2 /\
                 forall K, memW K tmp2 -> memW K q2 -> memW K tmp /\ memW K q)
    (block_loop fuel false tmp q).
Proof.
  induction fuel as [|fuel IH]; intros tmp q Ne O S Q; cbn [block_loop]; [exact I|]. destruct tmp as [|u l]; [congruence|].
  assert (Hu := Forall_inv O). assert (Ol := Forall_inv_tail O). rewrite (lm_plm false u (proj1 (proj1 Hu))). cbn [bind].
  destruct (same_deg_ok (deg (plm u)) l (okt_gw J _ Ol)) as (blk & rest & -> & ->). cbn [bind]. unfold assert_. cbn [andb].
  apply Forall_app in Ol as [Ob Or]. change (u :: blk ++ rest) with ((u :: blk) ++ rest) in S. apply ss_app in S as (Sb & _ & _).
  destruct (scan_ok J (S (length blk)) [] (u :: blk)) as (tmp1 & tmp2 & -> & O1 & B1 & _ & D1);
    [cbn [app]; constructor; assumption|constructor|exact Sb|constructor|cbn [length]; lia|]. cbn [bind].
  assert (Q' : Forall okq (rest ++ q)) by (apply Forall_app; split; [eapply Forall_impl; [|exact Or]; intros v Hv; apply Hv|exact Q]).
  assert (Fin : forall K, memW K (u :: blk) -> memW K (rest ++ q) -> memW K ((u :: blk) ++ rest) /\ memW K q).
  { intros K M1 M2. apply Forall_app in M2 as [M2 M3]. split; [apply Forall_app; split; assumption|exact M3]. }
  destruct tmp2 as [|w0 tmp2].
  - cbn [safe]. rewrite app_nil_r in *. destruct D1 as [D1 _]. split; [exact O1|]. split; [exact D1|]. split; [exact Q'|].
    intros K M1 M2. apply Fin; [|exact M2]. apply B1. exact M1.
  - destruct D1 as (D1 & D2 & _). apply Forall_app in O1 as [O1 O2]. assert (Pm := min_norm_ok tmp2 w0 []). cbv zeta in Pm. cbn [app] in Pm.
    destruct (min_norm w0 [] tmp2) as [w others]. cbn [fst snd] in Pm.
    assert (O3 : Forall (okt J) (w :: others)) by (eapply Permutation_Forall; [exact Pm|exact O2]).
    assert (D3 : Forall (fun v => plm v = plm w) others).
    { assert (D4 : Forall (fun v => plm v = plm w0) (w :: others)) by (eapply Permutation_Forall; [exact Pm|constructor; [reflexivity|exact D2]]).
      rewrite (Forall_inv D4). exact (Forall_inv_tail D4). }
    destruct (insert_w false tmp1 w) as (t1 & -> & P1 & S1); [apply (Forall_inv O3)|eapply okt_gw; exact O1|]. cbn [bind].
    destruct (red_by_ok J w (Forall_inv O3) others t1) as (t2 & -> & O4 & S4 & I4 & B4 & _);
      [exact (Forall_inv_tail O3)|exact D3|eapply Permutation_Forall; [apply Permutation_sym; exact P1|constructor; [exact (Forall_inv O3)|exact O1]]|auto|].
    cbn [bind].
    assert (Iw : In w t2) by (apply I4; eapply Permutation_in; [apply Permutation_sym; exact P1|left; reflexivity]).
    eapply safe_impl; [apply IH|].
    + intros ->. destruct Iw.
    + exact O4.
    + exact S4.
    + exact Q'.
    + intros [[tmp3 q3] dg] (A & B & C & D). split; [exact A|]. split; [exact B|]. split; [exact C|].
      intros K M1 M2. destruct (D K M1 M2) as [X Y]. apply Fin; [|exact Y]. apply B1.
      assert (Mt1 : memW K t1) by (unfold memW in *; rewrite Forall_forall in *; intros x Ix; apply X; apply I4; exact Ix).
      unfold memW in Mt1. apply (Permutation_Forall P1) in Mt1.
      apply Forall_app. split; [exact (Forall_inv_tail Mt1)|]. eapply Permutation_Forall; [apply Permutation_sym; exact Pm|].
      constructor; [exact (Forall_inv Mt1)|]. apply B4; [exact (Forall_inv Mt1)|exact X].
Qed.

(* ------------------------------------------------------------------------------------------ *)
(** * New elements enter the trees *)

Lemma update_ok u m : okq u -> mono n m -> pos m = -1 ->
  let w := update (wwrap u) m in wlm w = m /\ okw n w /\ forall i, (i < n)%nat -> fl w i = false.
Proof.
  intros (_ & Ow & Pw & Fw) [L _] P. cbv zeta. unfold update. destruct (Z.eqb_spec (lex (wlm (wwrap u)) m) 0) as [E|E].
  - unfold lex in E. apply lexv_eq in E; [|destruct Ow as [L' _]; unfold lv in L'; congruence].
    split; [|auto]. destruct (wlm (wwrap u)), m. cbn in *. congruence.
  - split; [reflexivity|]. split; [unfold okw, lv, size; cbn; rewrite !repeat_length; auto|]. intros i _. unfold fl. cbn. apply nth_false.
Qed.

Lemma enter_ok : forall l J T, tinv J T -> Forall okq l -> StronglySorted lt l ->
  (forall u, In u l -> ~ In (vars (plm u)) (lms (wraps (jroot J)))) ->
  exists J' new, enter false [J] l = Ok ([J'], new) /\ tinv J' (new ++ T) /\ forall K, memT K new -> memW K l.
Proof.
  induction l as [|u l IH]; intros J T H O S N; cbn [enter].
  - exists J, []. split; [reflexivity|]. split; [exact H|]. constructor.
  - assert (Hu := Forall_inv O). assert (Gu := proj1 Hu). rewrite (lm_plm false u Gu). cbn [bind].
    destruct (plm_mono u Gu) as [Mu Pu]. destruct (update_ok u (plm u) Hu Mu Pu) as (Ew & Ow & Fw). cbv zeta.
    destruct (good_pp (wpol u) (plm u) Gu (plm_hd u Gu)) as (p & -> & Gp & Hp & Bp & _). cbn [bind].
    rewrite Ew, Pu. unfold tree_at. change (-1 <? -1) with false. cbn [Z.add Z.to_nat Z.pos_sub nth_error bind firstn skipn app].
    assert (Elv : lv (update (wwrap u) (plm u)) = vars (plm u)) by (unfold lv; now rewrite Ew).
    destruct (insert_ok false n J (update (wwrap u) (plm u)) (ti_inv _ _ H) (ti_size _ _ H) Hn Ow Fw) as (J' & -> & Ji' & Sz' & _ & P');
      [rewrite Elv; apply N; left; reflexivity|discriminate|]. cbn [bind].
    assert (Pw : Permutation (map wlm (wraps (jroot J'))) (plm u :: map wlm (wraps (jroot J)))).
    { apply (Permutation_map wlm) in P'. rewrite map_map in P'. cbn [map] in P'. rewrite map_map in P'. cbn [er wlm] in P'. rewrite Ew in P'. exact P'. }
    assert (H' : tinv J' ((plm u, p) :: T)).
    { split; [exact Ji'|exact Sz'| | |].
      - apply Forall_forall. intros v Iv. assert (X : In (wlm v) (plm u :: map wlm (wraps (jroot J)))) by (eapply Permutation_in; [exact Pw|apply in_map; exact Iv]).
        destruct X as [X|X]; [rewrite <- X; exact Pu|]. apply in_map_iff in X as (v' & E' & I'). rewrite <- E'.
        assert (Y := ti_pos _ _ H). rewrite Forall_forall in Y. auto.
      - etransitivity; [exact Pw|]. cbn [map fst]. constructor. apply (ti_perm _ _ H).
      - constructor; [split; assumption|apply (ti_good _ _ H)]. }
    apply StronglySorted_inv in S as [S Fu].
    destruct (IH J' ((plm u, p) :: T) H' (Forall_inv_tail O) S) as (J2 & new & E2 & H2 & B2).
    { intros v Iv X. assert (Pl : Permutation (lms (wraps (jroot J'))) (vars (plm u) :: lms (wraps (jroot J)))).
      { apply (Permutation_map vars) in Pw. rewrite map_map in Pw. cbn [map] in Pw. rewrite map_map in Pw. exact Pw. }
      eapply Permutation_in in X; [|exact Pl]. destruct X as [X|X]; [|apply (N v); [right; exact Iv|exact X]].
      rewrite Forall_forall in Fu. apply (lt_neq u v (Fu v Iv)).
      assert (Gv : good (wpol v)) by (apply Forall_inv_tail in O; rewrite Forall_forall in O; apply (O v Iv)).
      destruct (plm_mono v Gv) as [_ Pv]. destruct (plm u), (plm v). cbn in *. congruence. }
    rewrite E2. cbn [bind fst snd]. exists J2, ((plm u, p) :: new). split; [reflexivity|]. split.
    + eapply tinv_perm; [exact H2|]. cbn [app]. apply Permutation_sym, Permutation_middle.
    + intros K M. constructor; [|apply B2; exact (Forall_inv_tail M)]. apply Bp. exact (Forall_inv M).
Qed.

(* ------------------------------------------------------------------------------------------ *)
(** * Merging into mT *)

(** The reducers of the tail of e are other elements. *)
Definition below_find (lm : monom) (f : monom -> outcome (option poly)) (m : monom) : outcome (option poly) :=
  if cmp1 t o lm m =? 1 then f m else Ok None.

Lemma divisor_le u m : mono n u -> mono n m -> mdivides u m -> pos u = -1 -> pos m = -1 -> cmp1 t o u m <> 1.
Proof.
  intros Mu Mm D P Pm C. assert (E := div_mul n m u Mm Mu D ltac:(congruence)).
  assert (Md := div_mono n m u Mm Mu). assert (Mun : mono n (unit_monom n (-1))) by (split; [apply repeat_length|cbn; lia]).
  rewrite <- E in C. rewrite (mul_comm n u (div m u)) in C by (assumption || (left; exact P)).
  rewrite <- (mul_unit n u Mu) in C at 1. rewrite (mul_comm n u (unit_monom n (-1))) in C by (assumption || (left; exact P)).
  rewrite (cmp1_mul' t o n) in C by (assumption || (left; exact P)).
  destruct (monom_eq_dec (div m u) (unit_monom n (-1))) as [X|X]; [rewrite X, cmp1_refl in C; lia|].
  assert (Y := unit_below t o n _ Ho Md X). rewrite cmp1_antisym in Y by (eapply mono_size; eassumption). lia.
Qed.

Lemma lookup_none (T : list entry) k : (forall e, In e T -> length (vars (fst e)) = n) -> length (vars k) = n -> ~ In k (map fst T) -> lookup T k = None.
Proof.
  intros L Lk. induction T as [|[k' p] T IH]; intro N; cbn [lookup]; [reflexivity|]. destruct (same_key k' k) eqn:E.
  - exfalso. apply same_key_spec in E; [|rewrite Lk; apply (L (k', p)); left; reflexivity]. apply N. left. exact E.
  - apply IH; [intros e I; apply L; right; exact I|]. intro I. apply N. right. exact I.
Qed.

Lemma find_other J T e T0 : tinv J T -> Permutation T (e :: T0) ->
  good_find false t o n (GT T0) (below_find (fst e) (find_poly false (-1) (Some [J]) T0)).
Proof.
  intros H P m Hm. unfold below_find. destruct (Z.eqb_spec (cmp1 t o (fst e) m) 1) as [C|C].
  2:{ exists None. split; [reflexivity|]. intros a X. discriminate. }
  destruct (find_poly_ok J T m H Hm) as (w & E & W). unfold find_poly in *.
  destruct (find_wrap_ok J m (ti_inv _ _ H) Hm) as (r & Er & R). rewrite Er in *. cbn [bind] in *.
  destruct r as [u|]; [|exists None; split; [reflexivity|discriminate]]. destruct R as (Pm & Iu & D).
  assert (I : In (wlm u) (map fst T)) by (eapply Permutation_in; [apply (ti_perm _ _ H)|apply in_map; exact Iu]).
  apply in_map_iff in I as ([k a] & Ek & I). cbn [fst] in Ek. subst k.
  assert (Hg := ti_good _ _ H). rewrite Forall_forall in Hg. destruct (Hg _ I) as [[Ga Na] Ha]. cbn [fst snd] in *.
  destruct (hd_mono a (wlm u) Ga Ha) as [[Lk Pk'] Pk].
  assert (Md : mdivides (wlm u) m) by (eapply janet_div_mdiv; try eassumption; [exact (proj1 Hm)|reflexivity]).
  assert (Iin : In (wlm u, a) T0).
  { eapply Permutation_in in I; [|exact P]. destruct I as [->|I]; [|exact I]. exfalso. cbn [fst] in C.
    exact (divisor_le (wlm u) m (conj Lk Pk') Hm Md Pk Pm C). }
  assert (P' := Permutation_map fst P). cbn [map] in P'.
  assert (ND : NoDup (map fst T0)) by (assert (X := Permutation_NoDup P' (tinv_nd J T H)); apply NoDup_cons_iff in X; tauto).
  assert (LT : forall x, In x T0 -> length (vars (fst x)) = n).
  { intros x Ix. apply (tinv_len J T x H). eapply Permutation_in; [apply Permutation_sym; exact P|right; exact Ix]. }
  rewrite (lookup_in T0 (wlm u) a LT Lk ND Iin). exists (Some a). split; [reflexivity|]. intros a' X. injection X as <-.
  destruct Ga as (V & (S1 & S2 & S3) & Rg & M).
  split; [exact V|]. split; [exact S1|]. split; [exact S2|]. split; [exact S3|]. split; [split; [split; assumption|exists (wlm u, a); auto]|].
  split; [split; [rewrite Pm; exact Rg|discriminate]|]. destruct Ha as (d & l & El). exists (wlm u), d, l. split; [exact El|exact Md].
Qed.

Lemma tail_reduce_ok fuel J T e T0 : tinv J T -> Permutation T (e :: T0) ->
  safe (fun e' => fst e' = fst e /\ tinv J (e' :: T0) /\ forall K, memT K T0 -> memK K (snd e') -> memK K (snd e))
    (tail_reduce fuel false (-1) [J] T0 e).
Proof.
  intros H P. unfold tail_reduce.
  assert (Ie : In e T) by (eapply Permutation_in; [apply Permutation_sym; exact P|left; reflexivity]).
  assert (Hg := ti_good _ _ H). assert (Hg' := Hg). rewrite Forall_forall in Hg. destruct (Hg _ Ie) as [Ge He].
  assert (HS : forall g, GT T0 g -> GM g) by (intros g [X _]; exact X).
  eapply safe_bind.
  { apply (nft_safe (GT T0) HS (below_find (fst e) (find_poly false (-1) (Some [J]) T0)) (find_poly false (-1) (Some [J]) T0) fuel (snd e) (fst e));
      [eapply find_other; eassumption|exact Ge|exact He|].
    intros m _ C. unfold below_find. rewrite C. reflexivity. }
  intros [p c] (Gp & Hp & Cp & _). cbn [fst] in *.
  eapply safe_bind with (P := fun p' => good p' /\ hd p' (fst e) /\ forall K, memK K p' -> memK K p).
  { destruct (c =? 0)%nat; [cbn [safe]; auto|]. destruct (good_pp p (fst e) Gp Hp) as (p3 & -> & A & B & C & D). cbn [safe]. auto. }
  intros p' (G' & H' & B'). cbn [safe fst snd]. split; [reflexivity|]. split.
  - destruct H as [A B C D _]. split; auto.
    + etransitivity; [exact D|]. apply (Permutation_map fst) in P. exact P.
    + constructor; [split; assumption|]. apply (Permutation_Forall P) in Hg'. exact (Forall_inv_tail Hg').
  - intros K MT M. unfold memK. eapply congruent_mem; [apply GT_mem; exact MT| |exact Cp]. apply B'. exact M.
Qed.

Lemma memW_incl K a b : incl a b -> memW K b -> memW K a.
Proof. intros I M. unfold memW in *. rewrite Forall_forall in *. auto. Qed.

Lemma merge_loop_ok fuel dg : forall cnt J q d j k, tinv J (d ++ j ++ k) -> Forall okq q ->
  safe (fun r => let '(js', q', T') := r in exists J', js' = [J'] /\ tinv J' T' /\ Forall okq q' /\
          forall K, memT K T' -> memW K q' -> memT K (d ++ j ++ k) /\ memW K q)
    (merge_loop cnt fuel false (-1) dg [J] q d j k).
Proof.
  induction cnt as [|cnt IH]; intros J q d j k H Q; cbn [merge_loop].
  { destruct j; [destruct k|]; cbn [safe]; auto. exists J. split; [reflexivity|]. cbn [app] in *. rewrite app_nil_r in *. auto. }
  assert (Put : forall e j' k', Permutation (d ++ j ++ k) (d ++ e :: j' ++ k') ->
    safe (fun r => let '(js', q', T') := r in exists J', js' = [J'] /\ tinv J' T' /\ Forall okq q' /\
          forall K, memT K T' -> memW K q' -> memT K (d ++ j ++ k) /\ memW K q)
      (do b <- Ok true; assert_ false b (do r <- prolong_if false (-1) dg [J] e q;
           merge_loop cnt fuel false (-1) dg (fst r) (snd r) (d ++ [e]) j' k'))).
  { intros e j' k' P. cbn [bind]. unfold assert_. cbn [andb].
    assert (H' : tinv J (d ++ e :: j' ++ k')) by (eapply tinv_perm; eassumption).
    destruct (prolong_if_ok dg J _ e q H') as (J1 & q1 & -> & H1 & Q1 & I1); [apply in_or_app; right; left; reflexivity|exact Q|].
    cbn [bind fst snd]. eapply safe_impl; [apply IH; [|exact Q1]|].
    - rewrite <- app_assoc. exact H1.
    - intros [[js' q'] T'] (J' & -> & A & B & C). exists J'. split; [reflexivity|]. split; [exact A|]. split; [exact B|].
      intros K M1 M2. destruct (C K M1 M2) as [X Y]. split; [|eapply memW_incl; eassumption].
      rewrite <- app_assoc in X. eapply Permutation_Forall; [apply Permutation_sym; exact P|exact X]. }
  assert (Redu : forall e k', Permutation (d ++ j ++ k) (e :: d ++ j ++ k') ->
    safe (fun r => let '(js', q', T') := r in exists J', js' = [J'] /\ tinv J' T' /\ Forall okq q' /\
          forall K, memT K T' -> memW K q' -> memT K (d ++ j ++ k) /\ memW K q)
      (do e' <- tail_reduce fuel false (-1) [J] (d ++ j ++ k') e;
        do r <- prolong_if false (-1) dg [J] e' q;
        merge_loop cnt fuel false (-1) dg (fst r) (snd r) (d ++ [e']) j k')).
  { intros e k' P. eapply safe_bind; [eapply tail_reduce_ok; eassumption|]. intros e' (_ & H' & B').
    destruct (prolong_if_ok dg J _ e' q H') as (J1 & q1 & -> & H1 & Q1 & I1); [left; reflexivity|exact Q|].
    cbn [bind fst snd]. 
    assert (P' : Permutation (e' :: d ++ j ++ k') ((d ++ [e']) ++ j ++ k')) by (rewrite <- app_assoc; apply Permutation_middle).
    eapply safe_impl; [apply IH; [|exact Q1]|].
    - eapply tinv_perm; [exact H1|exact P'].
    - intros [[js' q'] T'] (J' & -> & A & B & C). exists J'. split; [reflexivity|]. split; [exact A|]. split; [exact B|].
      intros K M1 M2. destruct (C K M1 M2) as [X Y]. split; [|eapply memW_incl; eassumption].
      unfold memT in X. apply (Permutation_Forall (Permutation_sym P')) in X.
      eapply Permutation_Forall; [apply Permutation_sym; exact P|]. constructor; [|exact (Forall_inv_tail X)].
      apply B'; [exact (Forall_inv_tail X)|exact (Forall_inv X)]. }
  destruct j as [|e j]; destruct k as [|e' k].
  - cbn [safe]. exists J. split; [reflexivity|]. cbn [app] in *. rewrite app_nil_r in *. auto.
  - apply Redu. cbn [app]. apply Permutation_sym, Permutation_middle.
  - apply Put. reflexivity.
  - assert (Gg := ti_good _ _ H). rewrite !Forall_app in Gg. destruct Gg as (_ & G1 & G2).
    destruct (Forall_inv G1) as [Ge He], (Forall_inv G2) as [Ge' He'].
    unfold p_cmp. rewrite (hd_lm false _ _ He), (hd_lm false _ _ He'). cbn [bind].
    match goal with |- context [if ?b then _ else _] => destruct b end.
    + apply Put. reflexivity.
    + apply Redu. rewrite !app_assoc. apply Permutation_sym, Permutation_middle.
Qed.

(* ------------------------------------------------------------------------------------------ *)
(** * The main loop *)

Definition is_unit (w : wpoly) : Prop := goodz (wpol w) /\ terms (wpol w) = one n.
Definition jstate (J : jpoly) : Prop :=
  match jone J with
  | Some w => is_unit w /\ jq J = [] /\ jt J = [] /\ jtrees J = None
  | None => Forall okq (jq J) /\
      ((jtrees J = None /\ jpos J = -2 /\ jt J = []) \/
       exists Ja, jtrees J = Some [Ja] /\ jpos J = -1 /\ tinv Ja (jt J))
  end.
Definition memJ (K : list term -> Prop) (J : jpoly) : Prop :=
  match jone J with Some w => memK K (wpol w) | None => memT K (jt J) /\ memW K (jq J) end.

Lemma all_from_one K p : rational_member n K (one n) -> goodz p -> memK K p.
Proof.
  intros M Hp. destruct Hp as (V & (E1 & E2 & E3) & R & _). apply canonical_iff in V as (_ & Mo & _). unfold memK. rewrite E1 in Mo.
  induction (terms p) as [|[m c] l IH]; [apply mem_zero; reflexivity|].
  assert (Mm := Forall_inv Mo). assert (Rm := Forall_inv R). cbn [fst] in *.
  eapply (mem_lin n K (shift (vars m) (one n)) l _ c 1); [apply mem_shift; [apply Mm|exact M]|apply IH; [exact (Forall_inv_tail Mo)|exact (Forall_inv_tail R)]|].
  intro x. unfold shift, one. cbn [map fst snd coef].
  assert (E : mprod (Mon (-1) (vars m)) (Mon (-1) (repeat 0%nat n)) = m).
  { unfold mprod. cbn [pos vars]. change (-1 =? -1) with true. cbn iota. rewrite vsum_addv. destruct m as [pm m]. cbn in *. subst pm. f_equal.
    destruct Mm as [<- _]. cbn. clear. induction m as [|y m IH]; cbn; [reflexivity|]. f_equal; [lia|exact IH]. }
  rewrite E. destruct (monom_eq_dec m x); lia.
Qed.

Lemma set_one_ok mpos : rational_member n G (one n) ->
  exists J', set_one false t o n mpos = Ok J' /\ jstate J' /\ jone J' <> None.
Proof.
  intro M. unfold set_one. assert (E : p_const false t o n 1 = Ok (Poly t o n (one n))) by reflexivity. rewrite E. cbn [bind].
  unfold p_lm. cbn [terms one bind]. eexists. split; [reflexivity|]. cbn [jstate jone jq jt jtrees]. split; [|discriminate].
  split; [|auto]. split; [|reflexivity]. cbn [wpol]. split; [|split; [repeat split|split; [|exact M]]].
  - unfold pvalid. cbn. apply canonical_iff. unfold one. split; [repeat constructor|]. split; constructor; try constructor; cbn; [apply repeat_length|lia|lia].
  - repeat constructor.
Qed.

Lemma block_tq_ok : forall fuel J q T, tinv J T -> Forall okq q ->
  safe (fun J' => jstate J' /\ jq J' = [] /\ forall K, memJ K J' -> memT K T /\ memW K q) (block_tq fuel false (-1) [J] q T).
Proof.
  induction fuel as [|fuel IH]; intros J q T H Q; destruct q as [|u q0] eqn:Eq; cbn [block_tq].
  1,3: cbn [safe]; split; [|split; [reflexivity|intros K [M1 M2]; split; [exact M1|constructor]]];
    cbn [jstate jone jq jtrees jpos jt]; split; [constructor|right; exists J; auto].
  { exact I. }
  rewrite <- Eq in *. assert (Hu : okq u) by (rewrite Eq in Q; exact (Forall_inv Q)).
  rewrite (lm_plm false u (proj1 Hu)). cbn [bind].
  assert (Gall : forall K, rational_member n K (one n) -> memT K T /\ memW K q).
  { intros K M. split; apply Forall_forall.
    - intros e Ie. assert (Gg := ti_good _ _ H). rewrite Forall_forall in Gg. apply all_from_one; [exact M|apply (Gg e Ie)].
    - intros v Iv. rewrite Forall_forall in Q. apply all_from_one; [exact M|apply (Q v Iv)]. }
  eapply safe_bind; [apply (take_block_ok J T (deg (plm u)) (S fuel) H q []); [exact Q|constructor|constructor]|].
  intros [[q1 tmp]|].
  - intros (Q1 & Tm & S1 & B1). unfold assert_. cbn [andb]. destruct tmp as [|x tmp'] eqn:Et.
    + eapply safe_impl; [apply IH; assumption|]. intros J' (A & B & C). split; [exact A|]. split; [exact B|]. intros K M.
      destruct (C K M) as [X Y]. split; [exact X|]. apply B1; [exact X|exact Y|constructor].
    + rewrite <- Et in *. eapply safe_bind; [apply (block_loop_ok J (S fuel) tmp q1); [congruence|assumption..]|].
      intros [[tmp2 q2] dg] (O2 & S2 & Q2 & B2).
      destruct (enter_ok tmp2 J T H) as (J2 & new & -> & H2 & B3).
      { eapply Forall_impl; [|exact O2]. intros v Hv. apply Hv. }
      { exact S2. }
      { intros v Iv X. rewrite Forall_forall in O2. destruct (O2 v Iv) as [[Gv _] Ir].
        apply (Ir (plm v) (hd_in _ _ (plm_hd v Gv)) (vars (plm v))). split; [exact X|]. split; [intros i _; lia|intros i _ Y; lia]. }
      cbn [bind]. eapply safe_bind; [apply (merge_loop_ok (S fuel) dg (length new + length T) J2 q2 [] new T); assumption|].
      intros [[js3 q3] T3] (J3 & -> & H3 & Q3 & B4). cbn [bind andb].
      eapply safe_impl; [apply IH; assumption|]. intros J' (A & B & C). split; [exact A|]. split; [exact B|]. intros K M.
      destruct (C K M) as [X Y]. destruct (B4 K X Y) as [X' Y']. cbn [app] in X'. apply Forall_app in X' as [X1 X2].
      split; [exact X2|]. destruct (B2 K (B3 K X1) Y') as [Z1 Z2]. apply B1; [exact X2|exact Z2|exact Z1].
  - intro M. destruct Hu as ([(_ & (A1 & A2 & A3) & _) _] & _). rewrite A1, A2, A3.
    destruct (set_one_ok (-1) M) as (J' & -> & S' & N'). cbn [safe]. split; [exact S'|].
    unfold jstate in S'. destruct (jone J') as [w|] eqn:E; [|congruence]. destruct S' as ([_ Ew] & Ej & _). split; [exact Ej|].
    intros K Mk. apply Gall. unfold memJ in Mk. rewrite E in Mk. unfold memK in Mk. rewrite Ew in Mk. exact Mk.
Qed.

Lemma maxPos_ring l : ring_poly l -> fold_left (fun r (x : term) => if r <? pos (fst x) then pos (fst x) else r) l (-1) = -1.
Proof. induction 1 as [|x l E _ IH]; [reflexivity|]. cbn [fold_left]. rewrite E. exact IH. Qed.
Lemma q_pos_ring q : Forall okq q -> q_pos q = -1.
Proof.
  unfold q_pos. induction 1 as [|u q Hu _ IH]; [reflexivity|]. cbn [fold_left]. unfold p_maxPos. rewrite maxPos_ring by apply Hu. exact IH.
Qed.

Lemma build_ok fuel J : jstate J -> safe (fun J' => jstate J' /\ jq J' = [] /\ forall K, memJ K J' -> memJ K J) (jp_build fuel false J).
Proof.
  intro H. unfold jp_build. destruct (jone J) as [w|] eqn:E.
  - cbn [safe]. split; [exact H|]. split; [unfold jstate in H; rewrite E in H; apply H|auto].
  - assert (H' := H). unfold jstate in H'. rewrite E in H'. destruct H' as [Q D]. unfold set_pos. rewrite (q_pos_ring _ Q).
    destruct D as [(D1 & D2 & D3)|(Ja & D1 & D2 & D3)].
    + rewrite D1, D2. change (-2 <? -1) with true. cbn iota. cbn [jtrees jpos jq jt firstn length app repeat Z.add Z.to_nat Z.opp Z.pos_sub Pos.pred_double]. cbn [Nat.sub Pos.to_nat].
      change (repeat jempty (Z.to_nat (-1 + 2) - 0)) with [jempty]. rewrite D3.
      assert (Ti : tinv jempty []) by (split; [apply jinv_nil|reflexivity|constructor|constructor|constructor]).
      eapply safe_impl; [apply (block_tq_ok fuel jempty (jq J) []); assumption|]. intros J' (A & B & C). split; [exact A|]. split; [exact B|].
      intros K M. unfold memJ. rewrite E, D3. apply C. exact M.
    + rewrite D2. change (-1 <? -1) with false. cbn iota. rewrite D1, D2. 
      eapply safe_impl; [apply (block_tq_ok fuel Ja (jq J) (jt J)); assumption|]. intros J' (A & B & C). split; [exact A|]. split; [exact B|].
      intros K M. unfold memJ. rewrite E. apply C. exact M.
Qed.

Lemma copy_ok p : p_copy false p = Ok p.
Proof. unfold p_copy, checked, assert_. cbn [andb]. rewrite map_id. f_equal. apply with_same. Qed.

Lemma push_ok J a : jstate J -> goodz a ->
  exists J', jp_push false J a = Ok J' /\ jstate J' /\ forall K, memJ K J' -> memJ K J /\ memK K a.
Proof.
  intros H Ha. unfold jp_push, assert_. cbn [andb]. destruct (jone J) as [w|] eqn:E.
  - exists J. split; [reflexivity|]. split; [exact H|]. intros K M. split; [exact M|]. unfold memJ in M. rewrite E in M.
    unfold jstate in H. rewrite E in H. destruct H as [[_ Ew] _]. unfold memK in M. rewrite Ew in M. apply all_from_one; assumption.
  - destruct (is_zero a) eqn:Z.
    + exists J. split; [reflexivity|]. split; [exact H|]. intros K M. split; [exact M|].
      unfold is_zero in Z. unfold memK. destruct (terms a); [|discriminate]. apply mem_zero. reflexivity.
    + assert (Ga : good a) by (split; [exact Ha|intro X; unfold is_zero in Z; rewrite X in Z; discriminate]).
      destruct (good_hd a Ga) as [m Hm]. rewrite (hd_lm false a m Hm). cbn [bind]. rewrite copy_ok. cbn [bind].
      unfold jstate in H. rewrite E in H. destruct H as [Q D]. destruct (hd_mono a m Ha Hm) as [[Lm _] Pm].
      destruct (insert_w false (jq J) (WP (new_wrap m) a)) as (q & -> & P & _); [exact Ga|apply okq_gw; exact Q|]. cbn [bind].
      eexists. split; [reflexivity|]. destruct (okw_new m Lm) as [Ow Fw]. split.
      * cbn [jstate jone jq jtrees jpos jt]. split; [|exact D]. eapply Permutation_Forall; [apply Permutation_sym; exact P|]. constructor; [|exact Q].
        split; [exact Ga|]. split; [exact Ow|]. split; [exact Pm|]. intros i _. apply Fw.
      * intros K M. unfold memJ in *. rewrite E. cbn [jone jt jq] in M. destruct M as [M1 M2]. apply (Permutation_Forall P) in M2.
        split; [split; [exact M1|exact (Forall_inv_tail M2)]|exact (Forall_inv M2)].
Qed.

(* ------------------------------------------------------------------------------------------ *)
(** * nf of the built object *)

Lemma nf_ext find find' : good_find false t o n GM find -> (forall m, mono n m -> pos m = -1 -> find' m = find m) ->
  forall fuel f r0, goodz f -> nf_loop fuel false find' r0 f = nf_loop fuel false find r0 f.
Proof.
  intros F E. induction fuel as [|fuel IH]; intros f r0 Hf; cbn [nf_loop]; destruct (terms f) as [|[m c] l] eqn:Et; try reflexivity;
    (destruct (hd_mono f m Hf) as [Mm Pm]; [exists c, l; exact Et|]); rewrite (E m Mm Pm); [reflexivity|].
  destruct (F m Mm) as (w & Ew & _). rewrite Ew. cbn [bind]. destruct w as [a|]; [|reflexivity].
  destruct Hf as (V & I & R & M).
  destruct (nf_step false t o n GM find F f m c l a V I Et Ew) as (r & -> & Vr & Ir & _ & C). cbn [bind]. apply IH.
  apply (congruent_goodz GM (fun g H => H) f); [split; [|split; [|split]]; assumption|assumption..|]. apply C. apply congruent_refl.
Qed.

Lemma jp_nf_ok J a : jstate J -> goodz a ->
  exists N r, (forall fuel, (N <= fuel)%nat -> jp_nf fuel false J a = Ok r) /\ goodz r /\
    reduces_to n (among (basis J)) (terms a) (terms r) /\
    match jone J with
    | Some _ => terms r = []
    | None => forall m, In m (map fst (terms r)) -> forall v, ~ janet_divides n (map vars (map fst (jt J))) v (vars m)
    end.
Proof.
  intros H Ha. unfold jp_nf, assert_. cbn [andb]. assert (Ha' := Ha). destruct Ha' as (Va & Ia & Ra & Ma).
  unfold jstate in H. unfold basis. destruct (jone J) as [w|] eqn:E.
  - destruct H as ([Gw Ew] & _). set (f0 := fun m => if pos m =? -1 then Ok (Some (wpol w)) else Ok (@None poly)).
    set (B := fun l => GM l /\ exists g, In g [wpol w] /\ terms g = l).
    assert (F0 : good_find false t o n B f0).
    { intros m Hm. unfold f0. destruct (Z.eqb_spec (pos m) (-1)) as [Pm|Pm]; [|exists None; split; [reflexivity|discriminate]].
      exists (Some (wpol w)). split; [reflexivity|]. intros x X. injection X as <-. destruct Gw as (V & (S1 & S2 & S3) & R & M).
      split; [exact V|]. split; [exact S1|]. split; [exact S2|]. split; [exact S3|]. split; [split; [split; assumption|eexists; split; [left; reflexivity|reflexivity]]|].
      split; [split; [rewrite Pm; exact R|discriminate]|]. exists (Mon (-1) (repeat 0%nat n)), 1, []. split; [exact Ew|].
      split; [left; reflexivity|]. split; [cbn; rewrite repeat_length; symmetry; apply Hm|]. intro i. cbn [vars]. unfold expo.
      assert (X : nth i (repeat 0%nat n) 0%nat = 0%nat) by (clear; revert i; induction n; intros [|i]; cbn; auto). rewrite X. lia. }
    assert (F1 : good_find false t o n GM f0).
    { intros m Hm. destruct (F0 m Hm) as (x & Ex & X). exists x. split; [exact Ex|]. intros y Ey. destruct (X y Ey) as (X1 & X2 & X3 & X4 & X5 & X6).
      split; [exact X1|]. split; [exact X2|]. split; [exact X3|]. split; [exact X4|]. split; [apply X5|exact X6]. }
    destruct (nf_terminates false t o n B f0 F0 Ho a Va Ia) as (N & r & k & T). exists N, r.
    assert (X : forall fuel, nf_loop fuel false (jp_find false J) 0 a = nf_loop fuel false f0 0 a).
    { intro fuel. apply nf_ext; [exact F1| |exact Ha]. intros m _ Pm. unfold jp_find, f0. rewrite E, Pm. reflexivity. }
    destruct (nf_partial false t o n B f0 F0 N a 0%nat r (0 + k) Va Ia (T N 0%nat (le_n N))) as (Vr & Ir & Cr & Dr).
    assert (Gr : goodz r) by (apply (congruent_goodz B (fun g Hg => proj1 Hg) a); assumption).
    assert (Zr : terms r = []).
    { destruct Dr as [Dr|(m & c & l & Er & Fm)]; [exact Dr|]. destruct (hd_mono r m Gr) as [_ Pm]; [exists c, l; exact Er|].
      unfold f0 in Fm. rewrite Pm in Fm. discriminate. }
    split; [|split; [exact Gr|split; [|exact Zr]]].
    + intros fuel Hf. unfold p_nf. rewrite X, (T fuel 0%nat Hf). cbn [bind fst]. unfold p_nfTail. rewrite Zr. cbn [bind fst].
      destruct (p_pp_ok false r Vr) as (r' & g & Er & Cp & Vr' & Hg & Mf & F & _). rewrite Er. f_equal.
      assert (Z' : terms r' = []) by (rewrite Zr in Mf; destruct (terms r'); [reflexivity|discriminate]).
      apply comparable_same_ring in Cp as (C1 & C2 & C3). destruct r, r'. cbn in *. congruence.
    + apply congruent_reduces. eapply congruent_mono; [|exact Cr]. intros g [_ X']. exact X'.
  - destruct H as [Q D].
    assert (Fd : exists f T, good_find false t o n (GT T) f /\ jp_find false J = f /\ T = jt J /\
        (forall m, mono n m -> pos m = -1 -> f m = Ok None -> forall v, ~ janet_divides n (map vars (map fst (jt J))) v (vars m))).
    { destruct D as [(D1 & D2 & D3)|(Ja & D1 & D2 & D3)].
      - exists (jp_find false J), (jt J). split; [|split; [reflexivity|split; [reflexivity|]]].
        + intros m Hm. exists None. unfold jp_find. rewrite E, D1. split; [reflexivity|discriminate].
        + intros m _ _ _ v (I & _). rewrite D3 in I. exact I.
      - assert (Ej : jp_find false J = find_poly false (-1) (Some [Ja]) (jt J)) by (unfold jp_find; rewrite E, D1, D2; reflexivity).
        exists (jp_find false J), (jt J). rewrite Ej. split; [apply good_find_T; exact D3|]. split; [reflexivity|]. split; [reflexivity|].
        intros m Mm Pm Fm v Dv. apply (find_none_irr Ja (jt J) m D3 Mm Pm Fm v).
        assert (P := Permutation_map vars (ti_perm _ _ D3)). rewrite map_map in P. change (map (fun x => vars (wlm x)) (wraps (jroot Ja))) with (lms (wraps (jroot Ja))) in P.
        destruct Dv as (I & Dd & Nm). split; [eapply Permutation_in; [apply Permutation_sym; exact P|exact I]|]. split; [exact Dd|].
        intros i Hi Hlt (z & Iz & Z). apply (Nm i Hi Hlt). exists z. split; [|exact Z]. eapply Permutation_in; [exact P|exact Iz]. }
    destruct Fd as (f & T & F0 & -> & -> & Nn).
    assert (HS : forall g, GT (jt J) g -> GM g) by (intros g [X _]; exact X).
    destruct (nf_terminates false t o n _ f F0 Ho a Va Ia) as (N1 & r & k & T1).
    destruct (nf_partial false t o n _ f F0 N1 a 0%nat r (0 + k) Va Ia (T1 N1 0%nat (le_n N1))) as (Vr & Ir & Cr & Dr).
    assert (Gr : goodz r) by (apply (congruent_goodz _ HS a); assumption).
    destruct Dr as [Zr|(m & c & l & Er & Fm)].
    + exists N1, r. split; [|split; [exact Gr|split]].
      * intros fuel Hf. unfold p_nf. rewrite (T1 fuel 0%nat Hf). cbn [bind fst]. unfold p_nfTail. rewrite Zr. cbn [bind fst].
        destruct (p_pp_ok false r Vr) as (r' & g & Er & Cp & Vr' & Hg & Mf & F & _). rewrite Er. f_equal.
        assert (Z' : terms r' = []) by (rewrite Zr in Mf; destruct (terms r'); [reflexivity|discriminate]).
        apply comparable_same_ring in Cp as (C1 & C2 & C3). destruct r, r'. cbn in *. congruence.
      * apply congruent_reduces. eapply congruent_mono; [|exact Cr].
        intros g [_ (e & Ie & X')]. exists (snd e). split; [apply in_map; exact Ie|exact X'].
      * rewrite Zr. intros x [].
    + assert (Hm : hd r m) by (exists c, l; exact Er). assert (Gr' : good r) by (split; [exact Gr|eapply hd_nz; exact Hm]).
      assert (V1 : pvalid (with_terms r ([(m, c)] ++ l))) by (cbn [app]; rewrite <- Er, with_same; exact Vr).
      destruct (nft_terminates false t o n _ f F0 Ho r [(m, c)] l V1 Ir) as (N2 & r2 & k2 & T2).
      assert (E2 : forall fuel, (N2 <= fuel)%nat -> p_nfTail fuel false f r = Ok (r2, k2)).
      { intros fuel Hf. unfold p_nfTail. rewrite Er. exact (T2 fuel 0%nat Hf). }
      assert (S2 := nft_safe _ HS f f N2 r m F0 Gr' Hm (fun _ _ _ => eq_refl)). rewrite (E2 N2 (le_n _)) in S2. cbn [safe fst] in S2.
      destruct S2 as (G2 & H2 & C2 & Z2). destruct (good_pp r2 m G2 H2) as (r3 & E3 & G3 & H3 & B3 & M3).
      exists (Nat.max N1 N2), r3. split; [|split; [apply G3|split]].
      * intros fuel Hf. unfold p_nf. rewrite (T1 fuel 0%nat) by lia. cbn [bind fst]. rewrite E2 by lia. cbn [bind fst]. exact E3.
      * assert (C3 : congruent n (GT (jt J)) (terms a) (terms r2)) by (eapply congruent_trans; eassumption).
        assert (C4 : congruent n (among (map snd (jt J))) (terms a) (terms r2)).
        { eapply congruent_mono; [|exact C3]. intros g [_ (e & Ie & X')]. exists (snd e). split; [apply in_map; exact Ie|exact X']. }
        destruct (p_pp_ok false r2 (proj1 (proj1 G2))) as (r3' & g & E3' & _ & _ & Hg & _ & F & _). rewrite E3 in E3'. injection E3' as <-.
        destruct C4 as (k' & q & K & Cq & Eq). exists k', g, q. split; [exact K|]. split; [exact Hg|]. split; [exact Cq|]. intro x. rewrite <- F. apply Eq.
      * intros x Ix. destruct (goodz_mono r3 x (proj1 G3) Ix) as [Mx Px]. apply Nn; [exact Mx|exact Px|]. rewrite M3 in Ix.
        destruct H2 as (d & l' & El). rewrite El in Ix, Z2. cbn [map tl fst] in Ix, Z2. destruct Ix as [<-|Ix]; [exact Fm|apply Z2; exact Ix].
Qed.
End P.
