(** Values of polynomials at rational points. *)
From Coq Require Import ZArith QArith List Bool Arith Lia Setoid.
From Verif Require Import MonomModel MonomSpec MonomProofs PolyModel PolySpec PolyProofs PolyRedProofs PolyNfProofs JanetPolySpec IdealProofs LinSpec LinProofs.
Import ListNotations.
Local Open Scope Q_scope.

Lemma power_0 b : power b 0 == 1. Proof. reflexivity. Qed.
Lemma power_S b k : power b (S k) == b * power b k. Proof. reflexivity. Qed.
Lemma power_add b j k : power b (j + k) == power b j * power b k.
Proof. induction j as [|j IH]; [rewrite power_0; cbn [Nat.add]; ring|]. cbn [Nat.add]. rewrite !power_S, IH. ring. Qed.
Lemma monomial_add x : forall u v i, length u = length v -> monomial_at x i (addv u v) == monomial_at x i u * monomial_at x i v.
Proof. induction u as [|a u IH]; intros [|b v] i E; cbn in *; try discriminate; [ring|]. rewrite power_add, (IH v (S i)) by congruence. ring. Qed.
Lemma monomial_ext x y : forall v i, (forall j, (j < length v)%nat -> nth j v 0%nat <> 0%nat -> x (i + j)%nat == y (i + j)%nat) -> monomial_at x i v == monomial_at y i v.
Proof.
  induction v as [|k v IH]; intros i H; cbn [monomial_at]; [reflexivity|]. rewrite (IH (S i)).
  - apply Qmult_comp; [|reflexivity]. destruct k as [|k]; [reflexivity|]. assert (X := H 0%nat). cbn in X. specialize (X ltac:(lia) ltac:(discriminate)). rewrite Nat.add_0_r in X.
    clear -X. induction (S k) as [|j IH]; [reflexivity|]. rewrite !power_S, IH, X. reflexivity.
  - intros j L N. specialize (H (S j)). cbn in H. rewrite Nat.add_succ_r in H. cbn [Nat.add]. apply H; [lia|exact N].
Qed.

Lemma value_app x p q : value_at x (p ++ q) == value_at x p + value_at x q.
Proof. induction p as [|[m c] p IH]; cbn [app value_at]; [ring|]. rewrite IH. ring. Qed.
Lemma value_scale x k p : value_at x (scale k p) == inject_Z k * value_at x p.
Proof. unfold scale. induction p as [|[m c] p IH]; cbn [map value_at fst snd]; [ring|]. rewrite IH, inject_Z_mult. ring. Qed.
Lemma value_shift x n u p : length u = n -> monos n p -> value_at x (shift u p) == monomial_at x 0 u * value_at x p.
Proof.
  intros Lu M. unfold shift. induction M as [|[m c] p Mm _ IH]; cbn [map value_at fst snd]; [ring|]. rewrite IH. unfold mprod. cbn [vars pos].
  rewrite vsum_addv, monomial_add; [ring|]. destruct Mm. cbn in *. congruence.
Qed.

Definition without (m : monom) (p : list (monom * Z)) := filter (fun t => if monom_eq_dec (fst t) m then false else true) p.
Lemma value_without x m p : value_at x p == inject_Z (coef p m) * monomial_at x 0 (vars m) + value_at x (without m p).
Proof.
  induction p as [|[u c] p IH]; cbn [without filter value_at coef fst]; [change (inject_Z 0) with 0; ring|]. fold (without m p). rewrite IH, inject_Z_plus.
  destruct (monom_eq_dec u m) as [->|N]; cbn [value_at]; [ring|]. change (inject_Z 0) with 0. ring.
Qed.
Lemma coef_without m p u : coef (without m p) u = if monom_eq_dec m u then 0%Z else coef p u.
Proof.
  induction p as [|[v c] p IH]; cbn [without filter coef fst]; [destruct (monom_eq_dec m u); reflexivity|]. fold (without m p).
  destruct (monom_eq_dec v m) as [->|N]; cbn [coef]; rewrite IH; destruct (monom_eq_dec m u) as [->|N']; try reflexivity.
  destruct (monom_eq_dec v u); [congruence|reflexivity].
Qed.
Lemma filter_le {A} (f : A -> bool) l : (length (filter f l) <= length l)%nat.
Proof. induction l as [|a l IH]; cbn; [lia|]. destruct (f a); cbn; lia. Qed.
Lemma value_zero x : forall k p, (length p <= k)%nat -> (forall m, coef p m = 0%Z) -> value_at x p == 0.
Proof.
  induction k as [|k IH]; intros [|[m c] p] L Z; cbn in L; try lia; try reflexivity.
  rewrite (value_without x m), Z. rewrite IH; [change (inject_Z 0) with 0; ring| |].
  - cbn [without filter fst]. destruct (monom_eq_dec m m); [|congruence]. assert (X := filter_le (fun t => if monom_eq_dec (fst t) m then false else true) p).
    cbn in L. lia.
  - intro u. rewrite coef_without, Z. destruct (monom_eq_dec m u); reflexivity.
Qed.
Lemma value_lin x p q k : (forall m, coef q m = k * coef p m)%Z -> value_at x q == inject_Z k * value_at x p.
Proof.
  intro H. assert (X : value_at x (q ++ scale (- k) p) == 0).
  { eapply value_zero; [apply le_n|]. intro m. rewrite coef_app, coef_scale, H. ring. }
  rewrite value_app, value_scale, inject_Z_opp in X. rewrite <- (Qplus_0_l (inject_Z k * _)), <- X. ring.
Qed.
Lemma value_ext x p q : (forall m, coef q m = coef p m) -> value_at x q == value_at x p.
Proof. intro H. rewrite (value_lin x p q 1); [change (inject_Z 1) with 1; ring|]. intro m. rewrite H. ring. Qed.

Lemma value_member n x (F : list poly) p : Forall (fun f => monos n (terms f)) F -> solves x F -> rational_member n (among F) p -> value_at x p == 0.
Proof.
  intros M S (k & q & Nk & C & E).
  assert (Z : value_at x q == 0).
  { clear E. induction C as [p0 Z|p0 r u g c _ IH (f & If & <-) Lu E]; [eapply value_zero; [apply le_n|exact Z]|].
    rewrite (value_ext x (r ++ scale c (shift u (terms f)))) by (intro m; rewrite coef_app, coef_scale; apply E).
    rewrite Forall_forall in M. rewrite value_app, value_scale, (value_shift x n u _ Lu (M f If)), IH, (S f If). ring. }
  rewrite (value_lin x p q k E) in Z. apply Qmult_integral in Z as [Z|Z]; [|exact Z]. exfalso. apply Nk. unfold Qeq, inject_Z in Z. cbn in Z. lia.
Qed.

Lemma value_agree x y p : (forall m c j, In (m, c) p -> (expo (vars m) j <> 0)%nat -> x j == y j) -> value_at x p == value_at y p.
Proof.
  induction p as [|[m c] p IH]; intro H; cbn [value_at]; [reflexivity|]. rewrite IH by (intros m' c' j I; apply (H m' c' j); right; exact I).
  rewrite (monomial_ext x y (vars m) 0); [reflexivity|]. intros j L N. cbn [Nat.add]. apply (H m c j); [left; reflexivity|exact N].
Qed.
Lemma monomial_var x n i u : (i < n)%nat -> is_variable n i u -> monomial_at x 0 u == x i.
Proof.
  intros Hi [Lu Hu]. assert (X : forall v k, (forall j, (j < length v)%nat -> nth j v 0%nat = if (k + j =? i)%nat then 1%nat else 0%nat) ->
    monomial_at x k v == if (k <=? i)%nat && (i <? k + length v)%nat then x i else 1).
  { induction v as [|a v IH]; intros k H; cbn [monomial_at length].
    - destruct (Nat.leb_spec k i); destruct (Nat.ltb_spec i (k + 0)); cbn [andb]; try reflexivity; lia.
    - rewrite (IH (S k)); [|intros j L; specialize (H (S j)); cbn in H; rewrite Nat.add_succ_r in H; apply H; cbn; lia].
      assert (H0 := H 0%nat). cbn in H0. rewrite H0 by lia. rewrite Nat.add_0_r.
      destruct (Nat.eqb_spec k i) as [->|N].
      + destruct (Nat.leb_spec (S i) i); [lia|]. cbn [andb]. destruct (Nat.leb_spec i i); [|lia]. destruct (Nat.ltb_spec i (i + S (length v))); [|lia]. cbn [andb].
        rewrite power_S, power_0. ring.
      + rewrite power_0. destruct (Nat.leb_spec (S k) i), (Nat.ltb_spec i (S k + length v)), (Nat.leb_spec k i), (Nat.ltb_spec i (k + S (length v))); cbn [andb]; try lia; ring. }
  rewrite (X u 0%nat).
  - rewrite Lu. cbn [Nat.leb Nat.add]. destruct (Nat.ltb_spec i n); [reflexivity|lia].
  - intros j L. cbn [Nat.add]. apply Hu. lia.
Qed.
