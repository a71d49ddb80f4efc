(** Prolongations that have been taken care of, and the theorem that a tree for which all of them have been is an
    involutive basis. *)
From Coq Require Import ZArith List Bool Arith Lia Permutation.
From Verif Require Import Outcome MonomModel MonomSpec MonomProofs PolyModel PolySpec PolyProofs PolyNfProofs PolyRedProofs IdealProofs JanetSpec JanetPolySpec JanetPolyProofs CompletionProofs
  PyMonomModel PyMonomSpec PyMonomProofs PyPolyModel PyPolySpec PyPolyProofs PyRedProofs PyJanetModel PyJanetSpec PyJanetProofs PyJanetTop PyJanetProlong
  PyHPModel PyForestModel PyForestProofs PyQueueModel PyQueueProofs PyDivProofs PySpan PyGinvModel PyGinvBase PyGinvSweep PyGinvRound.
Import ListNotations.
Local Open Scope nat_scope.

Section Cover.
Variables (o : py_order) (n : nat) (k : Z).
Hypothesis K : (0 <= k)%Z.
Local Notation blt := (blt o n k).
Local Notation ble := (ble o n k).
Local Notation mul u := (mprod (Mon (-1) u)).
Local Notation near := (near o n k).
Definition ev (v : nat) : list nat := incr v (repeat 0 n).
Lemma ev_len v : length (ev v) = n.
Proof using. unfold ev. now rewrite incr_length, repeat_length. Qed.
Lemma ev_expo i j : i < n -> expo (ev i) j = if Nat.eqb j i then 1 else 0.
Proof using. intro H. unfold ev. rewrite incr_expo' by (rewrite repeat_length; exact H). assert (E : expo (repeat 0 n) j = 0) by (unfold expo; apply nth_repeat). rewrite E. reflexivity. Qed.

(** a Janet divisor of a factor s of v * g which is lexicographically above g is above g as well *)
Lemma nm_lex U g v s x : length g = n -> length s = n -> length x = n -> v < n -> janet_nm U g v -> divides n s (addv (ev v) g) -> lex_gt s g -> In g U -> janet_divides n U x s -> lex_gt x g.
Proof using.
  intros Lg Ls Lx V (t & It & T1 & T2) D (a & La & A1 & A2) Ig (Ix & Dx & Mx).
  assert (Ds : forall i, i < n -> expo s i <= (if Nat.eqb i v then 1 else 0) + expo g i) by (intros i Hi; specialize (D i Hi); rewrite expo_addv in D by (rewrite ev_len; lia); rewrite ev_expo in D by exact V; exact D).
  assert (a = v) as ->. { specialize (Ds a ltac:(lia)). destruct (Nat.eqb_spec a v); [assumption|lia]. }
  (* first difference of x and g *)
  assert (H : (forall i, i < n -> expo x i = expo g i) \/ exists i, i < n /\ (forall j, j < i -> expo x j = expo g j) /\ expo x i <> expo g i).
  { clear. induction n as [|p IH]; [left; intros; lia|]. destruct IH as [IH|(i & H1 & H2 & H3)].
    - destruct (Nat.eq_dec (expo x p) (expo g p)) as [E|E]; [left; intros i Hi; destruct (Nat.eq_dec i p) as [->|]; [exact E|apply IH; lia]|right; exists p; split; [lia|]; split; [exact IH|exact E]].
    - right. exists i. split; [lia|]. auto. }
  destruct H as [H|(i & Hi & H1 & H2)].
  - exfalso. apply (Mx v V); [rewrite H by exact V; exact A2|]. exists t. split; [exact It|]. split; [intros j Hj; rewrite T1 by exact Hj; symmetry; apply H; lia|rewrite H by exact V; exact T2].
  - destruct (Nat.lt_ge_cases (expo g i) (expo x i)) as [G|G]; [exists i; split; [lia|]; split; auto|]. exfalso. assert (X : expo x i < expo g i) by lia.
    destruct (Nat.lt_ge_cases v i) as [Vi|Vi].
    + apply (Mx v V); [rewrite H1 by exact Vi; exact A2|]. exists t. split; [exact It|]. split; [intros j Hj; rewrite T1 by exact Hj; symmetry; apply H1; lia|rewrite H1 by exact Vi; exact T2].
    + apply (Mx i Hi).
      * destruct (Nat.eq_dec i v) as [->|Ne]; [lia|]. rewrite A1 by lia. exact X.
      * exists g. split; [exact Ig|]. split; [intros j Hj; symmetry; now apply H1|exact X].
Qed.

(** the multiple v * g is, up to factors and smaller multiples, a multiple of an element of S above g *)
Definition covered (S : ppoly -> Prop) (g : pwrap) (v : nat) : Prop :=
  exists s u j c d, S s /\ length u = n /\ mul u (lmon s) = mul (ev v) (pw_lm g) /\ lex_gt (vars (lmon s)) (exps g) /\ (j <> 0)%Z /\
    rspan n S (blt (mul (ev v) (pw_lm g))) d /\ forall m, (j * coef (shift (ev v) (pw_poly g)) m = c * coef (shift u s) m + coef d m)%Z.
(** s is, up to factors and smaller multiples, u times s' *)
Definition follows (S' : ppoly -> Prop) (s s' : ppoly) (u : list nat) : Prop :=
  length u = n /\ mul u (lmon s') = lmon s /\ exists j c d, (j <> 0)%Z /\ rspan n S' (blt (lmon s)) d /\ forall m, (j * coef s m = c * coef (shift u s') m + coef d m)%Z.
Lemma near_follows (S' : ppoly -> Prop) s s' : pmono n k (lmon s) -> PyPolyProofs.pmonos n k s' -> near S' s s' -> follows S' s s' (repeat 0 n).
Proof using.
  intros M Ms (E & j & l & d & J & L & D & Co). split; [apply repeat_length|]. split; [rewrite E; now apply (mul_unit n k)|]. exists j, l, (scale (-1) d). split; [exact J|]. split.
  - apply (rspan_scaled n S' _ _ d 1 (-1)); [lia|exact D|]. intro m. rewrite coef_scale. ring.
  - intro m. specialize (Co m). rewrite coef_scale. pose proof (mprod_unit_shift n k s' Ms) as Es. replace (coef (shift (repeat 0 n) s') m) with (coef s' m) by (f_equal; symmetry; exact Es). lia.
Qed.
Lemma self_follows (N : 0 < n) (S' : ppoly -> Prop) s : pmono n k (lmon s) -> PyPolyProofs.pmonos n k s -> follows S' s s (repeat 0 n).
Proof using. intros M Ms. apply near_follows; auto. apply near_refl; exact N. Qed.

Lemma covered_step (S S' : ppoly -> Prop) g g' v : pmono n k (pw_lm g) -> lmon (pw_poly g) = pw_lm g ->
  (forall s, S s -> pmono n k (lmon s) /\ rspan n S' (ble (lmon s)) s) ->
  (forall s u, S s -> length u = n -> mul u (lmon s) = mul (ev v) (pw_lm g) -> lex_gt (vars (lmon s)) (exps g) -> exists s' u', S' s' /\ follows S' s s' u' /\ lex_gt (vars (lmon s')) (exps g)) ->
  pw_lm g' = pw_lm g -> near S' (pw_poly g) (pw_poly g') -> covered S g v -> covered S' g' v.
Proof.
  intros M Lg H1 H2 Eg (Enr & jn & ln & dn & Jn & Ln & Dn & Cn) (s & u & j & c & d & Ss & Lu & Eu & Lx & J & D & Co).
  destruct (H2 s u Ss Lu Eu Lx) as (s' & u' & Ss' & (Lu' & Eu' & j' & c' & d' & J' & D' & Co') & Lx'). destruct (H1 s Ss) as [Ms _].
  set (mu := mul (ev v) (pw_lm g)) in *. assert (Mmu : pmono n k mu) by (apply mul_mono; [apply ev_len|exact M]).
  assert (Down : forall x y, blt mu x -> pmono n k x -> ble x y -> blt mu y) by (intros x y B _ Y; exact (blt_trans o n k mu x y Mmu B Y)).
  assert (R1 : rspan n S' (blt mu) d) by (apply (rspan_through o n k K S S'); auto).
  assert (R2 : rspan n S' (blt mu) (shift u d')). { apply (rspan_shift n S' (blt (lmon s)) (blt mu) u d' Lu); [|exact D']. intros x X. rewrite <- Eu. apply (blt_mul o n k K u (lmon s) x Lu Ms X). }
  assert (R3 : rspan n S' (blt mu) (shift (ev v) dn)). { apply (rspan_shift n S' (blt (lmon (pw_poly g))) (blt mu) (ev v) dn (ev_len v)); [|exact Dn]. intros x X. rewrite Lg in X. apply (blt_mul o n k K (ev v) (pw_lm g) x (ev_len v) M X). }
  (* j v g = c u s + d; j' s = c' u' s' + d'; ln g' = jn g + dn *)
  exists s', (addv u u'), (ln * j' * j)%Z, (jn * c * c')%Z, (scale (jn * c) (shift u d') ++ scale (jn * j') d ++ scale (j' * j) (shift (ev v) dn)).
  rewrite Eg. fold mu. split; [exact Ss'|]. split; [rewrite addv_length; lia|]. split; [rewrite <- mul_mul, Eu'; exact Eu|]. split; [unfold exps in *; rewrite Eg; exact Lx'|]. split; [nia|]. split.
  - apply (rspan_lin n S' _ _ (shift u d') (scale (jn * j') d ++ scale (j' * j) (shift (ev v) dn)) 1 (jn * c) 1); [lia|exact R2| |intro m; rewrite coef_app, coef_scale; ring].
    apply (rspan_lin n S' _ _ d (shift (ev v) dn) 1 (jn * j') (j' * j)); [lia|exact R1|exact R3|]. intro m. rewrite coef_app, !coef_scale. ring.
  - intro m. rewrite !coef_app, !coef_scale, <- shift_shift.
    pose proof (coef_shift_lin u (scale j' s) (shift u' s') d' c' 1 ltac:(intro x; rewrite coef_scale, Co'; ring) m) as X1.
    pose proof (coef_shift_lin u (scale j' s) s [] j' 0 ltac:(intro x; rewrite coef_scale; cbn [coef]; ring) m) as X2.
    pose proof (coef_shift_lin (ev v) (scale ln (pw_poly g')) (pw_poly g) dn jn 1 ltac:(intro x; rewrite coef_scale, Cn; ring) m) as X3.
    pose proof (coef_shift_lin (ev v) (scale ln (pw_poly g')) (pw_poly g') [] ln 0 ltac:(intro x; rewrite coef_scale; cbn [coef]; ring) m) as X4.
    specialize (Co m). change (coef (shift u []) m) with 0%Z in X2. change (coef (shift (ev v) []) m) with 0%Z in X4.
    rewrite X2 in X1. rewrite X4 in X3. clear X2 X4. revert X1 X3 Co. generalize (coef (shift u s) m) (coef (shift u (shift u' s')) m) (coef (shift u d') m) (coef (shift (ev v) (pw_poly g')) m) (coef (shift (ev v) (pw_poly g)) m) (coef (shift (ev v) dn) m) (coef d m).
    intros S1 S2 D1 G1 G0 D2 D0 X1 X3 Co. transitivity (j' * j * (ln * G1 + 0 * 0))%Z; [ring|]. rewrite X3.
    transitivity (jn * j' * (j * G0) + j' * j * D2)%Z; [ring|]. rewrite Co. transitivity (jn * c * (j' * S1 + 0 * 0) + jn * j' * D0 + j' * j * D2)%Z; [ring|]. rewrite X1. ring.
Qed.
End Cover.
