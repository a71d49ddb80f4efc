(** Sets of monomials in at most two variables cannot grow forever by monomials without Janet divisor. *)
From Coq Require Import List Arith Lia Permutation Bool.
From Verif Require Import MonomSpec JanetSpec.
Import ListNotations.

Definition uncovered (n : nat) (U : list (list nat)) (m : list nat) : Prop :=
  length m = n /\ forall u, ~ janet_divides n U u m.
(** U' is U with one monomial that has no Janet divisor in U. *)
Definition grow (n : nat) (U' U : list (list nat)) : Prop := exists m, uncovered n U m /\ Permutation U' (m :: U).

Lemma nm_perm U V u i : Permutation U V -> janet_nm U u i -> janet_nm V u i.
Proof. intros P (w & I & H). exists w. split; [eapply Permutation_in; eassumption|exact H]. Qed.
Lemma jd_perm n U V u m : Permutation U V -> janet_divides n U u m -> janet_divides n V u m.
Proof.
  intros P (I & D & N). split; [eapply Permutation_in; eassumption|]. split; [exact D|]. intros i Hi L C. apply (N i Hi L).
  eapply nm_perm; [symmetry; exact P|exact C].
Qed.
Lemma unc_perm n U V m : Permutation U V -> uncovered n U m -> uncovered n V m.
Proof. intros P [L H]. split; [exact L|]. intros u C. apply (H u). eapply jd_perm; [symmetry; exact P|exact C]. Qed.
Lemma grow_acc_perm n U V : Permutation U V -> Acc (grow n) U -> Acc (grow n) V.
Proof.
  intros P [H]. constructor. intros W (m & C & Q). apply H. exists m. split; [eapply unc_perm; [symmetry; exact P|exact C]|].
  rewrite Q, P. reflexivity.
Qed.

(** Adding monomials of the same degree does not cover another one. *)
Lemma unc_add n U m m' : length m' = n -> total m = total m' -> m <> m' -> uncovered n U m -> uncovered n (m' :: U) m.
Proof.
  intros L' T N [L H]. split; [exact L|]. intros u (I & D & C). destruct I as [<-|I].
  - apply N. clear H C. revert m m' n L L' T N D. induction m as [|x m IH]; intros [|y m'] n L L' T N D; cbn in *; try congruence; try lia.
    destruct n as [|n]; [lia|]. assert (D0 := D 0 ltac:(lia)). cbn in D0.
    assert (D' : divides n m' m) by (intros i Hi; apply (D (S i)); lia).
    assert (Tm : total m' <= total m).
    { clear -D' L L'. assert (X : length m' = n) by lia. assert (Y : length m = n) by lia. clear L L'. revert m m' X Y D'.
      induction n as [|n IH]; intros [|a m] [|b m'] X Y D; cbn in *; try lia. assert (D0 := D 0 ltac:(lia)). cbn in D0.
      assert (total m' <= total m) by (apply IH; [lia|lia|intros i Hi; apply (D (S i)); lia]). lia. }
    assert (x = y) by lia. subst y. f_equal. destruct (list_eq_dec Nat.eq_dec m m') as [E|E]; [exact E|]. apply (IH m' n); try lia; assumption.
  - apply (H u). split; [exact I|]. split; [exact D|]. intros i Hi Lt (w & Iw & W). apply (C i Hi Lt). exists w. split; [right; exact Iw|exact W].
Qed.

(* ------------------------------------------------------------------------------------------ *)
(** * Two variables *)

Notation pr := (map (fun u : list nat => (expo u 0, expo u 1))).

Lemma max_in l : l <> [] -> In (list_max l) l.
Proof.
  induction l as [|x l IH]; [congruence|]. intros _. change (list_max (x :: l)) with (Nat.max x (list_max l)).
  destruct l as [|y l]; [left; cbn; lia|]. destruct (Nat.max_spec x (list_max (y :: l))) as [[_ ->]|[_ ->]]; [right; apply IH; discriminate|left; reflexivity].
Qed.
Lemma max_ge l x : In x l -> x <= list_max l.
Proof. intro I. assert (H := proj1 (list_max_le l (list_max l)) (le_n _)). rewrite Forall_forall in H. exact (H x I). Qed.

Definition X (P : list (nat * nat)) : nat := list_max (map fst P).
Definition cls (a : nat) (P : list (nat * nat)) : list nat := map snd (filter (fun z => fst z =? a) P).
Definition M (P : list (nat * nat)) (a : nat) : nat := list_max (cls a P).
Definition has (P : list (nat * nat)) (k : nat) : bool := existsb (fun z => fst z =? k) P.
Definition mem (P : list (nat * nat)) (k r : nat) : bool := existsb (fun z => (fst z =? k) && (snd z =? r)) P.
Definition E (P : list (nat * nat)) : nat := length (filter (fun k => negb (has P k)) (seq 0 (X P))).
Definition miss (P : list (nat * nat)) (k : nat) : nat := length (filter (fun r => negb (mem P k r)) (seq 0 (M P k))).
Definition Sm (P : list (nat * nat)) : nat := list_sum (map (miss P) (seq 0 (S (X P)))).

Lemma in_cls a b P : In b (cls a P) <-> In (a, b) P.
Proof.
  unfold cls. rewrite in_map_iff. split.
  - intros ([x y] & <- & I). apply filter_In in I as [I H]. apply Nat.eqb_eq in H. cbn in *. now subst x.
  - intro I. exists (a, b). split; [reflexivity|]. apply filter_In. split; [exact I|]. apply Nat.eqb_refl.
Qed.
Lemma has_spec P k : has P k = true <-> exists b, In (k, b) P.
Proof.
  unfold has. rewrite existsb_exists. split; [intros ([x y] & I & H); apply Nat.eqb_eq in H; cbn in H; subst x; eauto|].
  intros (b & I). exists (k, b). split; [exact I|apply Nat.eqb_refl].
Qed.
Lemma mem_spec P k r : mem P k r = true <-> In (k, r) P.
Proof.
  unfold mem. rewrite existsb_exists. split.
  - intros ([x y] & I & H). apply andb_prop in H as [H1 H2]. apply Nat.eqb_eq in H1, H2. cbn in *. now subst.
  - intro I. exists (k, r). split; [exact I|]. cbn. now rewrite !Nat.eqb_refl.
Qed.
Lemma filter_le {A} (f g : A -> bool) l : (forall x, In x l -> f x = true -> g x = true) -> length (filter f l) <= length (filter g l).
Proof.
  induction l as [|x l IH]; intro H; cbn; [lia|]. assert (IH' := IH (fun y Iy => H y (or_intror Iy))). assert (Hx := H x (or_introl eq_refl)).
  destruct (f x); [rewrite Hx by reflexivity; cbn; lia|]. destruct (g x); cbn; lia.
Qed.
Lemma filter_lt {A} (f g : A -> bool) l x : (forall y, In y l -> f y = true -> g y = true) -> In x l -> g x = true -> f x = false ->
  length (filter f l) < length (filter g l).
Proof.
  intros H I G F. apply in_split in I as (l1 & l2 & ->). rewrite !filter_app, !app_length. cbn [filter]. rewrite G, F. cbn [length].
  assert (A1 := filter_le f g l1 (fun y Iy => H y (in_or_app l1 (x :: l2) y (or_introl Iy)))).
  assert (A2 := filter_le f g l2 (fun y Iy => H y (in_or_app l1 (x :: l2) y (or_intror (or_intror Iy))))). lia.
Qed.
Lemma sum_le {A} (f g : A -> nat) l : (forall x, In x l -> f x <= g x) -> list_sum (map f l) <= list_sum (map g l).
Proof.
  induction l as [|x l IH]; intro H; cbn; [lia|]. specialize (IH (fun y Iy => H y (or_intror Iy))). specialize (H x (or_introl eq_refl)).
  unfold list_sum in IH. lia.
Qed.
Lemma sum_lt {A} (f g : A -> nat) l x : (forall y, In y l -> f y <= g y) -> In x l -> f x < g x -> list_sum (map f l) < list_sum (map g l).
Proof.
  intros H I L. apply in_split in I as (l1 & l2 & ->). rewrite !map_app, !list_sum_app. cbn [map].
  change (list_sum (f x :: map f l2)) with (f x + list_sum (map f l2)). change (list_sum (g x :: map g l2)) with (g x + list_sum (map g l2)).
  assert (A1 := sum_le f g l1 (fun y Iy => H y (in_or_app l1 (x :: l2) y (or_introl Iy)))).
  assert (A2 := sum_le f g l2 (fun y Iy => H y (in_or_app l1 (x :: l2) y (or_intror (or_intror Iy))))). lia.
Qed.

(** No element of P is a Janet divisor of (a, b). *)
Definition unc2 (P : list (nat * nat)) (a b : nat) : Prop := forall a' b', In (a', b') P -> a' <= a -> b' <= b ->
  (a' < a -> forall z, In z P -> fst z <= a') -> (b' < b -> forall z, In z P -> fst z = a' -> snd z <= b') -> False.

Lemma unc_unc2 U m : uncovered 2 U m -> unc2 (pr U) (expo m 0) (expo m 1).
Proof.
  intros [_ H] a' b' I La Lb Na Nb. apply in_map_iff in I as (u & Eu & I). injection Eu as <- <-. apply (H u). split; [exact I|]. split.
  - intros [|[|i]] Hi; [exact La|exact Lb|lia].
  - intros [|[|i]] Hi Lt; [| |lia]; intros (w & Iw & Eq & Gt).
    + assert (Y := Na Lt (expo w 0, expo w 1)). cbn in Y. enough (expo w 0 <= expo u 0) by lia. apply Y.
      apply in_map_iff. exists w. auto.
    + assert (Y := Nb Lt (expo w 0, expo w 1)). cbn in Y. enough (expo w 1 <= expo u 1) by lia. apply Y; [|apply Eq; lia].
      apply in_map_iff. exists w. auto.
Qed.

Section Step.
Variables (P : list (nat * nat)).
Hypothesis (Ne : P <> []).

Lemma top_in : In (X P, M P (X P)) P.
Proof.
  apply in_cls. apply max_in. intro H. assert (I : In (X P) (map fst P)) by (apply max_in; destruct P; [congruence|discriminate]).
  apply in_map_iff in I as ([x y] & Ex & I). cbn in Ex. subst x. apply in_cls in I. rewrite H in I. exact I.
Qed.
Lemma cls_in k : has P k = true -> In (k, M P k) P.
Proof. intro H. apply has_spec in H as (c & I). apply in_cls. apply max_in. intro N. apply in_cls in I. rewrite N in I. exact I. Qed.
Lemma le_X z : In z P -> fst z <= X P.
Proof. intro I. apply max_ge. apply in_map. exact I. Qed.
Lemma le_M k y : In (k, y) P -> y <= M P k.
Proof. intro I. apply max_ge. apply in_cls. exact I. Qed.
Variables (a b : nat).
Hypothesis (U : unc2 P a b).
Let P' := (a, b) :: P.
Lemma X_new : X P' = Nat.max a (X P).
Proof. reflexivity. Qed.
Lemma M_other k : k <> a -> M P' k = M P k.
Proof. intro N. unfold M, cls, P'. cbn. destruct (Nat.eqb_spec a k); [congruence|reflexivity]. Qed.

Lemma step_top : X P < a -> M P' (X P') < M P (X P).
Proof.
  intro L. rewrite X_new, Nat.max_l by lia. 
  assert (Ec : cls a P' = [b]).
  { unfold P', cls. cbn [filter fst]. rewrite Nat.eqb_refl. cbn [map snd]. f_equal. destruct (map snd (filter (fun z => fst z =? a) P)) as [|c l] eqn:Ec; [reflexivity|].
    assert (I : In c (cls a P)) by (unfold cls; rewrite Ec; left; reflexivity). apply in_cls in I. apply le_X in I. cbn in I. lia. }
  unfold M at 1. rewrite Ec. cbn. rewrite Nat.max_0_r. destruct (le_lt_dec (M P (X P)) b) as [C|C]; [|exact C]. exfalso.
  apply (U (X P) (M P (X P)) top_in); [lia|exact C| |].
  - intros _ z I. apply le_X. exact I.
  - intros _ [x y] I Ex. cbn in *. subst x. apply le_M. exact I.
Qed.
Lemma step_empty : a <= X P -> has P a = false -> M P' (X P') = M P (X P) /\ E P' < E P.
Proof.
  intros L H. assert (Na : a <> X P) by (intros ->; enough (has P (X P) = true) by congruence; apply has_spec; exists (M P (X P)); apply top_in).
  assert (Ex : X P' = X P) by (rewrite X_new; lia). rewrite Ex. split; [apply M_other; lia|]. unfold E. rewrite Ex.
  apply (filter_lt _ _ _ a).
  - intros y _. unfold P', has. cbn [existsb fst]. destruct (a =? y); [discriminate|]. auto.
  - apply in_seq. lia.
  - now rewrite H.
  - unfold P', has. cbn [existsb fst]. now rewrite Nat.eqb_refl.
Qed.
Lemma step_fill : has P a = true -> M P' (X P') = M P (X P) /\ E P' <= E P /\ Sm P' < Sm P.
Proof.
  intro H. assert (I := cls_in a H). assert (L : a <= X P) by (apply le_X in I; exact I). assert (Ex : X P' = X P) by (rewrite X_new; lia).
  assert (Lb : b < M P a).
  { destruct (le_lt_dec (M P a) b) as [C|C]; [|exact C]. exfalso. apply (U a (M P a) I); [lia|exact C|lia|].
    intros _ [x y] Iz Ez. cbn in *. subst x. apply le_M. exact Iz. }
  assert (Nb : mem P a b = false).
  { destruct (mem P a b) eqn:C; [|reflexivity]. apply mem_spec in C. exfalso. apply (U a b C); lia. }
  assert (EM : forall k, M P' k = M P k).
  { intro k. destruct (Nat.eq_dec k a) as [->|N]; [|apply M_other; exact N]. unfold M at 1, P', cls. cbn [filter fst]. rewrite Nat.eqb_refl.
    cbn [map snd]. change (list_max (b :: map snd (filter (fun z => fst z =? a) P))) with (Nat.max b (M P a)). lia. }
  rewrite Ex, EM. split; [reflexivity|]. split.
  - unfold E. rewrite Ex. apply filter_le. intros y _. unfold P', has. cbn [existsb fst]. destruct (a =? y); [discriminate|]. auto.
  - unfold Sm. rewrite Ex. apply (sum_lt _ _ _ a).
    + intros y _. unfold miss. rewrite EM. apply filter_le. intros r _. unfold P', mem. cbn [existsb fst snd]. destruct ((a =? y) && (b =? r)); [discriminate|]. auto.
    + apply in_seq. lia.
    + unfold miss. rewrite EM. apply (filter_lt _ _ _ b).
      * intros r _. unfold P', mem. cbn [existsb fst snd]. destruct ((a =? a) && (b =? r)); [discriminate|]. auto.
      * apply in_seq. lia.
      * now rewrite Nb.
      * unfold P', mem. cbn [existsb fst snd]. now rewrite !Nat.eqb_refl.
Qed.
End Step.

Lemma grow2_ne : forall x e s U, U <> [] -> M (pr U) (X (pr U)) = x -> E (pr U) = e -> Sm (pr U) = s -> Acc (grow 2) U.
Proof.
  induction x as [x IHx] using lt_wf_ind. induction e as [e IHe] using lt_wf_ind. induction s as [s IHs] using lt_wf_ind.
  intros U Ne Ex Ee Es. constructor. intros U' (m & C & Pm). apply (grow_acc_perm 2 (m :: U)); [symmetry; exact Pm|].
  apply unc_unc2 in C. assert (Np : pr U <> []) by (destruct U; [congruence|discriminate]). set (a := expo m 0) in *. set (b := expo m 1) in *.
  assert (Ep : pr (m :: U) = (a, b) :: pr U) by reflexivity.
  assert (Ne' : m :: U <> []) by discriminate.
  destruct (le_lt_dec a (X (pr U))) as [L|L].
  - destruct (has (pr U) a) eqn:H.
    + destruct (step_fill _ a b C H) as (S1 & S2 & S3). rewrite <- Ep in *.
      destruct (Nat.eq_dec (E (pr (m :: U))) (E (pr U))) as [Eq|Nq].
      * eapply (IHs (Sm (pr (m :: U)))); [lia|exact Ne'|lia|lia|reflexivity].
      * eapply (IHe (E (pr (m :: U)))); [lia|exact Ne'|lia|reflexivity|reflexivity].
    + destruct (step_empty _ Np a b C L H) as (S1 & S2). rewrite <- Ep in *.
      eapply (IHe (E (pr (m :: U)))); [lia|exact Ne'|lia|reflexivity|reflexivity].
  - assert (S1 := step_top _ Np a b C L). rewrite <- Ep in *.
    eapply (IHx (M (pr (m :: U)) (X (pr (m :: U))))); [lia|exact Ne'|reflexivity|reflexivity|reflexivity].
Qed.

Lemma grow2 U : Acc (grow 2) U.
Proof.
  constructor. intros U' (m & C & P). eapply grow2_ne; try reflexivity. intros ->. apply Permutation_nil in P. discriminate.
Qed.

(** One variable is the case of two with the first exponent 0. *)
Lemma jd_lift U u m : length m = 1 -> janet_divides 2 (map (cons 0) U) u (0 :: m) -> exists v, u = 0 :: v /\ janet_divides 1 U v m.
Proof.
  intros L (I & D & N). apply in_map_iff in I as (v & <- & I). exists v. split; [reflexivity|]. split; [exact I|]. split.
  - intros [|i] Hi; [|lia]. exact (D 1 ltac:(lia)).
  - intros [|i] Hi Lt; [|lia]. intros (w & Iw & _ & Gt). apply (N 1 ltac:(lia) Lt). exists (0 :: w). split; [apply in_map; exact Iw|]. split; [|exact Gt].
    intros [|j] Hj; [reflexivity|lia].
Qed.
Lemma grow1 U : Acc (grow 1) U.
Proof.
  assert (H := grow2 (map (cons 0) U)). remember (map (cons 0) U) as V eqn:EV. revert U EV. induction H as [V _ IH]. intros U ->.
  constructor. intros U' (m & [L C] & P). apply (IH (map (cons 0) U')); [|reflexivity]. exists (0 :: m). split.
  - split; [cbn; lia|]. intros u Hu. apply jd_lift in Hu as (v & -> & Hv); [|exact L]. exact (C v Hv).
  - change ((0 :: m) :: map (cons 0) U) with (map (cons 0) (m :: U)). apply Permutation_map. exact P.
Qed.

Lemma grow_wf n U : 0 < n <= 2 -> Acc (grow n) U.
Proof. intro H. assert (C : n = 1 \/ n = 2) by lia. destruct C as [-> | ->]; [apply grow1|apply grow2]. Qed.
