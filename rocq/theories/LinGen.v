(** Lists of linear polynomials with different leading monomials: elements, products with variables, solutions. *)
From Coq Require Import ZArith QArith List Bool Arith Lia Permutation Sorted Setoid.
From Verif Require Import Outcome MonomModel MonomSpec MonomProofs PolyModel PolySpec PolyProofs PolyRedProofs PolyNfProofs
  PolyTopProofs CythonProofs JanetModel JanetSpec JanetProofs JanetFindProofs CompletionProofs JanetPolyModel TQModel JanetPolySpec IdealProofs JanetPolyProofs
  TQProofs JanetPolyTop JanetTermSpec JanetTermProofs JanetTermMain JanetTermTop ShapeProofs
  InvolutiveProofs InvolutiveTop NormalSpec NormalProofs NormalTop AncProofs AncTop LinSpec LinProofs LinMain LinEval.
Import ListNotations.
Local Open Scope Z_scope.

Lemma linear_flat p : linear p <-> flat (terms p).
Proof.
  unfold linear, flat. split.
  - intros H x Ix. apply in_map_iff in Ix as ([m c] & <- & I). exact (H m c I).
  - intros H m c I. apply (H m). apply in_map_iff. exists (m, c). auto.
Qed.
Lemma total_pos u : (0 < total u)%nat -> exists i, (i < length u)%nat /\ (0 < expo u i)%nat.
Proof.
  unfold expo. induction u as [|x u IH]; cbn; intro H; [lia|]. destruct x as [|x]; [|exists 0%nat; cbn; lia].
  destruct IH as (i & L & P); [exact H|]. exists (Datatypes.S i). cbn. lia.
Qed.
Lemma expo_zs k i : expo (repeat 0%nat k) i = 0%nat.
Proof. unfold expo. revert i. induction k as [|k IH]; intros [|i]; cbn; auto. Qed.
Lemma variable_of n u : length u = n -> total u = 1%nat -> exists i, (i < n)%nat /\ is_variable n i u.
Proof.
  intros L T. destruct (total_pos u) as (i & Li & Pi); [lia|]. exists i. split; [lia|]. split; [exact L|]. intros j Hj.
  assert (X := expo_total u i). destruct (Nat.eqb_spec j i) as [-> |N]; [lia|]. assert (Y := expo_two u j i N). lia.
Qed.
Lemma variable_eq n i u v : is_variable n i u -> is_variable n i v -> u = v.
Proof.
  intros [Lu Hu] [Lv Hv]. apply (nth_ext u v 0%nat 0%nat); [congruence|]. intros j Hj. assert (X := Hu j ltac:(lia)). assert (Y := Hv j ltac:(lia)). unfold expo in *. congruence.
Qed.
Lemma variable_e n i : (i < n)%nat -> is_variable n i (e n i).
Proof. intro H. split; [apply e_len|]. intros j Hj. apply e_expo. exact H. Qed.

Lemma in_nodup_map {X Y} (f : X -> Y) l a b : NoDup (map f l) -> In a l -> In b l -> f a = f b -> a = b.
Proof.
  induction l as [|z l IH]; cbn; [tauto|]. intros ND [-> | Ia] [-> | Ib] E; inversion ND; subst; auto.
  - exfalso. apply H1. rewrite E. now apply in_map.
  - exfalso. apply H1. rewrite <- E. now apply in_map.
Qed.

Section P.
Variables (t : pos_order) (o : base_order) (n : nat).
Hypothesis (Hn : (0 < n)%nat) (Ho : o <> OAlex).

(* ------------------------------------------------------------------------------------------ *)
(** * The elements *)

Lemma below_var i u x : (i < n)%nat -> is_variable n i u -> (total u <= 1)%nat -> mono n x -> pos x = -1 -> (total (vars x) <= 1)%nat ->
  cmp1 t o (Mon (-1) u) x = 1 -> forall j, (j <= i)%nat -> expo (vars x) j = 0%nat.
Proof.
  intros Hi [Lu Hu] Tu [Lx _] Px Tx C j Hj. apply cmp1_spec in C; [|unfold size; cbn [vars]; congruence]. unfold module_gt in C. cbn [vars pos] in C.
  assert (X : base_gt o u (vars x)) by (destruct t; destruct C as [C|[C1 C2]]; auto; lia).
  destruct o; cbn [base_gt] in X; [| |congruence].
  - destruct X as (k & Lk & Eq & Lt). assert (Y := Hu k ltac:(lia)). destruct (Nat.eqb_spec k i) as [-> |N]; [|lia].
    destruct (Nat.eq_dec j i) as [-> |Nj]; [lia|]. rewrite <- Eq by lia. rewrite Hu by lia. destruct (Nat.eqb_spec j i); [lia|reflexivity].
  - assert (Zj := expo_total (vars x) j). destruct X as [X|(_ & k & Lk & Eq & Lt)]; [lia|].
    assert (Hk : (i < k)%nat).
    { destruct (lt_eq_lt_dec k i) as [[L | ->]|L]; [|exfalso|exact L].
      - exfalso. assert (Y := Eq i ltac:(lia) ltac:(lia)). rewrite (Hu i Hi), Nat.eqb_refl in Y. assert (Z := expo_two (vars x) k i ltac:(lia)). lia.
      - rewrite (Hu i Hi), Nat.eqb_refl in Lt. assert (Z := expo_total (vars x) i). lia. }
    assert (Z := expo_two (vars x) j k ltac:(lia)). lia.
Qed.

Section B.
Variable B : list poly.
Hypothesis HB : forall b, In b B -> ring_input t o n b /\ terms b <> [].
Hypothesis ND : NoDup (map lead B).
Hypothesis LB : forall g, In g B -> linear g.
Notation U := (map lead B).

Lemma lead_total g : In g B -> length (lead g) = n /\ (total (lead g) <= 1)%nat.
Proof.
  intro Ig. destruct (head_of t o n B HB g Ig) as (c & l & E & _ & L & _). split; [exact L|].
  assert (X := LB g Ig). apply (X (R (lead g)) c). rewrite E. left. reflexivity.
Qed.
Lemma U_flat w : In w U -> length w = n /\ (total w <= 1)%nat.
Proof. intro I. apply in_map_iff in I as (g & <- & Ig). apply lead_total. exact Ig. Qed.

(** An element whose leading monomial is x_i. *)
Lemma var_elem g i : In g B -> (i < n)%nat -> is_variable n i (lead g) -> exists c l, terms g = (Mon (-1) (lead g), c) :: l /\ c <> 0 /\
  forall m d, In (m, d) l -> mono n m /\ pos m = -1 /\ (total (vars m) <= 1)%nat /\ forall j, (j <= i)%nat -> expo (vars m) j = 0%nat.
Proof.
  intros Ig Hi V. destruct (head_of t o n B HB g Ig) as (c & l & E & Nc & L & X). exists c, l. split; [exact E|]. split; [exact Nc|]. intros m d I.
  destruct (X _ I) as (C & M & P). cbn [fst] in *. assert (T : (total (vars m) <= 1)%nat) by (apply (LB g Ig m d); rewrite E; right; exact I).
  split; [exact M|]. split; [exact P|]. split; [exact T|]. apply (below_var i (lead g)); auto. apply lead_total. exact Ig.
Qed.
(** An element whose leading monomial is 1. *)
Lemma const_elem g : In g B -> total (lead g) = 0%nat -> exists c, c <> 0 /\ terms g = [(Mon (-1) (repeat 0%nat n), c)].
Proof.
  intros Ig Z. destruct (head_of t o n B HB g Ig) as (c & l & E & Nc & L & X). exists c. split; [exact Nc|]. apply total_zero in Z. rewrite L in Z. rewrite Z in E, X.
  destruct l as [|x l]; [exact E|]. exfalso. destruct (X x (or_introl eq_refl)) as (C & M & P).
  assert (Mu : mono n (R (repeat 0%nat n))) by (split; [apply repeat_length|cbn; lia]).
  destruct (monom_eq_dec (fst x) (unit_monom n (-1))) as [Eq|Ne].
  - rewrite Eq in C. change (unit_monom n (-1)) with (R (repeat 0%nat n)) in C. rewrite cmp1_refl in C. lia.
  - assert (Y := unit_below t o n (fst x) Ho M Ne). change (unit_monom n (-1)) with (R (repeat 0%nat n)) in Y.
    rewrite cmp1_antisym in Y by (eapply mono_size; eassumption). lia.
Qed.

Definition PR (f g : list term) : list term := flat_map (fun x => scale (snd x) (shift (vars (fst x)) g)) f.
Lemma PR_coef f g m : ring_poly f -> coef (PR f g) m = prod_coef f g m.
Proof.
  intro R. rewrite prod_coef_sumc. unfold PR. induction f as [|[u c] f IH]; [reflexivity|]. cbn [flat_map fst snd sumc]. rewrite coef_app, coef_scale, IH by exact (Forall_inv_tail R).
  f_equal. f_equal. rewrite coef_sumc, sumc_shift. assert (P := Forall_inv R). cbn [fst] in P. destruct u as [p v]. cbn [pos vars] in *. subst p. reflexivity.
Qed.
Lemma elem_ring g : In g B -> ring_poly (terms g) /\ monos n (terms g).
Proof. intro Ig. destruct (HB g Ig) as [Rg _]. split; [apply Rg|eapply ring_input_monos; exact Rg]. Qed.

Lemma elem_zero g i : In g B -> (forall j, (j <= i)%nat -> expo (lead g) j = 0%nat) -> forall m d, In (m, d) (terms g) -> forall j, (j <= i)%nat -> expo (vars m) j = 0%nat.
Proof.
  intros Ig Z m d Im j Hj. destruct (lead_total g Ig) as [L T]. assert (C : total (lead g) = 0%nat \/ total (lead g) = 1%nat) by lia. destruct C as [C|C].
  - destruct (const_elem g Ig C) as (c & _ & E). rewrite E in Im. destruct Im as [X|[]]. injection X as <- _. cbn [vars]. apply expo_zs.
  - destruct (variable_of n (lead g) L C) as (k & Hk & V). destruct (var_elem g k Ig Hk V) as (c & l & E & _ & X).
    assert (Lk : (i < k)%nat). { destruct (le_lt_dec k i) as [Le|Lt]; [|exact Lt]. assert (Y := Z k Le). destruct V as [_ V]. rewrite (V k Hk), Nat.eqb_refl in Y. lia. }
    rewrite E in Im. destruct Im as [Y|Im]; [injection Y as <- _; cbn [vars]; apply Z; exact Hj|]. apply (X m d Im). lia.
Qed.
Lemma unit_rs g : In g B -> rs n B (fun _ => True) (shift (repeat 0%nat n) (terms g)).
Proof.
  intro Ig. apply (mult_rs t o n B HB ND); [exact Ig|apply repeat_length|]. intros i _ L. rewrite expo_zs in L. lia.
Qed.

Lemma all_rs : forall d i, (n - i = d)%nat -> (i < n)%nat -> forall g, In g B -> rs n B (fun _ => True) (shift (e n i) (terms g)).
Proof.
  induction d as [d IH] using (well_founded_induction lt_wf). intros i Hd Hi g Ig.
  destruct (nm_dec U (lead g) i) as [Nm|Nm].
  2:{ apply (mult_rs t o n B HB ND); [exact Ig|apply e_len|]. intros j Hj P. rewrite e_expo in P by exact Hi. destruct (Nat.eqb_spec j i) as [-> |N]; [exact Nm|lia]. }
  destruct Nm as (w & Iw & Ew & Lw). destruct (U_flat w Iw) as [Lw1 Tw]. assert (X := expo_total w i).
  assert (V : is_variable n i w).
  { split; [exact Lw1|]. intros j Hj. destruct (Nat.eqb_spec j i) as [-> |N]; [lia|]. assert (Y := expo_two w j i N). lia. }
  assert (Zg : forall j, (j <= i)%nat -> expo (lead g) j = 0%nat).
  { intros j Hj. destruct (Nat.eq_dec j i) as [-> |N]; [lia|]. rewrite <- (Ew j) by lia. assert (Y := expo_two w j i N). lia. }
  apply in_map_iff in Iw as (f & <- & If). destruct (var_elem f i If Hi V) as (c & l & Ef & Nc & Tl).
  destruct (elem_ring g Ig) as [Rg Mg]. destruct (elem_ring f If) as [Rf Mf].
  assert (P1 : rs n B (fun _ => True) (PR (terms g) (terms f))).
  { unfold PR. apply (rs_flat n B _ (fun m => shift (vars m) (terms f))). apply Forall_forall. intros [m d'] Im. cbn [fst].
    apply (mult_rs t o n B HB ND); [exact If| |].
    - unfold monos in Mg. rewrite Forall_forall in Mg. apply (Mg _ Im).
    - intros j Hj P (w' & Iw' & E' & L'). assert (Hij : (i < j)%nat). { destruct (le_lt_dec j i) as [Le|Lt]; [|exact Lt]. rewrite (elem_zero g i Ig Zg m d' Im j Le) in P. lia. }
      destruct (U_flat w' Iw') as [_ T']. assert (Y := E' i Hij). destruct V as [_ V]. rewrite (V i Hi), Nat.eqb_refl in Y. assert (Z := expo_two w' i j ltac:(lia)). lia. }
  assert (P2 : rs n B (fun _ => True) (PR l (terms g))).
  { unfold PR. apply (rs_flat n B _ (fun m => shift (vars m) (terms g))). apply Forall_forall. intros [m d'] Im. cbn [fst].
    destruct (Tl m d' Im) as ([Lm _] & _ & Tm & Zm). assert (C : total (vars m) = 0%nat \/ total (vars m) = 1%nat) by lia. destruct C as [C|C].
    - apply total_zero in C. unfold size in Lm. rewrite Lm in C. rewrite C. apply unit_rs. exact Ig.
    - destruct (variable_of n (vars m) Lm C) as (k & Hk & Vk). rewrite (variable_eq n k _ _ Vk (variable_e n k Hk)).
      assert (Hik : (i < k)%nat). { destruct (le_lt_dec k i) as [Le|Lt]; [|exact Lt]. assert (Y := Zm k Le). destruct Vk as [_ Vk]. rewrite (Vk k Hk), Nat.eqb_refl in Y. lia. }
      apply (IH (n - k)%nat); [lia|reflexivity|exact Hk|exact Ig]. }
  rewrite <- (variable_eq n i _ _ V (variable_e n i Hi)).
  apply (rs_lin n B _ _ _ _ 1 (-1) c Nc P1 P2). intro m.
  assert (E1 : coef (PR (terms f) (terms g)) m = c * coef (shift (lead f) (terms g)) m + coef (PR l (terms g)) m).
  { rewrite Ef. unfold PR. cbn [flat_map fst snd vars]. rewrite coef_app, coef_scale. reflexivity. }
  rewrite (PR_coef _ _ m Rf) in E1. rewrite (PR_coef _ _ m Rg), <- (prod_coef_swap n (terms f) (terms g) m Mf Mg (or_introl Rf)). lia.
Qed.

(* ------------------------------------------------------------------------------------------ *)
(** * Solutions *)

Lemma constant_dec : has_constant n B \/ forall g, In g B -> total (lead g) = 1%nat.
Proof.
  destruct (Exists_dec (fun g => total (lead g) = 0%nat) B (fun g => Nat.eq_dec _ _)) as [E|N].
  - left. apply Exists_exists in E as (g & Ig & Z). destruct (const_elem g Ig Z) as (c & Nc & E). exists g, c. auto.
  - right. intros g Ig. destruct (lead_total g Ig) as [_ T]. rewrite <- Forall_Exists_neg, Forall_forall in N. assert (X := N g Ig). cbn in X. lia.
Qed.
Lemma no_constant : ~ has_constant n B -> forall g, In g B -> exists i, (i < n)%nat /\ is_variable n i (lead g).
Proof.
  intros N g Ig. destruct constant_dec as [C|C]; [contradiction|]. apply variable_of; [|exact (C g Ig)]. apply (lead_total g Ig).
Qed.
Lemma determined_dec i : (i < n)%nat -> determined n B i \/ ~ determined n B i.
Proof.
  intro Hi. destruct (in_dec (list_eq_dec Nat.eq_dec) (e n i) (map lead B)) as [I|N].
  - left. apply in_map_iff in I as (g & E & Ig). exists g. split; [exact Ig|]. rewrite E. apply variable_e. exact Hi.
  - right. intros (g & Ig & V). apply N. rewrite <- (variable_eq n i _ _ V (variable_e n i Hi)). apply in_map. exact Ig.
Qed.

Lemma inj_nz c : c <> 0 -> ~ (inject_Z c == 0)%Q.
Proof. intros N E. apply N. unfold Qeq in E. cbn in E. lia. Qed.

(** The value of an element with leading monomial x_i. *)
Lemma value_elem g i x : In g B -> (i < n)%nat -> is_variable n i (lead g) -> exists c l, c <> 0 /\
  (forall z, value_at z (terms g) == inject_Z c * z i + value_at z l)%Q /\
  (forall z, (forall j, (i < j < n)%nat -> z j == x j)%Q -> (value_at z l == value_at x l)%Q).
Proof.
  intros Ig Hi V. destruct (var_elem g i Ig Hi V) as (c & l & E & Nc & X). exists c, l. split; [exact Nc|]. split.
  - intro z. rewrite E. cbn [value_at vars]. rewrite (monomial_var z n i (lead g) Hi V). reflexivity.
  - intros z Hz. apply value_agree. intros m d j Im Nz. apply Hz. destruct (X m d Im) as ([L _] & _ & _ & Zm). split.
    + destruct (le_lt_dec j i) as [Le|Lt]; [rewrite Zm in Nz by exact Le; lia|exact Lt].
    + destruct (le_lt_dec n j) as [Le|Lt]; [|exact Lt]. unfold expo in Nz. unfold size in L. rewrite nth_overflow in Nz by lia. lia.
Qed.

Lemma construct y : forall d k, (n - k = d)%nat -> exists x : nat -> Q, (forall i, (i < n)%nat -> ~ determined n B i -> x i == y i)%Q /\
  forall g i, In g B -> (k <= i < n)%nat -> is_variable n i (lead g) -> (value_at x (terms g) == 0)%Q.
Proof.
  induction d as [|d IH]; intros k Hd.
  { exists y. split; [reflexivity|]. intros; lia. }
  destruct (IH (Datatypes.S k)) as (x & Ux & Zx); [lia|].
  destruct (determined_dec k) as [(g & Ig & V)|N]; [lia| |].
  - assert (Hk : (k < n)%nat) by lia. destruct (value_elem g k x Ig Hk V) as (c & l & Nc & Vg & Al).
    set (v := (- value_at x l / inject_Z c)%Q). set (x' := fun j => if (j =? k)%nat then v else x j).
    assert (Hx : forall j, (k < j)%nat -> (x' j == x j)%Q) by (intros j Hj; unfold x'; destruct (Nat.eqb_spec j k); [lia|reflexivity]).
    exists x'. split.
    + intros i Hi Nd. unfold x'. destruct (Nat.eqb_spec i k) as [-> |Nk]; [exfalso; apply Nd; exists g; auto|]. apply Ux; assumption.
    + intros h i Ih Hi Vh. destruct (Nat.eq_dec i k) as [-> |Ni].
      * assert (h = g) as -> by (apply (in_nodup_map lead B); [exact ND|exact Ih|exact Ig|exact (variable_eq n k _ _ Vh V)]).
        rewrite Vg, (Al x') by (intros j Hj; apply Hx; lia). unfold x'. rewrite Nat.eqb_refl. unfold v. field. apply inj_nz. exact Nc.
      * destruct (value_elem h i x Ih ltac:(lia) Vh) as (c2 & l2 & _ & Vh2 & Al2). rewrite Vh2, (Al2 x') by (intros j Hj; apply Hx; lia). rewrite (Hx i) by lia.
        rewrite <- Vh2. apply (Zx h i); [exact Ih|lia|exact Vh].
  - exists x. split; [exact Ux|]. intros h i Ih Hi Vh. apply (Zx h i); [exact Ih| |exact Vh]. destruct (Nat.eq_dec i k) as [-> |]; [|lia]. exfalso. apply N. exists h. auto.
Qed.

Variable F : list poly.
Hypothesis Zs : forall x, solves x F <-> solves x B.

Lemma lin_solution y : ~ has_constant n B -> exists x, the_solution n F B y x.
Proof.
  intro NC. destruct (construct y n 0 ltac:(lia)) as (x & Ux & Zx). exists x.
  assert (SB : solves x B). { intros g Ig. destruct (no_constant NC g Ig) as (i & Hi & V). apply (Zx g i); [exact Ig|lia|exact V]. }
  split; [apply (Zs x); exact SB|]. split; [exact Ux|]. intros z Sz Uz. apply (Zs z) in Sz.
  assert (X : forall d i, (n - i = d)%nat -> (i < n)%nat -> (z i == x i)%Q).
  { induction d as [d IH] using (well_founded_induction lt_wf). intros i Hd Hi.
    destruct (determined_dec i Hi) as [(g & Ig & V)|N]; [|rewrite Uz, Ux by assumption; reflexivity].
    destruct (value_elem g i x Ig Hi V) as (c & l & Nc & Vg & Al).
    assert (E1 := Sz g Ig). assert (E2 := SB g Ig). rewrite Vg in E1, E2.
    rewrite (Al z) in E1 by (intros j Hj; apply (IH (n - j)%nat); lia).
    assert (E : (inject_Z c * z i == inject_Z c * x i)%Q).
    { apply Qplus_inj_r with (z := value_at x l). rewrite E1, E2. reflexivity. }
    apply Qmult_inj_l in E; [exact E|]. apply inj_nz. exact Nc. }
  intros i Hi. apply (X (n - i)%nat); [reflexivity|exact Hi].
Qed.

Lemma unit_value x k i : (monomial_at x i (repeat 0%nat k) == 1)%Q.
Proof. revert i. induction k as [|k IH]; intro i; cbn; [reflexivity|]. rewrite IH. reflexivity. Qed.

Lemma lin_solvable : (exists x, solves x F) <-> ~ has_constant n B.
Proof.
  split.
  - intros (x & S) (g & c & Ig & Nc & E). apply (Zs x) in S. assert (X := S g Ig). rewrite E in X. cbn [value_at vars] in X. rewrite unit_value in X.
    apply (inj_nz c Nc). rewrite <- X. ring.
  - intro N. destruct (lin_solution (fun _ => 0%Q) N) as (x & S & _). exists x. exact S.
Qed.

Lemma e_nodup : NoDup (map (e n) (seq 0 n)).
Proof.
  assert (X : forall l, (forall i, In i l -> (i < n)%nat) -> NoDup l -> NoDup (map (e n) l)).
  { induction l as [|i l IH]; intros R D; [constructor|]. inversion D; subst. cbn. constructor; [|apply IH; [intros j Ij; apply R; right; exact Ij|assumption]].
    intro I. apply in_map_iff in I as (j & E & Ij). assert (Y := f_equal (fun v => expo v i) E). cbn beta in Y. rewrite !e_expo in Y by (apply R; auto with datatypes).
    rewrite Nat.eqb_refl in Y. destruct (Nat.eqb_spec i j) as [-> |N]; [contradiction|discriminate]. }
  apply X; [intros i I; apply in_seq in I; lia|apply seq_NoDup].
Qed.
Lemma lead_in g : In g B -> In (lead g) (repeat 0%nat n :: map (e n) (seq 0 n)).
Proof.
  intro Ig. destruct (lead_total g Ig) as [L T]. assert (C : total (lead g) = 0%nat \/ total (lead g) = 1%nat) by lia. destruct C as [C|C].
  - left. apply total_zero in C. congruence.
  - right. destruct (variable_of n (lead g) L C) as (i & Hi & V). rewrite (variable_eq n i _ _ V (variable_e n i Hi)). apply in_map. apply in_seq. lia.
Qed.
Lemma lin_size : (length B <= n + 1)%nat.
Proof.
  rewrite <- (map_length lead). replace (n + 1)%nat with (length (repeat 0%nat n :: map (e n) (seq 0 n))) by (cbn; rewrite map_length, seq_length; lia).
  apply NoDup_incl_length; [exact ND|]. intros u I. apply in_map_iff in I as (g & <- & Ig). apply lead_in. exact Ig.
Qed.
Lemma incl_e : ~ has_constant n B -> incl (map lead B) (map (e n) (seq 0 n)).
Proof.
  intros N u I. apply in_map_iff in I as (g & <- & Ig). destruct (no_constant N g Ig) as (i & Hi & V). rewrite (variable_eq n i _ _ V (variable_e n i Hi)). apply in_map. apply in_seq. lia.
Qed.
Lemma all_determined : ~ has_constant n B -> (length B = n <-> forall i, (i < n)%nat -> determined n B i).
Proof.
  intro N. assert (Ls : length (map (e n) (seq 0 n)) = n) by (rewrite map_length, seq_length; reflexivity). split.
  - intros L i Hi. assert (I : incl (map (e n) (seq 0 n)) (map lead B)).
    { apply NoDup_length_incl; [exact ND| |apply incl_e; exact N]. rewrite Ls, map_length, L. apply le_n. }
    assert (X : In (e n i) (map lead B)) by (apply I; apply in_map; apply in_seq; lia). apply in_map_iff in X as (g & E & Ig).
    exists g. split; [exact Ig|]. rewrite E. apply variable_e. exact Hi.
  - intro D. assert (X := NoDup_incl_length ND (incl_e N)). rewrite Ls, map_length in X.
    assert (Y : (length (map (e n) (seq 0 n)) <= length (map lead B))%nat).
    { apply NoDup_incl_length; [exact e_nodup|]. intros u I. apply in_map_iff in I as (i & <- & Ii). apply in_seq in Ii. destruct (D i ltac:(lia)) as (g & Ig & V).
      rewrite <- (variable_eq n i _ _ V (variable_e n i ltac:(lia))). apply in_map. exact Ig. }
    rewrite Ls, map_length in Y. lia.
Qed.
Lemma lin_unique : (exists x, solves x F) -> (length B = n <-> forall x z, solves x F -> solves z F -> forall i, (i < n)%nat -> (x i == z i)%Q).
Proof.
  intro S. apply lin_solvable in S. rename S into N. rewrite (all_determined N). split.
  - intros D x z Sx Sz i Hi. destruct (lin_solution x N) as (w & _ & _ & Uw).
    rewrite (Uw x Sx) by (first [exact Hi|intros j Hj Nd; destruct (Nd (D j Hj))]). rewrite (Uw z Sz) by (first [exact Hi|intros j Hj Nd; destruct (Nd (D j Hj))]). reflexivity.
  - intros Un i Hi. destruct (determined_dec i Hi) as [D|D]; [exact D|]. exfalso.
    destruct (lin_solution (fun _ => 0%Q) N) as (x & Sx & Ax & _). destruct (lin_solution (fun _ => 1%Q) N) as (z & Sz & Az & _).
    assert (E := Un x z Sx Sz i Hi). rewrite (Ax i Hi D), (Az i Hi D) in E. discriminate E.
Qed.
End B.
End P.
