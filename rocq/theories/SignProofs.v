From Coq Require Import ZArith List Bool Arith Lia Permutation.
From Verif Require Import Outcome MonomModel MonomSpec MonomProofs PolyModel PolySpec JanetModel JanetPolyModel TQModel JanetPolySpec SignSpec.
Import ListNotations.
Local Open Scope Z_scope.

(** * Executions that end in the same way *)
Lemma al_bind {A B C D} (R : A -> B -> Prop) (S : C -> D -> Prop) x y f g :
  alike R x y -> (forall a b, R a b -> alike S (f a) (g b)) -> alike S (bind x f) (bind y g).
Proof. destruct x, y; cbn; intros H K; try exact Logic.I; try contradiction. apply K, H. Qed.
Lemma al_assert {A B} (R : A -> B -> Prop) dbg c c' k k' :
  c' = c -> alike R k k' -> alike R (assert_ dbg c k) (assert_ dbg c' k').
Proof. intros -> H. unfold assert_. destruct (dbg && negb c); [exact Logic.I|exact H]. Qed.
Lemma al_refl {A} (R : A -> A -> Prop) x : (forall a, R a a) -> alike R x x.
Proof. intro H. destruct x; cbn; auto. Qed.
Lemma al_eq {A} (x y : outcome A) : x = y -> alike eq x y.
Proof. intros ->. apply al_refl. reflexivity. Qed.
Lemma al_weaken {A B} (R S : A -> B -> Prop) x y : alike R x y -> (forall a b, R a b -> S a b) -> alike S x y.
Proof. destruct x, y; cbn; auto. Qed.
Lemma al_nh {A B} (R : A -> B -> Prop) dbg : alike R (null_head dbg) (null_head dbg).
Proof. destruct dbg; exact Logic.I. Qed.
Ltac ab x y H := eapply al_bind; [|intros x y H].

(** * Signs of monomials *)
Section Signs.
Variable (s : nat -> bool).
Lemma sf_unit v : forall i, sign_from s i v = 1 \/ sign_from s i v = -1.
Proof. induction v as [|e v IH]; intro i; cbn [sign_from]; [auto|]. destruct (IH (Datatypes.S i)) as [-> | ->]; destruct (s i && Nat.odd e); lia. Qed.
Lemma sf_add u : forall v i, length u = length v -> sign_from s i (addv u v) = sign_from s i u * sign_from s i v.
Proof.
  induction u as [|x u IH]; intros [|y v] i H; cbn in H; try discriminate; [reflexivity|].
  injection H as H. cbn [addv sign_from]. rewrite (IH v _ H), Nat.odd_add.
  destruct (s i), (Nat.odd x), (Nat.odd y); cbn [andb xorb]; ring.
Qed.
Lemma sf_incr k : forall v i, (k < length v)%nat -> sign_from s i (incr k v) = (if s (i + k)%nat then -1 else 1) * sign_from s i v.
Proof.
  induction k as [|k IH]; intros [|x v] i H; cbn in H; try lia; cbn [incr sign_from].
  - rewrite Nat.add_0_r, Nat.odd_succ, <- Nat.negb_odd. destruct (s i), (Nat.odd x); cbn [andb negb]; ring.
  - rewrite IH by lia. replace (i + Datatypes.S k)%nat with (Datatypes.S i + k)%nat by lia. ring.
Qed.
Lemma incr_out k : forall v, (length v <= k)%nat -> incr k v = v.
Proof. induction k as [|k IH]; intros [|x v] H; cbn in *; try reflexivity; try lia. rewrite IH by lia. reflexivity. Qed.
Lemma sf_zero n : forall i, sign_from s i (repeat 0%nat n) = 1.
Proof. induction n as [|n IH]; intro i; cbn [repeat sign_from]; [reflexivity|]. rewrite IH. cbn. rewrite andb_false_r. reflexivity. Qed.

Definition chi (m : monom) : Z := sign_of s (vars m).
Lemma chi_unit m : chi m = 1 \/ chi m = -1.
Proof. apply sf_unit. Qed.
Lemma chi_sq m : chi m * chi m = 1.
Proof. destruct (chi_unit m) as [-> | ->]; reflexivity. Qed.
Lemma chi_mul a b : length (vars a) = length (vars b) -> chi (mul a b) = chi a * chi b.
Proof. intro H. unfold chi, sign_of, mul. cbn. apply sf_add, H. Qed.

Definition tw (e : Z) (l : list (monom * Z)) : list (monom * Z) := map (fun x => (fst x, e * chi (fst x) * snd x)) l.
Variable (n : nat).
Definition szd (l : list (monom * Z)) : Prop := Forall (fun x => length (vars (fst x)) = n) l.
Definition unit (e : Z) : Prop := e = 1 \/ e = -1.
Lemma unit_mul a b : unit a -> unit b -> unit (a * b).
Proof. unfold unit. intros [-> | ->] [-> | ->]; lia. Qed.
Lemma unit_chi m : unit (chi m).
Proof. apply chi_unit. Qed.
Lemma unit_sq a : unit a -> a * a = 1.
Proof. intros [-> | ->]; reflexivity. Qed.
Lemma unit_abs a c : unit a -> Z.abs (a * c) = Z.abs c.
Proof. intros [-> | ->]; lia. Qed.
Lemma unit_z a c : unit a -> (a * c =? 0) = (c =? 0).
Proof. intros [-> | ->]; destruct (Z.eqb_spec c 0), (Z.eqb_spec (1 * c) 0), (Z.eqb_spec (-1 * c) 0); try reflexivity; lia. Qed.
Hint Resolve unit_mul unit_chi : core.

Lemma tw_app e a b : tw e (a ++ b) = tw e a ++ tw e b.
Proof. apply map_app. Qed.
Lemma tw_scale e u k l : tw (e * u) (scale k l) = scale (u * k) (tw e l).
Proof. unfold tw, scale. rewrite !map_map. apply map_ext. intros [m c]. cbn. f_equal. ring. Qed.
Lemma szd_scale k l : szd l -> szd (scale k l).
Proof. unfold szd, scale. intro H. apply Forall_map. exact H. Qed.

Lemma valid_from_tw e t o l : unit e -> forall m, valid_from t o m (tw e l) = valid_from t o m l.
Proof.
  intro He. induction l as [|[v c] l IH]; intro m; cbn [tw map valid_from fst snd]; [reflexivity|].
  rewrite (unit_z (e * chi v)) by auto. fold (tw e l). rewrite IH. reflexivity.
Qed.
Lemma valid_tw e t o l : unit e -> valid_terms t o (tw e l) = valid_terms t o l.
Proof.
  intro He. destruct l as [|[v c] l]; [reflexivity|]. cbn [tw map valid_terms fst snd].
  rewrite (unit_z (e * chi v)) by auto. fold (tw e l). rewrite valid_from_tw by assumption. reflexivity.
Qed.

(** ** Products *)
Lemma mul_szd a b : length (vars a) = n -> length (vars b) = n -> length (vars (mul a b)) = n.
Proof.
  intros H K. unfold mul. cbn. revert n H K. generalize (vars a), (vars b). induction l as [|x l IH]; intros [|y l0] k H K; cbn in *; subst; try discriminate; [reflexivity|].
  injection K as K. f_equal. apply IH; [reflexivity|exact K].
Qed.
Lemma mul_al dbg a b : alike (fun x y => x = mul a b /\ y = mul a b) (mul_ dbg a b) (mul_ dbg a b).
Proof. unfold mul_. apply al_assert; [reflexivity|]. split; reflexivity. Qed.
Definition twr (e : Z) (l l' : list (monom * Z)) : Prop := szd l /\ l' = tw e l.
Lemma mulmon_tw dbg m k v e w l : length (vars m) = n -> szd l -> e * v = w * chi m ->
  alike (twr w) (mulmon dbg m k l) (mulmon dbg m (v * k) (tw e l)).
Proof.
  intros Hm Hl E. induction Hl as [|[u d] l Hu Hl IH]; cbn [mulmon tw map fst snd].
  - split; [constructor|reflexivity].
  - cbn in Hu. ab x y Hx; [apply mul_al|]. destruct Hx as [-> ->]. ab r r' Hr; [exact IH|].
    destruct Hr as [Hr ->]. split.
    + constructor; [cbn; apply mul_szd; assumption|exact Hr].
    + cbn [tw map fst snd]. f_equal. f_equal. rewrite chi_mul by congruence.
      transitivity (e * v * chi u * d * k); [ring|]. rewrite E. ring.
Qed.

(** ** Comparison with a product: the exponents agree when the result is 0 *)
Lemma lex3v_eq a : forall b c, length a = length b -> length a = length c -> lex3v a b c = 0 -> a = addv b c.
Proof.
  induction a as [|x a IH]; intros [|y b] [|z c] H K; cbn in *; try discriminate; [reflexivity|].
  injection H as H. injection K as K. destruct (Nat.eqb_spec x (y + z)) as [-> |N]; [|match goal with |- context [if ?b then 1 else _] => destruct b end; intro; discriminate].
  intro E. f_equal. apply IH; assumption.
Qed.
Lemma addv_app a : forall b c d, length a = length b -> addv (a ++ c) (b ++ d) = addv a b ++ addv c d.
Proof. induction a as [|x a IH]; intros [|y b] c d H; cbn in *; try discriminate; [reflexivity|]. injection H as H. rewrite IH by exact H. reflexivity. Qed.
Lemma addv_rev a : forall b, length a = length b -> addv (rev a) (rev b) = rev (addv a b).
Proof.
  induction a as [|x a IH]; intros [|y b] H; cbn in *; try discriminate; [reflexivity|]. injection H as H.
  rewrite addv_app by (rewrite !rev_length; exact H). rewrite IH by exact H. reflexivity.
Qed.
Lemma degv_0 v : degv v = 0%nat -> v = repeat 0%nat (length v).
Proof. unfold degv. induction v as [|x v IH]; cbn; [reflexivity|]. intro H. destruct x; [|lia]. rewrite <- IH by lia. reflexivity. Qed.
Lemma addv_zero k : addv (repeat 0%nat k) (repeat 0%nat k) = repeat 0%nat k.
Proof. induction k; cbn; [reflexivity|]. rewrite IHk. reflexivity. Qed.
Lemma bcmp3_eq o a b c : length (vars a) = n -> length (vars b) = n -> length (vars c) = n -> bcmp3 o a b c = 0 -> vars a = addv (vars b) (vars c).
Proof.
  intros Ha Hb Hc. assert (Z3 : deg a = 0%nat -> (deg b + deg c)%nat = 0%nat -> vars a = addv (vars b) (vars c)).
  { intros X Y. unfold deg in X, Y. rewrite (degv_0 _ X), (degv_0 (vars b)), (degv_0 (vars c)) by lia. rewrite Ha, Hb, Hc. symmetry. apply addv_zero. }
  destruct o; cbn [bcmp3].
  - apply lex3v_eq; congruence.
  - unfold deglex3. destruct (Nat.ltb_spec (deg b + deg c) (deg a)); [intro; discriminate|].
    destruct (Nat.ltb_spec (deg a) (deg b + deg c)); [intro; discriminate|]. destruct (Nat.eqb_spec (deg a) 0); intro E; [apply Z3; lia|].
    assert (X : rev (vars a) = addv (rev (vars b)) (rev (vars c))) by (apply lex3v_eq; rewrite ?rev_length; [congruence|congruence|lia]).
    rewrite addv_rev in X by congruence. rewrite <- (rev_involutive (vars a)), X, rev_involutive. reflexivity.
  - unfold alex3. destruct (Nat.ltb_spec (deg b + deg c) (deg a)); [intro; discriminate|].
    destruct (Nat.ltb_spec (deg a) (deg b + deg c)); [intro; discriminate|]. destruct (Nat.eqb_spec (deg a) 0); intro E; [apply Z3; lia|].
    apply lex3v_eq; [congruence|congruence|]. exact E.
Qed.
Lemma poscmp_range p q : poscmp p q = 1 \/ poscmp p q = 0 \/ poscmp p q = -1.
Proof. unfold poscmp. repeat match goal with |- context [if ?b then _ else _] => destruct b end; auto. Qed.
Lemma lex3v_range a : forall b c, lex3v a b c = 1 \/ lex3v a b c = 0 \/ lex3v a b c = -1.
Proof. induction a as [|x a IH]; intros [|y b] [|z c]; cbn; auto. destruct (x =? y + z)%nat; [apply IH|]. match goal with |- context [if ?b then 1 else _] => destruct b end; auto. Qed.
Lemma bcmp3_range o a b c : bcmp3 o a b c = 1 \/ bcmp3 o a b c = 0 \/ bcmp3 o a b c = -1.
Proof.
  destruct o; cbn [bcmp3]; [apply lex3v_range| |].
  - unfold deglex3. repeat match goal with |- context [if ?b then _ else _] => destruct b end; auto.
    destruct (lex3v_range (rev (vars a)) (rev (vars b)) (rev (vars c))) as [-> | [-> | ->]]; auto.
  - unfold alex3. repeat match goal with |- context [if ?b then _ else _] => destruct b end; auto. apply lex3v_range.
Qed.
Lemma cmp2_eq t o a b c : length (vars a) = n -> length (vars b) = n -> length (vars c) = n ->
  cmp2 t o a b c <> 1 -> cmp2 t o a b c <> -1 -> vars a = addv (vars b) (vars c).
Proof.
  intros Ha Hb Hc N1 N2. apply (bcmp3_eq o); try assumption. unfold cmp2 in *. destruct t.
  - destruct (bcmp3_range o a b c) as [E | [E|E]]; rewrite E in *; cbn in *; congruence.
  - destruct (Z.eqb_spec (pos a) (pos b)) as [Ep|Ep]; [destruct (bcmp3_range o a b c) as [E | [E|E]]; congruence|].
    exfalso. unfold poscmp in *. revert N1 N2. repeat match goal with |- context [if ?b then _ else _] => destruct b eqn:? end; try congruence.
    intros. apply Ep. rewrite ?Z.ltb_ge, ?Z.eqb_eq in *. lia.
Qed.

(** ** The merge of reduction *)
Lemma red_terms_tw dbg t o k1 k2 m2 e e2 u v : unit e -> unit e2 -> unit u -> unit v ->
  length (vars m2) = n -> e2 * v = e * u * chi m2 ->
  forall p a, szd p -> szd a ->
  alike (twr (e * u)) (red_terms dbg t o k1 k2 m2 p a) (red_terms dbg t o (u * k1) (v * k2) m2 (tw e p) (tw e2 a)).
Proof.
  intros He He2 Hu Hv Hm E. induction p as [|[m c] p IH]; intros a Hp; induction a as [|[w d] a IHa]; intro Ha;
    cbn [red_terms tw map fst snd].
  - split; [constructor|reflexivity].
  - change ((w, e2 * chi w * d) :: map (fun x => (fst x, e2 * chi (fst x) * snd x)) a) with (tw e2 ((w, d) :: a)).
    apply mulmon_tw; assumption.
  - change ((m, e * chi m * c) :: map (fun x => (fst x, e * chi (fst x) * snd x)) p) with (tw e ((m, c) :: p)).
    split; [apply szd_scale, Hp|]. symmetry. apply tw_scale.
  - pose proof (Forall_inv Hp) as Hmn. pose proof (Forall_inv_tail Hp) as Hp'. pose proof (Forall_inv Ha) as Hwn. pose proof (Forall_inv_tail Ha) as Ha'.
    cbn in Hmn, Hwn.
    ab r r' Hr.
    { unfold cmp2_. apply al_assert with (R := fun x y => x = cmp2 t o m w m2 /\ y = cmp2 t o m w m2); [reflexivity|]. split; reflexivity. }
    destruct Hr as [-> ->].
    destruct (Z.eqb_spec (cmp2 t o m w m2) 1) as [E1|E1]; [|destruct (Z.eqb_spec (cmp2 t o m w m2) (-1)) as [E2|E2]].
    + ab l l' Hl; [apply (IH ((w, d) :: a)); assumption|]. destruct Hl as [Hl ->]. split; [constructor; [exact Hmn|exact Hl]|].
      cbn [tw map fst snd]. f_equal. f_equal. ring.
    + ab x y Hx; [apply mul_al|]. destruct Hx as [-> ->]. ab l l' Hl; [apply IHa; assumption|]. destruct Hl as [Hl ->].
      split; [constructor; [apply mul_szd; assumption|exact Hl]|].
      cbn [tw map fst snd]. f_equal. f_equal. rewrite chi_mul by congruence.
      transitivity (e2 * v * chi w * d * k2); [ring|]. rewrite E. ring.
    + ab l l' Hl; [apply (IH a); assumption|]. destruct Hl as [Hl ->].
      assert (Ec : chi m = chi w * chi m2).
      { rewrite <- chi_mul by congruence. unfold chi. f_equal. cbn. apply (cmp2_eq t o); assumption. }
      assert (X : e * chi m * c * (u * k1) + e2 * chi w * d * (v * k2) = e * u * chi m * (c * k1 + d * k2)).
      { transitivity (e * chi m * c * (u * k1) + (e2 * v) * chi w * d * k2); [ring|]. rewrite E, Ec. ring. }
      rewrite X, unit_z by auto. destruct (c * k1 + d * k2 =? 0); split; try assumption; try reflexivity.
      constructor; assumption.
Qed.

Lemma int_gcd_tw dbg a b c d : unit a -> unit b -> int_gcd dbg (a * c) (b * d) = int_gcd dbg c d.
Proof.
  intros Ha Hb. unfold int_gcd. rewrite !unit_z by assumption. f_equal. f_equal.
  rewrite <- (Z.gcd_abs_l (a * c)), <- (Z.gcd_abs_r _ (b * d)), !unit_abs by assumption. rewrite Z.gcd_abs_l, Z.gcd_abs_r. reflexivity.
Qed.
Lemma int_div_tw dbg a b c g : unit a -> unit b -> alike (fun x y => y = a * b * x) (int_div dbg c g) (int_div dbg (a * c) (b * g)).
Proof.
  intros Ha Hb. unfold int_div. rewrite unit_z by assumption. destruct (Z.eqb_spec g 0) as [Z0|Z0]; [exact Logic.I|].
  assert (Ng : b * g <> 0) by (destruct Hb as [-> | ->]; lia).
  assert (D : forall x y, y <> 0 -> (x mod y =? 0) = true <-> (y | x)).
  { intros x y Hy. rewrite Z.eqb_eq. apply Z.mod_divide, Hy. }
  assert (Q : (g | c) <-> (b * g | a * c)).
  { split; intros [k Hk].
    - exists (a * b * k). rewrite Hk. destruct Ha as [-> | ->], Hb as [-> | ->]; ring.
    - exists (a * b * k). destruct Ha as [-> | ->], Hb as [-> | ->]; lia. }
  destruct (c mod g =? 0) eqn:E.
  - apply (D _ _ Z0) in E. assert (E2 : ((a * c) mod (b * g) =? 0) = true) by (apply D; [exact Ng|apply Q, E]). rewrite E2.
    destruct E as [k ->]. cbn. rewrite Z.div_mul by exact Z0.
    replace (a * (k * g)) with (a * b * k * (b * g)) by (destruct Ha as [-> | ->], Hb as [-> | ->]; ring).
    apply Z.div_mul, Ng.
  - assert (E2 : ((a * c) mod (b * g) =? 0) = false).
    { destruct ((a * c) mod (b * g) =? 0) eqn:E2; [|reflexivity]. apply (D _ _ Ng), Q, (D _ _ Z0) in E2. congruence. }
    rewrite E2. destruct dbg; exact Logic.I.
Qed.

Lemma subv_len a : forall b, length a = length b -> length (subv a b) = length a.
Proof. induction a as [|x a IH]; intros [|y b] H; cbn in *; try discriminate; [reflexivity|]. injection H as H. rewrite IH by exact H. reflexivity. Qed.
Lemma subv_addv a : forall b, length a = length b -> gev a b = true -> a = addv b (subv a b).
Proof.
  induction a as [|x a IH]; intros [|y b] H G; cbn in *; try discriminate; [reflexivity|]. injection H as H.
  destruct (Nat.leb_spec y x) as [L|L]; [|discriminate]. f_equal; [lia|apply IH; assumption].
Qed.

(** The factors: m2 is the same, k1 and k2 have the signs of the leading coefficients. *)
Definition frel (u v : Z) (m w : monom) (x y : monom * Z * Z) : Prop :=
  length (vars (fst (fst x))) = n /\ chi m = chi w * chi (fst (fst x)) /\
  y = (fst (fst x), u * snd (fst x), v * snd x).
Lemma red_factors_tw dbg m c w d e e2 : unit e -> unit e2 -> length (vars m) = n -> length (vars w) = n ->
  alike (frel (e2 * chi w) (e * chi m) m w) (red_factors dbg m c w d) (red_factors dbg m (e * chi m * c) w (e2 * chi w * d)).
Proof.
  intros He He2 Hm Hw. unfold red_factors. destruct (dbg && negb (divisiable m w)); [exact Logic.I|].
  destruct (gev (vars m) (vars w)) eqn:G; cbn [negb]; [|exact Logic.I].
  rewrite int_gcd_tw by auto. ab g g' Hg; [apply al_eq; reflexivity|]. subst g'.
  ab x y Hx; [pose proof (int_div_tw dbg (e2 * chi w) 1 d g) as K; rewrite Z.mul_1_l in K; apply K; [auto|left; reflexivity]|].
  ab z z' Hz; [pose proof (int_div_tw dbg (e * chi m) 1 c g) as K; rewrite Z.mul_1_l in K; apply K; [auto|left; reflexivity]|].
  cbn in Hx, Hz. subst y z'. cbn. unfold frel. cbn. split; [rewrite subv_len; congruence|]. split; [|f_equal; [f_equal|]; ring].
  unfold chi, sign_of. cbn [vars]. rewrite <- sf_add by (rewrite subv_len; congruence). f_equal. apply subv_addv; congruence.
Qed.

(** * Polynomials *)
Definition prel (p q : poly) : Prop :=
  pto q = pto p /\ pbo q = pbo p /\ psize q = psize p /\ psize p = n /\ szd (terms p) /\ exists e, unit e /\ terms q = tw e (terms p).
Definition orel (x y : option poly) : Prop :=
  match x, y with Some p, Some q => prel p q | None, None => True | _, _ => False end.

Lemma tw_nil e l : tw e l = [] <-> l = [].
Proof. destruct l; cbn; split; congruence. Qed.
Lemma prel_zero p q : prel p q -> is_zero q = is_zero p.
Proof. intros (_ & _ & _ & _ & _ & e & _ & E). unfold is_zero. rewrite E. destruct (terms p); reflexivity. Qed.
Lemma prel_lm dbg p q : prel p q -> p_lm dbg q = p_lm dbg p.
Proof. intros (_ & _ & _ & _ & _ & e & _ & E). unfold p_lm. rewrite E. destruct (terms p) as [|[m c] l]; reflexivity. Qed.
Lemma prel_cmp dbg p q p' q' : prel p q -> prel p' q' -> p_cmp dbg q q' = p_cmp dbg p p'.
Proof. intros H H'. unfold p_cmp. rewrite (prel_lm dbg p q H), (prel_lm dbg p' q' H'). destruct H as (-> & -> & _). reflexivity. Qed.
Lemma prel_maxPos p q : prel p q -> p_maxPos q = p_maxPos p.
Proof.
  intros (_ & _ & _ & _ & _ & e & _ & E). unfold p_maxPos. rewrite E. generalize (-1). generalize (terms p).
  induction l as [|[m c] l IH]; intro z; [reflexivity|]. cbn [tw map fold_left fst]. apply IH.
Qed.
Lemma prel_norm p q : prel p q -> p_norm q = p_norm p.
Proof.
  intros (_ & _ & _ & _ & _ & e & He & E). unfold p_norm. rewrite E. generalize (terms p).
  induction l as [|[m c] l IH]; [reflexivity|]. cbn [tw map fold_right snd fst]. fold (tw e l). rewrite IH. f_equal.
  unfold limbs. rewrite unit_z, unit_abs by auto. reflexivity.
Qed.
Lemma prel_comparable p q p' q' : prel p q -> prel p' q' -> comparable q q' = comparable p p'.
Proof. intros (A1 & A2 & A3 & _) (B1 & B2 & B3 & _). unfold comparable. congruence. Qed.
Lemma prel_with p q l l' e : prel p q -> unit e -> szd l -> l' = tw e l -> prel (with_terms p l) (with_terms q l').
Proof. intros (A1 & A2 & A3 & A4 & _ & _) He Hl ->. unfold prel, with_terms. cbn. repeat (split; [assumption|]). exists e. split; [exact He|reflexivity]. Qed.
Lemma prel_valid p q : prel p q -> assertValid q = assertValid p.
Proof. intros (E1 & E2 & _ & _ & _ & e & He & E). unfold assertValid. rewrite E1, E2, E. apply valid_tw, He. Qed.
Lemma checked_al dbg p q : prel p q -> alike prel (checked dbg p) (checked dbg q).
Proof. intro H. unfold checked. apply al_assert; [apply prel_valid, H|exact H]. Qed.

Lemma reduction_al dbg p q a b : prel p q -> prel a b -> alike prel (p_reduction dbg p a) (p_reduction dbg q b).
Proof.
  intros H H'. unfold p_reduction. apply al_assert; [apply prel_comparable; assumption|].
  pose proof H as (T1 & T2 & _ & _ & Sp & e & He & E). pose proof H' as (_ & _ & _ & _ & Sa & e2 & He2 & E').
  rewrite E, E', T1, T2. destruct (terms p) as [|[m c] p']; cbn [tw map]; [apply al_nh|].
  destruct (terms a) as [|[w d] a']; cbn [tw map fst snd]; [apply al_nh|].
  pose proof (Forall_inv Sp) as Hm. pose proof (Forall_inv Sa) as Hw. cbn in Hm, Hw.
  ab f g Hf; [apply red_factors_tw; assumption|]. destruct f as [[m2 k1] k2]. destruct Hf as (L2 & Ec & ->). cbn [fst snd] in *.
  ab l l' Hl.
  { apply (red_terms_tw dbg (pto p) (pbo p) k1 k2 m2 e e2 (e2 * chi w) (e * chi m)); auto.
    - rewrite Ec. ring.
    - apply (Forall_inv_tail Sp).
    - apply (Forall_inv_tail Sa). }
  destruct Hl as [Hl ->]. apply checked_al. eapply prel_with; [exact H| |exact Hl|reflexivity]. auto.
Qed.

(** Two lists with a common sign *)
Definition prr (x y : list (monom * Z) * list (monom * Z)) : Prop :=
  szd (fst x) /\ szd (snd x) /\ exists e, unit e /\ fst y = tw e (fst x) /\ snd y = tw e (snd x).
Lemma red_tail_al dbg p q pre rest e a b : prel p q -> prel a b -> unit e -> szd pre -> szd rest ->
  alike prr (red_tail dbg p pre rest a) (red_tail dbg q (tw e pre) (tw e rest) b).
Proof.
  intros H H' He Spre Sp. unfold red_tail. apply al_assert; [apply prel_comparable; assumption|].
  pose proof H as (T1 & T2 & _). pose proof H' as (_ & _ & _ & _ & Sa & e2 & He2 & E').
  rewrite E', T1, T2. destruct rest as [|[m c] p']; cbn [tw map]; [apply al_nh|].
  destruct (terms a) as [|[w d] a']; cbn [tw map fst snd]; [apply al_nh|].
  pose proof (Forall_inv Sp) as Hm. pose proof (Forall_inv Sa) as Hw. cbn in Hm, Hw.
  ab f g Hf; [apply red_factors_tw; assumption|]. destruct f as [[m2 k1] k2]. destruct Hf as (L2 & Ec & ->). cbn [fst snd] in *.
  ab l l' Hl.
  { apply (red_terms_tw dbg (pto p) (pbo p) k1 k2 m2 e e2 (e2 * chi w) (e * chi m)); auto.
    - rewrite Ec. ring.
    - apply (Forall_inv_tail Sp).
    - apply (Forall_inv_tail Sa). }
  destruct Hl as [Hl ->]. fold (tw e pre). rewrite <- tw_scale, <- tw_app.
  ab x y Hx; [apply checked_al; eapply prel_with; [exact H| | |reflexivity]; [auto|apply Forall_app; split; [apply szd_scale, Spre|exact Hl]]|].
  split; [apply szd_scale, Spre|]. split; [exact Hl|]. exists (e * (e2 * chi w)). cbn. split; [auto|split; reflexivity].
Qed.

Lemma skip_gt_tw t o m e l : forall pre, skip_gt t o m (tw e pre) (tw e l) = (tw e (fst (skip_gt t o m pre l)), tw e (snd (skip_gt t o m pre l))).
Proof.
  induction l as [|[w c] l IH]; intro pre; cbn [tw map skip_gt fst snd]; [reflexivity|].
  destruct (0 <? cmp1 t o w m); [|reflexivity].
  change (map (fun x => (fst x, e * chi (fst x) * snd x)) pre) with (tw e pre).
  change ([(w, e * chi w * c)]) with (tw e [(w, c)]). rewrite <- tw_app. apply IH.
Qed.
Lemma skip_gt_app t o m l : forall pre, fst (skip_gt t o m pre l) ++ snd (skip_gt t o m pre l) = pre ++ l.
Proof.
  induction l as [|x l IH]; intro pre; cbn [skip_gt]; [reflexivity|]. destruct (0 <? cmp1 t o (fst x) m); [|reflexivity].
  rewrite IH, <- app_assoc. reflexivity.
Qed.
Lemma redMaybe_al dbg p q a b : prel p q -> prel a b -> alike prel (p_redMaybe dbg p a) (p_redMaybe dbg q b).
Proof.
  intros H H'. unfold p_redMaybe. pose proof H as (T1 & T2 & _ & _ & Sp & e & He & E). pose proof H' as (_ & _ & _ & _ & Sa & e2 & He2 & E').
  rewrite E, E', T1, T2. destruct (terms p) as [|[m c] p'] eqn:Ep; cbn [tw map]; [destruct dbg; [exact Logic.I|exact H]|].
  destruct (terms a) as [|[w d] a'] eqn:Ea; cbn [tw map fst snd]; [apply al_nh|].
  change ((m, e * chi m * c) :: map (fun x => (fst x, e * chi (fst x) * snd x)) p') with (tw e ((m, c) :: p')).
  pose proof (skip_gt_tw (pto p) (pbo p) w e ((m, c) :: p') []) as K. change (tw e []) with (@nil (monom * Z)) in K. rewrite K.
  pose proof (skip_gt_app (pto p) (pbo p) w ((m, c) :: p') []) as A. cbn [app] in A.
  destruct (skip_gt (pto p) (pbo p) w [] ((m, c) :: p')) as [pre rest]. cbn [fst snd] in *.
  assert (S2 : szd pre /\ szd rest) by (apply Forall_app; rewrite A; exact Sp). destruct S2 as [S2 S3].
  destruct rest as [|[v f] rest]; [exact H|]. cbn [tw map fst snd].
  destruct (eqm v w); [|exact H].
  ab x y Hx; [apply (red_tail_al dbg p q pre ((v, f) :: rest) e a b); assumption|].
  destruct x as [x1 x2], y as [y1 y2]. destruct Hx as (X1 & X2 & e3 & He3 & Y1 & Y2). cbn [fst snd] in *. subst y1 y2.
  rewrite <- tw_app. eapply prel_with; [exact H|exact He3| |reflexivity]. apply Forall_app. split; assumption.
Qed.

(** ** Primitive parts *)
Definition grel (x y : option Z) : Prop :=
  match x, y with Some g, Some h => exists v, unit v /\ h = v * g | None, None => True | _, _ => False end.
Lemma gcd_loop_tw dbg e l : unit e -> forall g v, unit v -> alike grel (gcd_loop dbg g l) (gcd_loop dbg (v * g) (tw e l)).
Proof.
  intro He. induction l as [|[m c] l IH]; intros g v Hv; cbn [gcd_loop tw map fst snd].
  - exists v. auto.
  - rewrite int_gcd_tw by auto. ab x y Hx; [apply al_eq; reflexivity|]. subst y. destruct (Z.abs x =? 1); [exact Logic.I|].
    pose proof (IH x 1) as K. rewrite Z.mul_1_l in K. apply K. left. reflexivity.
Qed.
Lemma isPp_tw dbg p q : prel p q -> alike eq (p_isPp dbg p) (p_isPp dbg q).
Proof.
  intros (_ & _ & _ & _ & _ & e & He & E). unfold p_isPp. rewrite E. destruct (terms p) as [|[m c] l]; cbn [tw map fst snd]; [reflexivity|].
  rewrite unit_abs by auto. destruct (Z.abs c =? 1); [reflexivity|]. ab x y Hx; [apply gcd_loop_tw; auto|].
  destruct x, y; try contradiction; reflexivity.
Qed.
Lemma div_terms_tw dbg e v g l : unit e -> unit v -> szd l -> alike (twr (e * v)) (div_terms dbg g l) (div_terms dbg (v * g) (tw e l)).
Proof.
  intros He Hv H. induction H as [|[m c] l Hm H IH]; cbn [div_terms tw map fst snd]; [split; [constructor|reflexivity]|].
  ab x y Hx; [apply int_div_tw; auto|]. cbn in Hx. subst y. ab r r' Hr; [exact IH|]. destruct Hr as [Hr ->].
  split; [constructor; assumption|]. cbn [tw map fst snd]. f_equal. f_equal. ring.
Qed.
Lemma pp_al dbg p q : prel p q -> alike prel (p_pp dbg p) (p_pp dbg q).
Proof.
  intro H. pose proof H as (_ & _ & _ & _ & Sp & e & He & E). unfold p_pp. rewrite E. destruct (terms p) as [|[m c] l] eqn:Ep; [exact H|].
  cbn [tw map fst snd]. rewrite unit_abs by auto. destruct (Z.abs c =? 1); [exact H|].
  ab x y Hx; [apply gcd_loop_tw; auto|]. destruct x as [g|], y as [h|]; try contradiction; [|exact H].
  destruct Hx as (v & Hv & ->). ab z z' Hz.
  { change ((m, e * chi m * c) :: map (fun x => (fst x, e * chi (fst x) * snd x)) l) with (tw e ((m, c) :: l)). apply div_terms_tw; [exact He|exact Hv|exact Sp]. }
  destruct Hz as [Sz ->]. assert (P : prel (with_terms p z) (with_terms q (tw (e * v) z))) by (apply (prel_with p q _ _ (e * v)); [exact H|auto|exact Sz|reflexivity]).
  ab b b' Hb; [apply isPp_tw, P|]. subst b'. apply al_assert; [reflexivity|exact P].
Qed.

(** ** Normal forms *)
Definition fndrel (f g : monom -> outcome (option poly)) : Prop := forall m, alike orel (f m) (g m).
Definition pnrel (x y : poly * nat) : Prop := prel (fst x) (fst y) /\ snd y = snd x.
Lemma nf_al dbg f g fuel : fndrel f g -> forall r p q, prel p q -> alike pnrel (nf_loop fuel dbg f r p) (nf_loop fuel dbg g r q).
Proof.
  intro Hf. induction fuel as [|fuel IH]; intros r p q H; cbn [nf_loop].
  - pose proof H as (_ & _ & _ & _ & _ & e & He & E). rewrite E. destruct (terms p) as [|[m c] l]; cbn [tw map fst snd]; [split; [exact H|reflexivity]|].
    ab w w' Hw; [apply Hf|]. destruct w, w'; try contradiction; [exact Logic.I|]. split; [exact H|reflexivity].
  - pose proof H as (_ & _ & _ & _ & _ & e & He & E). rewrite E. destruct (terms p) as [|[m c] l]; cbn [tw map fst snd]; [split; [exact H|reflexivity]|].
    ab w w' Hw; [apply Hf|]. destruct w as [a|], w' as [a'|]; try contradiction; [|split; [exact H|reflexivity]].
    ab x y Hx; [apply reduction_al; [exact H|exact Hw]|]. apply IH, Hx.
Qed.
Lemma p_nf_al dbg f g fuel p q : fndrel f g -> prel p q -> alike pnrel (p_nf fuel dbg f p) (p_nf fuel dbg g q).
Proof. intros. apply nf_al; assumption. Qed.
Lemma nft_al dbg f g fuel p q : fndrel f g -> prel p q -> forall r pre rest e, unit e -> szd pre -> szd rest ->
  alike pnrel (nft_loop fuel dbg f r p pre rest) (nft_loop fuel dbg g r q (tw e pre) (tw e rest)).
Proof.
  intros Hf H. induction fuel as [|fuel IH]; intros r pre rest e He Spre Sr; destruct rest as [|[m c] rest]; cbn [nft_loop tw map fst snd];
    try (exact Logic.I); try (split; [eapply prel_with; [exact H|exact He|exact Spre|reflexivity]|reflexivity]).
  ab w w' Hw; [apply Hf|]. destruct w as [a|], w' as [a'|]; try contradiction.
  - ab x y Hx.
    { apply (red_tail_al dbg p q pre ((m, c) :: rest) e a a'); assumption. }
    destruct x as [x1 x2], y as [y1 y2]. destruct Hx as (X1 & X2 & e3 & He3 & Y1 & Y2). cbn [fst snd] in *. subst y1 y2. apply IH; assumption.
  - change (map (fun x => (fst x, e * chi (fst x) * snd x)) pre) with (tw e pre). change ([(m, e * chi m * c)]) with (tw e [(m, c)]).
    rewrite <- tw_app. pose proof (Forall_inv Sr). pose proof (Forall_inv_tail Sr). apply IH; try assumption.
    apply Forall_app. split; [exact Spre|]. constructor; [assumption|constructor].
Qed.
Lemma p_nfTail_al dbg f g fuel p q : fndrel f g -> prel p q -> alike pnrel (p_nfTail fuel dbg f p) (p_nfTail fuel dbg g q).
Proof.
  intros Hf H. unfold p_nfTail. pose proof H as (_ & _ & _ & _ & Sp & e & He & E). rewrite E.
  destruct (terms p) as [|[m c] l]; cbn [tw map fst snd]; [split; [exact H|reflexivity]|].
  apply (nft_al dbg f g fuel p q Hf H 0 [(m, c)] l e He); [constructor; [apply (Forall_inv Sp)|constructor]|apply (Forall_inv_tail Sp)].
Qed.
Lemma isnf_al f g p q : fndrel f g -> prel p q -> alike eq (p_isNf f p) (p_isNf g q).
Proof.
  intros Hf (_ & _ & _ & _ & _ & e & He & E). unfold p_isNf. rewrite E. destruct (terms p) as [|[m c] l]; cbn [tw map]; [reflexivity|].
  fold (tw e l). clear E. induction l as [|[w d] l IH]; cbn [tw map isnf_loop fst snd]; [reflexivity|].
  ab x y Hx; [apply Hf|]. destruct x, y; try contradiction; [reflexivity|]. exact IH.
Qed.
Lemma mul_var_al dbg k p q : prel p q -> alike prel (p_mul_var dbg k p) (p_mul_var dbg k q).
Proof.
  intro H. unfold p_mul_var. apply checked_al. pose proof H as (_ & _ & _ & _ & Sp & e & He & E). rewrite E.
  destruct (lt_dec k n) as [L|L].
  - eapply (prel_with p q _ _ (e * (if s k then -1 else 1))); [exact H| | |].
    + apply unit_mul; [exact He|]. destruct (s k); [right|left]; reflexivity.
    + apply Forall_map. eapply Forall_impl; [|exact Sp]. intros [m c] Hm. cbn in *. rewrite <- Hm. generalize (vars m). clear.
      induction k as [|k IH]; intros [|x l]; cbn; try reflexivity. rewrite IH. reflexivity.
    + unfold tw. rewrite !map_map. apply map_ext_in. intros [m c] Hin. cbn [fst snd]. f_equal.
      pose proof (proj1 (Forall_forall _ _) Sp _ Hin) as Hm. cbn in Hm.
      unfold chi, sign_of. cbn [mul_var vars]. rewrite sf_incr by lia. cbn [Nat.add].
      destruct (s k); ring.
  - eapply (prel_with p q _ _ e); [exact H|exact He| |].
    + apply Forall_map. eapply Forall_impl; [|exact Sp]. intros [m c] Hm. cbn in *. rewrite incr_out; lia.
    + unfold tw. rewrite !map_map. apply map_ext_in. intros [m c] Hin. cbn [fst snd]. f_equal.
      pose proof (proj1 (Forall_forall _ _) Sp _ Hin) as Hm. cbn in Hm.
      unfold chi. cbn [mul_var vars]. rewrite incr_out by lia. reflexivity.
Qed.
Lemma copy_al dbg p q : prel p q -> alike prel (p_copy dbg p) (p_copy dbg q).
Proof.
  intro H. unfold p_copy. apply checked_al. rewrite !map_id. destruct p, q. exact H.
Qed.
Lemma const_al dbg t o c : alike prel (p_const dbg t o n c) (p_const dbg t o n c).
Proof.
  unfold p_const. apply checked_al. repeat (split; [reflexivity|]). split; [constructor; [cbn; apply repeat_length|constructor]|].
  exists 1. split; [left; reflexivity|]. cbn. unfold chi, sign_of. cbn. rewrite sf_zero. f_equal. f_equal. destruct c; reflexivity.
Qed.
End Signs.
