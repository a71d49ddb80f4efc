From Coq Require Import ZArith List Bool Arith Lia Sorted.
From Verif Require Import Outcome MonomModel MonomSpec MonomProofs PolyModel PolySpec PolyProofs PolyRedProofs PolyNfProofs PolyTopProofs
  CythonModel CythonProofs CyHeapModel CyHeapSpec.
Import ListNotations.
Local Open Scope nat_scope.

(* ---- lists ---- *)
Lemma nth_tag {A B} (f : nat * A -> B) (l : list A) : forall s a, nth_error (map f (combine (seq s (length l)) l)) a = option_map (fun v => f (s + a, v)) (nth_error l a).
Proof.
  induction l as [|x l IH]; intros s a; [now destruct a|]. cbn [length seq combine map]. destruct a as [|a]; cbn [nth_error option_map].
  - now rewrite Nat.add_0_r.
  - rewrite IH. now replace (S s + a) with (s + S a) by lia.
Qed.
Lemma tag_length {A B} (f : nat * A -> B) (l : list A) s : length (map f (combine (seq s (length l)) l)) = length l.
Proof. rewrite map_length, combine_length, seq_length. lia. Qed.
Lemma replace_length {A} a (v : A) l : a < length l -> length (replace a v l) = length l.
Proof. intro H. unfold replace. rewrite app_length, firstn_length. cbn [length]. rewrite skipn_length. lia. Qed.
Lemma nth_replace {A} a (v : A) l b : a < length l -> nth_error (replace a v l) b = if Nat.eqb b a then Some v else nth_error l b.
Proof.
  revert a b. unfold replace. induction l as [|x l IH]; intros a b H; [cbn in H; lia|]. destruct a as [|a], b as [|b]; try reflexivity.
  cbn [firstn skipn app nth_error Nat.eqb]. apply IH. cbn in H. lia.
Qed.
Lemma nth_some_lt {A} (l : list A) a v : nth_error l a = Some v -> a < length l.
Proof. intro H. apply nth_error_Some. congruence. Qed.

(* ---- environments ---- *)
Lemma lookup_cons x y a e : lookup x ((y, a) :: e) = if Nat.eqb y x then Some a else lookup x e.
Proof. unfold lookup. cbn. now destruct (Nat.eqb y x). Qed.
Lemma unbind_cons y z b e : unbind y ((z, b) :: e) = if Nat.eqb z y then unbind y e else (z, b) :: unbind y e.
Proof. unfold unbind. cbn [filter fst]. now destruct (Nat.eqb z y). Qed.
Lemma lookup_unbind x y e : lookup x (unbind y e) = if Nat.eqb x y then None else lookup x e.
Proof.
  induction e as [|[z b] e IH]; [unfold lookup; cbn; now destruct (Nat.eqb x y)|]. rewrite unbind_cons.
  destruct (Nat.eqb_spec z y) as [->|N].
  - rewrite IH, lookup_cons. destruct (Nat.eqb_spec x y) as [->|M]; [reflexivity|]. destruct (Nat.eqb_spec y x); [congruence|reflexivity].
  - rewrite !lookup_cons, IH. destruct (Nat.eqb_spec z x) as [->|M]; [|reflexivity]. destruct (Nat.eqb_spec x y); [congruence|reflexivity].
Qed.
Lemma unbind_in y e x a : In (x, a) (unbind y e) -> In (x, a) e /\ x <> y.
Proof. unfold unbind. rewrite filter_In. cbn. destruct (Nat.eqb_spec x y); cbn; intuition. Qed.
Lemma unbind_nodup y e : NoDup (map fst e) -> NoDup (map fst (unbind y e)).
Proof.
  induction e as [|[z b] e IH]; intro H; [constructor|]. inversion H; subst. rewrite unbind_cons.
  destruct (Nat.eqb_spec z y); [now apply IH|].
  cbn [map fst]. constructor; [|now apply IH]. intro J. apply H2. apply in_map_iff in J as ([x' a'] & E & J). cbn in E. subst. apply unbind_in in J. apply in_map_iff. exists (z, a'). tauto.
Qed.
Lemma unbind_not y e : ~ In y (map fst (unbind y e)).
Proof. intro J. apply in_map_iff in J as ([x' a'] & E & J). cbn in E. subst. apply unbind_in in J. tauto. Qed.
Lemma bound_lookup e a : NoDup (map fst e) -> (bound a e = true <-> exists x, lookup x e = Some a).
Proof.
  intro N. unfold bound. rewrite existsb_exists. split.
  - intros ([x b] & I & E). cbn in E. apply Nat.eqb_eq in E. subst b. exists x. clear -N I. induction e as [|[y c] e IH]; [destruct I|]. rewrite lookup_cons. inversion N; subst.
    destruct I as [I|I]; [injection I as -> ->; now rewrite Nat.eqb_refl|]. destruct (Nat.eqb_spec y x) as [->|_]; [|now apply IH].
    exfalso. apply H1. apply in_map_iff. exists (x, a). auto.
  - intros [x E]. unfold lookup in E. match type of E with context [find ?f e] => destruct (find f e) as [[y b]|] eqn:F end; [|discriminate]. injection E as ->. apply find_some in F as [I J]. exists (y, a). split; [exact I|]. cbn. apply Nat.eqb_refl.
Qed.

(* ---- heaps ---- *)
Lemma get_sweep s a : get (sweep s) a = if bound a (env s) then get s a else None.
Proof. unfold get, sweep. cbn [heap]. rewrite nth_tag. cbn [fst snd]. rewrite Nat.add_0_l. destruct (nth_error (heap s) a); cbn [option_map fst snd]; now destruct (bound a (env s)). Qed.
Lemma len_sweep s : length (heap (sweep s)) = length (heap s).
Proof. unfold sweep. cbn [heap]. apply tag_length. Qed.
Lemma get_put a o s b : get (put a o s) b = if Nat.eqb b a then (if b <? length (heap s) then Some o else None) else get s b.
Proof.
  unfold get, put. cbn [heap]. rewrite nth_tag. cbn [fst snd]. rewrite Nat.add_0_l. destruct (nth_error (heap s) b) eqn:E; cbn [option_map fst snd].
  - destruct (Nat.eqb_spec b a); [|reflexivity]. apply nth_some_lt in E. now rewrite (proj2 (Nat.ltb_lt _ _) E).
  - destruct (Nat.eqb_spec b a); [|reflexivity]. apply nth_error_None in E. now rewrite (proj2 (Nat.ltb_ge _ _) E).
Qed.
Lemma len_put a o s : length (heap (put a o s)) = length (heap s).
Proof. unfold put. cbn [heap]. apply tag_length. Qed.
Lemma get_ext s o a : get (State (heap s ++ [Some o]) (env s)) a = if Nat.eqb a (length (heap s)) then Some o else get s a.
Proof.
  unfold get. cbn [heap]. destruct (Nat.eqb_spec a (length (heap s))) as [->|N].
  - rewrite nth_error_app2, Nat.sub_diag by lia. reflexivity.
  - destruct (Nat.ltb_spec a (length (heap s))); [now rewrite nth_error_app1 by lia|].
    rewrite (proj2 (nth_error_None _ _)) by (rewrite app_length; cbn; lia). now rewrite (proj2 (nth_error_None (heap s) _)) by lia.
Qed.
Lemma get_rebind e s a : get (State (heap s) e) a = get s a.
Proof. reflexivity. Qed.

(* ---- the invariant ---- *)
Definition first_is (f : term -> Prop) (p : poly) : Prop := match terms p with t :: _ => f t | [] => False end.
Definition agree (cs : list thing) (ms : list mark) (v : thing) (k : mark) : Prop :=
  match v, k with
  | TPoly p, MPoly _ _ => valid_poly p /\ ring_poly (terms p)
  | TMonom m, MMonom src r => exists p r' k', nth_error cs src = Some (TPoly p) /\ nth_error ms src = Some (MPoly r' k') /\ r <= r' /\
      (r = r' -> first_is (fun t => fst t = m) p)
  | TInteger c, MInteger src r k => exists p r' k', nth_error cs src = Some (TPoly p) /\ nth_error ms src = Some (MPoly r' k') /\ r <= r' /\
      (r = r' -> k <= k') /\ (r = r' -> k = k' -> first_is (fun t => snd t = c) p)
  | _, _ => False
  end.
Definition same (k : mark) (v : thing) (o : obj) : Prop :=
  match k, v, o with
  | MPoly r _, TPoly p, OPoly p' g => p' = p /\ g = r
  | MMonom src r, TMonom _, OMonom a g => a = src /\ g = r
  | MInteger src r _, TInteger _, OInteger a g => a = src /\ g = r
  | _, _, _ => False
  end.
Record inv (S : state) (I : world) (T : marks) : Prop := {
  i_nd : NoDup (map fst (env S));
  i_names : forall x, lookup x (env S) = snd I x;
  i_names' : forall x, snd T x = snd I x;
  i_len : length (heap S) = length (fst I);
  i_len' : length (fst T) = length (fst I);
  i_lt : forall x a, snd I x = Some a -> a < length (fst I);
  i_agree : forall a v k, nth_error (fst I) a = Some v -> nth_error (fst T) a = Some k -> agree (fst I) (fst T) v k;
  i_same : forall x a v k, snd I x = Some a -> nth_error (fst I) a = Some v -> nth_error (fst T) a = Some k -> exists o, get S a = Some o /\ same k v o }.

Lemma inv_start : inv start new_world ([], fun _ => None).
Proof. constructor; cbn; try reflexivity; try discriminate; try constructor. intros a v k H. now destruct a. Qed.

Lemma nodup_bind x a S : NoDup (map fst (env S)) -> NoDup (map fst ((x, a) :: unbind x (env S))).
Proof. intro N. cbn [map fst]. constructor; [apply unbind_not|now apply unbind_nodup]. Qed.
Lemma lookup_bind x a S y : lookup y ((x, a) :: unbind x (env S)) = if Nat.eqb y x then Some a else lookup y (env S).
Proof. rewrite lookup_cons, lookup_unbind. destruct (Nat.eqb_spec x y) as [->|N]; [now rewrite Nat.eqb_refl|]. destruct (Nat.eqb_spec y x); [congruence|reflexivity]. Qed.


Definition good (S : state) (I : world) (T : marks) (a : addr) : Prop :=
  forall v k, nth_error (fst I) a = Some v -> nth_error (fst T) a = Some k -> exists o, get S a = Some o /\ same k v o.
Lemma inv_rename S I T e n n' : inv S I T -> NoDup (map fst e) -> (forall x, lookup x e = n x) -> (forall x, n' x = n x) ->
  (forall x a, n x = Some a -> a < length (fst I) /\ good S I T a) -> inv (sweep (State (heap S) e)) (fst I, n) (fst T, n').
Proof.
  intros H ND L L' G. constructor; cbn [fst snd]; auto.
  - now rewrite len_sweep, <- (i_len _ _ _ H).
  - apply (i_len' _ _ _ H).
  - intros x a E. now apply (G x).
  - apply (i_agree _ _ _ H).
  - intros x a v k E Ev Ek. rewrite get_sweep. cbn [env]. assert (B : bound a e = true) by (apply bound_lookup; [exact ND|]; exists x; now rewrite L).
    rewrite B. rewrite get_rebind. exact (proj2 (G x a E) v k Ev Ek).
Qed.
Lemma inv_good S I T x a : inv S I T -> snd I x = Some a -> a < length (fst I) /\ good S I T a.
Proof. intros H E. split; [now apply (i_lt _ _ _ H x)|]. intros v k. now apply (i_same _ _ _ H x). Qed.
Lemma inv_alias S I T x y a : inv S I T -> snd I y = Some a ->
  inv (bind_var x a S) (fst I, set_name x (Some a) (snd I)) (fst T, set_name x (snd T y) (snd T)).
Proof.
  intros H E. apply inv_rename; [exact H|apply nodup_bind, (i_nd _ _ _ H)| | |].
  - intro z. rewrite lookup_bind. unfold set_name. destruct (Nat.eqb z x); [reflexivity|apply (i_names _ _ _ H)].
  - intro z. unfold set_name. destruct (Nat.eqb z x); [rewrite (i_names' _ _ _ H); exact E|apply (i_names' _ _ _ H)].
  - intros z b. unfold set_name. destruct (Nat.eqb z x); intro Eb; [injection Eb as <-; now apply (inv_good _ _ _ y)|now apply (inv_good _ _ _ z)].
Qed.
Lemma inv_del S I T x : inv S I T -> inv (sweep (State (heap S) (unbind x (env S)))) (fst I, set_name x None (snd I)) (fst T, set_name x None (snd T)).
Proof.
  intro H. apply inv_rename; [exact H|apply unbind_nodup, (i_nd _ _ _ H)| | |].
  - intro z. rewrite lookup_unbind. unfold set_name. destruct (Nat.eqb z x); [reflexivity|apply (i_names _ _ _ H)].
  - intro z. unfold set_name. destruct (Nat.eqb z x); [reflexivity|apply (i_names' _ _ _ H)].
  - intros z b. unfold set_name. destruct (Nat.eqb z x); intro Eb; [discriminate|now apply (inv_good _ _ _ z)].
Qed.
Lemma agree_ext cs ms cs' ms' v k : agree cs ms v k -> agree (cs ++ cs') (ms ++ ms') v k.
Proof.
  destruct v, k; cbn [agree]; try tauto; intros (p & r' & k' & E1 & E2 & R); exists p, r', k';
  rewrite !nth_error_app1 by (eapply nth_some_lt; eassumption); auto.
Qed.
Lemma nth_snoc {A} (l : list A) v a w : nth_error (l ++ [v]) a = Some w -> nth_error l a = Some w \/ (a = length l /\ w = v).
Proof.
  intro H. destruct (Nat.ltb_spec a (length l)); [left; now rewrite nth_error_app1 in H|]. pose proof (nth_some_lt _ _ _ H) as L. rewrite app_length in L. cbn in L.
  right. assert (a = length l) by lia. subst. rewrite nth_error_app2, Nat.sub_diag in H by lia. cbn in H. now injection H as ->.
Qed.
Lemma inv_alloc S I T x v k o : inv S I T -> agree (fst I ++ [v]) (fst T ++ [k]) v k -> same k v o ->
  inv (alloc x o S) (added x v I) (marked x k T).
Proof.
  intros H A M. pose proof (i_len _ _ _ H) as L. pose proof (i_len' _ _ _ H) as L'. set (S' := State (heap S ++ [Some o]) (env S)).
  assert (HX : inv S' (fst I ++ [v], snd I) (fst T ++ [k], snd T)).
  { constructor; cbn [fst snd S' heap env].
    - apply (i_nd _ _ _ H).
    - apply (i_names _ _ _ H).
    - apply (i_names' _ _ _ H).
    - rewrite !app_length. cbn. lia.
    - rewrite !app_length. cbn. lia.
    - intros y a E. pose proof (i_lt _ _ _ H y a E). rewrite app_length. lia.
    - intros a v' k' Ev Ek. apply nth_snoc in Ev as [Ev|[-> ->]]; apply nth_snoc in Ek as [Ek|[E ->]]; try (apply nth_some_lt in Ev; lia); try (apply nth_some_lt in Ek; lia).
      + apply agree_ext. now apply (i_agree _ _ _ H a).
      + exact A.
    - intros y a v' k' E Ev Ek. pose proof (i_lt _ _ _ H y a E). rewrite nth_error_app1 in Ev by lia; rewrite nth_error_app1 in Ek by lia. unfold S'. rewrite get_ext.
      destruct (Nat.eqb_spec a (length (heap S))); [lia|]. now apply (i_same _ _ _ H y). }
  unfold alloc, bind_var, added, marked. fold S'. rewrite L, L'. apply (inv_rename S' _ _ _ _ _ HX).
  - apply nodup_bind. apply (i_nd _ _ _ HX).
  - intro z. rewrite lookup_bind. unfold set_name. cbn [S' env]. destruct (Nat.eqb z x); [reflexivity|apply (i_names _ _ _ H)].
  - intro z. unfold set_name. destruct (Nat.eqb z x); [reflexivity|apply (i_names' _ _ _ H)].
  - intros z b. unfold set_name. destruct (Nat.eqb z x); intro Eb; [|exact (inv_good _ _ _ z b HX Eb)]. injection Eb as <-. cbn [fst]. split; [rewrite app_length; cbn; lia|].
    intros v' k' Ev Ek. cbn [fst] in Ev, Ek. rewrite nth_error_app2, Nat.sub_diag in Ev by lia. cbn in Ev. injection Ev as <-.
    rewrite nth_error_app2 in Ek by lia. replace (length (fst I) - length (fst T)) with 0 in Ek by lia. cbn in Ek. injection Ek as <-.
    exists o. split; [|exact M]. unfold S'. rewrite get_ext, L, Nat.eqb_refl. reflexivity.
Qed.
(** Change of a polynomial in place. *)
Lemma inv_put S I T x a p r k q r' k' : inv S I T -> snd I x = Some a -> nth_error (fst I) a = Some (TPoly p) -> nth_error (fst T) a = Some (MPoly r k) ->
  valid_poly q -> ring_poly (terms q) -> (r < r' \/ (r' = r /\ k < k' /\ forall f, first_is (fun t => f (fst t)) p -> first_is (fun t => f (fst t)) q)) ->
  inv (put a (OPoly q r') S) (replace a (TPoly q) (fst I), snd I) (replace a (MPoly r' k') (fst T), snd T).
Proof.
  intros H Ex Ev Ek V R C. pose proof (nth_some_lt _ _ _ Ev) as La. pose proof (nth_some_lt _ _ _ Ek) as Lb. pose proof (i_len _ _ _ H) as L.
  assert (AG : forall v0 k0, agree (fst I) (fst T) v0 k0 -> agree (replace a (TPoly q) (fst I)) (replace a (MPoly r' k') (fst T)) v0 k0).
  { intros v0 k0. destruct v0 as [p0|m0|c0], k0 as [r0 k0|s0 r0|s0 r0 k0]; cbn [agree]; try tauto; intros (p1 & r1 & k1 & E1 & E2 & Q).
    - rewrite !nth_replace by assumption. destruct (Nat.eqb_spec s0 a) as [->|N]; [|exists p1, r1, k1; auto].
      exists q, r', k'. rewrite Ev in E1. rewrite Ek in E2. injection E1 as <-. injection E2 as <- <-. destruct Q as (Q1 & Q2). split; [reflexivity|]. split; [reflexivity|].
      split; [lia|]. intros ->. destruct C as [C|(-> & C & F)]; [lia|]. exact (F (fun x => x = m0) (Q2 eq_refl)).
    - rewrite !nth_replace by assumption. destruct (Nat.eqb_spec s0 a) as [->|N]; [|exists p1, r1, k1; auto].
      exists q, r', k'. rewrite Ev in E1. rewrite Ek in E2. injection E1 as <-. injection E2 as <- <-. destruct Q as (Q1 & Q2 & Q3). split; [reflexivity|]. split; [reflexivity|].
      split; [lia|]. split; [lia|]. intros -> ->. lia. }
  constructor; cbn [fst snd put env].
  - apply (i_nd _ _ _ H).
  - apply (i_names _ _ _ H).
  - apply (i_names' _ _ _ H).
  - change (length (heap (put a (OPoly q r') S)) = length (replace a (TPoly q) (fst I))). rewrite len_put, replace_length by assumption. exact L.
  - rewrite !replace_length by assumption. apply (i_len' _ _ _ H).
  - intros y b E. rewrite replace_length by assumption. now apply (i_lt _ _ _ H y).
  - intros b v0 k0 Ev0 Ek0. rewrite nth_replace in Ev0 by assumption; rewrite nth_replace in Ek0 by assumption. destruct (Nat.eqb_spec b a) as [->|N].
    + injection Ev0 as <-. injection Ek0 as <-. cbn [agree]. auto.
    + apply AG. now apply (i_agree _ _ _ H b).
  - intros y b v0 k0 E Ev0 Ek0. rewrite nth_replace in Ev0 by assumption; rewrite nth_replace in Ek0 by assumption. fold (put a (OPoly q r') S). rewrite get_put. destruct (Nat.eqb_spec b a) as [->|N].
    + injection Ev0 as <-. injection Ek0 as <-. rewrite (proj2 (Nat.ltb_lt _ _)) by lia. eexists. split; [reflexivity|]. cbn. auto.
    + now apply (i_same _ _ _ H y).
Qed.

(* ---- ring polynomials ---- *)
Local Open Scope Z_scope.
Lemma ring_coef l m : ring_poly l -> pos m <> -1 -> coef l m = 0.
Proof. intros R N. apply coef_notin. intro J. apply in_map_iff in J as (t & E & J). apply N. rewrite <- E. exact (proj1 (Forall_forall _ _) R t J). Qed.
Lemma coef_ring p : valid_poly p -> (forall m, pos m <> -1 -> coef (terms p) m = 0) -> ring_poly (terms p).
Proof.
  intros V C. apply canonical_iff in V as (S & M & N). apply Forall_forall. intros [m c] J. cbn [fst]. destruct (Z.eq_dec (pos m) (-1)) as [E|E]; [exact E|].
  pose proof (coef_in _ _ _ _ _ _ S M J) as F. rewrite C in F by exact E. pose proof (proj1 (Forall_forall _ _) N _ J) as G. cbn in G. congruence.
Qed.
Lemma fold_zero (l : list Z) : Forall (fun z => z = 0) l -> fold_right Z.add 0 l = 0.
Proof. induction 1 as [|x l E _ IH]; cbn; lia. Qed.
Lemma ring_prod p q m : ring_poly p -> ring_poly q -> pos m <> -1 -> prod_coef p q m = 0.
Proof.
  intros P Q N. unfold prod_coef. apply fold_zero, Forall_map, Forall_forall. intros x Jx. apply fold_zero, Forall_map, Forall_forall. intros y Jy.
  destruct (monom_eq_dec (mprod (fst x) (fst y)) m) as [E|_]; [|reflexivity]. exfalso. apply N. rewrite <- E. unfold mprod. cbn [pos].
  rewrite (proj1 (Forall_forall _ _) P x Jx). cbn. exact (proj1 (Forall_forall _ _) Q y Jy).
Qed.
Lemma ring_shift u q m : ring_poly q -> pos m <> -1 -> coef (shift u q) m = 0.
Proof.
  intros Q N. apply ring_coef; [|exact N]. unfold shift. apply Forall_map. eapply Forall_impl; [|exact Q]. intros x E. exact E.
Qed.

(** The operations of the machine mean what they should. *)
Lemma bin_ok dbg op p q : valid_poly p -> valid_poly q -> ring_poly (terms p) -> ring_poly (terms q) -> same_ring p q ->
  exists r, binary op dbg p q = Ok (Returns r) /\ means op p q r /\ ring_poly (terms r).
Proof.
  intros Vp Vq Rp Rq SR. destruct op; cbn [binary means].
  - destruct (c45_add dbg p q Vp Vq SR) as (r & E & S & V & C). exists r. split; [exact E|]. split; [split; [exact V|split; [exact S|exact C]]|].
    apply coef_ring; [exact V|]. intros m N. rewrite C, !ring_coef by assumption. reflexivity.
  - destruct (c45_sub dbg p q Vp Vq SR) as (r & E & S & V & C). exists r. split; [exact E|]. split; [split; [exact V|split; [exact S|exact C]]|].
    apply coef_ring; [exact V|]. intros m N. rewrite C, !ring_coef by assumption. reflexivity.
  - destruct (c45_mul dbg p q Vp Vq SR (or_introl Rp)) as (r & E & S & V & C). exists r. split; [exact E|]. split; [split; [exact V|split; [exact S|exact C]]|].
    apply coef_ring; [exact V|]. intros m N. rewrite C. now apply ring_prod.
Qed.
Lemma neg_ok dbg p : valid_poly p -> ring_poly (terms p) -> exists r, py_neg dbg p = Ok (Returns r) /\ value_of p r (fun m => - coef (terms p) m) /\ ring_poly (terms r).
Proof.
  intros Vp Rp. destruct (c45_neg dbg p Vp) as (r & E & S & V & C). exists r. split; [exact E|]. split; [split; [exact V|split; [exact S|exact C]]|].
  apply coef_ring; [exact V|]. intros m N. rewrite C, ring_coef by assumption. reflexivity.
Qed.
Lemma red_ok dbg p q : valid_poly p -> valid_poly q -> ring_poly (terms p) -> ring_poly (terms q) -> can_reduce p q ->
  exists r, p_reduction dbg p q = Ok r /\ reduced p q r /\ ring_poly (terms r).
Proof.
  intros Vp Vq Rp Rq (SR & m & c & p' & n & d & q' & E1 & E2 & D).
  assert (Pm : pos m = -1) by (rewrite E1 in Rp; exact (Forall_inv Rp)).
  destruct (c14 dbg p q m c p' n d q' Vp Vq SR E1 E2 D) as (r & k1 & k2 & u & E & S & V & K & _ & _ & U & C & _ & B).
  { split; [now rewrite Pm|auto]. }
  exists r. split; [exact E|]. split.
  - split; [exact V|]. split; [exact S|]. exists m, c, p', n, d, q', k1, k2, u. auto 10.
  - apply coef_ring; [exact V|]. intros w N. rewrite C, ring_coef, ring_shift by assumption. lia.
Qed.
Lemma div_terms_first dbg g l r : div_terms dbg g l = Ok r -> map fst r = map fst l.
Proof.
  revert r. induction l as [|[m c] l IH]; intros r H; cbn [div_terms] in H; [now injection H as <-|].
  destruct (int_div dbg c g); try discriminate. cbn [bind] in H. destruct (div_terms dbg g l) as [l'| | | |]; try discriminate. cbn [bind] in H. injection H as <-. cbn. f_equal. now apply IH.
Qed.
Lemma pp_first dbg p r : p_pp dbg p = Ok r -> map fst (terms r) = map fst (terms p).
Proof.
  unfold p_pp. destruct (terms p) as [|[m c] l] eqn:E; [intro H; injection H as <-; now rewrite E|]. destruct (Z.abs c =? 1); [intro H; injection H as <-; now rewrite E|].
  destruct (gcd_loop dbg c l) as [[g|]| | | |]; try discriminate; cbn [bind]; [|intro H; injection H as <-; now rewrite E].
  destruct (div_terms dbg g ((m, c) :: l)) as [l'| | | |] eqn:F; try discriminate; cbn [bind]. destruct (p_isPp dbg (with_terms p l')) as [b| | | |]; try discriminate; cbn [bind].
  unfold assert_. destruct (dbg && negb b); try discriminate. intro H. injection H as <-. cbn [with_terms terms]. exact (div_terms_first _ _ _ _ F).
Qed.
Lemma first_map (f : monom -> Prop) p q : map fst (terms q) = map fst (terms p) -> first_is (fun t => f (fst t)) p -> first_is (fun t => f (fst t)) q.
Proof. unfold first_is. destruct (terms p), (terms q); cbn; try discriminate; try tauto. intro E. injection E as -> _. tauto. Qed.
Lemma pp_ok dbg p : valid_poly p -> ring_poly (terms p) -> terms p <> [] ->
  exists r, p_pp dbg p = Ok r /\ primitive_part p r /\ ring_poly (terms r) /\ forall f, first_is (fun t => f (fst t)) p -> first_is (fun t => f (fst t)) r.
Proof.
  intros Vp Rp N. destruct (c15_pp dbg p Vp N) as (r & g & E & S & V & G & C & P & _). exists r. split; [exact E|].
  split; [split; [exact V|split; [exact S|split; [exact P|now exists g]]]|]. pose proof (pp_first _ _ _ E) as M. split.
  - unfold ring_poly in *. rewrite <- Forall_map with (P := fun m => pos m = -1) in Rp. rewrite <- M in Rp. now rewrite Forall_map in Rp.
  - intro f. apply first_map. exact M.
Qed.

(* ---- one command ---- *)
Lemma var_cases S I T x : inv S I T ->
  (snd I x = None /\ lookup x (env S) = None /\ mark_of T x = None) \/
  exists a v k o, snd I x = Some a /\ lookup x (env S) = Some a /\ nth_error (fst I) a = Some v /\ nth_error (fst T) a = Some k /\
    agree (fst I) (fst T) v k /\ get S a = Some o /\ same k v o /\ mark_of T x = Some (a, k).
Proof.
  intro H. unfold mark_of. rewrite (i_names _ _ _ H), (i_names' _ _ _ H). destruct (snd I x) as [a|] eqn:E; [right|left; auto]. pose proof (i_lt _ _ _ H x a E) as L.
  destruct (nth_error (fst I) a) as [v|] eqn:Ev; [|apply nth_error_None in Ev; lia]. pose proof (i_len' _ _ _ H) as L'.
  destruct (nth_error (fst T) a) as [k|] eqn:Ek; [|apply nth_error_None in Ek; lia]. destruct (i_same _ _ _ H x a v k E Ev Ek) as (o & Eo & M).
  exists a, v, k, o. pose proof (i_agree _ _ _ H a v k Ev Ek). auto 10.
Qed.
Lemma poly_cases S I T x : inv S I T ->
  (snd I x = None /\ forall e k, with_poly e S x k = stop ENameError) \/
  (no_poly_at I x /\ forall e k, with_poly e S x k = stop e) \/
  exists a p r n, poly_at I x a p /\ valid_poly p /\ ring_poly (terms p) /\ nth_error (fst T) a = Some (MPoly r n) /\ mark_of T x = Some (a, MPoly r n) /\
    (forall e k, with_poly e S x k = k a p r).
Proof.
  intro H. destruct (var_cases S I T x H) as [(E & El & _)|(a & v & k & o & E & El & Ev & Ek & A & Eo & M & Em)].
  - left. split; [exact E|]. intros e k. unfold with_poly, with_var. now rewrite El.
  - right. destruct v as [p|m|c], k as [r n|s r|s r n]; cbn [agree] in A; try contradiction; destruct o as [p' g|a' g|a' g]; cbn [same] in M; try contradiction.
    + right. destruct M as [-> ->]. exists a, p, r, n. split; [split; assumption|]. split; [apply A|]. split; [apply A|]. split; [exact Ek|]. split; [exact Em|].
      intros e k. unfold with_poly, with_var. now rewrite El, Eo.
    + left. split; [exists a, (TMonom m); repeat split; auto; discriminate|]. intros e k. unfold with_poly, with_var. now rewrite El, Eo.
    + left. split; [exists a, (TInteger c); repeat split; auto; discriminate|]. intros e k. unfold with_poly, with_var. now rewrite El, Eo.
Qed.

Definition ring_cmd (c : cmd) : Prop := match c with CNew _ _ _ m => pos m = -1 /\ vars m <> [] | _ => True end.
Definition done (dbg : bool) (S : state) (I : world) (T : marks) (c : cmd) : Prop :=
  (exists S' I' o, step dbg S c = Ok (Go S' o) /\ meaning I c (RGo I' o) /\ inv S' I' (follow T c)) \/
  (exists e, step dbg S c = Ok (Stop e) /\ meaning I c (RStop e)).
Lemma comparable_dec p q : comparable p q = true \/ ~ same_ring p q.
Proof. destruct (comparable p q) eqn:E; [now left|]. right. intro R. apply same_ring_comparable in R. congruence. Qed.
Lemma one_term m t o : pos m = -1 -> let p := Poly t o (size m) [(m, 1)] in valid_poly p /\ ring_poly (terms p).
Proof.
  intros P. split.
  - split; [repeat constructor|]. split; [|repeat constructor; discriminate]. constructor; [|constructor]. split; [reflexivity|cbn; lia].
  - constructor; [exact P|constructor].
Qed.
Lemma agree_poly cs ms p r k : valid_poly p -> ring_poly (terms p) -> agree cs ms (TPoly p) (MPoly r k).
Proof. intros. cbn. auto. Qed.

Lemma step_ok dbg S I T c : inv S I T -> careful_step T c -> ring_cmd c -> done dbg S I T c.
Proof.
  intros H C RC. destruct c as [x t o m|op x y z|x y|x y|x|y z|y|x y|x y|x|x y]; unfold done; cbn [step].
  - (* new *) destruct RC as [P N]. destruct (one_term m t o P) as [V R]. left. unfold p_monom. rewrite checked_ok by exact V. cbn [bind].
    exists (alloc x (OPoly (Poly t o (size m) [(m, 1)]) 0) S), (added x (TPoly (Poly t o (size m) [(m, 1)])) I), []. split; [reflexivity|]. split; [now apply m_new|].
    cbn [follow]. apply inv_alloc; [exact H|now apply agree_poly|cbn; auto].
  - (* bin *) destruct (poly_cases S I T y H) as [(E & W)|[(E & W)|(a & p & r & n & E & Vp & Rp & _ & _ & W)]]; rewrite W.
    + right. exists ENameError. split; [reflexivity|now apply m_bin_name1].
    + right. exists ETypeError. split; [reflexivity|now apply m_bin_type1].
    + destruct (poly_cases S I T z H) as [(E' & W')|[(E' & W')|(b & q & r' & n' & E' & Vq & Rq & _ & _ & W')]]; rewrite W'.
      * right. exists ENameError. split; [reflexivity|now apply (m_bin_name2 I op x y z a p)].
      * right. exists ETypeError. split; [reflexivity|now apply (m_bin_type2 I op x y z a p)].
      * destruct (comparable_dec p q) as [SR|SR].
        -- apply comparable_same_ring in SR. destruct (bin_ok dbg op p q Vp Vq Rp Rq SR) as (s & Es & Ms & Rs). left. unfold result. rewrite Es. cbn [bind].
           exists (alloc x (OPoly s 0) S), (added x (TPoly s) I), []. split; [reflexivity|]. split; [now apply (m_bin I op x y z a p b q s)|].
           cbn [follow]. apply inv_alloc; [exact H| |cbn; auto]. apply agree_poly; [|exact Rs]. destruct op; apply Ms.
        -- right. exists EAssertionError. destruct (c45_incomparable dbg p q Vp Vq SR) as (E1 & E2 & E3).
           split; [destruct op; unfold result, binary; rewrite ?E1, ?E2, ?E3; reflexivity|now apply (m_bin_ring I op x y z a p b q)].
  - (* neg *) destruct (poly_cases S I T y H) as [(E & W)|[(E & W)|(a & p & r & n & E & Vp & Rp & _ & _ & W)]]; rewrite W.
    + right. exists ENameError. split; [reflexivity|now apply m_neg_name].
    + right. exists ETypeError. split; [reflexivity|now apply m_neg_type].
    + left. destruct (neg_ok dbg p Vp Rp) as (s & Es & Ms & Rs). unfold result. rewrite Es. cbn [bind].
      exists (alloc x (OPoly s 0) S), (added x (TPoly s) I), []. split; [reflexivity|]. split; [now apply (m_neg I x y a p s)|].
      cbn [follow]. apply inv_alloc; [exact H| |cbn; auto]. apply agree_poly; [apply Ms|exact Rs].
  - (* alias *) rewrite (i_names _ _ _ H). destruct (snd I y) as [a|] eqn:E.
    + left. exists (bind_var x a S), (fst I, set_name x (Some a) (snd I)), []. split; [reflexivity|]. split; [now apply m_alias|]. cbn [follow]. now apply inv_alias.
    + right. exists ENameError. split; [reflexivity|now apply m_alias_name].
  - (* del *) rewrite (i_names _ _ _ H). destruct (snd I x) as [a|] eqn:E.
    + left. eexists _, (fst I, set_name x None (snd I)), []. split; [reflexivity|]. split; [now apply (m_del I x a)|]. cbn [follow]. now apply inv_del.
    + right. exists ENameError. split; [reflexivity|now apply m_del_name].
  - (* reduce *) cbn [careful_step] in C. rewrite !(i_names' _ _ _ H) in C. destruct (poly_cases S I T y H) as [(E & W)|[(E & W)|(a & p & r & n & E & Vp & Rp & Ek & Em & W)]]; rewrite W.
    + right. exists ENameError. split; [reflexivity|now apply m_reduce_name1].
    + right. exists EAttributeError. split; [reflexivity|now apply m_reduce_type1].
    + destruct (poly_cases S I T z H) as [(E' & W')|[(E' & W')|(b & q & r' & n' & E' & Vq & Rq & _ & _ & W')]]; rewrite W'.
      * right. exists ENameError. split; [reflexivity|now apply (m_reduce_name2 I y z a p)].
      * right. exists ETypeError. split; [reflexivity|now apply (m_reduce_type2 I y z a p)].
      * assert (AB : a <> b). { destruct E as [E _], E' as [E' _]. intros ->. destruct C as [C|C]; congruence. }
        assert (NO : ~ can_reduce p q -> meaning I (CReduce y z) (RStop EAssertionError)) by now apply (m_reduce_not I y z a p b q).
        destruct (terms p) as [|[m c] p'] eqn:Ep.
        { right. exists EAssertionError. split; [reflexivity|]. apply NO. intros (_ & m & c & p' & n1 & d & q' & F & _). congruence. }
        destruct (terms q) as [|[m1 d] q'] eqn:Eq.
        { right. exists EAssertionError. split; [reflexivity|]. apply NO. intros (_ & m0 & c0 & p0 & n1 & d & q' & _ & F & _). congruence. }
        assert (M0 : mono (psize p) m) by (destruct Vp as (_ & M & _); rewrite Ep in M; exact (Forall_inv M)).
        assert (M1 : mono (psize q) m1) by (destruct Vq as (_ & M & _); rewrite Eq in M; exact (Forall_inv M)).
        destruct (comparable p q && divisiable m m1) eqn:B.
        -- apply andb_true_iff in B as [B1 B2]. apply comparable_same_ring in B1. assert (SZ : psize p = psize q) by apply B1. rewrite <- SZ in M1.
           assert (CR : can_reduce p q). { split; [exact B1|]. exists m, c, p', m1, d, q'. split; [exact Ep|]. split; [exact Eq|]. now apply (divisiable_mdivides (psize p)). }
           rewrite <- Ep in Rp. rewrite <- Eq in Rq. destruct (red_ok dbg p q Vp Vq Rp Rq CR) as (s & Es & Ms & Rs). rewrite (proj2 (Nat.eqb_neq _ _) AB), Es. cbn [bind]. left.
           eexists _, (replace a (TPoly s) (fst I), snd I), []. split; [reflexivity|]. split; [now apply (m_reduce I y z a p b q s)|].
           cbn [follow]. rewrite Em. apply (inv_put S I T y a p r n); auto; try apply E; apply Ms.
        -- right. exists EAssertionError. split; [reflexivity|]. apply NO. intros (SR & m0 & c0 & p0 & n0 & d0 & q0 & F1 & F2 & D). rewrite Ep in F1. rewrite Eq in F2. injection F1 as <- <- <-. injection F2 as <- <- <-.
           rewrite (same_ring_comparable _ _ SR) in B. cbn [andb] in B. assert (SZ : psize p = psize q) by apply SR. rewrite <- SZ in M1.
           apply (divisiable_mdivides (psize p)) in D; auto. congruence.
  - (* pp *) destruct (poly_cases S I T y H) as [(E & W)|[(E & W)|(a & p & r & n & E & Vp & Rp & Ek & Em & W)]]; rewrite W.
    + right. exists ENameError. split; [reflexivity|now apply m_pp_name].
    + right. exists EAttributeError. split; [reflexivity|now apply m_pp_type].
    + destruct (list_eq_dec (fun u v : term => ltac:(repeat decide equality) : {u = v} + {u <> v}) (terms p) []) as [Z0|NZ].
      * right. exists EAssertionError. unfold p_isPp. rewrite Z0. split; [reflexivity|]. apply (m_pp_not I y a p); auto.
      * destruct (c15_isPp dbg p Vp NZ) as (b & Eb & Pb). rewrite Eb. cbn [bind]. destruct b.
        -- right. exists EAssertionError. split; [reflexivity|]. apply (m_pp_not I y a p); [exact E|]. right. now apply Pb.
        -- left. destruct (pp_ok dbg p Vp Rp NZ) as (s & Es & Ms & Rs & Fs). rewrite Es. cbn [bind].
           eexists _, (replace a (TPoly s) (fst I), snd I), []. split; [reflexivity|]. split; [apply (m_pp I y a p s); auto; intro J; apply Pb in J; discriminate|].
           cbn [follow]. rewrite Em. apply (inv_put S I T y a p r n); auto; try apply E; apply Ms.
  - (* lm *) destruct (poly_cases S I T y H) as [(E & W)|[(E & W)|(a & p & r & n & E & Vp & Rp & Ek & Em & W)]]; rewrite W.
    + right. exists ENameError. split; [reflexivity|now apply m_lm_name].
    + right. exists EAttributeError. split; [reflexivity|now apply m_lm_type].
    + destruct (terms p) as [|[m c] l] eqn:Ep.
      * right. exists EAssertionError. split; [reflexivity|now apply (m_lm_zero I x y a p)].
      * left. eexists _, (added x (TMonom m) I), []. split; [reflexivity|]. split; [now apply (m_lm I x y a p m c l)|]. cbn [follow]. rewrite Em.
        apply inv_alloc; [exact H| |cbn; auto]. apply agree_ext. cbn [agree]. exists p, r, n. split; [apply E|]. split; [exact Ek|]. split; [lia|]. intros _. unfold first_is. now rewrite Ep.
  - (* lc *) destruct (poly_cases S I T y H) as [(E & W)|[(E & W)|(a & p & r & n & E & Vp & Rp & Ek & Em & W)]]; rewrite W.
    + right. exists ENameError. split; [reflexivity|now apply m_lc_name].
    + right. exists EAttributeError. split; [reflexivity|now apply m_lc_type].
    + destruct (terms p) as [|[m c] l] eqn:Ep.
      * right. exists EAssertionError. split; [reflexivity|now apply (m_lc_zero I x y a p)].
      * left. eexists _, (added x (TInteger c) I), []. split; [reflexivity|]. split; [now apply (m_lc I x y a p m c l)|]. cbn [follow]. rewrite Em.
        apply inv_alloc; [exact H| |cbn; auto]. apply agree_ext. cbn [agree]. exists p, r, n. split; [apply E|]. split; [exact Ek|]. split; [lia|]. split; [lia|]. intros _ _. unfold first_is. now rewrite Ep.
  - (* show *) cbn [careful_step] in C. destruct (var_cases S I T x H) as [(E & El & _)|(a & v & k & o & E & El & Ev & Ek & A & Eo & M & Em)].
    + right. exists ENameError. unfold with_var. rewrite El. split; [reflexivity|now apply m_show_name].
    + left. rewrite Em in C. unfold with_var. rewrite El, Eo. destruct v as [p|m|c], k as [r n|s r|s r n]; cbn [agree] in A; try contradiction; destruct o as [p' g|a' g|a' g]; cbn [same] in M; try contradiction; destruct M as [-> ->].
      * exists S, I, [VPoly (terms p)]. split; [reflexivity|]. split; [exact (m_show I x a (TPoly p) E Ev)|exact H].
      * destruct A as (p & r' & k' & A1 & A2 & A3 & A4). destruct C as ((y & Cy) & k2 & C). rewrite A2 in C. injection C as -> ->. rewrite (i_names' _ _ _ H) in Cy.
        destruct (i_same _ _ _ H y s _ _ Cy A1 A2) as (o & Go & Mo). destruct o as [p' g| |]; cbn in Mo; try contradiction. destruct Mo as [-> ->].
        unfold deref. rewrite Go. specialize (A4 eq_refl). unfold first_is in A4. destruct (terms p) as [|t l]; [contradiction|]. rewrite Nat.eqb_refl. cbn [bind]. rewrite A4.
        exists S, I, [VMonom m]. split; [reflexivity|]. split; [exact (m_show I x a (TMonom m) E Ev)|exact H].
      * destruct A as (p & r' & k' & A1 & A2 & A3 & _ & A4). destruct C as ((y & Cy) & C). rewrite A2 in C. injection C as -> ->. rewrite (i_names' _ _ _ H) in Cy.
        destruct (i_same _ _ _ H y s _ _ Cy A1 A2) as (o & Go & Mo). destruct o as [p' g| |]; cbn in Mo; try contradiction. destruct Mo as [-> ->].
        unfold deref. rewrite Go. specialize (A4 eq_refl eq_refl). unfold first_is in A4. destruct (terms p) as [|t l]; [contradiction|]. rewrite Nat.eqb_refl. cbn [bind]. rewrite A4.
        exists S, I, [VInteger c]. split; [reflexivity|]. split; [exact (m_show I x a (TInteger c) E Ev)|exact H].
  - (* same *) unfold with_var. destruct (var_cases S I T x H) as [(E & El & _)|(a & v & k & o & E & El & _ & _ & _ & Eo & _)]; rewrite El.
    + right. exists ENameError. split; [reflexivity|]. apply m_same_name. now left.
    + rewrite Eo. destruct (var_cases S I T y H) as [(E' & El' & _)|(b & v' & k' & o' & E' & El' & _ & _ & _ & Eo' & _)]; rewrite El'.
      * right. exists ENameError. split; [reflexivity|]. apply m_same_name. now right.
      * rewrite Eo'. left. exists S, I, [VBool (Nat.eqb a b)]. split; [reflexivity|]. split; [now apply m_same|exact H].
Qed.

Lemma run_from dbg cs : forall S I T, inv S I T -> careful_from T cs -> ring_program cs ->
  exists os e, run dbg S cs = Ok (os, e) /\ means_run I cs os e.
Proof.
  induction cs as [|c cs IH]; intros S I T H C R; [exists [], None; split; [reflexivity|constructor]|].
  destruct C as [C1 C2]. inversion R as [|c' cs' R1 R2]; subst. cbn [run]. destruct (step_ok dbg S I T c H C1 R1) as [(S' & I' & o & E & M & H')|(e & E & M)]; rewrite E; cbn [bind].
  - destruct (IH S' I' (follow T c) H' C2 R2) as (os & e & E' & M'). rewrite E'. cbn [bind fst snd]. exists (o ++ os), e. split; [reflexivity|]. now apply (mr_go I c cs I').
  - exists [], (Some e). split; [reflexivity|now apply mr_stop].
Qed.
Theorem careful_ok dbg cs : careful cs -> ring_program cs -> exists os e, run dbg start cs = Ok (os, e) /\ means_run new_world cs os e.
Proof. intros C R. exact (run_from dbg cs start new_world _ inv_start C R). Qed.

(* ---- views that cannot be read ---- *)
Definition tidy (s : state) : Prop := Forall (fun b => (snd b < length (heap s))%nat) (env s).
Lemma sweep_len s : length (heap (sweep s)) = length (heap s).
Proof. unfold sweep. cbn [heap]. rewrite map_length, combine_length, seq_length. apply Nat.min_id. Qed.
Lemma put_len a o s : length (heap (put a o s)) = length (heap s).
Proof. unfold put. cbn [heap]. rewrite map_length, combine_length, seq_length. apply Nat.min_id. Qed.
Lemma tidy_unbind x e n : Forall (fun b : var * addr => (snd b < n)%nat) e -> Forall (fun b => (snd b < n)%nat) (unbind x e).
Proof. intro F. unfold unbind. induction F as [|b l H F IH]; cbn [filter]; [constructor|]. destruct (negb _); auto. Qed.
Lemma tidy_bind x a s : tidy s -> (a < length (heap s))%nat -> tidy (bind_var x a s).
Proof. intros T L. unfold tidy, bind_var. rewrite sweep_len. cbn [sweep env heap]. constructor; [exact L|]. now apply tidy_unbind. Qed.
Lemma tidy_alloc x o s : tidy s -> tidy (alloc x o s).
Proof.
  intro T. unfold alloc. apply tidy_bind; cbn [heap]; rewrite ?app_length; cbn [length]; [|lia]. unfold tidy. cbn [heap env]. eapply Forall_impl; [|exact T]. intros b. cbn. rewrite app_length. cbn. lia.
Qed.
Lemma lookup_lt x s a : tidy s -> lookup x (env s) = Some a -> (a < length (heap s))%nat.
Proof.
  unfold lookup, tidy. intros T E. match type of E with context [find ?g _] => destruct (find g (env s)) as [b|] eqn:F; [|discriminate] end. injection E as <-. apply find_some in F as [F _]. now apply (proj1 (Forall_forall _ _) T) in F.
Qed.
Lemma bindE {A B} (e : outcome A) (f : A -> outcome B) v : bind e f = Ok v -> exists a, e = Ok a /\ f a = Ok v.
Proof. destruct e; cbn; intro H; try discriminate. eauto. Qed.
Lemma with_varE s x k r : with_var s x k = Ok r -> r = Stop ENameError \/ exists a o, lookup x (env s) = Some a /\ get s a = Some o /\ k a o = Ok r.
Proof. unfold with_var. destruct (lookup x (env s)) as [a|]; [|intro E; injection E as <-; now left]. destruct (get s a) as [o|] eqn:G; [|discriminate]. intro E. right. eauto. Qed.
Lemma with_polyE e s x k r : with_poly e s x k = Ok r -> (exists e', r = Stop e') \/ exists a p g, lookup x (env s) = Some a /\ get s a = Some (OPoly p g) /\ k a p g = Ok r.
Proof.
  intro H. unfold with_poly in H. apply with_varE in H as [->|(a & o & L & G & E)]; [left; eauto|]. destruct o as [p g|b g|b g]; try (injection E as <-; left; eauto). right. eauto 10.
Qed.
Lemma resultE x s r s' o : result x s r = Ok (Go s' o) -> exists p, s' = alloc x (OPoly p 0) s.
Proof. unfold result. intro E. apply bindE in E as (v & _ & E). destruct v as [p|]; [|discriminate]. injection E as <- _. eauto. Qed.
Lemma step_tidy dbg s c s' o : tidy s -> step dbg s c = Ok (Go s' o) -> tidy s'.
Proof.
  intros T E. destruct c as [x t ord m|op x y z|x y|x y|x|y z|y|x y|x y|x|x y]; cbn [step] in E.
  - apply bindE in E as (p & _ & E). injection E as <- _. now apply tidy_alloc.
  - apply with_polyE in E as [(e & E)|(a & p & g & _ & _ & E)]; [discriminate|]. apply with_polyE in E as [(e & E)|(b & q & g' & _ & _ & E)]; [discriminate|].
    apply resultE in E as (r & ->). now apply tidy_alloc.
  - apply with_polyE in E as [(e & E)|(a & p & g & _ & _ & E)]; [discriminate|]. apply resultE in E as (r & ->). now apply tidy_alloc.
  - destruct (lookup y (env s)) as [a|] eqn:L; [|discriminate]. injection E as <- _. apply tidy_bind; [exact T|]. now apply (lookup_lt y).
  - destruct (lookup x (env s)) as [a|] eqn:L; [|discriminate]. injection E as <- _. unfold tidy. rewrite sweep_len. cbn [sweep env heap]. now apply tidy_unbind.
  - apply with_polyE in E as [(e & E)|(a & p & g & _ & _ & E)]; [discriminate|]. apply with_polyE in E as [(e & E)|(b & q & g' & _ & _ & E)]; [discriminate|].
    destruct (terms p) as [|[m ?] ?]; [discriminate|]. destruct (terms q) as [|[n ?] ?]; [discriminate|]. destruct (_ && _); [|discriminate]. destruct (Nat.eqb a b); [discriminate|].
    apply bindE in E as (r & _ & E). injection E as <- _. unfold tidy. now rewrite put_len.
  - apply with_polyE in E as [(e & E)|(a & p & g & _ & _ & E)]; [discriminate|]. apply bindE in E as (b & _ & E). destruct b; [discriminate|]. apply bindE in E as (r & _ & E). injection E as <- _. unfold tidy. now rewrite put_len.
  - apply with_polyE in E as [(e & E)|(a & p & g & _ & _ & E)]; [discriminate|]. destruct (terms p); [discriminate|]. injection E as <- _. now apply tidy_alloc.
  - apply with_polyE in E as [(e & E)|(a & p & g & _ & _ & E)]; [discriminate|]. destruct (terms p); [discriminate|]. injection E as <- _. now apply tidy_alloc.
  - apply with_varE in E as [E|(a & v & _ & _ & E)]; [discriminate|]. destruct v as [p g|b g|b g]; [injection E as <- _; exact T| |]; apply bindE in E as (t & _ & E); injection E as <- _; exact T.
  - apply with_varE in E as [E|(a & v & _ & _ & E)]; [discriminate|]. apply with_varE in E as [E|(b & v' & _ & _ & E)]; [discriminate|]. injection E as <- _. exact T.
Qed.
Lemma runE dbg c cs s os : run dbg s (c :: cs) = Ok (os, None) -> exists s' o os', step dbg s c = Ok (Go s' o) /\ run dbg s' cs = Ok (os', None).
Proof.
  cbn [run]. intro E. apply bindE in E as (r & E1 & E). destruct r as [s' o|e]; [|discriminate]. apply bindE in E as ([os' e'] & E2 & E). injection E as _ Ee. cbn in Ee. subst e'. eauto 10.
Qed.
Lemma run_appE dbg cs : forall s cs' os, tidy s -> run dbg s (cs ++ cs') = Ok (os, None) -> exists s' os', tidy s' /\ run dbg s' cs' = Ok (os', None).
Proof.
  induction cs as [|c cs IH]; intros s cs' os T E; [eauto|]. cbn [app] in E. apply runE in E as (s' & o & os' & E1 & E2). apply (IH s' cs' os'); [|exact E2]. exact (step_tidy dbg s c s' o T E1).
Qed.
Lemma tidy_start : tidy start. Proof. constructor. Qed.

Lemma bound_no a e : Forall (fun b : var * addr => snd b <> a) e -> bound a e = false.
Proof. intro F. apply not_true_iff_false. unfold bound. rewrite existsb_exists. intros (b & I & Q). apply Nat.eqb_eq in Q. now apply (proj1 (Forall_forall _ _) F b I). Qed.
Lemma unbind_forall (P : var * addr -> Prop) x e : Forall P e -> Forall P (unbind x e).
Proof. intro F. unfold unbind. induction F as [|b l H F IH]; cbn [filter]; [constructor|]. destruct (negb _); auto. Qed.
Lemma env_alloc x o s : env (alloc x o s) = (x, length (heap s)) :: unbind x (env s).
Proof. reflexivity. Qed.
Lemma len_alloc x o s : length (heap (alloc x o s)) = Datatypes.S (length (heap s)).
Proof. unfold alloc, bind_var. rewrite sweep_len. cbn [heap]. rewrite app_length. cbn. lia. Qed.
Lemma lookup_alloc x o s : lookup x (env (alloc x o s)) = Some (length (heap s)).
Proof. rewrite env_alloc, lookup_cons, Nat.eqb_refl. reflexivity. Qed.
Lemma get_alloc x o s : get (alloc x o s) (length (heap s)) = Some o.
Proof.
  unfold alloc, bind_var. rewrite get_sweep. cbn [env heap]. unfold bound at 1. cbn [existsb snd]. rewrite Nat.eqb_refl. cbn [orb].
  unfold get. cbn [heap]. rewrite nth_error_app2, Nat.sub_diag by lia. reflexivity.
Qed.
Lemma get_alloc_old x o s a : (a < length (heap s))%nat -> get (alloc x o s) a = None \/ get (alloc x o s) a = get s a.
Proof. intro L. unfold alloc, bind_var. rewrite get_sweep. destruct (bound _ _); [right|now left]. unfold get. cbn [heap]. now rewrite nth_error_app1. Qed.
Lemma lookup_alloc_ne x y o s : x <> y -> lookup y (env (alloc x o s)) = lookup y (env s).
Proof. intro N. rewrite env_alloc, lookup_bind. apply Nat.eqb_neq in N. now rewrite Nat.eqb_sym, N. Qed.

Lemma makes_alloc dbg s t c s' o : makes_poly t c -> step dbg s c = Ok (Go s' o) -> exists p, s' = alloc t (OPoly p 0) s.
Proof.
  intros M E. destruct c as [x t' ord m|op x y z|x y|x y|x|y z|y|x y|x y|x|x y]; try contradiction; cbn in M; subst x; cbn [step] in E.
  - apply bindE in E as (p & _ & E). injection E as <- _. eauto.
  - apply with_polyE in E as [(e & E)|(a & p & g & _ & _ & E)]; [discriminate|]. apply with_polyE in E as [(e & E)|(b & q & g' & _ & _ & E)]; [discriminate|]. now apply resultE in E.
  - apply with_polyE in E as [(e & E)|(a & p & g & _ & _ & E)]; [discriminate|]. now apply resultE in E.
Qed.
Lemma looks_alloc dbg s x y c s' o : looks x y c -> step dbg s c = Ok (Go s' o) ->
  exists a p g v, lookup y (env s) = Some a /\ get s a = Some (OPoly p g) /\ s' = alloc x v s /\ (v = OMonom a g \/ v = OInteger a g).
Proof.
  intros [-> | ->] E; cbn [step] in E; apply with_polyE in E as [(e & E)|(a & p & g & L & G & E)]; try discriminate; destruct (terms p); try discriminate; injection E as <- _.
  - exists a, p, g, (OMonom a g). auto.
  - exists a, p, g, (OInteger a g). auto.
Qed.
Lemma show_view dbg s x a v b g s' o : lookup x (env s) = Some a -> get s a = Some v -> v = OMonom b g \/ v = OInteger b g ->
  step dbg s (CShow x) = Ok (Go s' o) -> exists p, get s b = Some (OPoly p g).
Proof.
  intros L G V E. cbn [step] in E. unfold with_var in E. rewrite L, G in E.
  assert (D : exists t, deref s b g = Ok t) by (destruct V as [-> | ->]; apply bindE in E as (t & D & _); eauto).
  destruct D as (t & D). unfold deref in D. destruct (get s b) as [[p g'| |]|]; try discriminate. destruct (terms p); [discriminate|]. destruct (Nat.eqb g g') eqn:Q; [|discriminate].
  apply Nat.eqb_eq in Q. subst g'. eauto.
Qed.

Lemma view_of_temporary dbg cs c l x t os : makes_poly t c -> looks x t l -> x <> t ->
  run dbg start (cs ++ [c; l; CDel t; CShow x]) <> Ok (os, None).
Proof.
  intros M K N E. apply run_appE in E as (s & os' & T & E); [|exact tidy_start].
  apply runE in E as (s1 & o1 & os1 & E1 & E). apply runE in E as (s2 & o2 & os2 & E2 & E). apply runE in E as (s3 & o3 & os3 & E3 & E). apply runE in E as (s4 & o4 & os4 & E4 & _).
  apply (makes_alloc dbg s t c s1 o1 M) in E1 as (p & ->). apply (looks_alloc dbg _ x t l s2 o2 K) in E2 as (a & p' & g & v & L & G & -> & V).
  rewrite lookup_alloc in L. injection L as <-. cbn [step] in E3. rewrite lookup_alloc_ne, lookup_alloc in E3 by exact N. injection E3 as <- _.
  set (s1 := alloc t (OPoly p 0) s) in *. set (s2 := alloc x v s1) in *. set (s3 := sweep (State (heap s2) (unbind t (env s2)))) in *.
  assert (EV : env s3 = (x, length (heap s1)) :: unbind t (unbind x (env s1))).
  { unfold s3. cbn [sweep env]. unfold s2. rewrite env_alloc, unbind_cons. apply Nat.eqb_neq in N. now rewrite N. }
  assert (L3 : lookup x (env s3) = Some (length (heap s1))) by (rewrite EV, lookup_cons, Nat.eqb_refl; reflexivity).
  assert (G3 : get s3 (length (heap s1)) = Some v).
  { unfold s3. rewrite get_sweep. change (env (State (heap s2) (unbind t (env s2)))) with (env s3). rewrite EV. unfold bound. cbn [existsb snd]. rewrite Nat.eqb_refl. cbn [orb]. rewrite get_rebind. apply get_alloc. }
  destruct (show_view dbg s3 x _ v (length (heap s)) g s4 o4 L3 G3 V E4) as (q & F).
  unfold s3 in F. rewrite get_sweep in F. change (env (State (heap s2) (unbind t (env s2)))) with (env s3) in F.
  rewrite bound_no in F; [discriminate|]. rewrite EV. constructor; [cbn [snd]; unfold s1; rewrite len_alloc; lia|].
  unfold s1. rewrite env_alloc. rewrite unbind_cons. destruct (Nat.eqb t x) eqn:Q; [apply Nat.eqb_eq in Q; congruence|]. rewrite unbind_cons, Nat.eqb_refl.
  do 3 apply unbind_forall. eapply Forall_impl; [|exact T]. intros b Hb. exact (Nat.lt_neq _ _ Hb).
Qed.
Lemma view_over_polynomial dbg cs c l t os : makes_poly t c -> looks t t l -> run dbg start (cs ++ [c; l; CShow t]) <> Ok (os, None).
Proof.
  intros M K E. apply run_appE in E as (s & os' & T & E); [|exact tidy_start].
  apply runE in E as (s1 & o1 & os1 & E1 & E). apply runE in E as (s2 & o2 & os2 & E2 & E). apply runE in E as (s4 & o4 & os4 & E4 & _).
  apply (makes_alloc dbg s t c s1 o1 M) in E1 as (p & ->). apply (looks_alloc dbg _ t t l s2 o2 K) in E2 as (a & p' & g & v & L & G & -> & V).
  rewrite lookup_alloc in L. injection L as <-. set (s1 := alloc t (OPoly p 0) s) in *. set (s2 := alloc t v s1) in *.
  assert (EV : env s2 = (t, length (heap s1)) :: unbind t (unbind t (env s))).
  { unfold s2. rewrite env_alloc. unfold s1 at 2. rewrite env_alloc, unbind_cons, Nat.eqb_refl. reflexivity. }
  destruct (show_view dbg s2 t _ v (length (heap s)) g s4 o4 (lookup_alloc _ _ _) (get_alloc _ _ _) V E4) as (q & F).
  unfold s2, alloc, bind_var in F. rewrite get_sweep in F. cbn [env heap] in F. change ((t, length (heap s1)) :: unbind t (env s1)) with (env s2) in F.
  rewrite bound_no in F; [discriminate|]. rewrite EV. constructor; [cbn [snd]; unfold s1; rewrite len_alloc; lia|]. do 2 apply unbind_forall. eapply Forall_impl; [|exact T]. intros b Hb. exact (Nat.lt_neq _ _ Hb).
Qed.
Lemma view_of_reduced dbg cs l x y z os : looks x y l -> x <> y -> x <> z -> run dbg start (cs ++ [l; CReduce y z; CShow x]) <> Ok (os, None).
Proof.
  intros K N1 N2 E. apply run_appE in E as (s & os' & T & E); [|exact tidy_start].
  apply runE in E as (s2 & o2 & os2 & E2 & E). apply runE in E as (s3 & o3 & os3 & E3 & E). apply runE in E as (s4 & o4 & os4 & E4 & _).
  apply (looks_alloc dbg _ x y l s2 o2 K) in E2 as (a & p' & g & v & L & G & -> & V). cbn [step] in E3.
  apply with_polyE in E3 as [(e & E3)|(a1 & p1 & g1 & L1 & G1 & E3)]; [discriminate|]. apply with_polyE in E3 as [(e & E3)|(b & q & g' & L2 & _ & E3)]; [discriminate|].
  destruct (terms p1) as [|[m ?] ?]; [discriminate|]. destruct (terms q) as [|[n ?] ?]; [discriminate|]. destruct (_ && _); [|discriminate]. destruct (Nat.eqb a1 b); [discriminate|].
  apply bindE in E3 as (r & _ & E3). injection E3 as <- _. rewrite lookup_alloc_ne in L1 by exact N1. rewrite L in L1. injection L1 as <-. pose proof (lookup_lt _ _ _ T L) as LA.
  assert (GA : g1 = g). { destruct (get_alloc_old x v s a LA) as [Q|Q]; rewrite Q in G1; congruence. }
  assert (GX : get (put a (OPoly r (Datatypes.S g1)) (alloc x v s)) (length (heap s)) = Some v).
  { rewrite get_put. destruct (Nat.eqb (length (heap s)) a) eqn:Q; [apply Nat.eqb_eq in Q; lia|]. apply get_alloc. }
  destruct (show_view dbg (put a (OPoly r (Datatypes.S g1)) (alloc x v s)) x (length (heap s)) v a g s4 o4 (lookup_alloc x v s) GX V E4) as (q' & F). rewrite get_put, Nat.eqb_refl in F. destruct (_ <? _)%nat; [|discriminate]. injection F as _ F. lia.
Qed.
Lemma reduced_by_itself dbg cs y os : run dbg start (cs ++ [CReduce y y]) <> Ok (os, None).
Proof.
  intros E. apply run_appE in E as (s & os' & T & E); [|exact tidy_start]. apply runE in E as (s3 & o3 & os3 & E3 & E). cbn [step] in E3.
  apply with_polyE in E3 as [(e & E3)|(a1 & p1 & g1 & L1 & G1 & E3)]; [discriminate|]. apply with_polyE in E3 as [(e & E3)|(b & q & g' & L2 & _ & E3)]; [discriminate|].
  rewrite L1 in L2. injection L2 as <-. destruct (terms p1) as [|[m ?] ?]; [discriminate|]. destruct (terms q) as [|[n ?] ?]; [discriminate|]. destruct (_ && _); [|discriminate]. rewrite Nat.eqb_refl in E3. discriminate.
Qed.

(* ---- witnesses ---- *)
Definition X : monom := Mon (-1) [1; 0]%nat.
Definition Y : monom := Mon (-1) [0; 1]%nat.
Definition new (x : var) (m : monom) : cmd := CNew x TOP OLex m.
Lemma temporary_witness : exists cs, ring_program cs /\ means_run new_world cs [VMonom (Mon (-1) [1; 1]%nat)] None /\ run false start cs = Undef.
Proof.
  exists [new 0 X; new 1 Y; CBin BMul 2 0 1; CLm 3 2; CDel 2; CShow 3]%nat. split; [repeat constructor; discriminate|]. split; [|reflexivity].
  eapply (mr_go _ _ _ _ []); [exact (m_new _ 0%nat TOP OLex X (Poly TOP OLex 2 [(X, 1)]) eq_refl eq_refl eq_refl eq_refl)|].
  eapply (mr_go _ _ _ _ []); [exact (m_new _ 1%nat TOP OLex Y (Poly TOP OLex 2 [(Y, 1)]) eq_refl eq_refl eq_refl eq_refl)|].
  eapply (mr_go _ _ _ _ []).
  { eapply (m_bin _ BMul 2%nat 0%nat 1%nat 0%nat _ 1%nat _ (Poly TOP OLex 2 [(Mon (-1) [1; 1]%nat, 1)])); [split; reflexivity|split; reflexivity|repeat split|].
    destruct (bin_ok false BMul (Poly TOP OLex 2 [(X, 1)]) (Poly TOP OLex 2 [(Y, 1)])) as (r & Er & Mr & _);
      try apply (one_term X TOP OLex eq_refl); try apply (one_term Y TOP OLex eq_refl); [repeat split|]. vm_compute in Er. injection Er as <-. exact Mr. }
  eapply (mr_go _ _ _ _ []); [eapply (m_lm _ 3%nat 2%nat 2%nat); [split; reflexivity|reflexivity]|].
  eapply (mr_go _ _ _ _ []); [eapply (m_del _ 2%nat 2%nat); reflexivity|].
  eapply (mr_go _ _ _ _ [_] []); [eapply (m_show _ 3%nat 3%nat (TMonom _)); reflexivity|]. apply mr_end.
Qed.
