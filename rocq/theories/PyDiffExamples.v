(** Coefficients and functions for the theorems on differential polynomials: the ring Z[x] with d/dx, acting on
    itself, and the rational numbers. *)
From Coq Require Import ZArith QArith Qreduction List Bool Arith Lia Sorted Eqdep_dec.
From Verif Require Import Outcome MonomModel MonomSpec PolySpec PyMonomModel PyMonomSpec PyMonomProofs PyDiffModel PyDiffSpec.
Import ListNotations.
Local Open Scope Z_scope.

(* ---------------------------------------------------------------- Z[x]: lists of coefficients *)

Fixpoint norm (l : list Z) : list Z :=
  match l with
  | [] => []
  | a :: l' => match norm l' with [] => if a =? 0 then [] else [a] | r => a :: r end
  end.
Definition isnorm (l : list Z) : bool := if list_eq_dec Z.eq_dec (norm l) l then true else false.
Definition zx : Set := {l : list Z | isnorm l = true}.
Definition zx_nil : zx := exist _ [] eq_refl.
Definition mk (l : list Z) : zx := match bool_dec (isnorm (norm l)) true with left e => exist _ (norm l) e | right _ => zx_nil end.

Fixpoint ladd (a b : list Z) : list Z :=
  match a, b with [], _ => b | _, [] => a | x :: a', y :: b' => x + y :: ladd a' b' end.
Definition lscale (c : Z) (a : list Z) : list Z := map (Z.mul c) a.
Fixpoint lmul (a b : list Z) : list Z := match a with [] => [] | x :: a' => ladd (lscale x b) (0 :: lmul a' b) end.
Fixpoint lder (a : list Z) : list Z := match a with [] => [] | _ :: a' => ladd a' (0 :: lder a') end.

Definition zx_add (a b : zx) : zx := mk (ladd (proj1_sig a) (proj1_sig b)).
Definition zx_mul (a b : zx) : zx := mk (lmul (proj1_sig a) (proj1_sig b)).
Definition zx_neg (a : zx) : zx := mk (lscale (-1) (proj1_sig a)).
Definition zx_is0 (a : zx) : bool := match proj1_sig a with [] => true | _ => false end.
Definition zx_der (v : nat) (a : zx) : zx := match v with O => mk (lder (proj1_sig a)) | _ => zx_nil end.

(** Variable number 0 is x; the coefficients do not depend on the others. *)
Definition Zx : coefs := Coefs zx zx_nil (mk [1]) zx_add zx_mul zx_neg zx_is0 (fun a b => (a, b)) (fun a _ => a) zx_der.
Definition Zx_space : space Zx := Space Zx zx zx_nil (mk [1]) zx_add zx_mul zx_der.

Fixpoint ev (l : list Z) (x : Z) : Z := match l with [] => 0 | a :: l' => a + x * ev l' x end.

Lemma norm_cons a l : norm (a :: l) = match norm l with [] => if a =? 0 then [] else [a] | r => a :: r end.
Proof. reflexivity. Qed.
Lemma ev_norm l x : ev (norm l) x = ev l x.
Proof.
  induction l as [|a l IH]; [reflexivity|]. rewrite norm_cons. cbn [ev]. rewrite <- IH. destruct (norm l); [|reflexivity].
  destruct (Z.eqb_spec a 0); cbn [ev]; lia.
Qed.
Lemma norm_norm l : norm (norm l) = norm l.
Proof.
  induction l as [|a l IH]; [reflexivity|]. rewrite norm_cons. destruct (norm l) as [|b r] eqn:E.
  - destruct (Z.eqb_spec a 0); [reflexivity|]. cbn. destruct (Z.eqb_spec a 0); [contradiction|reflexivity].
  - rewrite norm_cons, IH. reflexivity.
Qed.
Lemma isnorm_norm l : isnorm (norm l) = true.
Proof. unfold isnorm. rewrite norm_norm. destruct (list_eq_dec Z.eq_dec (norm l) (norm l)); congruence. Qed.
Lemma mk_list l : proj1_sig (mk l) = norm l.
Proof. unfold mk. destruct (bool_dec (isnorm (norm l)) true) as [e|N]; [reflexivity|]. exfalso. apply N, isnorm_norm. Qed.
Lemma zx_norm (a : zx) : norm (proj1_sig a) = proj1_sig a.
Proof. destruct a as [l e]. cbn. unfold isnorm in e. destruct (list_eq_dec Z.eq_dec (norm l) l); congruence. Qed.
Lemma zx_eq (a b : zx) : proj1_sig a = proj1_sig b -> a = b.
Proof. destruct a as [l e], b as [l' e']. cbn. intros ->. f_equal. apply UIP_dec, bool_dec. Qed.

(** Values determine the list: even those at large x. *)
Lemma ev_inj l : forall l' N, (forall x, N < x -> ev l x = ev l' x) -> norm l = norm l'.
Proof.
  assert (D : forall d N, (forall x, N < x -> (x | d)) -> d = 0).
  { intros d N X. destruct (Z.eq_dec d 0) as [|Nz]; [assumption|exfalso].
    assert (Y := X (Z.max N (Z.abs d) + 1) ltac:(lia)). apply Z.divide_abs_r, Z.divide_pos_le in Y; lia. }
  assert (P : forall a l a' l' N, (forall x, N < x -> a + x * ev l x = a' + x * ev l' x) -> a = a' /\ forall x, Z.max N 0 < x -> ev l x = ev l' x).
  { intros a m a' m' N X. assert (E : a - a' = 0).
    { apply (D _ N). intros x L. exists (ev m' x - ev m x). specialize (X x L). lia. }
    split; [lia|]. intros x L. assert (Y := X x ltac:(lia)). assert (x * (ev m x - ev m' x) = 0) by lia. apply Z.mul_eq_0 in H. lia. }
  induction l as [|a l IH]; intros l' N X.
  - revert N X. induction l' as [|b l' IH']; intros N X; [reflexivity|]. cbn [ev] in X.
    destruct (P 0 [] b l' N) as [<- Y]; [intros x L; cbn [ev]; specialize (X x L); lia|].
    rewrite norm_cons. rewrite <- (IH' _ Y). reflexivity.
  - destruct l' as [|b l'].
    + cbn [ev] in X. destruct (P a l 0 [] N) as [-> Y]; [intros x L; cbn [ev]; specialize (X x L); lia|].
      rewrite norm_cons, (IH [] _ Y). reflexivity.
    + cbn [ev] in X. destruct (P a l b l' N X) as [-> Y]. rewrite !norm_cons, (IH l' _ Y). reflexivity.
Qed.
Lemma zx_ev (a b : zx) : (forall x, ev (proj1_sig a) x = ev (proj1_sig b) x) -> a = b.
Proof. intro X. apply zx_eq. rewrite <- (zx_norm a), <- (zx_norm b). apply (ev_inj _ _ 0). auto. Qed.

Lemma ev_add a b x : ev (ladd a b) x = ev a x + ev b x.
Proof. revert b. induction a as [|u a IH]; intros [|w b]; cbn [ladd ev]; try lia. rewrite IH. lia. Qed.
Lemma ev_scale c a x : ev (lscale c a) x = c * ev a x.
Proof. unfold lscale. induction a as [|u a IH]; cbn [map ev]; [lia|]. rewrite IH. lia. Qed.
Lemma ev_mul a b x : ev (lmul a b) x = ev a x * ev b x.
Proof. induction a as [|u a IH]; cbn [lmul ev]; [lia|]. rewrite ev_add, ev_scale. cbn [ev]. rewrite IH. lia. Qed.
Lemma ev_der_add a b x : ev (lder (ladd a b)) x = ev (lder a) x + ev (lder b) x.
Proof.
  revert b. induction a as [|u a IH]; intros [|w b]; cbn [ladd lder ev]; try lia.
  rewrite !ev_add. cbn [ev]. rewrite IH. lia.
Qed.
Lemma ev_der_scale c a x : ev (lder (lscale c a)) x = c * ev (lder a) x.
Proof. induction a as [|u a IH]; cbn [lscale map lder ev]; [lia|]. rewrite !ev_add. cbn [ev]. change (map (Z.mul c) a) with (lscale c a). rewrite IH, ev_scale. lia. Qed.
Lemma ev_der_mul a b x : ev (lder (lmul a b)) x = ev (lder a) x * ev b x + ev a x * ev (lder b) x.
Proof.
  induction a as [|u a IH]; cbn [lmul lder ev]; [lia|]. rewrite ev_der_add, ev_der_scale. cbn [lder]. rewrite !ev_add. cbn [ev]. rewrite IH, ev_mul. lia.
Qed.
Lemma ev_der_norm a x : ev (lder (norm a)) x = ev (lder a) x.
Proof.
  induction a as [|u a IH]; [reflexivity|]. rewrite norm_cons. cbn [lder]. rewrite ev_add. cbn [ev]. rewrite <- IH, <- (ev_norm a x).
  destruct (norm a) as [|w r]; [destruct (u =? 0); cbn; lia|]. cbn [lder]. rewrite ev_add. cbn [ev]. reflexivity.
Qed.
Lemma ev_nonzero l : norm l <> [] -> exists N, 0 <= N /\ forall x, N < x -> ev l x <> 0.
Proof.
  induction l as [|a l IH]; intro E; [cbn in E; congruence|]. destruct (norm l) as [|b r] eqn:El.
  - rewrite norm_cons, El in E. destruct (Z.eqb_spec a 0); [congruence|]. exists 0. split; [lia|]. intros x _. cbn [ev]. rewrite <- ev_norm, El. cbn. lia.
  - destruct IH as (N & N0 & X); [congruence|]. exists (Z.max N (Z.abs a)). split; [lia|]. intros x L Y. cbn [ev] in Y. specialize (X x ltac:(lia)). nia.
Qed.

Ltac zx_solve :=
  intros; apply zx_ev; intro; cbn [zx_add zx_mul zx_neg zx_nil c_add c_mul c_neg c_zero c_one c_der zx_der Zx f_add f_mul f_der f_zero f_one Zx_space];
  unfold zx_add, zx_mul, zx_neg, zx_der;
  repeat (rewrite ?mk_list, ?ev_norm, ?ev_add, ?ev_mul, ?ev_scale, ?ev_der_norm, ?ev_der_add, ?ev_der_mul; cbn [proj1_sig zx_nil ev]); try ring.

Lemma Zx_good : good_coefs Zx.
Proof.
  split; try (zx_solve; fail).
  - intro E. assert (X := f_equal (@proj1_sig _ _) E). cbn in X. discriminate.
  - intros a b E. cbn [Zx c_mul c_zero] in *. destruct (norm (proj1_sig a)) as [|u l] eqn:Ea.
    + left. apply zx_eq. rewrite <- zx_norm, Ea. reflexivity.
    + destruct (norm (proj1_sig b)) as [|w r] eqn:Eb; [right; apply zx_eq; rewrite <- zx_norm, Eb; reflexivity|]. exfalso.
      destruct (ev_nonzero (proj1_sig a)) as (N & _ & X); [congruence|]. destruct (ev_nonzero (proj1_sig b)) as (M & _ & Y); [congruence|].
      assert (T := f_equal (fun p => ev (proj1_sig p) (Z.max N M + 1)) E). cbn [zx_nil proj1_sig ev] in T. unfold zx_mul in T.
      rewrite mk_list, ev_norm, ev_mul in T. specialize (X (Z.max N M + 1) ltac:(lia)). specialize (Y (Z.max N M + 1) ltac:(lia)). nia.
  - intro a. cbn [Zx c_is0 c_zero]. unfold zx_is0. split; intro E; [|rewrite E; reflexivity]. apply zx_eq. destruct (proj1_sig a); [reflexivity|discriminate].
  - intros a b x y Na Nb E. cbn [Zx c_split] in E. injection E as <- <-. split; [zx_solve|auto].
  - intros [|v]; zx_solve.
  - intros [|v]; zx_solve.
Qed.
Lemma Zx_space_good : good_space Zx Zx_space.
Proof. split; try (zx_solve; fail); intros [|v]; try intros [|w]; zx_solve; cbn; ring. Qed.

(* ---------------------------------------------------------------- the rational numbers, all derivatives zero *)

Definition isred (q : Q) : bool := Z.eqb (Qnum (Qred q)) (Qnum q) && Pos.eqb (Qden (Qred q)) (Qden q).
Definition rat : Set := {q : Q | isred q = true}.
Definition rat0 : rat := exist _ 0%Q eq_refl.
Definition rt (q : Q) : rat := match bool_dec (isred (Qred q)) true with left e => exist _ (Qred q) e | right _ => rat0 end.
Definition rval (a : rat) : Q := proj1_sig a.
Definition Rat : coefs := Coefs rat rat0 (rt 1) (fun a b => rt (rval a + rval b)) (fun a b => rt (rval a * rval b)) (fun a => rt (- rval a))
  (fun a => Z.eqb (Qnum (rval a)) 0) (fun a b => (a, b)) (fun a b => rt (rval a / rval b)) (fun _ _ => rat0).

Lemma isred_spec q : isred q = true <-> Qred q = q.
Proof.
  unfold isred. rewrite andb_true_iff, Z.eqb_eq, Pos.eqb_eq. destruct (Qred q) as [a b], q as [c d]. cbn. split; [intros [-> ->]; reflexivity|intro E; injection E; auto].
Qed.
Lemma rt_val q : (rval (rt q) == q)%Q.
Proof.
  unfold rt. destruct (bool_dec (isred (Qred q)) true) as [e|N]; [cbn; apply Qred_correct|].
  exfalso. apply N, isred_spec. apply Qred_complete, Qred_correct.
Qed.
Lemma rat_eq (a b : rat) : (rval a == rval b)%Q -> a = b.
Proof.
  destruct a as [q e], b as [q' e']. cbn. intro E. pose proof e as X. pose proof e' as X'. apply isred_spec in X. apply isred_spec in X'.
  assert (q = q') by (rewrite <- X, <- X'; apply Qred_complete, E). subst q'. f_equal. apply UIP_dec, bool_dec.
Qed.
Lemma rat_zero a : a <> rat0 -> ~ (rval a == 0)%Q.
Proof. intros N E. apply N, rat_eq. exact E. Qed.
Ltac rat_solve := intros; apply rat_eq; cbn [Rat c_add c_mul c_neg c_zero c_one c_quo c_der]; repeat rewrite rt_val; change (rval rat0) with 0%Q; try ring.
Lemma Rat_good : good_coefs Rat.
Proof.
  split; try (rat_solve; fail).
  - intro E. assert (X := f_equal (fun p => Qnum (rval p)) E). vm_compute in X. discriminate.
  - intros a b E. assert (X := f_equal rval E). cbn [Rat c_mul c_zero] in X.
    assert (Y : (rval a * rval b == 0)%Q) by (rewrite <- rt_val, X; reflexivity). apply Qmult_integral in Y as [Y|Y]; [left|right]; apply rat_eq; exact Y.
  - intro a. cbn [Rat c_is0 c_zero]. rewrite Z.eqb_eq. split; intro E; [|rewrite E; reflexivity]. apply rat_eq. unfold Qeq. cbn. rewrite E. reflexivity.
  - intros a b x y Na Nb E. cbn [Rat c_split] in E. injection E as <- <-. split; [rat_solve|auto].
Qed.
Lemma Rat_quo : good_quo Rat.
Proof. intros a b N. apply rat_zero in N. rat_solve. field. exact N. Qed.

(* ---------------------------------------------------------------- equations for u(x, y) *)

Definition der_find {C : coefs} (e1 e2 : list (monom * ck C)) (m : monom) : outcome (option (list (monom * ck C))) :=
  match vars m with
  | [a; b] => if pos m =? 0 then Ok (if Nat.leb 1 a then Some e2 else if Nat.leb 2 b then Some e1 else None) else Ok None
  | _ => Ok None
  end.
Lemma der_find_good (C : coefs) e1 e2 c1 c2 t1 t2 : e1 = (Mon 0 [0; 2]%nat, c1) :: t1 -> e2 = (Mon 0 [1; 0]%nat, c2) :: t2 ->
  dp_canonical C TOPdeglex 2 1 e1 -> dp_canonical C TOPdeglex 2 1 e2 ->
  dp_good_find C TOPdeglex 2 1 (fun p => p = e1 \/ p = e2) (der_find e1 e2).
Proof.
  intros E1 E2 P1 P2 [p e] M. destruct M as [[[L P] K] U]. cbn [vars pos] in *. destruct e as [|a [|b [|]]]; try discriminate L.
  unfold der_find. cbn [vars pos]. destruct (Z.eqb_spec p 0) as [->|N]; [|exists None; split; [reflexivity|discriminate]].
  destruct (Nat.leb_spec 1 a).
  - exists (Some e2). split; [reflexivity|]. intros q Q. injection Q as <-. split; [exact P2|]. split; [now right|]. exists (Mon 0 [1; 0]%nat), c2, t2.
    split; [exact E2|]. split; [reflexivity|]. split; [cbn; lia|]. split; [now right|]. split; [reflexivity|]. intros [|[|[|i]]]; cbn; lia.
  - destruct (Nat.leb_spec 2 b); [|exists None; split; [reflexivity|discriminate]].
    exists (Some e1). split; [reflexivity|]. intros q Q. injection Q as <-. split; [exact P1|]. split; [now left|]. exists (Mon 0 [0; 2]%nat), c1, t1.
    split; [exact E1|]. split; [reflexivity|]. split; [cbn; lia|]. split; [now right|]. split; [reflexivity|]. intros [|[|[|i]]]; cbn; lia.
Qed.
Lemma two_canonical (C : coefs) m1 c1 m2 c2 : diff_mono 2 1 m1 -> diff_mono 2 1 m2 -> py_cmp TOPdeglex m1 m2 = 1 -> c1 <> c_zero C -> c2 <> c_zero C ->
  dp_canonical C TOPdeglex 2 1 [(m1, c1); (m2, c2)].
Proof.
  intros M1 M2 G N1 N2. split; [|split].
  - assert (X : py_greater TOPdeglex m1 m2) by (apply (py_meaning TOPdeglex 2); [apply M1|apply M2|exact G]).
    apply SSorted_cons; [apply SSorted_cons; constructor|]. apply Forall_cons; [exact X|constructor].
  - apply Forall_cons; [exact M1|apply Forall_cons; [exact M2|constructor]].
  - apply Forall_cons; [exact N1|apply Forall_cons; [exact N2|constructor]].
Qed.
Lemma zx_neq (a b : zx) : proj1_sig a <> proj1_sig b -> a <> b.
Proof. congruence. Qed.
Lemma rat_neq (a b : rat) : proj1_sig a <> proj1_sig b -> a <> b.
Proof. congruence. Qed.
Ltac two_tac := apply two_canonical;
  [repeat split; cbn; try lia; discriminate|repeat split; cbn; try lia; discriminate|reflexivity|first [apply zx_neq|apply rat_neq]; vm_compute; discriminate..].

(** u_yy - x u = 0, x u_x - u_y = 0 *)
Definition dt (a b : nat) (c : list Z) : monom * ck Zx := (Mon 0 [a; b], mk c).
Definition eq1 : list (monom * ck Zx) := [dt 0 2 [1]; dt 0 0 [0; -1]].
Definition eq2 : list (monom * ck Zx) := [dt 1 0 [0; 1]; dt 0 1 [-1]].
Lemma eq1_canonical : dp_canonical Zx TOPdeglex 2 1 eq1.
Proof. two_tac. Qed.
Lemma eq2_canonical : dp_canonical Zx TOPdeglex 2 1 eq2.
Proof. two_tac. Qed.
Definition eqs (p : list (monom * ck Zx)) : Prop := p = eq1 \/ p = eq2.
Lemma eqs_find : dp_good_find Zx TOPdeglex 2 1 eqs (der_find eq1 eq2).
Proof. apply (der_find_good Zx eq1 eq2 (mk [1]) (mk [0; 1]) [dt 0 0 [0; -1]] [dt 0 1 [-1]]); [reflexivity|reflexivity|exact eq1_canonical|exact eq2_canonical]. Qed.

Definition dr (a b : nat) (c : Q) : monom * ck Rat := (Mon 0 [a; b], rt c).
(** 2 u_yy - u = 0, 3 u_x - u_y = 0 *)
Definition rq1 : list (monom * ck Rat) := [dr 0 2 2; dr 0 0 (-1)].
Definition rq2 : list (monom * ck Rat) := [dr 1 0 3; dr 0 1 (-1)].
Lemma rq1_canonical : dp_canonical Rat TOPdeglex 2 1 rq1.
Proof. two_tac. Qed.
Lemma rq2_canonical : dp_canonical Rat TOPdeglex 2 1 rq2.
Proof. two_tac. Qed.
Definition rqs (p : list (monom * ck Rat)) : Prop := p = rq1 \/ p = rq2.
Lemma rqs_find : dp_good_find Rat TOPdeglex 2 1 rqs (der_find rq1 rq2).
Proof. apply (der_find_good Rat rq1 rq2 (rt 2) (rt 3) [dr 0 0 (-1)] [dr 0 1 (-1)]); [reflexivity|reflexivity|exact rq1_canonical|exact rq2_canonical]. Qed.

(** a constant as reducer *)
Definition const : list (monom * ck Zx) := [(py_unit 2, mk [5])].
Lemma const_canonical : dp_canonical Zx TOPdeglex 2 1 const.
Proof.
  split; [repeat constructor|]. split; [|apply Forall_cons; [apply zx_neq; vm_compute; discriminate|constructor]].
  apply Forall_cons; [repeat split; cbn; lia|constructor].
Qed.
Definition ux : list (monom * ck Zx) := [dt 1 0 [1]; dt 0 0 [0; 1]].
Lemma ux_canonical : dp_canonical Zx TOPdeglex 2 1 ux.
Proof. two_tac. Qed.
Definition uxx : list (monom * ck Zx) := [dt 2 0 [1]; dt 0 1 [3; 1]].
Lemma uxx_canonical : dp_canonical Zx TOPdeglex 2 1 uxx.
Proof. two_tac. Qed.
Definition ryy : list (monom * ck Rat) := [dr 2 0 1; dr 0 1 5].
Lemma ryy_canonical : dp_canonical Rat TOPdeglex 2 1 ryy.
Proof. two_tac. Qed.
