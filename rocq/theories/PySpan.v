(** Combinations of polynomials of pyginv with a bound for the leading monomials of the summands, and what the normal
    forms NFhead and NFtail do in these terms. *)
From Coq Require Import ZArith List Bool Arith Lia.
From Verif Require Import Outcome MonomModel MonomSpec MonomProofs PolyModel PolySpec PolyProofs PolyNfProofs PolyRedProofs IdealProofs JanetPolySpec PyMonomModel PyMonomSpec PyMonomProofs PyPolyModel PyPolySpec PyPolyProofs PyRedProofs.
Import ListNotations.
Local Open Scope Z_scope.

Definition lmon (g : ppoly) : monom := match g with (m, _) :: _ => m | [] => Mon (-1) [] end.

Section Span.
Variables (o : py_order) (n : nat) (k : Z).
Hypothesis K : 0 <= k.
Local Notation mul u := (mprod (Mon (-1) u)).

Definition blt (mu x : monom) : Prop := pmono n k x /\ pgt o mu x.
Definition ble (mu x : monom) : Prop := pmono n k x /\ (x = mu \/ pgt o mu x).
Definition everything (x : monom) : Prop := True.

Inductive span (G : ppoly -> Prop) (B : monom -> Prop) : ppoly -> Prop :=
| span_zero p : (forall m, coef p m = 0) -> span G B p
| span_add p q u g c : span G B q -> G g -> length u = n -> B (mul u (lmon g)) ->
    (forall m, coef p m = coef q m + c * coef (shift u g) m) -> span G B p.
Definition rspan (G : ppoly -> Prop) (B : monom -> Prop) (p : ppoly) : Prop :=
  exists j q, j <> 0 /\ span G B q /\ forall m, coef q m = j * coef p m.

Lemma mul_mono u x : length u = n -> pmono n k x -> pmono n k (mul u x).
Proof.
  intros L [M P]. split; [|cbn; exact P]. destruct M as [Lx Px]. split; [cbn; unfold vsum; rewrite map_length, combine_length; lia|cbn; exact Px].
Qed.
Lemma mul_mul u v x : mul u (mul v x) = mul (addv u v) x.
Proof.
  unfold mprod. cbn [pos vars Z.eqb]. rewrite !vsum_addv. f_equal. revert v. generalize (vars x). clear. revert u.
  induction u as [|a u IH]; intros x v; [reflexivity|]. destruct v as [|b v]; [reflexivity|]. destruct x as [|c x]; [reflexivity|]. unfold addv in *. cbn [combine map fst snd]. f_equal; [lia|]. apply IH.
Qed.
Lemma mul_gt u x y : length u = n -> pmono n k x -> pmono n k y -> pgt o x y -> pgt o (mul u x) (mul u y).
Proof. intros L X Y. apply (pgt_mprod o n k); auto. split; [split; [exact L|cbn; lia]|cbn; lia]. Qed.
Lemma mul_unit x : pmono n k x -> mul (repeat 0%nat n) x = x.
Proof.
  intros [[L P] _]. unfold mprod. cbn [pos vars Z.eqb]. rewrite vsum_addv. destruct x as [p v]. cbn [vars pos] in *. f_equal. subst n. clear. induction v as [|a v IH]; [reflexivity|]. unfold addv in *. cbn [length repeat combine map fst snd]. now rewrite IH.
Qed.
Lemma blt_ble mu x : blt mu x -> ble mu x.
Proof. intros [M G]. split; auto. Qed.
Lemma blt_trans mu x y : pmono n k mu -> blt mu x -> ble x y -> blt mu y.
Proof. intros M [X G] [Y [->|H]]; split; auto. apply (pgt_trans o n mu x y); auto; [apply M|apply X|apply Y]. Qed.
Lemma ble_blt mu x y : pmono n k mu -> ble mu x -> blt x y -> blt mu y.
Proof. intros M [X [->|G]] [Y H]; split; auto. apply (pgt_trans o n mu x y); auto; [apply M|apply X|apply Y]. Qed.
Lemma ble_trans mu x y : pmono n k mu -> ble mu x -> ble x y -> ble mu y.
Proof. intros M [X [->|G]] H; [exact H|]. apply blt_ble, (blt_trans mu x y); auto. split; auto. Qed.
Lemma blt_mul u mu x : length u = n -> pmono n k mu -> blt mu x -> blt (mul u mu) (mul u x).
Proof. intros L M [X G]. split; [apply mul_mono; auto|apply mul_gt; auto]. Qed.
Lemma ble_mul u mu x : length u = n -> pmono n k mu -> ble mu x -> ble (mul u mu) (mul u x).
Proof. intros L M [X [->|G]]; (split; [apply mul_mono; auto|]); [now left|right; apply mul_gt; auto]. Qed.

Lemma coef_scale' c p m : coef (scale c p) m = c * coef p m.
Proof. apply coef_scale. Qed.
Lemma span_ext G B p q : span G B p -> (forall m, coef p m = coef q m) -> span G B q.
Proof. intros S E. destruct S as [p Z|p r u g c S Gg L Bg H]; [apply span_zero; intro m; now rewrite <- E|]. apply (span_add G B q r u g c S Gg L Bg). intro m. rewrite <- E. apply H. Qed.
Lemma span_lin G B p q r a b : span G B q -> span G B r -> (forall m, coef p m = a * coef q m + b * coef r m) -> span G B p.
Proof.
  intros Sq. revert r p. induction Sq as [q Z|q q' u g c S IH Gg L Bg H]; intros r p Sr E.
  - revert p E. induction Sr as [r Zr|r r' u g c S IH Gg L Bg H]; intros p E; [apply span_zero; intro m; rewrite E, Z, Zr; ring|].
    apply (span_add G B p (scale b r') u g (b * c)); auto; [apply IH; intro m; rewrite coef_scale', Z; ring|]. intro m. rewrite E, Z, H, coef_scale'. ring.
  - apply (span_add G B p (scale a q' ++ scale b r) u g (a * c)); auto.
    + apply (IH r); [exact Sr|]. intro m. rewrite coef_app, !coef_scale'. ring.
    + intro m. rewrite E, H, coef_app, !coef_scale'. ring.
Qed.
Lemma span_mono (G G' : ppoly -> Prop) (B B' : monom -> Prop) p : (forall g, G g -> G' g) -> (forall x, B x -> B' x) -> span G B p -> span G' B' p.
Proof. intros H1 H2 S. induction S as [p Z|p q u g c S IH Gg L Bg H]; [now apply span_zero|]. apply (span_add G' B' p q u g c); auto. Qed.
Lemma span_shift G (B B' : monom -> Prop) u p : length u = n -> (forall x, B x -> B' (mul u x)) -> span G B p -> span G B' (shift u p).
Proof.
  intros L H S. induction S as [p Z|p q v g c S IH Gg Lv Bg E].
  - apply span_zero. intro m. rewrite (coef_shift_ext u p [] Z). reflexivity.
  - apply (span_add G B' _ (shift u q) (addv u v) g c); auto; [rewrite addv_length; lia|rewrite <- mul_mul; apply H, Bg|].
    intro m. rewrite <- shift_shift. rewrite (coef_shift_lin u p q (shift v g) 1 c); [ring|]. intro x. rewrite E. ring.
Qed.
Lemma span_single (G : ppoly -> Prop) (B : monom -> Prop) u g : G g -> length u = n -> B (mul u (lmon g)) -> span G B (shift u g).
Proof. intros Gg L Bg. apply (span_add G B _ [] u g 1); auto; [apply span_zero; reflexivity|]. intro m. cbn [coef]. ring. Qed.
Lemma span_combination G p : span G everything p <-> combination n G p.
Proof.
  split; intro S.
  - induction S as [p Z|p q u g c S IH Gg L _ H]; [now apply comb_zero|]. exact (comb_add n G p q u g c IH Gg L H).
  - induction S as [p Z|p q u g c S IH Gg L H]; [now apply span_zero|]. exact (span_add G everything p q u g c IH Gg L I H).
Qed.
Lemma rspan_member G p : rspan G everything p <-> rational_member n G p.
Proof. split; intros (j & q & J & S & E); exists j, q; (split; [exact J|]); (split; [|exact E]); apply span_combination; exact S. Qed.

Lemma rspan_of G B p : span G B p -> rspan G B p.
Proof. intro S. exists 1, p. split; [lia|]. split; [exact S|]. intro m. ring. Qed.
Lemma rspan_zero G B p : (forall m, coef p m = 0) -> rspan G B p.
Proof. intro Z. apply rspan_of. now apply span_zero. Qed.
Lemma rspan_lin G B p q r j a b : j <> 0 -> rspan G B q -> rspan G B r -> (forall m, j * coef p m = a * coef q m + b * coef r m) -> rspan G B p.
Proof.
  intros J (j1 & q1 & J1 & S1 & E1) (j2 & q2 & J2 & S2 & E2) E. exists (j * j1 * j2), (scale (j2 * a) q1 ++ scale (j1 * b) q2). split; [nia|]. split.
  - apply (span_lin G B _ q1 q2 (j2 * a) (j1 * b) S1 S2). intro m. rewrite coef_app, !coef_scale'. reflexivity.
  - intro m. rewrite coef_app, !coef_scale', E1, E2. transitivity (j1 * j2 * (j * coef p m)); [rewrite E; ring|ring].
Qed.
Lemma rspan_scaled G B p q j a : j <> 0 -> rspan G B q -> (forall m, j * coef p m = a * coef q m) -> rspan G B p.
Proof. intros J S E. apply (rspan_lin G B p q q j a 0 J S S). intro m. rewrite E. ring. Qed.
Lemma rspan_ext G B p q : rspan G B p -> (forall m, coef p m = coef q m) -> rspan G B q.
Proof. intros S E. apply (rspan_scaled G B q p 1 1); [lia|exact S|]. intro m. rewrite E. ring. Qed.
Lemma rspan_mono (G G' : ppoly -> Prop) (B B' : monom -> Prop) p : (forall g, G g -> G' g) -> (forall x, B x -> B' x) -> rspan G B p -> rspan G' B' p.
Proof. intros H1 H2 (j & q & J & S & E). exists j, q. split; [exact J|]. split; [|exact E]. apply (span_mono G G' B B'); auto. Qed.
Lemma rspan_shift G (B B' : monom -> Prop) u p : length u = n -> (forall x, B x -> B' (mul u x)) -> rspan G B p -> rspan G B' (shift u p).
Proof.
  intros L H (j & q & J & S & E). exists j, (shift u q). split; [exact J|]. split; [exact (span_shift G B B' u q L H S)|]. intro m. rewrite (coef_shift_lin u q p [] j 0); [cbn [coef shift map]; ring|]. intro x. rewrite E. cbn [coef]. ring.
Qed.
Lemma rspan_trans (G G' : ppoly -> Prop) (B B' : monom -> Prop) p :
  (forall u g, G g -> length u = n -> B (mul u (lmon g)) -> rspan G' B' (shift u g)) -> rspan G B p -> rspan G' B' p.
Proof.
  intros H (j & q & J & S & E). assert (X : rspan G' B' q).
  { clear E. induction S as [q Z|q r u g c S IH Gg L Bg E]; [now apply rspan_zero|]. apply (rspan_lin G' B' q r (shift u g) 1 1 c); [lia|exact IH|exact (H u g Gg L Bg)|]. intro m. rewrite E. ring. }
  apply (rspan_scaled G' B' p q j 1 J X). intro m. rewrite E. ring.
Qed.
Lemma rspan_single (G : ppoly -> Prop) (B : monom -> Prop) u g : G g -> length u = n -> B (mul u (lmon g)) -> rspan G B (shift u g).
Proof. intros. apply rspan_of. now apply span_single. Qed.
(** from generators to their multiples *)
Lemma rspan_through (G G' : ppoly -> Prop) (B : monom -> Prop) p :
  (forall mu x, B mu -> pmono n k mu -> ble mu x -> B x) -> (forall g, G g -> pmono n k (lmon g) /\ rspan G' (ble (lmon g)) g) -> rspan G B p -> rspan G' B p.
Proof.
  intros D H. apply rspan_trans. intros u g Gg L Bg. destruct (H g Gg) as [M R]. apply (rspan_shift G' (ble (lmon g)) B u g L); [|exact R].
  intros x X. apply (D (mul u (lmon g))); [exact Bg|apply mul_mono; auto|]. apply ble_mul; auto.
Qed.
Lemma rspan_self (G : ppoly -> Prop) g : G g -> pmono n k (lmon g) -> PyPolyProofs.pmonos n k g -> rspan G (ble (lmon g)) g.
Proof.
  intros Gg M Ms. apply (rspan_ext G _ (shift (repeat 0%nat n) g)).
  - apply rspan_single; [exact Gg|apply repeat_length|]. rewrite mul_unit by exact M. split; [exact M|now left].
  - intro m. rewrite mprod_unit_shift with (k := k); [reflexivity|exact Ms].
Qed.

(* ---- normal forms ---- *)
Lemma canonical_lmon g : py_canonical o n k g -> g <> [] -> pmono n k (lmon g).
Proof. intros C N. destruct g as [|[m c] g]; [contradiction|]. apply py_canonical_iff in C as (_ & M & _). exact (Forall_inv M). Qed.
Lemma below_lmon m p : PyPolyProofs.pbelow o m p -> py_canonical o n k p -> p <> [] -> blt m (lmon p).
Proof. intros B C N. split; [exact (canonical_lmon p C N)|]. destruct p as [|[u c] p]; [contradiction|]. exact (Forall_inv B). Qed.

Lemma bind_cong {A B} (x : outcome A) (f g : A -> outcome B) r : (do a <- x; f a) = r -> (forall a, f a = r -> g a = r) -> (do a <- x; g a) = r.
Proof. destruct x; cbn [bind]; auto. Qed.

Section Find.
Variables (G : ppoly -> Prop) (find : monom -> outcome (option ppoly)).
Hypothesis find_ok : py_good_find o n k G find.

Lemma nfhead_mono f : forall fuel p x, py_nfhead fuel o f p = x -> x <> OutOfFuel -> forall j, py_nfhead (fuel + j) o f p = x.
Proof.
  induction fuel as [|fuel IH]; intros p x E X j; [exfalso; apply X; symmetry; exact E|]. cbn [py_nfhead Nat.add] in *. destruct p as [|[m c] p]; [exact E|].
  refine (bind_cong _ _ _ _ E _). intro w. destruct (truthy w) as [q|]; [|auto]. intro E1. refine (bind_cong _ _ _ _ E1 _). intros a E2. exact (IH _ _ E2 X j).
Qed.
Lemma nftail_loop_mono f : forall fuel i p x, py_nftail_loop fuel o f i p = x -> x <> OutOfFuel -> forall j, py_nftail_loop (fuel + j) o f i p = x.
Proof.
  induction fuel as [|fuel IH]; intros i p x E X j; [exfalso; apply X; symmetry; exact E|]. cbn [py_nftail_loop Nat.add] in *. destruct (nth_error p i) as [[m c]|]; [|exact E].
  refine (bind_cong _ _ _ _ E _). intro w. destruct (truthy w) as [q|]; [|intro E1; exact (IH _ _ _ E1 X j)]. intro E1. refine (bind_cong _ _ _ _ E1 _). intros a E2. exact (IH _ _ _ E2 X j).
Qed.
Lemma nfhead_ext f g : (forall m, f m = g m) -> forall fuel p, py_nfhead fuel o f p = py_nfhead fuel o g p.
Proof using.
  intros H fuel. induction fuel as [|fuel IH]; intro p; [reflexivity|]. cbn [py_nfhead]. destruct p as [|[m c] p]; [reflexivity|]. rewrite H. destruct (g m) as [w| | | |]; cbn [bind]; try reflexivity.
  destruct (truthy w) as [q|]; [|reflexivity]. match goal with |- bind ?x _ = _ => destruct x end; cbn [bind]; auto.
Qed.
Lemma nfhead_total fuel p : py_canonical o n k p -> py_nfhead fuel o find p = OutOfFuel \/ exists r, py_nfhead fuel o find p = Ok r.
Proof.
  intro C. destruct (nfhead_ok o n k G find find_ok K p C) as (N & r & H & _). destruct (py_nfhead fuel o find p) as [x| | | |] eqn:E; eauto;
    exfalso; pose proof (nfhead_mono find fuel p _ E ltac:(discriminate) N) as X; rewrite H in X by lia; discriminate X.
Qed.
Lemma nftail_total fuel p : py_canonical o n k p -> p <> [] -> py_nftail fuel o find p = OutOfFuel \/ exists r, py_nftail fuel o find p = Ok r.
Proof.
  intros C Np. destruct p as [|[m c] p]; [contradiction|]. destruct (nftail_ok o n k G find find_ok K m c p C) as (N & d & r & H & _). cbn [py_nftail] in *.
  destruct (py_nftail_loop fuel o find 1 ((m, c) :: p)) as [x| | | |] eqn:E; eauto;
    exfalso; pose proof (nftail_loop_mono find fuel 1 _ _ E ltac:(discriminate) N) as X; rewrite H in X by lia; discriminate X.
Qed.

(** one step *)
Lemma red_step A m c B q : py_canonical o n k (A ++ (m, c) :: B) -> find m = Ok (Some q) ->
  G q /\ py_canonical o n k q /\ q <> [] /\ exists k1 k2 s r', py_reduction o (A ++ (m, c) :: B) (length A) q = Ok (scaled k1 A ++ r') /\ py_canonical o n k (scaled k1 A ++ r') /\
    PyPolyProofs.pbelow o m r' /\ k1 <> 0 /\ length s = n /\ mul s (lmon q) = m /\
    forall x, coef (scaled k1 A ++ r') x = k1 * coef (A ++ (m, c) :: B) x + k2 * coef (shift s q) x.
Proof.
  intros C E. pose proof (pcanonical_mono o n k _ _ _ _ C) as M. destruct (find_ok m M) as (w & Ew & H). rewrite E in Ew. injection Ew as <-.
  destruct (H q eq_refl) as (Cq & Gq & v & d & q' & -> & P & D). split; [exact Gq|]. split; [exact Cq|]. split; [discriminate|].
  destruct (py_reduction_full o n k A m c B v d q' C Cq P D K) as (r' & k1 & k2 & s & E' & C' & Br & K1 & Ls & Em & Co). exists k1, k2, s, r'. auto 10.
Qed.
Ltac into E Er := match type of E with bind ?X _ = _ => match type of Er with ?Y = _ => change X with Y in E end end; rewrite Er in E.
Lemma lin1 j l k1 k2 R r d P Q : j * R = l * r + d -> R = k1 * P + k2 * Q -> j * k1 * P = l * r + (d + - (j * k2) * Q).
Proof. intros A B. rewrite B in A. lia. Qed.
Lemma lin2 j l k1 k2 R r d P Q : j * R = l * r + d -> R = k1 * P + k2 * Q -> j * k1 * P = l * r + - (j * k2) * Q + d.
Proof. intros A B. rewrite B in A. lia. Qed.
Lemma lin3 j k1 k2 R r d P Q : r = j * R + d -> R = k1 * P + k2 * Q -> r = j * k1 * P + (d + j * k2 * Q).
Proof. intros A B. rewrite B in A. lia. Qed.
Lemma truthy_some q : q <> [] -> truthy (Some q) = Some q.
Proof. destruct q; [contradiction|reflexivity]. Qed.

Lemma span_below (B B' : monom -> Prop) p : (forall x, B x -> B' x) -> span G B p -> span G B' p.
Proof. intro H. apply span_mono; auto. Qed.

(** NFhead: p and r differ by multiples of reducers that do not exceed the leading monomial of p *)
Lemma nfhead_span : forall fuel p r, py_canonical o n k p -> py_nfhead fuel o find p = Ok r ->
  py_canonical o n k r /\ (r = [] \/ (find (lmon r) = Ok None /\ ble (lmon p) (lmon r))) /\
  exists j l d, j <> 0 /\ l <> 0 /\ span G (ble (lmon p)) d /\ forall m, j * coef p m = l * coef r m + coef d m.
Proof.
  induction fuel as [|fuel IH]; intros p r C E; [discriminate E|]. cbn [py_nfhead] in E. destruct p as [|[m c] p].
  - injection E as <-. split; [exact C|]. split; [now left|]. exists 1, 1, []. split; [lia|]. split; [lia|]. split; [now apply span_zero|]. intro m. cbn [coef]. ring.
  - assert (M : pmono n k m) by exact (pcanonical_mono o n k [] m c p C). destruct (find_ok m M) as (w & Ew & _). rewrite Ew in E. cbn [bind] in E. destruct w as [q|].
    + destruct (red_step [] m c p q C Ew) as (Gq & Cq & Nq & k1 & k2 & s & r' & Er & C' & Br & K1 & Ls & Em & Co). destruct q as [|tq q0]; [contradiction|]. cbn [truthy] in E. set (q := tq :: q0) in *. cbn [app scaled map length] in *.
      into E Er. cbn [bind] in E. destruct r' as [|t r'].
      * destruct fuel; [discriminate E|]. injection E as <-. split; [exact C'|]. split; [now left|]. exists k1, 1, (scale (- k2) (shift s q)). split; [exact K1|]. split; [lia|]. split.
        -- apply (span_lin G _ _ (shift s q) (shift s q) (- k2) 0); [| |intro x; rewrite coef_scale'; ring]; apply span_single; auto; rewrite Em; (split; [exact M|now left]).
        -- intro x. specialize (Co x). rewrite coef_scale'. cbn [coef] in *. lia.
      * set (r0 := t :: r') in *. destruct (IH r0 r C' E) as (Cr & Hr & j & l & d & J & L & S & X). split; [exact Cr|]. cbn [lmon].
        assert (Bd : forall x, ble (lmon r0) x -> ble m x) by (intros x H; apply blt_ble; exact (blt_trans m _ x M (below_lmon m r0 Br C' ltac:(discriminate)) H)).
        split; [destruct Hr as [->|[Hr Hl]]; [now left|right; auto]|].
        exists (j * k1), l, (d ++ scale (- (j * k2)) (shift s q)). split; [nia|]. split; [exact L|]. split.
        -- apply (span_lin G _ _ d (shift s q) 1 (- (j * k2))); [apply (span_below (ble (lmon r0))); auto| |intro x; rewrite coef_app, coef_scale'; ring].
           apply span_single; auto. rewrite Em. split; [exact M|now left].
        -- intro x. rewrite coef_app, coef_scale'. exact (lin1 _ _ _ _ _ _ _ _ _ (X x) (Co x)).
    + cbn [truthy] in E. injection E as <-. split; [exact C|]. cbn [lmon]. split; [right; split; [exact Ew|split; [exact M|now left]]|].
      exists 1, 1, []. split; [lia|]. split; [lia|]. split; [now apply span_zero|]. intro x. cbn [coef]. ring.
Qed.
(** when the leading monomial of p is reducible, the result is below it and only one multiple of a reducer reaches it *)
Lemma nfhead_strict fuel p q r : py_canonical o n k p -> p <> [] -> find (lmon p) = Ok (Some q) -> py_nfhead fuel o find p = Ok r ->
  (r = [] \/ blt (lmon p) (lmon r)) /\ exists j l c u d, j <> 0 /\ l <> 0 /\ length u = n /\ mul u (lmon q) = lmon p /\ span G (blt (lmon p)) d /\
  forall m, j * coef p m = l * coef r m + c * coef (shift u q) m + coef d m.
Proof.
  intros C N Ew E. destruct fuel; [discriminate E|]. destruct p as [|[m c] p]; [contradiction|]. cbn [py_nfhead lmon] in *. rewrite Ew in E. cbn [bind] in E.
  assert (M : pmono n k m) by exact (pcanonical_mono o n k [] m c p C).
  destruct (red_step [] m c p q C Ew) as (Gq & Cq & Nq & k1 & k2 & s & r' & Er & C' & Br & K1 & Ls & Em & Co). destruct q as [|tq q0]; [contradiction|]. cbn [truthy] in E. set (q := tq :: q0) in *. cbn [app scaled map length] in *.
  into E Er. cbn [bind] in E. destruct (nfhead_span fuel r' r C' E) as (Cr & Hr & j & l & d & J & L & S & X). destruct r' as [|t r'].
  - destruct fuel; [discriminate E|]. injection E as <-. split; [now left|]. exists k1, 1, (- k2), s, []. split; [exact K1|]. split; [lia|]. split; [exact Ls|]. split; [exact Em|]. split; [now apply span_zero|].
    intro x. specialize (Co x). cbn [coef] in *. lia.
  - set (r0 := t :: r') in *. assert (Bd : forall x, ble (lmon r0) x -> blt m x) by (intros x H; exact (blt_trans m _ x M (below_lmon m r0 Br C' ltac:(discriminate)) H)).
    split; [destruct Hr as [->|[Hr Hl]]; [now left|right; auto]|]. exists (j * k1), l, (- (j * k2)), s, d. split; [nia|]. split; [exact L|]. split; [exact Ls|]. split; [exact Em|].
    split; [apply (span_below (ble (lmon r0))); auto|]. intro x. exact (lin2 _ _ _ _ _ _ _ _ _ (X x) (Co x)).
Qed.
(** NFtail keeps the leading monomial and works with multiples of reducers below it *)
Lemma nth_mid {A} (a : A) l x r : nth_error (a :: l ++ x :: r) (S (length l)) = Some x.
Proof. cbn. rewrite nth_error_app2 by lia. now rewrite Nat.sub_diag. Qed.
Lemma nth_out {A} (a : A) l : nth_error (a :: l ++ []) (S (length l)) = None.
Proof. apply nth_error_None. cbn. rewrite app_length. cbn. lia. Qed.
Lemma nftail_span_loop : forall fuel m0 c0 A B r, py_canonical o n k ((m0, c0) :: A ++ B) -> settled find A -> py_nftail_loop fuel o find (S (length A)) ((m0, c0) :: A ++ B) = Ok r ->
  py_canonical o n k r /\ r <> [] /\ lmon r = m0 /\ settled find (skipn 1 r) /\
  exists j d, j <> 0 /\ span G (blt m0) d /\ forall m, coef r m = j * coef ((m0, c0) :: A ++ B) m + coef d m.
Proof.
  induction fuel as [|fuel IH]; intros m0 c0 A B r C W E; [discriminate E|]. cbn [py_nftail_loop] in E. destruct B as [|[m c] B].
  - match type of E with (match ?X with _ => _ end) = _ => assert (HX : X = None) by exact (nth_out (m0, c0) A); rewrite HX in E end. injection E as <-. split; [exact C|]. split; [discriminate|]. split; [reflexivity|]. split; [cbn [skipn]; rewrite app_nil_r; exact W|].
    exists 1, []. split; [lia|]. split; [now apply span_zero|]. intro x. change (coef [] x) with 0. ring.
  - match type of E with (match ?X with _ => _ end) = _ => assert (HX : X = Some (m, c)) by exact (nth_mid (m0, c0) A (m, c) B); rewrite HX in E end.
    assert (M : pmono n k m) by exact (pcanonical_mono o n k ((m0, c0) :: A) m c B C).
    assert (L0 : blt m0 m). { split; [exact M|]. apply py_canonical_iff in C as (So & _ & _). inversion So as [|x l Hs Hf]. subst. rewrite Forall_forall in Hf. apply (Hf (m, c)). apply in_elt. }
    destruct (find_ok m M) as (w & Ew & _). rewrite Ew in E. cbn [bind] in E. destruct w as [q|].
    + destruct (red_step ((m0, c0) :: A) m c B q C Ew) as (Gq & Cq & Nq & k1 & k2 & s & r' & Er & C' & Br & K1 & Ls & Em & Co). destruct q as [|tq q0]; [contradiction|]. cbn [truthy] in E. set (q := tq :: q0) in *. into E Er. cbn [bind] in E.
      assert (La : length A = length (scaled k1 A)) by (symmetry; apply map_length).
      destruct (IH m0 (c0 * k1) (scaled k1 A) r' r C') as (Cr & Nr & El & Sr & j & d & J & S & X).
      * unfold settled, scaled. rewrite Forall_map. exact W.
      * match goal with |- py_nftail_loop _ _ _ (S ?x) _ = _ => replace x with (length A) by exact La end. exact E.
      * split; [exact Cr|]. split; [exact Nr|]. split; [exact El|]. split; [exact Sr|]. exists (j * k1), (d ++ scale (j * k2) (shift s q)). split; [nia|]. split.
        -- apply (span_lin G _ _ d (shift s q) 1 (j * k2)); [exact S| |intro x; rewrite coef_app, coef_scale'; ring]. apply span_single; auto. rewrite Em. exact L0.
        -- intro x. rewrite coef_app, coef_scale'. exact (lin3 _ _ _ _ _ _ _ _ (X x) (Co x)).
    + cbn [truthy] in E. specialize (IH m0 c0 (A ++ [(m, c)]) B r). rewrite <- app_assoc in IH. apply IH; [exact C| |].
      * apply Forall_app. split; [exact W|]. constructor; [exact Ew|constructor].
      * rewrite app_length, Nat.add_comm. exact E.
Qed.
Lemma nftail_span fuel p r : py_canonical o n k p -> p <> [] -> py_nftail fuel o find p = Ok r ->
  py_canonical o n k r /\ r <> [] /\ lmon r = lmon p /\ settled find (skipn 1 r) /\
  exists j d, j <> 0 /\ span G (blt (lmon p)) d /\ forall m, coef r m = j * coef p m + coef d m.
Proof.
  intros C N E. destruct p as [|t p]; [contradiction|]. destruct t as [m c]. cbn [py_nftail] in E. exact (nftail_span_loop fuel m c [] p r C (Forall_nil _) E).
Qed.
(** NFtail asks only for monomials below the leading one *)
Lemma nftail_agree_loop f : forall fuel m0 c0 A B, py_canonical o n k ((m0, c0) :: A ++ B) -> (forall m, blt m0 m -> f m = find m) ->
  py_nftail_loop fuel o f (S (length A)) ((m0, c0) :: A ++ B) = py_nftail_loop fuel o find (S (length A)) ((m0, c0) :: A ++ B).
Proof.
  induction fuel as [|fuel IH]; intros m0 c0 A B C H; [reflexivity|]. cbn [py_nftail_loop]. destruct B as [|[m c] B].
  - match goal with |- (match ?X with _ => _ end) = _ => assert (HX : X = None) by exact (nth_out (m0, c0) A); rewrite HX end. reflexivity.
  - match goal with |- (match ?X with _ => _ end) = _ => assert (HX : X = Some (m, c)) by exact (nth_mid (m0, c0) A (m, c) B); rewrite HX end.
    assert (M : pmono n k m) by exact (pcanonical_mono o n k ((m0, c0) :: A) m c B C).
    assert (L0 : blt m0 m). { split; [exact M|]. apply py_canonical_iff in C as (So & _ & _). inversion So as [|x l Hs Hf]. subst. rewrite Forall_forall in Hf. apply (Hf (m, c)). apply in_elt. }
    rewrite (H m L0). destruct (find_ok m M) as (w & Ew & _). rewrite Ew. cbn [bind]. destruct w as [q|].
    + destruct (red_step ((m0, c0) :: A) m c B q C Ew) as (Gq & Cq & Nq & k1 & k2 & s & r' & Er & C' & _). destruct q as [|tq q0]; [contradiction|]. cbn [truthy]. set (q := tq :: q0) in *.
      match goal with |- bind ?X _ = bind ?X' _ => match type of Er with ?Y = _ => change X with Y; change X' with Y end end. rewrite Er. cbn [bind].
      assert (La : length A = length (scaled k1 A)) by (symmetry; apply map_length). pose proof (IH m0 (c0 * k1) (scaled k1 A) r' C' H) as X. match type of X with py_nftail_loop _ _ _ (S ?x) _ = _ => replace x with (length A) in X by exact La end. exact X.
    + cbn [truthy]. specialize (IH m0 c0 (A ++ [(m, c)]) B). rewrite <- app_assoc in IH. specialize (IH C H). rewrite app_length, Nat.add_comm in IH. exact IH.
Qed.
Lemma nftail_agree f fuel p : py_canonical o n k p -> (forall m, blt (lmon p) m -> f m = find m) -> py_nftail fuel o f p = py_nftail fuel o find p.
Proof. intros C H. destruct p as [|[m c] p]; [reflexivity|]. exact (nftail_agree_loop f fuel m c [] p C H). Qed.
End Find.
End Span.
