(** The statements of Prop_PyGen.v, Prop_PyGenNF.v and Prop_PySchem.v. *)
From Coq Require Import ZArith List Bool Arith Lia Sorted.
From Verif Require Import Outcome MonomModel MonomSpec MonomProofs PolySpec PolyProofs PyMonomModel PyMonomSpec PyMonomProofs
  PyPolyModel PyPolySpec PyPolyProofs PyRedProofs PyDiffModel PyDiffSpec PyDiffProofs PyReadModel PyGenModel PyGenSpec PyGenProofs.
From Verif Require PyTop.
Import ListNotations.
Local Open Scope Z_scope.

Section Top.
Variables (C : coefs) (H : good_coefs C) (o : py_order) (n : nat) (k : Z).
Notation dpoly := (list (monom * ck C)).

Lemma neg_top p : sp_canonical C o n k p ->
  sp_canonical C o n k (dp_neg C p) /\ forall F, good_module C F -> forall u, f_add F (mod_value F u p) (mod_value F u (dp_neg C p)) = f_zero F.
Proof. intro P. split; [apply neg_canonical; assumption|]. intros F HF u. apply neg_value; assumption. Qed.
Lemma sub_top p q : sp_canonical C o n k p -> sp_canonical C o n k q ->
  exists r, sp_sub C o p q = Ok r /\ sp_canonical C o n k r /\
    forall F, good_module C F -> forall u, f_add F (mod_value F u r) (mod_value F u q) = mod_value F u p.
Proof. intros P Q. destruct (sub_ok C H o n k p q P Q) as (r & A & B & _ & D). eauto. Qed.
Lemma mult_zero p m : sp_mult C o p m (c_zero C) = AssertFail.
Proof. unfold sp_mult, assert_. rewrite (proj2 (gc_is0 C H (c_zero C)) eq_refl). reflexivity. Qed.
Lemma mult_top p m c : sp_canonical C o n k p -> pmono n k m -> c <> c_zero C -> pos m = -1 \/ plain p ->
  exists r, sp_mult C o p m c = Ok r /\ sp_canonical C o n k r /\
    forall F, good_module C F -> forall u,
      (pos m = -1 -> mod_value F u r = f_mul F c (power_on F (vars m) (mod_value F u p))) /\
      (plain p -> mod_value F u r = f_mul F c (apply_poly F p (mod_mono F u m))).
Proof. intros P M N X. destruct (mult_ok C H o n k p m c P M N X) as (r & A & B & _ & D). eauto. Qed.
Lemma prolong_top p v : sp_canonical C o n k p ->
  ((v < n)%nat -> exists r, sp_prolong C o p v = Ok r /\ sp_canonical C o n k r /\ forall F, good_module C F -> forall u, mod_value F u r = f_der F v (mod_value F u p)) /\
  ((n <= v)%nat -> p <> [] -> sp_prolong C o p v = AssertFail).
Proof.
  intro P. split; [apply prolong_ok; assumption|]. intros V E. apply (prolong_out C o n k); auto. apply sp_canonical_iff in P. tauto.
Qed.

(** reduction and redRat *)
Lemma split_at (p : dpoly) i m c : nth_error p i = Some (m, c) -> exists A B, p = A ++ (m, c) :: B /\ length A = i.
Proof. apply nth_error_split. Qed.
Lemma notin_front A m c B : sp_canonical C o n k (A ++ (m, c) :: B) -> ~ In m (map fst A).
Proof.
  intros P X. assert (Mm := pmono_mono n k m (dcanonical_mono C o n k _ _ _ _ P)). apply sp_canonical_iff in P as (S & _). apply dsorted_app in S as (_ & _ & S).
  apply in_map_iff in X as (x & E & X). rewrite Forall_forall in S. specialize (S x X). apply Forall_inv in S. cbn [fst] in S. rewrite E in S. apply (pgt_irrefl o n m Mm). exact S.
Qed.
Lemma red_top red K : red_mod C o n k red K -> forall p i m c v d q, sp_canonical C o n k p -> nth_error p i = Some (m, c) ->
  sp_canonical C o n k ((v, d) :: q) -> pos v = pos m -> mdivides v m ->
  exists r k1 k2 s, red p i ((v, d) :: q) = Ok r /\ sp_canonical C o n k r /\ K k1 /\ vsum (vars v) s = vars m /\ ~ In m (map fst r) /\
    forall F, good_module C F -> forall u, mod_value F u r = f_add F (f_mul F k1 (mod_value F u p)) (f_mul F k2 (power_on F s (mod_value F u ((v, d) :: q)))).
Proof.
  intros R p i m c v d q P E Q Pv D. apply split_at in E as (A & B & -> & <-).
  destruct (R A m c B v d q P Q Pv D) as (k1 & k2 & s & r' & Ls & Em & R1 & R2 & R3 & R4 & R5 & _).
  exists (cscaled C k1 A ++ r'), k1, k2, s. split; [exact R1|]. split; [exact R2|]. split; [exact R4|]. split; [rewrite vsum_addv, <- Em; reflexivity|].
  split; [|intros F HF u; apply R5, HF]. rewrite map_app, in_app_iff. intros [X|X].
  - unfold cscaled in X. rewrite map_map in X. apply (notin_front A m c B P). exact X.
  - apply (below_notin C o n m r'); [|exact R3|exact X]. apply (pmono_mono n k), (dcanonical_mono C o n k _ _ _ _ P).
Qed.
Lemma reduction_top p i m c v d q : sp_canonical C o n k p -> nth_error p i = Some (m, c) ->
  sp_canonical C o n k ((v, d) :: q) -> pos v = pos m -> mdivides v m ->
  exists r k1 k2 s, dp_reduction C o p i ((v, d) :: q) = Ok r /\ sp_canonical C o n k r /\ k1 <> c_zero C /\ vsum (vars v) s = vars m /\ ~ In m (map fst r) /\
    forall F, good_module C F -> forall u, mod_value F u r = f_add F (f_mul F k1 (mod_value F u p)) (f_mul F k2 (power_on F s (mod_value F u ((v, d) :: q)))).
Proof. apply (red_top _ _ (reduction_mod C H o n k)). Qed.
Lemma redrat_top p i m c v d q : good_quo C -> sp_canonical C o n k p -> nth_error p i = Some (m, c) ->
  sp_canonical C o n k ((v, d) :: q) -> pos v = pos m -> mdivides v m ->
  exists r k2 s, dp_redrat C o p i ((v, d) :: q) = Ok r /\ sp_canonical C o n k r /\ vsum (vars v) s = vars m /\ ~ In m (map fst r) /\
    forall F, good_module C F -> forall u, mod_value F u r = f_add F (mod_value F u p) (f_mul F k2 (power_on F s (mod_value F u ((v, d) :: q)))).
Proof.
  intros HQ P E Q Pv D. destruct (red_top _ _ (redrat_mod C H o n k HQ) p i m c v d q P E Q Pv D) as (r & k1 & k2 & s & A & B & -> & X & Y & Z).
  exists r, k2, s. split; [exact A|]. split; [exact B|]. split; [exact X|]. split; [exact Y|]. intros F HF u. rewrite (Z F HF), (gm_mul_one C F HF). reflexivity.
Qed.
Lemma S_top a c p b d q : sp_canonical C o n k ((a, c) :: p) -> sp_canonical C o n k ((b, d) :: q) -> pos a = -1 -> pos b = -1 ->
  exists r m e f k1 k2, sp_S C o ((a, c) :: p) ((b, d) :: q) = Ok r /\ sp_canonical C o n k r /\
    pos m = -1 /\ length (vars m) = n /\ (forall i, (i < n)%nat -> expo (vars m) i = Nat.max (expo (vars a) i) (expo (vars b) i)) /\
    vsum (vars a) e = vars m /\ vsum (vars b) f = vars m /\ k1 <> c_zero C /\ k2 <> c_zero C /\ Forall (fun x => py_greater o m (fst x)) r /\
    forall F, good_module C F -> forall u, f_add F (mod_value F u r) (f_mul F k2 (power_on F f (mod_value F u ((b, d) :: q)))) = f_mul F k1 (power_on F e (mod_value F u ((a, c) :: p))).
Proof.
  intros P Q Pa Pb. destruct (S_ok C H o n k a c p b d q P Q Pa Pb) as (r & m & e & f & k1 & k2 & A & B & E1 & E2 & X & Pm & K1 & K2 & G & V & Mm). exists r, m, e, f, k1, k2.
  split; [exact A|]. split; [exact B|]. split; [exact Pm|]. split; [apply Mm|]. split; [exact X|]. rewrite !vsum_addv. split; [congruence|]. split; [congruence|]. split; [exact K1|]. split; [exact K2|].
  split; [|exact V]. apply sp_canonical_iff in B as (_ & M & _). unfold dmonos in M. rewrite Forall_forall in *. intros x Hx. apply (py_meaning o n); [exact Mm|apply (pmono_mono n k), M, Hx|apply G, Hx].
Qed.

(** products and powers of plain polynomials *)
Lemma canonical_plain p : sp_canonical C o n k p /\ plain p -> sp_canonical C o n 0 p.
Proof.
  intros [(S & M & N) X]. split; [exact S|]. split; [|exact N]. unfold plain in X. rewrite Forall_forall in *. intros x Hx. destruct (M x Hx) as [A _]. split; [exact A|]. rewrite (X x Hx). lia.
Qed.
Lemma plain_canonical p : 0 <= k -> sp_canonical C o n 0 p -> sp_canonical C o n k p /\ plain p.
Proof.
  intros K (S & M & N). split; [split; [exact S|split; [|exact N]]|]; unfold plain; rewrite Forall_forall in *; intros x Hx; destruct (M x Hx) as [A B]; [split; [exact A|lia]|]. destruct A as [_ A]. lia.
Qed.
Lemma apply_value F f p : plain p -> apply_poly F p f = mod_value (Space C (fs F) (f_zero F) f (f_add F) (f_mul F) (f_der F)) (fun _ => f) p.
Proof.
  intro X. set (F' := Space C (fs F) (f_zero F) f (f_add F) (f_mul F) (f_der F)).
  assert (E : forall e i g, derive F i e g = derive F' i e g).
  { induction e as [|d e IH]; intros i g; [reflexivity|]. cbn [derive]. rewrite IH. clear. induction d; [reflexivity|]. cbn [der_times]. now rewrite IHd. }
  induction p as [|[m c] p IH]; [reflexivity|]. cbn [apply_poly mod_value fold_right fst snd]. change (fold_right _ _ p) with (apply_poly F p f) at 1. rewrite (IH (Forall_inv_tail X)).
  unfold mod_mono, power_on. apply Forall_inv in X. cbn [fst] in X. rewrite X. cbn [Z.eqb]. rewrite E. reflexivity.
Qed.
Lemma same_module F f : good_module C F -> good_module C (Space C (fs F) (f_zero F) f (f_add F) (f_mul F) (f_der F)).
Proof. intros [? ? ? ? ? ? ? ? ? ? ?]. split; assumption. Qed.
Lemma apply_same F f p g : apply_poly (Space C (fs F) (f_zero F) f (f_add F) (f_mul F) (f_der F)) p g = apply_poly F p g.
Proof.
  set (F' := Space C (fs F) (f_zero F) f (f_add F) (f_mul F) (f_der F)).
  assert (E : forall e i g, derive F i e g = derive F' i e g).
  { induction e as [|d e IH]; intros i h; [reflexivity|]. cbn [derive]. rewrite IH. clear. induction d; [reflexivity|]. cbn [der_times]. now rewrite IHd. }
  induction p as [|[m c] p IH]; [reflexivity|]. cbn [apply_poly fold_right fst snd]. unfold power_on. rewrite <- E.
  change (f_add F (f_mul F c (derive F 0 (vars m) g)) (apply_poly F' p g) = f_add F (f_mul F c (derive F 0 (vars m) g)) (apply_poly F p g)). rewrite IH. reflexivity.
Qed.
Lemma times_plain p q : 0 <= k -> sp_canonical C o n k p -> sp_canonical C o n k q -> plain p -> plain q ->
  exists r, dp_times C o p q = Ok r /\ sp_canonical C o n k r /\ plain r /\
    forall F, good_module C F -> forall f, apply_poly F r f = apply_poly F p (apply_poly F q f).
Proof.
  intros K P Q Xp Xq. destruct (times_ok C H o n 0 p q (canonical_plain p (conj P Xp)) (canonical_plain q (conj Q Xq)) (or_introl Xp)) as (r & E & R & V).
  destruct (plain_canonical r K R) as [R' Xr]. exists r. split; [exact E|]. split; [exact R'|]. split; [exact Xr|]. intros F HF f.
  rewrite (apply_value F f r Xr). rewrite (proj1 (V _ (same_module F f HF) (fun _ => f)) Xp). rewrite apply_same. rewrite <- (apply_value F f q Xq). reflexivity.
Qed.
Lemma power_loop_ok p : 0 <= k -> sp_canonical C o n k p -> plain p -> forall j i r, sp_canonical C o n k r -> plain r ->
  (forall F, good_module C F -> forall f, apply_poly F r f = Nat.iter i (apply_poly F p) f) ->
  exists r', sp_power_loop C o p j r = Ok r' /\ sp_canonical C o n k r' /\ plain r' /\
    forall F, good_module C F -> forall f, apply_poly F r' f = Nat.iter (i + j) (apply_poly F p) f.
Proof.
  intros K P X. assert (It : forall A (g : A -> A) i x, Nat.iter i g (g x) = g (Nat.iter i g x)).
  { intros A g i x. induction i; [reflexivity|]. rewrite !iter_S, IHi. reflexivity. }
  induction j as [|j IH]; intros i r R Xr V.
  - exists r. rewrite Nat.add_0_r. auto.
  - cbn [sp_power_loop]. destruct (times_plain r p K R P Xr X) as (r1 & E1 & R1 & X1 & V1). rewrite E1. cbn [bind].
    destruct (IH (Datatypes.S i) r1 R1 X1) as (r2 & E2 & R2 & X2 & V2); [intros F HF f; rewrite (V1 F HF), (V F HF), It; reflexivity|].
    exists r2. split; [exact E2|]. split; [exact R2|]. split; [exact X2|]. intros F HF f. rewrite (V2 F HF). f_equal. lia.
Qed.
Lemma power_ok p j : 0 <= k -> sp_canonical C o n k p -> plain p ->
  exists r, sp_power C o n p (Z.of_nat j) = Ok r /\ sp_canonical C o n k r /\ plain r /\
    forall F, good_module C F -> forall f, apply_poly F r f = Nat.iter j (apply_poly F p) f.
Proof.
  intros K P X. unfold sp_power, assert_. destruct (Z.leb_spec 0 (Z.of_nat j)); [|lia]. cbn [andb negb]. destruct (Z.eqb_spec (Z.of_nat j) 0) as [E|E].
  - replace j with 0%nat by lia. unfold dp_of_coef. rewrite (PyGenProofs.is0_false C H _ (gc_one C H)). eexists. split; [reflexivity|]. split; [|split; [repeat constructor|]].
    + split; [repeat constructor|]. split; [|repeat constructor; apply (gc_one C H)]. repeat constructor; cbn [fst py_unit pos vars]; [apply repeat_length|lia|lia].
    + intros F HF f. cbn [apply_poly fold_right fst snd py_unit vars Nat.iter]. unfold power_on. rewrite derive_zero, (gm_mul_one C F HF). apply (PyGenProofs.f_add_0_r C F HF).
  - destruct (power_loop_ok p K P X (Z.to_nat (Z.of_nat j) - 1) 1 p P X) as (r & Er & R & Xr & V); [reflexivity|]. exists r. split; [exact Er|]. split; [exact R|]. split; [exact Xr|].
    intros F HF f. rewrite (V F HF). f_equal. lia.
Qed.

(** normal forms *)
Section Find.
Variables (G : dpoly -> Prop) (find : monom -> outcome (option dpoly)).
Hypothesis find_ok : sp_good_find C o n k G find.
Lemma head_top p : sp_canonical C o n k p ->
  exists N r c, (forall fuel, (N <= fuel)%nat -> sp_nfhead C fuel o find p = Ok r) /\ sp_canonical C o n k r /\ c <> c_zero C /\
    same_modulo C G c p r /\ same_on_grid C n G c p r /\ (r = [] \/ exists m d l, r = (m, d) :: l /\ find m = Ok None).
Proof. intro P. destruct (nfhead_ok C H o n k G find find_ok p P) as (N & r & c & A & B & D & [E E'] & X). exists N, r, c. repeat (split; [assumption|]). exact X. Qed.
Lemma tail_top m c p : sp_canonical C o n k ((m, c) :: p) ->
  exists N d r a, (forall fuel, (N <= fuel)%nat -> sp_nftail C fuel o find ((m, c) :: p) = Ok ((m, d) :: r)) /\
    sp_canonical C o n k ((m, d) :: r) /\ a <> c_zero C /\ same_modulo C G a ((m, c) :: p) ((m, d) :: r) /\ same_on_grid C n G a ((m, c) :: p) ((m, d) :: r) /\
    Forall (fun x => find (fst x) = Ok None) r.
Proof. intro P. destruct (nftail_ok C H o n k G find find_ok m c p P) as (N & d & r & a & A & B & D & [E E'] & X). exists N, d, r, a. repeat (split; [assumption|]). exact X. Qed.
Lemma nf_top p : good_quo C -> sp_canonical C o n k p ->
  exists N r, (forall fuel, (N <= fuel)%nat -> sp_nf C fuel o find p = Ok r) /\ sp_canonical C o n k r /\
    same_modulo C G (c_one C) p r /\ same_on_grid C n G (c_one C) p r /\ Forall (fun x => find (fst x) = Ok None) r.
Proof. intros HQ P. destruct (nf_ok C H o n k G find find_ok p HQ P) as (N & r & A & B & [E E'] & X). exists N, r. repeat (split; [assumption|]). exact X. Qed.
End Find.
End Top.

Lemma single_top C o n k u d q : sp_canonical C o n k ((u, d) :: q) -> 0 <= pos u \/ k <= 0 ->
  sp_good_find C o n k (fun p => p = (u, d) :: q) (dp_find C ((u, d) :: q)).
Proof.
  intros Q P m M. unfold dp_find. assert (Hu := dcanonical_mono C o n k [] u d q Q). assert (Mu := pmono_mono n k u Hu). assert (Mm := pmono_mono n k m M).
  destruct (py_divisible m u) eqn:E; [|exists None; split; [reflexivity|discriminate]].
  exists (Some ((u, d) :: q)). split; [reflexivity|]. intros q' E'. injection E' as <-. split; [exact Q|]. split; [reflexivity|].
  apply (py_divisible_spec n m u Mm Mu) in E as (x & Mx & E). exists u, d, q. split; [reflexivity|].
  destruct (py_mul_mul n x u m Mx Mu E) as (_ & -> & Pos). assert (Pm : pos u = pos (mul x u)).
  { destruct M as [[_ M1] M2], Hu as [[_ U1] U2], Mx as [_ X1]. unfold mul, mul_pos in *. cbn [pos] in *. destruct P as [P|P].
    - assert (Px : pos x = -1) by lia. rewrite Px in *. cbn in *. destruct (Z.leb_spec 0 (pos u)); lia.
    - lia. }
  split; [exact Pm|]. split; [now right|]. destruct Mx as [Lx _], Mu as [Lu _]. split; [unfold mul; cbn [vars]; rewrite addv_length; congruence|].
  intro i. unfold mul. cbn [vars]. rewrite expo_addv by congruence. lia.
Qed.

(** Without divisibility: the assertion *)
Lemma c71_not_divisible (C : coefs) o n k p i m c v d q : sp_canonical C o n k p -> nth_error p i = Some (m, c) -> sp_canonical C o n k ((v, d) :: q) -> ~ mdivides v m ->
  dp_reduction C o p i ((v, d) :: q) = AssertFail /\ dp_redrat C o p i ((v, d) :: q) = AssertFail.
Proof.
  intros P I Q N. assert (D : py_divisible m v = false).
  { destruct (py_divisible m v) eqn:D; [|reflexivity]. exfalso. apply N. apply (PyTop.py_divisible_iff n m v); [| |exact D].
    - destruct P as (_ & P & _). rewrite Forall_forall in P. apply nth_error_In in I. apply P in I. apply I.
    - destruct Q as (_ & Q & _). inversion Q as [|? ? X _]; subst. apply X. }
  unfold dp_reduction, dp_redrat. rewrite I. unfold assert_. rewrite D. split; reflexivity.
Qed.
