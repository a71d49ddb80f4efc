(** Proofs about cancel and pp for rational coefficients. *)
From Coq Require Import ZArith QArith Qcanon List Bool Arith Lia Sorted Znumtheory.
From Verif Require Import Outcome MonomModel MonomSpec PyMonomModel PyMonomSpec PyMonomProofs PyRatModel PyRatSpec.
Import ListNotations.
Local Open Scope Z_scope.

(* ---------------------------------------------------------------- rational numbers *)
Lemma this_q q : (this (Q2Qc q) == q)%Q.
Proof. cbn [this Q2Qc]. apply Qred_correct. Qed.
Lemma this_mul a b : (this (a * b)%Qc == this a * this b)%Q.
Proof. unfold Qcmult. apply this_q. Qed.
Lemma this_zc z : (this (zc z) == inject_Z z)%Q.
Proof. apply this_q. Qed.
Lemma zc_mul a b : zc (a * b) = (zc a * zc b)%Qc.
Proof. apply Qc_is_canon. rewrite this_mul, !this_zc, inject_Z_mult. reflexivity. Qed.
Lemma zc_add a b : zc (a + b) = (zc a + zc b)%Qc.
Proof. apply Qc_is_canon. unfold Qcplus. rewrite this_q, !this_zc, inject_Z_plus. reflexivity. Qed.
Lemma zc_one : zc 1 = 1%Qc.
Proof. apply Qc_is_canon. reflexivity. Qed.
Lemma zc_inj a b : zc a = zc b -> a = b.
Proof. intro E. assert (X : (this (zc a) == this (zc b))%Q) by (rewrite E; reflexivity). rewrite !this_zc in X. apply inject_Z_injective. exact X. Qed.
Lemma zc_zero z : zc z = 0%Qc -> z = 0.
Proof. intro E. apply (zc_inj z 0). rewrite E. apply Qc_is_canon. reflexivity. Qed.
Lemma den_pos c : 0 < r_den c.
Proof. reflexivity. Qed.
Lemma coprime c : Z.gcd (r_num c) (r_den c) = 1.
Proof. unfold r_num, r_den. apply Qred_iff. apply canon. Qed.
(** c = n/d *)
Lemma num_den c : (c * zc (r_den c))%Qc = zc (r_num c).
Proof.
  apply Qc_is_canon. rewrite this_mul, !this_zc. unfold r_num, r_den. destruct (this c) as [n d]. cbn [Qnum Qden]. unfold Qeq, Qmult, inject_Z. cbn [Qnum Qden]. lia.
Qed.
Lemma qc_cancel (a b c : Qc) : c <> 0%Qc -> (a * c)%Qc = (b * c)%Qc -> a = b.
Proof. intros N E. rewrite <- (Qcmult_1_r a), <- (Qcmult_1_r b), <- (Qcmult_inv_r c N), !Qcmult_assoc, E. reflexivity. Qed.
Lemma zc_nz z : z <> 0 -> zc z <> 0%Qc.
Proof. intros N E. apply N, zc_zero, E. Qed.

Lemma den_spec c l : integer (c * zc l)%Qc <-> (r_den c | l).
Proof.
  split.
  - intros [z E]. apply (Gauss _ (r_num c)); [|apply rel_prime_sym, Zgcd_1_rel_prime, coprime].
    exists z. apply zc_inj. rewrite !zc_mul, <- num_den, <- E. ring.
  - intros [k ->]. exists (r_num c * k). rewrite !zc_mul, <- num_den. ring.
Qed.

(** The coprimality behind the formula for gcd *)
Lemma gcd_cross n1 n2 d1 d2 : 0 < d1 -> 0 < d2 -> Z.gcd n1 d1 = 1 -> Z.gcd n2 d2 = 1 ->
  exists a b, d1 * a = Z.lcm d1 d2 /\ d2 * b = Z.lcm d1 d2 /\ Z.gcd (n1 * a) (n2 * b) = Z.gcd n1 n2.
Proof.
  intros H1 H2 C1 C2. set (g := Z.gcd d1 d2). assert (Hg : 0 < g) by (assert (X := Z.gcd_nonneg d1 d2); assert (g <> 0); [intro E; apply Z.gcd_eq_0_l in E; lia|fold g in X; lia]).
  destruct (Z.gcd_divide_l d1 d2) as [b Hb]. destruct (Z.gcd_divide_r d1 d2) as [a Ha]. fold g in Ha, Hb.
  assert (Pa : 0 < a) by nia. assert (Pb : 0 < b) by nia.
  assert (Cab : Z.gcd a b = 1).
  { assert (X : Z.gcd d1 d2 = g) by reflexivity. rewrite Ha, Hb, Z.gcd_mul_mono_r_nonneg in X by lia. rewrite Z.gcd_comm. nia. }
  assert (El : Z.lcm d1 d2 = a * b * g).
  { unfold Z.lcm. fold g. assert (X : d2 / g = a) by (rewrite Ha; apply Z.div_mul; lia). rewrite X, Z.abs_eq by nia. rewrite Hb. ring. }
  exists a, b. split; [rewrite El, Hb; ring|]. split; [rewrite El, Ha; ring|].
  assert (Ra : rel_prime a (n2 * b)).
  { apply rel_prime_mult; [|apply Zgcd_1_rel_prime; exact Cab]. apply rel_prime_sym, Zgcd_1_rel_prime. apply Z.divide_1_r_nonneg; [apply Z.gcd_nonneg|]. rewrite <- C2.
    apply Z.gcd_greatest; [apply Z.gcd_divide_l|]. rewrite Ha. apply Z.divide_mul_l, Z.gcd_divide_r. }
  assert (Rb : rel_prime b (n1 * a)).
  { apply rel_prime_mult; [|apply rel_prime_sym, Zgcd_1_rel_prime; exact Cab]. apply rel_prime_sym, Zgcd_1_rel_prime. apply Z.divide_1_r_nonneg; [apply Z.gcd_nonneg|]. rewrite <- C1.
    apply Z.gcd_greatest; [apply Z.gcd_divide_l|]. rewrite Hb. apply Z.divide_mul_l, Z.gcd_divide_r. }
  apply Z.divide_antisym_nonneg; try apply Z.gcd_nonneg.
  - apply Z.gcd_greatest.
    + apply (Gauss _ a); [rewrite (Z.mul_comm a n1); apply Z.gcd_divide_l|]. apply (rel_prime_div _ _ _ (rel_prime_sym _ _ Ra)), Z.gcd_divide_r.
    + apply (Gauss _ b); [rewrite (Z.mul_comm b n2); apply Z.gcd_divide_r|]. apply (rel_prime_div _ _ _ (rel_prime_sym _ _ Rb)), Z.gcd_divide_l.
  - apply Z.gcd_greatest; [apply Z.divide_mul_l, Z.gcd_divide_l|apply Z.divide_mul_l, Z.gcd_divide_r].
Qed.

Lemma mult_refl g : multiple g g.
Proof. exists 1. rewrite zc_one. ring. Qed.
Lemma mult_trans a b c : multiple a b -> multiple b c -> multiple a c.
Proof. intros [z ->] [w ->]. exists (z * w). rewrite zc_mul. ring. Qed.
Lemma mult_one c : multiple 1%Qc c <-> integer c.
Proof. split; intros [z E]; exists z; rewrite E; ring. Qed.

(** r_gcd a b = g/l *)
Lemma r_gcd_eq a b : (r_gcd a b * zc (Z.lcm (r_den a) (r_den b)))%Qc = zc (Z.gcd (r_num a) (r_num b)).
Proof.
  assert (P : 0 < Z.lcm (r_den a) (r_den b)). { assert (X := Z.lcm_nonneg (r_den a) (r_den b)). assert (Z.lcm (r_den a) (r_den b) <> 0); [|lia]. intro E. apply Z.lcm_eq_0 in E. assert (Y := den_pos a). assert (Y' := den_pos b). lia. }
  apply Qc_is_canon. rewrite this_mul, !this_zc. unfold r_gcd. rewrite this_q. unfold Qeq, Qmult, inject_Z. cbn [Qnum Qden]. rewrite !Z.mul_1_r, Pos.mul_1_r, Z2Pos.id by exact P. reflexivity.
Qed.
Lemma r_gcd_spec a b : content (r_gcd a b) [a; b].
Proof.
  destruct (gcd_cross (r_num a) (r_num b) (r_den a) (r_den b) (den_pos a) (den_pos b) (coprime a) (coprime b)) as (x & y & Ex & Ey & Eg).
  set (l := Z.lcm (r_den a) (r_den b)) in *. assert (Nl : l <> 0). { unfold l. intro E. apply Z.lcm_eq_0 in E. assert (Y := den_pos a). assert (Y' := den_pos b). lia. }
  assert (E := r_gcd_eq a b). fold l in E. assert (Na := num_den a). assert (Nb := num_den b).
  assert (La : (a * zc l)%Qc = zc (r_num a * x)) by (rewrite <- Ex, !zc_mul, <- Na; ring).
  assert (Lb : (b * zc l)%Qc = zc (r_num b * y)) by (rewrite <- Ey, !zc_mul, <- Nb; ring).
  split.
  - intros c [<-|[<-|[]]].
    + destruct (Z.gcd_divide_l (r_num a * x) (r_num b * y)) as [z Ez]. rewrite Eg in Ez. exists z. apply (qc_cancel _ _ (zc l)); [apply zc_nz; exact Nl|]. rewrite La, Ez, zc_mul, <- E. ring.
    + destruct (Z.gcd_divide_r (r_num a * x) (r_num b * y)) as [z Ez]. rewrite Eg in Ez. exists z. apply (qc_cancel _ _ (zc l)); [apply zc_nz; exact Nl|]. rewrite Lb, Ez, zc_mul, <- E. ring.
  - intros h Hh. destruct (Hh a (or_introl eq_refl)) as [z1 E1]. destruct (Hh b (or_intror (or_introl eq_refl))) as [z2 E2].
    destruct (Z.gcd_bezout (r_num a * x) (r_num b * y) _ eq_refl) as (u & v & Euv). rewrite Eg in Euv.
    exists (u * z1 + v * z2). apply (qc_cancel _ _ (zc l)); [apply zc_nz; exact Nl|]. rewrite E, <- Euv. rewrite zc_add, !(zc_mul u), !(zc_mul v), <- La, <- Lb, zc_add, !zc_mul. rewrite E1, E2. ring.
Qed.

Lemma content_one c : content c [c].
Proof. split; [intros d [<-|[]]; apply mult_refl|]. intros h H. apply H. left. reflexivity. Qed.
Lemma content_snoc g l c : content g l -> content (r_gcd g c) (l ++ [c]).
Proof.
  intros [H1 H2]. destruct (r_gcd_spec g c) as [G1 G2]. split.
  - intros d I. apply in_app_iff in I as [I|[<-|[]]]; [|apply G1; right; left; reflexivity]. eapply mult_trans; [apply G1; left; reflexivity|apply H1; exact I].
  - intros h H. apply G2. intros d [<-|[<-|[]]]; [apply H2; intros e I; apply H, in_app_iff; left; exact I|apply H, in_app_iff; right; left; reflexivity].
Qed.
Lemma content_scale g l a : content g l -> content (g * a)%Qc (map (fun c => (c * a)%Qc) l).
Proof.
  intros [H1 H2]. destruct (Qc_eq_dec a 0%Qc) as [->|Na].
  - split; [intros c I; apply in_map_iff in I as (x & <- & _); exists 0; ring|]. intros h _. exists 0. rewrite Qcmult_0_r. apply Qc_is_canon. rewrite this_mul, this_zc. cbn. unfold Qeq. cbn. ring.
  - split.
    + intros c I. apply in_map_iff in I as (x & <- & Ix). destruct (H1 x Ix) as [z ->]. exists z. ring.
    + intros h H. destruct (H2 (h / a)%Qc) as [z Ez].
      * intros c I. destruct (H (c * a)%Qc) as [z E]; [apply in_map_iff; exists c; auto|]. exists z. apply (qc_cancel _ _ a Na). rewrite E. unfold Qcdiv. transitivity (h * zc z * (a * / a))%Qc; [rewrite Qcmult_inv_r by exact Na; ring|ring].
      * exists z. rewrite Ez. unfold Qcdiv. transitivity (h * zc z * (a * / a))%Qc; [ring|rewrite Qcmult_inv_r by exact Na; ring].
Qed.
Lemma content_nz g l : content g l -> (exists c, In c l /\ c <> 0%Qc) -> g <> 0%Qc.
Proof. intros [H _] (c & I & N) ->. destruct (H c I) as [z E]. apply N. rewrite E. ring. Qed.

(* ---------------------------------------------------------------- polynomials *)
Lemma eqb_one g : Qc_eq_bool g 1%Qc = true <-> g = 1%Qc.
Proof. split; [apply Qc_eq_bool_correct|]. intros ->. reflexivity. Qed.
Lemma eqb_zero c : c <> 0%Qc -> Qc_eq_bool c 0%Qc = false.
Proof. intro N. destruct (Qc_eq_bool c 0%Qc) eqn:E; [apply Qc_eq_bool_correct in E; contradiction|reflexivity]. Qed.
Lemma canonical_valid o n k p : rp_canonical o n k p -> rp_valid o p = true.
Proof.
  intros (S & M & N). induction p as [|[m c] p IH]; [reflexivity|]. cbn [rp_valid]. inversion S as [|? ? S' F]; subst. inversion M as [|? ? Mm M']; subst. inversion N as [|? ? Nc N']; subst. cbn [fst snd] in *.
  rewrite (eqb_zero c Nc), (IH S' M' N'). destruct p as [|[m' c'] p]; [reflexivity|]. inversion F as [|? ? G _]; subst. inversion M' as [|? ? Mm' _]; subst. cbn [fst] in *.
  apply (py_meaning o n) in G; [|apply Mm|apply Mm']. rewrite G. reflexivity.
Qed.
Lemma scale_canonical o n k p a : a <> 0%Qc -> rp_canonical o n k p -> rp_canonical o n k (map (fun x => (fst x, (snd x * a)%Qc)) p).
Proof.
  intros Na (S & M & N). split; [|split].
  - clear M N. induction S as [|x p S IH F]; cbn [map]; constructor; [exact IH|]. rewrite Forall_forall in *. intros y I. apply in_map_iff in I as (z & <- & Iz). cbn [fst]. apply F. exact Iz.
  - rewrite Forall_forall in *. intros y I. apply in_map_iff in I as (z & <- & Iz). cbn [fst]. apply M. exact Iz.
  - rewrite Forall_forall in *. intros y I. apply in_map_iff in I as (z & <- & Iz). cbn [snd]. intro E. apply (N z Iz). apply (qc_cancel _ _ a Na). rewrite E. ring.
Qed.
Lemma scale_coefs p a : coefficients (map (fun x => (fst x, (snd x * a)%Qc)) p) = map (fun c => (c * a)%Qc) (coefficients p).
Proof. unfold coefficients. rewrite !map_map. reflexivity. Qed.

Lemma lcm_fold p : forall l, 0 < l -> 0 < rp_lcm l p /\ forall m, (rp_lcm l p | m) <-> (l | m) /\ forall x, In x p -> (r_den (snd x) | m).
Proof.
  induction p as [|x p IH]; intros l Hl; [split; [exact Hl|]; intro m; split; [intro D; split; [exact D|intros y []]|tauto]|].
  unfold rp_lcm. cbn [fold_left]. fold (rp_lcm (Z.lcm l (r_den (snd x))) p).
  assert (Pl : 0 < Z.lcm l (r_den (snd x))). { assert (X := Z.lcm_nonneg l (r_den (snd x))). assert (Y := den_pos (snd x)). assert (Z.lcm l (r_den (snd x)) <> 0); [|lia]. intro E. apply Z.lcm_eq_0 in E. lia. }
  destruct (IH _ Pl) as [P D]. split; [exact P|]. intro m. rewrite D. split.
  - intros [A B]. split; [eapply Z.divide_trans; [apply Z.divide_lcm_l|exact A]|]. intros y [<-|I]; [eapply Z.divide_trans; [apply Z.divide_lcm_r|exact A]|apply B; exact I].
  - intros [A B]. split; [apply Z.lcm_least; [exact A|apply B; left; reflexivity]|]. intros y I. apply B. right. exact I.
Qed.

Theorem cancel_ok o n k p : rp_canonical o n k p -> p <> [] -> exists r l, rp_cancel o p = Ok r /\ rp_canonical o n k r /\ 0 < l /\ times (zc l) p r /\
  (forall c, In c (coefficients r) -> integer c) /\ forall m, (forall c, In c (coefficients p) -> integer (c * zc m)%Qc) <-> (l | m).
Proof.
  intros Cp Np. destruct p as [|[m0 c0] p]; [contradiction|]. set (l := rp_lcm (r_den c0) p). destruct (lcm_fold p (r_den c0) (den_pos c0)) as [Pl Dl]. fold l in Pl, Dl.
  exists (map (fun x => (fst x, (snd x * zc l)%Qc)) ((m0, c0) :: p)), l.
  assert (Cr : rp_canonical o n k (map (fun x => (fst x, (snd x * zc l)%Qc)) ((m0, c0) :: p))) by (apply scale_canonical; [apply zc_nz; lia|exact Cp]).
  assert (Di : forall m, (forall c, In c (coefficients ((m0, c0) :: p)) -> integer (c * zc m)%Qc) <-> (l | m)).
  { intro m. rewrite Dl. split.
    - intro H. split; [apply den_spec, H; left; reflexivity|]. intros x I. apply den_spec, H. right. unfold coefficients. apply in_map. exact I.
    - intros [A B] c [<-|I]; [apply den_spec; exact A|]. apply in_map_iff in I as (x & <- & Ix). apply den_spec, B. exact Ix. }
  split. { unfold rp_cancel. fold l. unfold rp_checked, assert_. rewrite (canonical_valid o n k) by exact Cr. reflexivity. }
  split; [exact Cr|]. split; [exact Pl|]. split; [reflexivity|]. split; [|exact Di].
  intros c I. rewrite scale_coefs in I. apply in_map_iff in I as (d & <- & Id). apply (proj2 (Di l) (Z.divide_refl l)). exact Id.
Qed.

(** The value of the loop of pp after the coefficients l: a greatest common divisor; after two it is not negative. *)
Definition running (g : Qc) (l : list Qc) : Prop := content g l /\ (l = [g] \/ (2 <= length l)%nat /\ (0 <= this g)%Q).
Lemma r_gcd_nonneg a b : (0 <= this (r_gcd a b))%Q.
Proof. unfold r_gcd. rewrite this_q. unfold Qle. cbn [Qnum Qden]. assert (X := Z.gcd_nonneg (r_num a) (r_num b)). lia. Qed.
Lemma running_snoc g l c : running g l -> running (r_gcd g c) (l ++ [c]).
Proof.
  intros [C D]. split; [apply content_snoc; exact C|]. right. split; [|apply r_gcd_nonneg]. rewrite app_length. cbn [length]. destruct D as [->|[D _]]; cbn [length]; lia.
Qed.
Lemma content_unit g l : content 1%Qc l -> content g l -> g = 1%Qc \/ g = zc (-1).
Proof.
  intros [H1 H2] [G1 G2]. destruct (G2 1%Qc H1) as [z Ez]. destruct (H2 g G1) as [w Ew]. rewrite Qcmult_1_l in Ez. rewrite Ez in Ew. rewrite <- zc_mul, <- zc_one in Ew. apply zc_inj in Ew. symmetry in Ew. apply Z.mul_eq_1 in Ew.
  destruct Ew as [->| ->]; [left; rewrite Ez; apply zc_one|right; exact Ez].
Qed.
Lemma running_unit g l : running g l -> content 1%Qc l -> l = [1%Qc] \/ (2 <= length l)%nat -> g = 1%Qc.
Proof.
  intros [C D] U L. destruct D as [E|[_ P]].
  - subst l. destruct L as [E|L]; [injection E as ->; reflexivity|cbn in L; lia].
  - destruct (content_unit g l U C) as [->| ->]; [reflexivity|]. rewrite this_zc in P. unfold Qle in P. cbn in P. lia.
Qed.
Lemma loop_some p : forall g l h, running g l -> rp_content g p = Some h -> content h (l ++ coefficients p).
Proof.
  induction p as [|[m c] p IH]; intros g l h R E; cbn [rp_content] in E; [injection E as <-; cbn; rewrite app_nil_r; apply R|].
  destruct (Qc_eq_bool g 1%Qc); [discriminate|]. cbn [coefficients map snd]. change (c :: map snd p) with ([c] ++ coefficients p). rewrite app_assoc. eapply IH; [apply running_snoc; exact R|exact E].
Qed.
Lemma loop_none p : forall g l, running g l -> rp_content g p = None ->
  exists a b, l ++ coefficients p = a ++ b /\ b <> [] /\ content 1%Qc a /\ (a = [1%Qc] \/ (2 <= length a)%nat).
Proof.
  induction p as [|[m c] p IH]; intros g l R E; cbn [rp_content] in E; [discriminate|]. destruct (Qc_eq_bool g 1%Qc) eqn:Eg.
  - apply eqb_one in Eg. subst g. exists l, (coefficients ((m, c) :: p)). split; [reflexivity|]. split; [discriminate|]. destruct R as [R [->|[D _]]]; auto.
  - cbn [coefficients map snd]. destruct (IH _ _ (running_snoc g l c R) E) as (a & b & Eq & X). exists a, b. split; [|exact X]. rewrite <- Eq, <- app_assoc. reflexivity.
Qed.
Lemma loop_stops p : forall g l a b, running g l -> coefficients p = a ++ b -> b <> [] -> content 1%Qc (l ++ a) -> l ++ a = [1%Qc] \/ (2 <= length (l ++ a))%nat ->
  rp_content g p = None.
Proof.
  induction p as [|[m c] p IH]; intros g l a b R Eq Nb U L; cbn [coefficients map snd rp_content] in *.
  { destruct a; [destruct b; [contradiction|discriminate]|discriminate]. }
  destruct (Qc_eq_bool g 1%Qc) eqn:Eg; [reflexivity|]. destruct a as [|x a].
  - exfalso. rewrite app_nil_r in U, L. rewrite (running_unit g l R U L) in Eg. discriminate.
  - injection Eq as -> Eq. apply (IH _ (l ++ [x]) a b); [apply running_snoc; exact R|exact Eq|exact Nb| |]; rewrite <- app_assoc; assumption.
Qed.
Lemma running_one c : running c [c].
Proof. split; [apply content_one|left; reflexivity]. Qed.

(** pp multiplies with a number other than 0. *)
Theorem pp_ok o n k p : rp_canonical o n k p -> p <> [] -> exists r a, rp_pp o p = Ok r /\ rp_canonical o n k r /\ a <> 0%Qc /\ times a p r.
Proof.
  intros Cp Np. destruct p as [|[m0 c0] p]; [contradiction|]. unfold rp_pp. destruct (rp_content c0 p) as [g|] eqn:E.
  - assert (Cg := loop_some p c0 [c0] g (running_one c0) E). assert (Ng : g <> 0%Qc). { eapply content_nz; [exact Cg|]. exists c0. split; [left; reflexivity|]. destruct Cp as (_ & _ & N). inversion N; assumption. }
    assert (Ni : (/ g)%Qc <> 0%Qc). { intro X. assert (Y := Qcmult_inv_r g Ng). rewrite X, Qcmult_0_r in Y. discriminate. }
    exists (map (fun x => (fst x, (snd x / g)%Qc)) ((m0, c0) :: p)), (/ g)%Qc. assert (Cr := scale_canonical o n k _ _ Ni Cp). unfold rp_checked, assert_. unfold Qcdiv.
    rewrite (canonical_valid o n k) by exact Cr. split; [reflexivity|]. split; [exact Cr|]. split; [exact Ni|reflexivity].
  - exists ((m0, c0) :: p), 1%Qc. split; [reflexivity|]. split; [exact Cp|]. split; [discriminate|]. unfold times. transitivity (map (fun x : monom * Qc => x) ((m0, c0) :: p)); [symmetry; apply map_id|].
    apply map_ext. intros [m c]. cbn [fst snd]. rewrite Qcmult_1_r. reflexivity.
Qed.
Lemma integer_dec c : integer c \/ ~ integer c.
Proof.
  assert (D := den_spec c 1). rewrite zc_one, Qcmult_1_r in D. destruct (Z.eq_dec (r_den c) 1) as [E|E]; [left; apply D; rewrite E; apply Z.divide_refl|right; intro X; apply D in X; apply Z.divide_1_r in X; assert (Y := den_pos c); lia].
Qed.
(** It gives a primitive polynomial, unless the loop ends at coefficients with content 1 that are followed by a fraction. *)
Theorem pp_exact o n k p r : rp_canonical o n k p -> rp_pp o p = Ok r -> (primitive_q r <-> ~ too_early (coefficients p)).
Proof.
  intros Cp E. destruct p as [|[m0 c0] p]; [discriminate|]. unfold rp_pp in E. destruct (rp_content c0 p) as [g|] eqn:Eg.
  - assert (Cg := loop_some p c0 [c0] g (running_one c0) Eg). assert (Ng : g <> 0%Qc). { eapply content_nz; [exact Cg|]. exists c0. split; [left; reflexivity|]. destruct Cp as (_ & _ & N). inversion N; assumption. }
    unfold rp_checked, assert_ in E. destruct (true && negb (rp_valid o (map (fun x : monom * Qc => (fst x, (snd x / g)%Qc)) ((m0, c0) :: p)))); [discriminate|]. apply (f_equal (fun x => match x with Ok y => y | _ => r end)) in E. cbv beta iota in E. subst r.
    split.
    + intros _ (a & b & Eq & U & L & c & Ic & Nc). destruct a as [|x a]; [destruct L as [L|L]; [discriminate|cbn in L; lia]|]. cbn [coefficients map snd app] in Eq. injection Eq as -> Eq.
      assert (X : rp_content x p = None). { apply (loop_stops p x [x] a b); [apply running_one|exact Eq|intros ->; destruct Ic|exact U|exact L]. } congruence.
    + intros _. unfold primitive_q. change (coefficients (map (fun x : monom * Qc => (fst x, (snd x / g)%Qc)) ((m0, c0) :: p))) with (coefficients (map (fun x : monom * Qc => (fst x, (snd x * / g)%Qc)) ((m0, c0) :: p))).
      rewrite scale_coefs. replace 1%Qc with (g * / g)%Qc by (apply Qcmult_inv_r; exact Ng). apply content_scale. exact Cg.
  - injection E as <-. unfold primitive_q. split.
    + intros [P _] (a & b & Eq & _ & _ & c & Ic & Nc). apply Nc, mult_one, P. rewrite Eq. apply in_app_iff. right. exact Ic.
    + intro N. destruct (loop_none p c0 [c0] (running_one c0) Eg) as (a & b & Eq & Nb & U & L). cbn [app] in Eq. change (coefficients ((m0, c0) :: p)) with (c0 :: coefficients p) in *. split.
      * intros c Ic. rewrite Eq in Ic. apply in_app_iff in Ic as [Ic|Ic]; [apply U; exact Ic|]. apply mult_one. destruct (integer_dec c) as [I|I]; [exact I|]. exfalso. apply N. exists a, b. eauto 8.
      * intros h Hh. apply U. intros c Ic. apply Hh. rewrite Eq. apply in_app_iff. left. exact Ic.
Qed.
Theorem pp_integers o n k p r : rp_canonical o n k p -> (forall c, In c (coefficients p) -> integer c) -> rp_pp o p = Ok r -> primitive_q r.
Proof.
  intros Cp Hi E. apply (pp_exact o n k p r Cp E). intros (a & b & Eq & _ & _ & c & Ic & Nc). apply Nc, Hi. rewrite Eq. apply in_app_iff. right. exact Ic.
Qed.
Theorem cancel_pp o n k p : rp_canonical o n k p -> p <> [] -> exists r a, (do q <- rp_cancel o p; rp_pp o q) = Ok r /\ rp_canonical o n k r /\ primitive_q r /\ a <> 0%Qc /\ times a p r.
Proof.
  intros Cp Np. destruct (cancel_ok o n k p Cp Np) as (q & l & Eq & Cq & Pl & Tq & Iq & _). assert (Nq : q <> []). { rewrite Tq. destruct p; [contradiction|discriminate]. }
  destruct (pp_ok o n k q Cq Nq) as (r & a & Er & Cr & Na & Tr). exists r, (zc l * a)%Qc. rewrite Eq. cbn [bind]. split; [exact Er|]. split; [exact Cr|]. split; [exact (pp_integers o n k q r Cq Iq Er)|].
  split. { intro X. apply Na. assert (Y := zc_nz l ltac:(lia)). apply (qc_cancel _ _ (zc l) Y). rewrite Qcmult_0_l, <- X. ring. }
  unfold times in *. rewrite Tr, Tq, map_map. apply map_ext. intros [m c]. cbn [fst snd]. f_equal. ring.
Qed.
