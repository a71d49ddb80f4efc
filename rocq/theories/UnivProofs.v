(** Completion in one variable: no prolongation is lost. *)
From Coq Require Import ZArith List Bool Arith Lia Permutation Sorted.
From Verif Require Import Outcome MonomModel MonomSpec MonomProofs PolyModel PolySpec PolyProofs PolyRedProofs PolyNfProofs
  PolyTopProofs JanetModel JanetSpec JanetProofs JanetFindProofs CompletionProofs JanetPolyModel TQModel JanetPolySpec IdealProofs JanetPolyProofs
  TQProofs GrowthProofs JanetTermSpec JanetTermProofs JanetTermMain ShapeProofs.
Import ListNotations.
Local Open Scope Z_scope.

(* ------------------------------------------------------------------------------------------ *)
(** * Monomials in one variable *)

Lemma one_var m : mono 1 m -> pos m = -1 -> m = Mon (-1) [deg m].
Proof.
  intros [L _] P. destruct m as [p v]. cbn in *. subst p. destruct v as [|a [|b v]]; try discriminate. unfold deg. cbn. now rewrite Nat.add_0_r.
Qed.
Lemma deg_X d : deg (Mon (-1) [d]) = d.
Proof. unfold deg. cbn. apply Nat.add_0_r. Qed.
Lemma deg_inj a b : mono 1 a -> pos a = -1 -> mono 1 b -> pos b = -1 -> deg a = deg b -> a = b.
Proof. intros A A' B B' E. rewrite (one_var a A A'), (one_var b B B'). now rewrite E. Qed.
Lemma deg_vars m d : vars m = [d] -> deg m = d.
Proof. intro E. unfold deg. rewrite E. cbn. apply Nat.add_0_r. Qed.
Lemma vars_one m : length (vars m) = 1%nat -> vars m = [deg m].
Proof. intro L. unfold deg. destruct (vars m) as [|a [|b v]]; try discriminate. cbn. now rewrite Nat.add_0_r. Qed.

Lemma cmp_one t o a b : o <> OAlex -> mono 1 a -> pos a = -1 -> mono 1 b -> pos b = -1 -> (cmp1 t o a b = 1 <-> (deg b < deg a)%nat).
Proof.
  intros Ho Ma Pa Mb Pb. rewrite (cmp1_spec t o a b) by (eapply mono_size; eassumption). rewrite (one_var a Ma Pa), (one_var b Mb Pb), !deg_X. clear - Ho.
  assert (X : base_gt o [deg a] [deg b] <-> (deg b < deg a)%nat).
  { destruct o; [| |congruence]; cbn [base_gt].
    - split; [intros (k & K & _ & L); cbn in K; destruct k; [exact L|lia]|]. intro L. exists 0%nat. cbn. split; [lia|]. split; [intros; lia|exact L].
    - unfold degrevlex_gt. cbn. split; [|intro; left; lia]. intros [L|(E & k & K & _ & L)]; [lia|]. destruct k; [cbn in L; lia|lia]. }
  unfold module_gt. cbn [vars pos]. destruct t; rewrite X; split; try tauto; intros [L|L]; try tauto; lia.
Qed.

(* ------------------------------------------------------------------------------------------ *)
(** * Filtrations *)

Record filt (K : nat -> list term -> Prop) : Prop := {
  f_zero : forall d p, (forall m, coef p m = 0) -> K d p;
  f_lin : forall d f g h a b c, a <> 0 -> (forall m, a * coef h m = b * coef f m + c * coef g m) -> K d f -> K d g -> K d h;
  f_mono : forall d d' p, (d <= d')%nat -> K d p -> K d' p }.

Definition fT (K : nat -> list term -> Prop) (T : list entry) : Prop := forall e, In e T -> K (deg (fst e)) (terms (snd e)).
Definition fW (K : nat -> list term -> Prop) (l : list wpoly) : Prop := forall u, In u l -> K (deg (plm u)) (terms (wpol u)).
Definition covers (T : list entry) (d : nat) : Prop := exists e, In e T /\ (d <= deg (fst e))%nat.
Definition full (K : nat -> list term -> Prop) (T : list entry) : Prop := forall d p, ~ covers T d -> K d p.
Record adm (K : nat -> list term -> Prop) (T : list entry) : Prop := { ad_f : filt K; ad_full : full K T; ad_T : fT K T }.

Lemma covers_dec T d : covers T d \/ ~ covers T d.
Proof.
  induction T as [|e T IH]; [right; intros (x & [] & _)|]. destruct (Nat.le_gt_cases d (deg (fst e))) as [L|L].
  - left. exists e. split; [left; reflexivity|exact L].
  - destruct IH as [(x & Ix & L')|IH]; [left; exists x; split; [right; exact Ix|exact L']|]. right. intros (x & [<-|Ix] & L'); [lia|].
    apply IH. exists x. auto.
Qed.
Lemma covers_le T d d' : (d <= d')%nat -> covers T d' -> covers T d.
Proof. intros L (e & I & L'). exists e. split; [exact I|lia]. Qed.

Lemma fW_app K a b : fW K (a ++ b) <-> fW K a /\ fW K b.
Proof.
  unfold fW. split; [intro H; split; intros u I; apply H; apply in_or_app; auto|]. intros [A B] u I. apply in_app_or in I as [I|I]; auto.
Qed.
Lemma fW_cons K u l : fW K (u :: l) <-> K (deg (plm u)) (terms (wpol u)) /\ fW K l.
Proof. unfold fW. split; [intro H; split; [apply H; left; reflexivity|intros v I; apply H; right; exact I]|]. intros [A B] v [<-|I]; auto. Qed.
Lemma fW_perm K a b : Permutation a b -> fW K a -> fW K b.
Proof. intros P H u I. apply H. eapply Permutation_in; [apply Permutation_sym; exact P|exact I]. Qed.
Lemma fW_incl K a b : incl a b -> fW K b -> fW K a.
Proof. intros P H u I. apply H. apply P. exact I. Qed.

Lemma lin_f K d r f a : filt K -> lin r f a -> K d (terms r) -> K d (terms a) -> K d (terms f).
Proof.
  intros F (k1 & k2 & N & E) Kr Ka. apply (f_lin K F d (terms r) (terms a) (terms f) k1 1 (- k2) N); [|exact Kr|exact Ka].
  intro m. rewrite E. ring.
Qed.
Lemma scale_f K d p r g : filt K -> g <> 0 -> (forall m, coef (terms p) m = g * coef (terms r) m) -> (K d (terms r) <-> K d (terms p)).
Proof.
  intros F N E. split; intro H.
  - apply (f_lin K F d (terms r) (terms r) (terms p) 1 g 0); [lia| |exact H|exact H]. intro m. rewrite E. ring.
  - apply (f_lin K F d (terms p) (terms p) (terms r) g 1 0); [exact N| |exact H|exact H]. intro m. rewrite E. ring.
Qed.

Section P.
Variables (t : pos_order) (o : base_order) (G : list term -> Prop).
Hypothesis Ho : o <> OAlex.
Let Hn : (0 < 1)%nat := Nat.lt_0_1.

Notation good := (good t o 1 G).
Notation goodz := (goodz t o 1 G).
Notation okq := (okq t o 1 G).
Notation okt := (okt t o 1 G).
Notation tinv := (tinv t o 1 G).
Notation gw := (gw t o 1 G).
Notation okh := (okh t o 1 G).
Notation find1 J T := (find_poly false (-1) (Some [J]) T).

Lemma pp_f K d p r : filt K -> goodz p -> p_pp false p = Ok r -> (K d (terms r) <-> K d (terms p)).
Proof.
  intros F Hp E. destruct (p_pp_ok false p (proj1 Hp)) as (r' & g & E' & _ & _ & Hg & _ & C & _). rewrite E in E'. injection E' as <-.
  apply (scale_f K d p r g F Hg C).
Qed.
Lemma deg_lt p m x : goodz p -> hd p m -> In x (map fst (terms p)) -> x = m \/ (deg x < deg m)%nat.
Proof.
  intros Gp Hm Ix. destruct (hd_below t o 1 G p m x Gp Hm Ix) as [E|C]; [left; exact E|right].
  destruct (goodz_mono t o 1 G p x Gp Ix) as [Mx Px]. destruct (hd_mono t o 1 G p m Gp Hm) as [Mm Pm]. apply (cmp_one t o m x Ho Mm Pm Mx Px) in C. exact C.
Qed.
Lemma deg_le p m x : goodz p -> hd p m -> In x (map fst (terms p)) -> (deg x <= deg m)%nat.
Proof. intros Gp Hm Ix. destruct (deg_lt p m x Gp Hm Ix) as [->|L]; lia. Qed.

Lemma key_mono J T e : tinv J T -> In e T -> mono 1 (fst e) /\ pos (fst e) = -1.
Proof.
  intros H I. assert (Hg := ti_good _ _ _ _ _ _ H). rewrite Forall_forall in Hg. destruct (Hg e I) as [[Ge _] He]. exact (hd_mono t o 1 G _ _ Ge He).
Qed.
Lemma wrap_mono J T w : tinv J T -> In w (wraps (jroot J)) -> exists e, In e T /\ fst e = wlm w.
Proof.
  intros H I. assert (X : In (wlm w) (map fst T)) by (eapply Permutation_in; [apply (ti_perm _ _ _ _ _ _ H)|apply in_map; exact I]).
  apply in_map_iff in X as (e & E & Ie). eauto.
Qed.
Lemma entry_wrap J T e : tinv J T -> In e T -> exists w, In w (wraps (jroot J)) /\ wlm w = fst e.
Proof.
  intros H I. assert (X : In (fst e) (map wlm (wraps (jroot J)))) by (eapply Permutation_in; [apply Permutation_sym, (ti_perm _ _ _ _ _ _ H)|apply in_map; exact I]).
  apply in_map_iff in X as (w & E & Iw). eauto.
Qed.

Lemma nm_one J T w : tinv J T -> In w (wraps (jroot J)) -> (janet_nm (lms (wraps (jroot J))) (lv w) 0 <-> covers T (S (deg (wlm w)))).
Proof.
  intros H I. destruct (wrap_mono J T w H I) as (e0 & I0 & E0). destruct (key_mono J T e0 H I0) as [M0 P0]. rewrite E0 in M0.
  assert (Ev : lv w = [deg (wlm w)]) by (apply vars_one; apply M0). rewrite Ev. split.
  - intros (v & Iv & _ & L). unfold lms in Iv. apply in_map_iff in Iv as (u & <- & Iu). destruct (wrap_mono J T u H Iu) as (e & Ie & Ee).
    destruct (key_mono J T e H Ie) as [Me _]. rewrite Ee in Me. exists e. split; [exact Ie|]. rewrite Ee. unfold lv in L. rewrite (vars_one (wlm u)) in L by apply Me. cbn in L. lia.
  - intros (e & Ie & L). destruct (entry_wrap J T e H Ie) as (u & Iu & Eu). destruct (key_mono J T e H Ie) as [Me _]. exists (lv u). split; [apply in_map; exact Iu|].
    split; [intros j Hj; lia|]. unfold lv. rewrite Eu, (vars_one (fst e)) by apply Me. cbn. lia.
Qed.

Lemma exact_div J T u m : tinv J T -> In u (wraps (jroot J)) -> janet_divides 1 (lms (wraps (jroot J))) (lv u) (vars m) -> mono 1 m -> pos m = -1 ->
  covers T (deg m) -> wlm u = m.
Proof.
  intros H Iu (_ & D & N) Mm Pm (e & Ie & L). destruct (wrap_mono J T u H Iu) as (e0 & I0 & E0). destruct (key_mono J T e0 H I0) as [M0 P0]. rewrite E0 in M0, P0.
  assert (D0 := D 0%nat Hn). assert (N0 := N 0%nat Hn). rewrite (nm_one J T u H Iu) in N0. unfold lv in D0, N0. rewrite (vars_one (wlm u)), (vars_one m) in D0, N0 by (apply M0 || apply Mm). cbn in D0, N0.
  apply deg_inj; try assumption. destruct (Nat.lt_ge_cases (deg (wlm u)) (deg m)) as [L'|L']; [|lia]. exfalso. apply (N0 L'). exists e. split; [exact Ie|lia].
Qed.

Lemma lookup_some (T : list entry) k a : lookup T k = Some a -> exists k', In (k', a) T /\ same_key k' k = true.
Proof.
  induction T as [|[k' p] T IH]; cbn [lookup]; [discriminate|]. destruct (same_key k' k) eqn:E.
  - intro X. injection X as ->. exists k'. split; [left; reflexivity|exact E].
  - intro X. destruct (IH X) as (k2 & I & E2). exists k2. split; [right; exact I|exact E2].
Qed.

Lemma find_exact J T T0 m a : tinv J T -> incl T0 T -> mono 1 m -> pos m = -1 -> covers T (deg m) -> find1 J T0 m = Ok (Some a) -> In (m, a) T0.
Proof.
  intros H Inc Mm Pm C E. unfold find_poly in E. destruct (find_wrap_ok 1 Hn J m (ti_inv _ _ _ _ _ _ H) Mm) as (r & Er & R). rewrite Er in E. cbn [bind] in E.
  destruct r as [u|]; [|discriminate]. destruct R as (_ & Iu & D). destruct (lookup T0 (wlm u)) as [b|] eqn:El; [|discriminate]. injection E as ->.
  apply lookup_some in El as (k & Ik & Ek). assert (Eu := exact_div J T u m H Iu D Mm Pm C). rewrite Eu in Ek.
  destruct (key_mono J T (k, a) H (Inc _ Ik)) as [Mk _]. cbn [fst] in Mk. apply same_key_spec in Ek; [|destruct Mk, Mm; congruence]. congruence.
Qed.

(* ------------------------------------------------------------------------------------------ *)
(** * Normal forms *)

Lemma nf_K K J T : tinv J T -> adm K T -> forall fuel p d r0 r k, goodz p -> (forall m, hd p m -> (deg m <= d)%nat) ->
  nf_loop fuel false (find1 J T) r0 p = Ok (r, k) -> (forall m, hd r m -> K (deg m) (terms r)) -> K d (terms p).
Proof.
  intros H [F Fu FT]. induction fuel as [|fuel IH]; intros p d r0 r k Gp Dp E Kr.
  all: destruct (covers_dec T d) as [C|C]; [|apply Fu; exact C].
  all: cbn [nf_loop] in E; destruct (terms p) as [|[m c] l] eqn:Ep; [apply (f_zero K F); reflexivity|]; rewrite <- Ep.
  all: assert (Hm : hd p m) by (exists c, l; exact Ep); destruct (hd_mono t o 1 G p m Gp Hm) as [Mm Pm]; assert (Dm := Dp m Hm).
  all: destruct (find1 J T m) as [w| | | |] eqn:Ef; cbn [bind] in E; try discriminate; destruct w as [a|]; try discriminate.
  1,3: injection E as <- _; apply (f_mono K F (deg m)); [exact Dm|apply Kr; exact Hm].
  assert (Ia := find_exact J T T m a H (incl_refl T) Mm Pm (covers_le T _ _ Dm C) Ef).
  assert (Hg := ti_good _ _ _ _ _ _ H). rewrite Forall_forall in Hg. destruct (Hg _ Ia) as [Ga Ha]. cbn [fst snd] in Ga, Ha.
  destruct (good_reduction t o 1 G Hn p a m) as (r1 & E1 & G1 & L1 & _ & B1); [split; [exact Gp|eapply hd_nz; exact Hm]|exact Ga|exact Hm|exact Ha|].
  rewrite E1 in E. cbn [bind] in E. apply (lin_f K d r1 p a F L1).
  - apply (IH r1 d (S r0) r k G1); [|exact E|exact Kr]. intros x Hx. assert (B := B1 x (hd_in _ _ Hx)). destruct B as (Mx & _ & Gx).
    destruct (hd_mono t o 1 G r1 x G1 Hx) as [_ Px]. 
    apply (cmp_one t o m x Ho Mm Pm Mx Px) in Gx. lia.
  - apply (f_mono K F (deg m)); [exact Dm|]. exact (FT _ Ia).
Qed.

Lemma nft_K K J T T0 lm : tinv J T -> incl T0 T -> filt K -> covers T (deg lm) -> mono 1 lm -> pos lm = -1 ->
  (forall e, In e T0 -> (deg (fst e) < deg lm)%nat -> K (deg (fst e)) (terms (snd e))) ->
  forall fuel p pre rest d r0 r k, goodz (with_terms p (pre ++ rest)) -> head_mon pre = Some lm -> (deg lm <= d)%nat ->
  nft_loop fuel false (find1 J T0) r0 p pre rest = Ok (r, k) -> (K d (terms r) <-> K d (pre ++ rest)).
Proof.
  intros H Inc F C Ml Pl FT. induction fuel as [|fuel IH]; intros p pre rest d r0 r k Gp Hd Dd E; cbn [nft_loop] in E; destruct rest as [|[m c] rest].
  1,3: injection E as <- _; cbn [terms with_terms]; rewrite app_nil_r; tauto.
  { discriminate. }
  assert (Im : In m (map fst (terms (with_terms p (pre ++ (m, c) :: rest))))).
  { cbn [terms with_terms]. rewrite map_app. apply in_or_app. right. left. reflexivity. }
  destruct (goodz_mono t o 1 G _ m Gp Im) as [Mm Pm].
  assert (Hl : hd (with_terms p (pre ++ (m, c) :: rest)) lm).
  { destruct pre as [|[u d'] pre]; [discriminate|]. cbn [head_mon fst] in Hd. injection Hd as ->. exists d'. eexists. reflexivity. }
  assert (Lm : (deg m < deg lm)%nat).
  { apply (cmp_one t o lm m Ho Ml Pl Mm Pm). destruct Gp as (V & I & _). apply canonical_iff in V as (S & _ & _). cbn [with_terms terms pto pbo] in S. destruct I as (_ & A2 & A3). cbn [pto pbo with_terms] in A2, A3. rewrite A2, A3 in S.
    destruct pre as [|[u d'] pre]; [discriminate|]. cbn [head_mon fst] in Hd. injection Hd as ->.
    apply (sorted_below t o) in S as [B _]. unfold below in B. rewrite Forall_forall in B. apply (B (m, c)). apply in_or_app. right. left. reflexivity. }
  destruct (find1 J T0 m) as [w| | | |] eqn:Ef; cbn [bind] in E; try discriminate. destruct w as [a|].
  2:{ apply IH with (d := d) in E; [|rewrite <- app_assoc; exact Gp|destruct pre; [discriminate|exact Hd]|exact Dd]. rewrite <- app_assoc in E. exact E. }
  assert (Ia := find_exact J T T0 m a H Inc Mm Pm (covers_le T _ _ (Nat.lt_le_incl _ _ Lm) C) Ef).
  assert (Hg := ti_good _ _ _ _ _ _ H). rewrite Forall_forall in Hg. destruct (Hg _ (Inc _ Ia)) as [Ga (d0 & a' & Ea)]. cbn [fst snd] in *.
  destruct (red_tail_ok false (with_terms p (pre ++ (m, c) :: rest)) a pre m c rest m d0 a') as (k1 & k2 & u & l & Er & V1 & N1 & _ & _ & Lu & Eu & Ec & _).
  { apply Gp. } { apply Ga. } { apply comparable_eq. destruct Gp as (_ & (A1 & A2 & A3) & _), Ga as ((_ & (B1 & B2 & B3) & _) & _). split; [|split]; congruence. }
  { reflexivity. } { exact Ea. } { split; [right; reflexivity|]. split; [reflexivity|]. intro; lia. } { split; [rewrite Pm; apply Ga|discriminate]. }
  change (red_tail false p pre ((m, c) :: rest) a = Ok (scale k1 pre, l)) in Er. rewrite Er in E. cbn [bind] in E.
  cbn [terms with_terms psize] in Ec, Lu. change (pvalid (with_terms p (scale k1 pre ++ l))) in V1.
  assert (Eu0 : u = repeat 0%nat 1).
  { apply (mprod_cancel 1 Hn) in Eu; [|destruct Mm as [Lm' _]; rewrite Lu, Lm'; apply Gp]. destruct Mm as [Lm' _]. now rewrite Lm' in Eu. }
  assert (Ec' : forall w, coef (scale k1 pre ++ l) w = k1 * coef (pre ++ (m, c) :: rest) w + k2 * coef (terms a) w).
  { intro w. rewrite Ec, Eu0, (shift_unit 1); [reflexivity|]. assert (Ca := goodz_canon _ _ _ _ _ (proj1 Ga)). apply canonical_iff in Ca. tauto. }
  destruct (lin_good t o 1 G Hn (with_terms p (pre ++ (m, c) :: rest)) a (with_terms p (scale k1 pre ++ l)) k1 k2 Gp (proj1 Ga) V1) as [G1 _]; [repeat split|exact Ec'|].
  apply IH with (d := d) in E; [|exact G1|rewrite head_scale; exact Hd|exact Dd]. rewrite E.
  assert (Ka : K d (terms a)) by (apply (f_mono K F (deg m)); [lia|exact (FT _ Ia Lm)]).
  split; intro X.
  - apply (f_lin K F d (scale k1 pre ++ l) (terms a) _ k1 1 (- k2) N1); [|exact X|exact Ka]. intro w. rewrite Ec'. ring.
  - apply (f_lin K F d (pre ++ (m, c) :: rest) (terms a) _ 1 k1 k2); [lia| |exact X|exact Ka]. intro w. rewrite Ec'. ring.
Qed.

Lemma nfTail_K K J T T0 lm fuel p d r k : tinv J T -> incl T0 T -> filt K -> covers T (deg lm) ->
  (forall e, In e T0 -> (deg (fst e) < deg lm)%nat -> K (deg (fst e)) (terms (snd e))) ->
  goodz p -> hd p lm -> (deg lm <= d)%nat -> p_nfTail fuel false (find1 J T0) p = Ok (r, k) -> (K d (terms r) <-> K d (terms p)).
Proof.
  intros H Inc F C FT Gp Hl Dd E. destruct (hd_mono t o 1 G p lm Gp Hl) as [Ml Pl]. unfold p_nfTail in E. destruct Hl as (c & l & El). rewrite El in E |- *.
  apply (nft_K K J T T0 lm H Inc F C Ml Pl FT fuel p [(lm, c)] l d 0%nat r k); [|reflexivity|exact Dd|exact E]. cbn [app]. rewrite <- El, with_same. exact Gp.
Qed.
End P.
