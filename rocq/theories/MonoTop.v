(** Systems of monomials: what completion computes, for all histories of an object. *)
From Coq Require Import ZArith List Bool Arith Lia Permutation Sorted.
From Verif Require Import Outcome MonomModel MonomSpec MonomProofs PolyModel PolySpec PolyProofs PolyRedProofs PolyNfProofs
  PolyTopProofs CythonProofs JanetModel JanetSpec JanetProofs JanetFindProofs CompletionProofs JanetPolyModel TQModel JanetPolySpec IdealProofs JanetPolyProofs
  TQProofs JanetPolyTop JanetTermSpec JanetTermProofs JanetTermMain JanetTermTop ShapeProofs
  InvolutiveProofs InvolutiveTop NormalSpec NormalProofs NormalTop AncProofs AncTop LinProofs LinTop LinSol MonoSpec MonoProofs MonoMain.
Import ListNotations.
Local Open Scope Z_scope.

(* ------------------------------------------------------------------------------------------ *)
(** * Ideals of monomials *)

Lemma single_cases t o n f : ring_input t o n f -> single f -> terms f <> [] -> exists c, terms f = [(Mon (-1) (lead f), c)] /\ c <> 0 /\ length (lead f) = n.
Proof.
  intros R S N. unfold single in S. destruct R as (V & E1 & E2 & E3 & R). unfold valid_poly in V. rewrite E1, E2, E3 in V.
  apply canonical_iff in V as (_ & M & Z). unfold lead. destruct (terms f) as [|[m c] [|x l]]; [congruence| |cbn in S; lia].
  exists c. assert (Rm := Forall_inv R). assert (Mm := Forall_inv M). assert (Zm := Forall_inv Z). cbn [fst snd] in *. destruct m as [p v]. cbn [pos vars] in *. subst p.
  split; [reflexivity|]. split; [exact Zm|]. apply Mm.
Qed.

Lemma coef1 m c : coef [(m, c)] m = c.
Proof. cbn. destruct (monom_eq_dec m m); [lia|congruence]. Qed.
Lemma mono_member t o n F p : Forall (ring_input t o n) F -> Forall single F -> rational_member n (among F) p -> monomials_divisible n F p.
Proof.
  intros R S (k & q & Nk & C & E).
  assert (X : monomials_divisible n F q).
  { clear E. induction C as [p0 Z|p0 r u g c _ IH (f & If & <-) Lu E]; intros m Nz; [destruct (Nz (Z m))|].
    destruct (Z.eq_dec (coef r m) 0) as [Z0|Z0]; [|exact (IH m Z0)]. rewrite Forall_forall in R, S.
    destruct (terms f) as [|x l] eqn:Ef; [cbn in E; rewrite E, Z0 in Nz; lia|].
    destruct (single_cases t o n f (R f If) (S f If)) as (d & Ed & _ & Lf); [congruence|]. rewrite <- Ef, Ed in E.
    exists f. split; [exact If|]. split; [congruence|]. cbn [shift map fst snd coef] in E. rewrite E, Z0 in Nz.
    destruct (monom_eq_dec _ m) as [<- |N]; [|lia]. unfold mprod. cbn [vars pos]. intros i _. rewrite vsum_addv, expo_addv by congruence. lia. }
  intros m Nz. apply X. rewrite E. intro Z. apply Z.eq_mul_0 in Z as [Z|Z]; contradiction.
Qed.

Lemma divisible_mem t o n F p : Forall (ring_input t o n) F -> Forall single F -> ring_poly p -> monos n p ->
  (forall m c, In (m, c) p -> exists g, In g F /\ terms g <> [] /\ divides n (lead g) (vars m)) -> rational_member n (among F) p.
Proof.
  intros R S. induction p as [|[m c] p IH]; intros Rp Mp D; [apply mem_zero; reflexivity|].
  assert (M1 : rational_member n (among F) p) by (apply IH; [exact (Forall_inv_tail Rp)|exact (Forall_inv_tail Mp)|intros m' c' I; apply (D m' c'); right; exact I]).
  destruct (D m c (or_introl eq_refl)) as (g & Ig & Ng & Dg). assert (R' := R). assert (S' := S). rewrite Forall_forall in R', S'.
  destruct (single_cases t o n g (R' g Ig) (S' g Ig) Ng) as (d & Ed & Nd & Lg).
  assert (Lm : length (vars m) = n) by (apply (Forall_inv Mp)). assert (Pm : pos m = -1) by exact (Forall_inv Rp).
  assert (Em : m = Mon (-1) (vars m)) by (rewrite <- Pm; destruct m; reflexivity).
  assert (Es : addv (subv (vars m) (lead g)) (lead g) = vars m).
  { apply expo_ext; [rewrite addv_length; rewrite !subv_length; lia|]. rewrite addv_length by (rewrite subv_length; lia). rewrite subv_length by lia. intros i Hi.
    rewrite expo_addv by (rewrite subv_length; lia). rewrite expo_subv by lia. assert (X := Dg i ltac:(lia)). lia. }
  assert (M2 : rational_member n (among F) (shift (subv (vars m) (lead g)) (terms g))).
  { apply mem_shift; [rewrite subv_length; lia|]. apply mem_gen; [exists g; auto|]. eapply ring_input_monos. exact (R' g Ig). }
  apply (mem_div n _ (scale c (shift (subv (vars m) (lead g)) (terms g)) ++ scale d p) _ d Nd).
  - apply (mem_lin n _ _ _ _ c d M2 M1). intro x. rewrite coef_app, !coef_scale. lia.
  - intro x. rewrite coef_app, !coef_scale. rewrite Ed. cbn [shift map fst snd coef]. unfold mprod. cbn [vars pos]. rewrite vsum_addv, Es.
    change (Mon (if -1 =? -1 then -1 else -1) (vars m)) with (Mon (-1) (vars m)). rewrite <- Em.
    destruct (monom_eq_dec m x); lia.
Qed.

Lemma divides_trans n u v w : divides n u v -> divides n v w -> divides n u w.
Proof. intros A B i Hi. assert (X := A i Hi). assert (Y := B i Hi). lia. Qed.
Lemma divides_both n u v : length u = n -> length v = n -> divides n u v -> divides n v u -> u = v.
Proof. intros Lu Lv A B. apply expo_ext; [congruence|]. intros i Hi. assert (X := A i ltac:(lia)). assert (Y := B i ltac:(lia)). lia. Qed.

Section P.
Variables (t : pos_order) (o : base_order) (n : nat).
Hypothesis (Hn : (0 < n)%nat) (Ho : o <> OAlex).
Notation A := (fun _ : list term => True).

(* ------------------------------------------------------------------------------------------ *)
(** * Histories *)

Section X.
Variable Bx : list nat -> Prop.
Hypothesis HBx : forall v w k, Bx v -> Bx w -> length v = n -> length w = n -> (k < n)%nat -> (expo v k < expo w k)%nat -> Bx (incr k v).
Notation flat := (MonoProofs.flat Bx).
Notation fw := (MonoProofs.fw Bx).
Notation ft := (MonoProofs.ft Bx).
Notation linv := (MonoMain.linv t o n Bx).
Notation lout := (MonoMain.lout t o n Bx).

Lemma start_mono F J : jp_history false t o n F J -> jone J = None -> fw (jq J) -> ft (jt J) -> linv (start J).
Proof.
  intros H E Fq Ft. destruct (start_trees t o n Hn Ho F J H E) as (js & E1 & E2 & _ & E4). assert (S := state_of t o n Hn Ho F J H).
  destruct (start_cases t o n A J S) as [(w & X & _)|((Ja & Ej & Hi & Q) & _)]; [congruence|].
  assert (Et : jt (set_pos J) = jt J) by (unfold set_pos; destruct (jpos J <? q_pos (jq J)); reflexivity).
  unfold start in *. cbv zeta in *. rewrite E1, E2, Et in *. cbn [fst snd] in *. exists Ja. auto 10.
Qed.

Lemma run_mono (R : nat -> rstate -> outcome (rstate + jpoly)) (run : nat -> rstate -> outcome jpoly) :
  (forall fuel s, run (Datatypes.S fuel) s = do r <- R (Datatypes.S fuel) s; match r with inl s' => run fuel s' | inr J => Ok J end) ->
  (forall s J, run 0%nat s = Ok J -> R 0%nat s = Ok (inr J)) ->
  (forall fuel s r, linv s -> R fuel s = Ok r -> lout r) -> forall fuel s J, linv s -> run fuel s = Ok J -> lout (inr J).
Proof.
  intros Er E0 K. induction fuel as [|fuel IH]; intros s J H E.
  - apply E0 in E. apply (K _ _ _ H E).
  - rewrite Er in E. destruct (R (Datatypes.S fuel) s) as [r| | | |] eqn:Es; cbn [bind] in E; try discriminate.
    assert (X := K _ _ _ H Es). destruct r as [s'|J'].
    + apply (IH s' J X E).
    + injection E as <-. exact X.
Qed.

Lemma history_mono F J : jp_history false t o n F J -> Forall (fun f => flat (terms f)) F -> jone J = None -> fw (jq J) /\ ft (jt J).
Proof.
  induction 1 as [|F J a J' H IH Ra E|F J fuel J' H IH E|F J one fuel J' H IH E]; intros LF On'.
  - split; constructor.
  - unfold jp_push, assert_ in E. cbn [andb] in E. destruct (jone J) as [w|] eqn:Eo; [injection E as <-; congruence|]. destruct (IH (Forall_inv_tail LF) eq_refl) as [I1 I2].
    destruct (is_zero a); [injection E as <-; auto|].
    bnd E. bnd E. bnd E. injection E as <-. cbn [jq jt]. split; [|exact I2]. apply jp_insert_perm in Ev1. rewrite copy_ok in Ev0. injection Ev0 as <-.
    eapply fw_perm; [apply Permutation_sym; exact Ev1|]. constructor; [cbn [wpol]; exact (Forall_inv LF)|exact I1].
  - destruct (jone J) as [w|] eqn:Eo; [unfold jp_build in E; rewrite Eo in E; injection E as <-; congruence|]. destruct (IH LF eq_refl) as [I1 I2].
    assert (L := start_mono F J H Eo I1 I2). destruct (start_cases t o n A J (state_of t o n Hn Ho F J H)) as [(w & E1 & X)|(_ & X & _)]; [congruence|]. rewrite X in E.
    assert (Y := run_mono _ block_run block_run_eq block_zero (block_round_flat t o n Hn Ho Bx HBx) fuel (start J) J' L E). cbn [MonoMain.lout] in Y.
    destruct Y as [Y|[Y1 Y2]]; [congruence|]. rewrite Y2. split; [constructor|exact Y1].
  - destruct (jone J) as [w|] eqn:Eo; [unfold jp_tq in E; rewrite Eo in E; injection E as <-; congruence|]. destruct (IH LF eq_refl) as [I1 I2].
    assert (L := start_mono F J H Eo I1 I2). destruct (start_cases t o n A J (state_of t o n Hn Ho F J H)) as [(w & E1 & X)|(_ & _ & X)]; [congruence|]. rewrite X in E.
    assert (Y := run_mono _ (tq_run one) (tq_run_eq one) (tq_zero one) (tq_round_flat t o n Hn Ho Bx HBx one) fuel (start J) J' L E). cbn [MonoMain.lout] in Y.
    destruct Y as [Y|[Y1 Y2]]; [congruence|]. rewrite Y2. split; [constructor|exact Y1].
Qed.
End X.

(** The monomials that can occur. *)
Definition BF (F : list poly) (v : list nat) : Prop := length v = n /\ bounded_multiple n F v.
Lemma expo_incr' k v i : (k < length v)%nat -> expo (incr k v) i = if (i =? k)%nat then Datatypes.S (expo v i) else expo v i.
Proof. intro H. rewrite CompletionProofs.incr_expo' by exact H. destruct (Nat.eqb_spec i k); reflexivity. Qed.
Lemma BF_step F v w k : BF F v -> BF F w -> length v = n -> length w = n -> (k < n)%nat -> (expo v k < expo w k)%nat -> BF F (incr k v).
Proof.
  intros [_ [(f & If & Nf & Df) Bv]] [_ [_ Bw]] Lv Lw Hk Lt. split; [rewrite incr_length; exact Lv|]. split.
  - exists f. split; [exact If|]. split; [exact Nf|]. intros i Hi. assert (X := Df i Hi). rewrite expo_incr' by lia. destruct (i =? k)%nat; lia.
  - intros i Hi. rewrite expo_incr' by lia. destruct (Nat.eqb_spec i k) as [-> |N]; [|exact (Bv i Hi)].
    destruct (Bw k Hk) as (g & Ig & Ng & Le). exists g. split; [exact Ig|]. split; [exact Ng|]. lia.
Qed.
Lemma BF_start F : Forall (ring_input t o n) F -> Forall single F -> Forall (fun f => flat (BF F) (terms f)) F.
Proof.
  intros R S. apply Forall_forall. intros f If. rewrite Forall_forall in R, S. unfold flat.
  destruct (terms f) as [|x l] eqn:E; [split; cbn; tauto|]. destruct (single_cases t o n f (R f If) (S f If)) as (c & Ec & _ & L); [congruence|].
  rewrite <- E, Ec. cbn [map fst]. split; [intros x0 y [<-|[]] [<-|[]]; reflexivity|]. intros x0 [<-|[]]. cbn [vars]. split; [exact L|]. split.
  - exists f. split; [exact If|]. split; [congruence|]. intros i _. lia.
  - intros i _. exists f. split; [exact If|]. split; [congruence|lia].
Qed.

Section H.
Variables (F : list poly) (J : jpoly).
Hypothesis (H : jp_history false t o n F J) (SF : Forall single F).
Notation RF := (hist_ring t o n F J H).

Lemma c93_elem g : In g (basis J) -> exists c, terms g = [(Mon (-1) (lead g), c)] /\ c <> 0 /\ length (lead g) = n /\ bounded_multiple n F (lead g).
Proof.
  intro Ig. assert (S := state_of t o n Hn Ho F J H). destruct (c39_members t o n F J g Hn Ho H Ig) as (Rg & Ng & Mg).
  assert (D := mono_member t o n F _ RF SF Mg). destruct (jstate_basis _ _ _ _ _ _ S Ig) as [Zg _].
  assert (Sg : single g /\ forall i, (i < n)%nat -> exists f, In f F /\ terms f <> [] /\ (expo (lead g) i <= expo (lead f) i)%nat).
  { unfold jstate, basis in *. destruct (jone J) as [w|] eqn:Eo.
    - destruct Ig as [<-|[]]. destruct S as ((_ & E) & _). unfold single, lead. rewrite E. unfold one in *. split; [cbn; lia|]. intros i Hi. cbn [vars]. rewrite expo_zs.
      destruct (D (Mon (-1) (repeat 0%nat n))) as (f & If & Nf & _); [rewrite E, coef1; lia|]. exists f. split; [exact If|]. split; [exact Nf|lia].
    - destruct (history_mono (BF F) (BF_step F) F J H (BF_start F RF SF) Eo) as [_ X]. apply in_map_iff in Ig as (e0 & <- & Ie). unfold MonoProofs.ft in X. rewrite Forall_forall in X.
      destruct (X e0 Ie) as [X1 X2]. split.
      + assert (Gg : JanetPolyProofs.good t o n A (snd e0)).
        { split; assumption. }
        destruct (flat_one t o n Hn (BF F) (snd e0) Gg (X e0 Ie)) as (m & c & E). unfold single. rewrite E. cbn. lia.
      + unfold lead in *. destruct (terms (snd e0)) as [|[m c] l]; [congruence|]. destruct (X2 m (or_introl eq_refl)) as [_ [_ Y]]. exact Y. }
  destruct Sg as [Sg Bg]. destruct (single_cases t o n g Rg Sg Ng) as (c & Ec & Nc & L). exists c. split; [exact Ec|]. split; [exact Nc|]. split; [exact L|]. split; [|exact Bg].
  destruct (D (Mon (-1) (lead g))) as (f & If & Nf & Df); [rewrite Ec, coef1; exact Nc|]. exists f. auto.
Qed.

Lemma total_le v M : (forall i, (i < length v)%nat -> (expo v i <= M)%nat) -> (total v <= length v * M)%nat.
Proof.
  induction v as [|x v IH]; intro B; cbn; [lia|]. assert (B0 := B 0%nat). cbn in B0. assert (X := IH ltac:(intros i Hi; apply (B (Datatypes.S i)); cbn; lia)). cbn in X. lia.
Qed.
Definition maxt : nat := list_max (map (fun f => total (lead f)) F).
Lemma maxt_ok f : In f F -> (total (lead f) <= maxt)%nat.
Proof. intro I. assert (X := list_max_le (map (fun f => total (lead f)) F) maxt). destruct X as [X _]. assert (Y := X (le_n _)). rewrite Forall_forall in Y. apply Y. exact (in_map (fun f => total (lead f)) F f I). Qed.
Lemma BF_total v : BF F v -> (total v <= n * maxt)%nat.
Proof.
  intros [L [_ B]]. rewrite <- L at 1. apply total_le. intros i Hi. destruct (B i ltac:(lia)) as (f & If & _ & Le). assert (X := maxt_ok f If). assert (Y := expo_total (lead f) i). lia.
Qed.

Lemma c93_ends : ends (fun fuel => jp_build fuel false J) /\ forall one, ends (fun fuel => jp_tq one fuel false J).
Proof.
  destruct (jone J) as [w|] eqn:Eo.
  { split; [|intro one0]; exists 0%nat, J; intros fuel _; [unfold jp_build|unfold jp_tq]; rewrite Eo; reflexivity. }
  destruct (history_mono (BF F) (BF_step F) F J H (BF_start F RF SF) Eo) as [I1 I2]. assert (L := start_mono (BF F) F J H Eo I1 I2).
  assert (No : forall s e0, MonoMain.linv t o n (BF F) s -> In e0 (snd s) -> ~ (n * maxt < total (lead (snd e0)))%nat).
  { intros s e0 (_ & _ & _ & _ & _ & Fs) Ie Lt. unfold MonoProofs.ft in Fs. rewrite Forall_forall in Fs. destruct (Fs e0 Ie) as [_ X]. unfold lead in Lt.
    destruct (terms (snd e0)) as [|[m c] l]; [cbn in Lt; lia|]. assert (Y := BF_total _ (X m (or_introl eq_refl))). lia. }
  destruct (c80_growth t o n F J (n * maxt) Hn Ho H) as [B T]. split; [|intro one0].
  - destruct B as [B|(s & e0 & R & Ie & Lt)]; [exact B|]. exfalso. refine (No s e0 _ Ie Lt). exact (rounds_flat t o n (BF F) _ (block_round_flat t o n Hn Ho (BF F) (BF_step F)) _ _ R L).
  - destruct (T one0) as [B1|(s & e0 & R & Ie & Lt)]; [exact B1|]. exfalso. refine (No s e0 _ Ie Lt). exact (rounds_flat t o n (BF F) _ (tq_round_flat t o n Hn Ho (BF F) (BF_step F) one0) _ _ R L).
Qed.
Lemma c93_total :
  (exists N J', (forall fuel, (N <= fuel)%nat -> jp_build fuel false J = Ok J') /\ jq J' = []) /\
  forall one, exists N J', (forall fuel, (N <= fuel)%nat -> jp_tq one fuel false J = Ok J') /\ jq J' = [].
Proof.
  assert (HS := proj1 (history_state t o n F J Hn Ho H)). destruct c93_ends as [(N & J' & E) X]. split; [|intro one].
  - exists N, J'. split; [exact E|]. assert (E' := E N (le_n N)).
    assert (Y := build_ok t o n (among F) Hn Ho N J HS). rewrite E' in Y. apply Y.
  - destruct (X one) as (N1 & J1 & E1). exists N1, J1. split; [exact E1|]. assert (E' := E1 N1 (le_n N1)).
    assert (Y := tq_ok t o n (among F) Hn Ho one N1 J HS). rewrite E' in Y. apply Y.
Qed.

Lemma B_ring : Forall (ring_input t o n) (basis J).
Proof. apply Forall_forall. intros g Ig. apply (basis_ok t o n Hn Ho F J H g Ig). Qed.
Lemma B_single : Forall single (basis J).
Proof. apply Forall_forall. intros g Ig. destruct (c93_elem g Ig) as (c & E & _). unfold single. rewrite E. cbn. lia. Qed.

Lemma c93_generators f : jq J = [] -> minimal n F f -> exists g, In g (basis J) /\ lead g = lead f.
Proof.
  intros Q (If & Nf & Mf). assert (R := RF). assert (S := SF). rewrite Forall_forall in R, S. destruct (single_cases t o n f (R f If) (S f If) Nf) as (c & E & Nc & L).
  destruct (mono_member t o n _ _ B_ring B_single (done_same_ideal t o n F J f Hn Ho H Q If) (Mon (-1) (lead f))) as (g & Ig & Ng & Dg); [rewrite E, coef1; exact Nc|]. cbn [vars] in Dg.
  exists g. split; [exact Ig|]. destruct (c93_elem g Ig) as (d & _ & _ & Lg & (f' & If' & Nf' & Df') & _).
  assert (X := Mf f' If' Nf' (divides_trans n _ _ _ Df' Dg)). rewrite X in Df'. apply (divides_both n); assumption.
Qed.

Lemma c93_ideal p : jq J = [] -> ring_input t o n p -> (rational_member n (among F) (terms p) <-> monomials_divisible n (basis J) (terms p)).
Proof.
  intros Q Rp. split.
  - intro M. apply (mono_member t o n _ _ B_ring B_single). revert M. apply mem_trans. intros g (f & If & <-). exact (done_same_ideal t o n F J f Hn Ho H Q If).
  - intro D. eapply mem_trans; [|apply (divisible_mem t o n (basis J) (terms p) B_ring B_single); [apply Rp|eapply ring_input_monos; exact Rp|]].
    + intros g (b & Ib & <-). apply (c39_members t o n F J b Hn Ho H Ib).
    + intros m c I. apply D. destruct Rp as (V & E1 & E2 & E3 & _). unfold valid_poly in V. rewrite E1, E2, E3 in V. destruct (canonical_coef t o n _ m c V I) as [-> X]. exact X.
Qed.

(** All exponent vectors below D. *)
Fixpoint box (D : list nat) : list (list nat) := match D with [] => [[]] | d :: D' => flat_map (fun x => map (cons x) (box D')) (seq 0 (Datatypes.S d)) end.
Lemma box_length D : length (box D) = fold_right (fun d k => (Datatypes.S d * k)%nat) 1%nat D.
Proof.
  induction D as [|d D IH]; [reflexivity|]. cbn [box fold_right]. rewrite <- IH. assert (X : forall l, length (flat_map (fun x : nat => map (cons x) (box D)) l) = (length l * length (box D))%nat).
  { induction l as [|x l IHl]; [reflexivity|]. cbn. rewrite app_length, map_length, IHl. reflexivity. }
  rewrite X, seq_length. reflexivity.
Qed.
Lemma in_box D : forall v, length v = length D -> (forall i, (i < length D)%nat -> (expo v i <= expo D i)%nat) -> In v (box D).
Proof.
  induction D as [|d D IH]; intros [|x v] L B; try discriminate; cbn [box]; [left; reflexivity|]. apply in_flat_map. exists x. split.
  - apply in_seq. assert (X := B 0%nat). cbn in X. lia.
  - apply in_map. apply IH; [cbn in L; lia|]. intros i Hi. apply (B (Datatypes.S i)). cbn. lia.
Qed.
Lemma c93_size D : length D = n -> (forall f i, In f F -> (i < n)%nat -> (expo (lead f) i <= expo D i)%nat) ->
  (length (basis J) <= fold_right (fun d k => (Datatypes.S d * k)%nat) 1%nat D)%nat.
Proof.
  intros LD BD. rewrite <- (map_length lead), <- box_length. apply NoDup_incl_length; [exact (c39_distinct t o n F J Hn Ho H)|].
  intros u I. apply in_map_iff in I as (g & <- & Ig). destruct (c93_elem g Ig) as (c & _ & _ & L & _ & B). apply in_box; [congruence|].
  intros i Hi. rewrite LD in Hi. destruct (B i Hi) as (f & If & _ & Le). assert (X := BD f i If Hi). lia.
Qed.
End H.
End P.
