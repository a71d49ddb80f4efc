(** Closed classes of polynomials, for all histories of an object; congruences of monomials, binomials, variables. *)
From Coq Require Import ZArith List Bool Arith Lia Permutation Sorted.
From Verif Require Import Outcome MonomModel MonomSpec MonomProofs PolyModel PolySpec PolyProofs PolyRedProofs PolyNfProofs
  PolyTopProofs CythonProofs JanetModel JanetSpec JanetProofs JanetFindProofs CompletionProofs JanetPolyModel TQModel JanetPolySpec IdealProofs JanetPolyProofs
  TQProofs JanetPolyTop JanetTermSpec JanetTermProofs JanetTermMain JanetTermTop ShapeProofs
  InvolutiveProofs InvolutiveTop NormalSpec NormalProofs NormalTop AncProofs AncTop LinTop LinSol ClosedSpec ClosedProofs ClosedMain.
Import ListNotations.
Local Open Scope Z_scope.

Section P.
Variables (t : pos_order) (o : base_order) (n : nat).
Hypothesis (Hn : (0 < n)%nat) (Ho : o <> OAlex).
Notation A := (fun _ : list term => True).

(* ------------------------------------------------------------------------------------------ *)
(** * Histories *)

Section X.
Variable PP : list term -> Prop.
Hypothesis HC : closed_class t o n PP.
Notation HE := (proj1 HC).
Notation HF := (proj1 (proj2 HC)).
Notation HP := (proj1 (proj2 (proj2 HC))).
Notation fw := (ClosedProofs.fw PP).
Notation ft := (ClosedProofs.ft PP).
Notation linv := (ClosedMain.linv t o n PP).
Notation lout := (ClosedMain.lout t o n PP).

Lemma start_closed F J : jp_history false t o n F J -> jone J = None -> fw (jq J) -> ft (jt J) -> linv (start J).
Proof.
  intros H E Fq Ft. destruct (start_trees t o n Hn Ho F J H E) as (js & E1 & E2 & _ & E4). assert (S := state_of t o n Hn Ho F J H).
  destruct (start_cases t o n A J S) as [(w & X & _)|((Ja & Ej & Hi & Q) & _)]; [congruence|].
  assert (Et : jt (set_pos J) = jt J) by (unfold set_pos; destruct (jpos J <? q_pos (jq J)); reflexivity).
  unfold start in *. cbv zeta in *. rewrite E1, E2, Et in *. cbn [fst snd] in *. exists Ja. auto 10.
Qed.

Lemma run_closed (R : nat -> rstate -> outcome (rstate + jpoly)) (run : nat -> rstate -> outcome jpoly) :
  (forall fuel s, run (Datatypes.S fuel) s = do r <- R (Datatypes.S fuel) s; match r with inl s' => run fuel s' | inr J => Ok J end) ->
  (forall s J, run 0%nat s = Ok J -> R 0%nat s = Ok (inr J)) ->
  (forall fuel s r, linv s -> R fuel s = Ok r -> lout r) -> forall fuel s J, linv s -> run fuel s = Ok J -> lout (inr J).
Proof.
  intros Er E0 K. induction fuel as [|fuel IH]; intros s J H E.
  - apply E0 in E. apply (K _ _ _ H E).
  - rewrite Er in E. destruct (R (Datatypes.S fuel) s) as [r| | | |] eqn:Es; cbn [bind] in E; try discriminate.
    assert (X := K _ _ _ H Es). destruct r as [s'|J'].
    + apply (IH s' J X E).
    + injection E as <-. exact X.
Qed.

Lemma history_closed F J : jp_history false t o n F J -> Forall (fun f => PP (terms f)) F -> jone J = None -> fw (jq J) /\ ft (jt J).
Proof.
  induction 1 as [|F J a J' H IH Ra E|F J fuel J' H IH E|F J one fuel J' H IH E]; intros LF On'.
  - split; constructor.
  - unfold jp_push, assert_ in E. cbn [andb] in E. destruct (jone J) as [w|] eqn:Eo; [injection E as <-; congruence|]. destruct (IH (Forall_inv_tail LF) eq_refl) as [I1 I2].
    destruct (is_zero a); [injection E as <-; auto|].
    bnd E. bnd E. bnd E. injection E as <-. cbn [jq jt]. split; [|exact I2]. apply jp_insert_perm in Ev1. rewrite copy_ok in Ev0. injection Ev0 as <-.
    eapply fw_perm; [apply Permutation_sym; exact Ev1|]. constructor; [cbn [wpol]; exact (Forall_inv LF)|exact I1].
  - destruct (jone J) as [w|] eqn:Eo; [unfold jp_build in E; rewrite Eo in E; injection E as <-; congruence|]. destruct (IH LF eq_refl) as [I1 I2].
    assert (L := start_closed F J H Eo I1 I2). destruct (start_cases t o n A J (state_of t o n Hn Ho F J H)) as [(w & E1 & X)|(_ & X & _)]; [congruence|]. rewrite X in E.
    assert (Y := run_closed _ block_run block_run_eq block_zero (block_round_in t o n Hn Ho PP HE HF HP) fuel (start J) J' L E). cbn [ClosedMain.lout] in Y.
    destruct Y as [Y|[Y1 Y2]]; [congruence|]. rewrite Y2. split; [constructor|exact Y1].
  - destruct (jone J) as [w|] eqn:Eo; [unfold jp_tq in E; rewrite Eo in E; injection E as <-; congruence|]. destruct (IH LF eq_refl) as [I1 I2].
    assert (L := start_closed F J H Eo I1 I2). destruct (start_cases t o n A J (state_of t o n Hn Ho F J H)) as [(w & E1 & X)|(_ & _ & X)]; [congruence|]. rewrite X in E.
    assert (Y := run_closed _ (tq_run one) (tq_run_eq one) (tq_zero one) (tq_round_in t o n Hn Ho PP HE HF HP one) fuel (start J) J' L E). cbn [ClosedMain.lout] in Y.
    destruct Y as [Y|[Y1 Y2]]; [congruence|]. rewrite Y2. split; [constructor|exact Y1].
Qed.

Lemma c96_basis F J : jp_history false t o n F J -> Forall (fun f => PP (terms f)) F -> forall g, In g (basis J) -> PP (terms g).
Proof.
  intros H LF g Ig. assert (S := state_of t o n Hn Ho F J H). unfold basis in Ig. destruct (jone J) as [w|] eqn:Eo.
  - destruct Ig as [<-|[]]. unfold jstate in S. rewrite Eo in S. destruct S as ((_ & E) & _). rewrite E. apply HC.
  - destruct (history_closed F J H LF Eo) as [_ X]. apply in_map_iff in Ig as (e & <- & Ie). unfold ClosedProofs.ft in X. rewrite Forall_forall in X. exact (X e Ie).
Qed.

Lemma c96_nf D F J a fuel r : kept_by_elimination t o n PP D -> kept_by_factors t o n D ->
  jp_history false t o n F J -> Forall (fun f => PP (terms f)) F -> ring_input t o n a -> D (terms a) -> jp_nf fuel false J a = Ok r -> terms r = [] \/ D (terms r).
Proof.
  intros De Df H LF Ra Da E. assert (S := state_of t o n Hn Ho F J H). assert (Ga := goodzA t o n a Ra).
  destruct (jone J) as [w|] eqn:Eo.
  - left. destruct (c82_nf t o n Hn Ho F J a fuel r H Ra E) as (Rr & _ & Ir & _). destruct (terms r) as [|[m c] l] eqn:Er; [reflexivity|exfalso].
    unfold irreducible in Ir. unfold basis in Ir. rewrite Eo in Ir. unfold jstate in S. rewrite Eo in S. destruct S as ((_ & Ew) & _).
    apply (Ir m c (or_introl eq_refl) (repeat 0%nat n)). cbn [map]. assert (El : lead (wpol w) = repeat 0%nat n) by (unfold lead; rewrite Ew; reflexivity). rewrite El.
    split; [left; reflexivity|]. split; [intros i Hi; rewrite expo_zs; lia|]. intros i Hi _ (u & [<-|[]] & _ & X). lia.
  - set (SS := fun l => GM n A l /\ PP l).
    destruct (history_closed F J H LF Eo) as [_ FT].
    assert (GF : good_find false t o n SS (jp_find false J)).
    { assert (S' := S). unfold jstate in S'. rewrite Eo in S'. destruct S' as [_ [(D1 & D2 & D3)|(Ja & D1 & D2 & D3)]].
      - intros m Mm. exists None. unfold jp_find. rewrite Eo, D1. split; [reflexivity|discriminate].
      - intros m Mm. unfold jp_find. rewrite Eo, D1, D2. destruct (good_find_T t o n A Hn Ja (jt J) D3 m Mm) as (w & Ew & W). exists w. split; [exact Ew|]. intros x Ex.
        destruct (W x Ex) as (X1 & X2 & X3 & X4 & X5 & X6). do 4 (split; [assumption|]). split; [|exact X6]. exact (GT_in n PP (jt J) FT _ X5). }
    assert (HS : forall g, SS g -> GM n A g) by (intros g Hg; apply Hg).
    rewrite nf_body in E. assert (N := nf_safe t o n A Hn SS HS _ fuel a GF Ga).
    destruct (p_nf fuel false (jp_find false J) a) as [[p k]| | | |] eqn:E1; cbn [bind fst] in E; try discriminate. cbn [safe fst] in N. destruct N as (Gp & _).
    assert (Dp := p_nf_in t o n PP D De SS (fun g Hg => Hg) _ fuel a _ GF Ga Da E1). cbn [fst] in Dp.
    destruct (terms p) as [|[m c] l] eqn:Ep.
    + unfold p_nfTail in E. rewrite Ep in E. cbn [bind fst] in E. rewrite <- Ep in Dp. right. exact (pp_in t o n Hn D Df p r Gp Dp E).
    + rewrite <- Ep in Dp. assert (Gp' : JanetPolyProofs.good t o n A p) by (split; [exact Gp|congruence]). assert (Hp : hd p m) by (exists c, l; exact Ep).
      assert (N := nft_safe t o n A SS HS _ (jp_find false J) fuel p m GF Gp' Hp (fun _ _ _ => eq_refl)).
      destruct (p_nfTail fuel false (jp_find false J) p) as [[p2 k2]| | | |] eqn:E2; cbn [bind fst] in E; try discriminate. cbn [safe fst] in N. destruct N as (G2 & _).
      assert (D2 := p_nfTail_in t o n Hn PP D De SS (fun g Hg => Hg) _ _ fuel p m _ GF Gp' Hp Dp (fun _ _ _ => eq_refl) E2). cbn [fst] in D2.
      right. exact (pp_in t o n Hn D Df p2 r (proj1 G2) D2 E).
Qed.
End X.

(* ------------------------------------------------------------------------------------------ *)
(** * Supports *)

Lemma rt_in l x : ring_terms t o n l -> In x (map fst l) -> coef l x <> 0 /\ x = Mon (-1) (vars x) /\ length (vars x) = n.
Proof.
  intros [C R] I. apply in_map_iff in I as ([y c] & <- & I). destruct (canonical_coef t o n l y c C I) as [E N]. cbn [fst].
  unfold ring_poly in R. rewrite Forall_forall in R. assert (Py := R _ I). cbn [fst] in Py. apply canonical_iff in C as (_ & M & _). unfold monos in M. rewrite Forall_forall in M. assert (My := M _ I). cbn [fst] in My.
  split; [congruence|]. split; [rewrite <- Py; destruct y; reflexivity|apply My].
Qed.
Lemma shift_in u a x : In x (map fst (shift u a)) <-> exists y, In y (map fst a) /\ x = mprod (Mon (-1) u) y.
Proof.
  unfold shift. rewrite map_map. cbn [fst]. rewrite in_map_iff. split.
  - intros ([y c] & E & I). exists y. split; [apply in_map_iff; exists (y, c); auto|symmetry; exact E].
  - intros (y & I & ->). apply in_map_iff in I as ([y' c] & <- & I). exists (y', c). auto.
Qed.
Lemma comb_in f a r k1 k2 x : ring_terms t o n r -> (forall w, coef r w = k1 * coef f w + k2 * coef a w) -> In x (map fst r) -> In x (map fst f) \/ In x (map fst a).
Proof.
  intros Rr S I. destruct (rt_in r x Rr I) as (N & _). rewrite S in N. destruct (Z.eq_dec (coef f x) 0) as [Z1|Z1]; [|left; apply coef_nz_in; exact Z1].
  right. apply coef_nz_in. intro Z2. rewrite Z1, Z2 in N. lia.
Qed.
Lemma factor_in f r k l : ring_terms t o n f -> ring_terms t o n r -> k <> 0 -> l <> 0 -> (forall w, k * coef r w = l * coef f w) -> forall x, In x (map fst r) <-> In x (map fst f).
Proof.
  intros Rf Rr Nk Nl S x. split; intro I; apply coef_nz_in; intro Z; assert (E := S x); rewrite Z in E.
  - apply (proj1 (rt_in r x Rr I)). nia.
  - apply (proj1 (rt_in f x Rf I)). nia.
Qed.
Lemma rt_nodup l : ring_terms t o n l -> NoDup (map fst l).
Proof.
  intros [C _]. apply canonical_iff in C as (S & _). clear - S. unfold sorted in S. induction l as [|x l IH]; [constructor|]. apply StronglySorted_inv in S as [S F]. cbn [map]. constructor; [|exact (IH S)].
  intro I. apply in_map_iff in I as (y & E & I). rewrite Forall_forall in F. assert (X := F y I). cbv beta in X. unfold gt1 in X. rewrite <- E in X. rewrite cmp1_refl in X. lia.
Qed.

(* ------------------------------------------------------------------------------------------ *)
(** * Congruences *)

Section R.
Variable R : list nat -> list nat -> Prop.
Hypothesis HR : congruence n R.
Notation Rr := (proj1 HR).
Notation Rs := (proj1 (proj2 HR)).
Notation Rt := (proj1 (proj2 (proj2 HR))).
Notation Rm := (proj2 (proj2 (proj2 HR))).

Lemma shift_class a u v w : ring_terms t o n a -> homogeneous R a -> leads a v -> length u = n -> In w (map fst (shift u a)) -> R (vars w) (vsum u v).
Proof.
  intros Ra Ha (c & l & E) Lu I. apply shift_in in I as (y & Iy & ->).
  assert (Iv : In (Mon (-1) v) (map fst a)) by (rewrite E; left; reflexivity).
  destruct (rt_in a y Ra Iy) as (_ & _ & Ly). destruct (rt_in a _ Ra Iv) as (_ & _ & Lv). cbn [vars] in Lv. unfold mprod. cbn [vars].
  apply Rm; [exact Lu|exact Ly|exact Lv|]. exact (Ha y (Mon (-1) v) Iy Iv).
Qed.
Lemma class_elim u0 : kept_by_elimination t o n (homogeneous R) (all_in_class R u0).
Proof.
  intros f a r u v k1 k2 Rf Ra Rz Df Pa Lv Lu Nm K1 S Z x Ix. destruct (comb_in f (shift u a) r k1 k2 x Rz S Ix) as [I|I]; [exact (Df x I)|].
  apply (Rt _ (vsum u v)); [exact (shift_class a u v x Ra Pa Lv Lu I)|]. exact (Df _ (coef_nz_in _ _ Nm)).
Qed.
Lemma class_factors u0 : kept_by_factors t o n (all_in_class R u0).
Proof. intros f r k l Rf Rz Df Nk Nl S x Ix. apply Df. apply (factor_in f r k l Rf Rz Nk Nl S). exact Ix. Qed.
Lemma homog_closed : closed_class t o n (homogeneous R).
Proof.
  split; [|split; [|split]].
  - intros f a r u v k1 k2 Rf Ra Rz Df Pa Lv Lu Nm K1 S Z x y Ix Iy.
    assert (X : forall w, In w (map fst r) -> R (vars w) (vsum u v)).
    { intros w Iw. destruct (comb_in f (shift u a) r k1 k2 w Rz S Iw) as [I|I]; [exact (Df w _ I (coef_nz_in _ _ Nm))|exact (shift_class a u v w Ra Pa Lv Lu I)]. }
    apply (Rt _ (vsum u v)); [exact (X x Ix)|apply Rs; exact (X y Iy)].
  - intros f r k l Rf Rz Df Nk Nl S x y Ix Iy. apply Df; apply (factor_in f r k l Rf Rz Nk Nl S); assumption.
  - intros g h x v w i u Rg Rh Rx Pg Ph Lv Lw Hi Lt [Lu _] S y z Iy Iz.
    assert (X : forall y, In y (map fst x) -> R (vars y) (vsum u v)).
    { intros y0 I0. apply (shift_class g u v y0 Rg Pg Lv Lu). apply coef_nz_in. rewrite <- S. apply (rt_in x y0 Rx I0). }
    apply (Rt _ (vsum u v)); [exact (X y Iy)|apply Rs; exact (X z Iz)].
  - intros x y [<-|[]] [<-|[]]. apply Rr.
Qed.

Lemma c96_homogeneous F J : jp_history false t o n F J -> Forall (fun f => homogeneous R (terms f)) F ->
  (forall g, In g (basis J) -> homogeneous R (terms g)) /\
  forall a u fuel r, ring_input t o n a -> all_in_class R u (terms a) -> jp_nf fuel false J a = Ok r -> all_in_class R u (terms r).
Proof.
  intros H LF. split; [exact (c96_basis _ homog_closed F J H LF)|]. intros a u fuel r Ra Da E.
  destruct (c96_nf _ homog_closed _ F J a fuel r (class_elim u) (class_factors u) H LF Ra Da E) as [X|X]; [rewrite X; intros m []|exact X].
Qed.
End R.

Lemma weight_sum W : forall u v, length u = length v -> weight W (vsum u v) = weight W u + weight W v.
Proof.
  unfold weight, vsum. induction W as [|w W IH]; intros [|x u] [|y v] L; cbn; try discriminate; try reflexivity; try lia.
  cbn in L. assert (X := IH u v ltac:(lia)). cbn in X. rewrite X. rewrite Nat2Z.inj_add. ring.
Qed.
Lemma weight_congruence W q : congruence n (same_weight W q).
Proof.
  unfold same_weight. split; [intro u; rewrite Z.sub_diag; apply Z.divide_0_r|]. split; [|split].
  - intros u v D. replace (weight W v - weight W u) with (- (weight W u - weight W v)) by ring. apply Z.divide_opp_r. exact D.
  - intros u v w D1 D2. replace (weight W u - weight W w) with ((weight W u - weight W v) + (weight W v - weight W w)) by ring. apply Z.divide_add_r; assumption.
  - intros u v w Lu Lv Lw D. rewrite !weight_sum by congruence. replace (weight W u + weight W v - (weight W u + weight W w)) with (weight W v - weight W w) by ring. exact D.
Qed.

(* ------------------------------------------------------------------------------------------ *)
(** * Binomials *)

Lemma remove_len (m : monom) l : NoDup l -> In m l -> Datatypes.S (length (remove monom_eq_dec m l)) = length l.
Proof.
  induction l as [|x l IH]; intros N I; [destruct I|]. apply NoDup_cons_iff in N as [Nx N]. cbn [remove]. destruct (monom_eq_dec m x) as [<- |D].
  - cbn [length]. f_equal. rewrite notin_remove by exact Nx. reflexivity.
  - destruct I as [->|I]; [congruence|]. cbn [length]. rewrite IH by assumption. reflexivity.
Qed.
Lemma binom_elim k : kept_by_elimination t o n (fun l => (length l <= 2)%nat) (fun l => (length l <= k)%nat).
Proof.
  intros f a r u v k1 k2 Rf Ra Rz Df Pa (d & l & Ea) Lu Nm K1 S Z. set (m := Mon (-1) (vsum u v)) in *.
  assert (Im := coef_nz_in _ _ Nm). assert (Is : In m (map fst (shift u a))) by (apply shift_in; exists (Mon (-1) v); rewrite Ea; split; [left; reflexivity|reflexivity]).
  assert (Na : (length (map fst (shift u a)) <= 2)%nat) by (unfold shift; rewrite !map_length; exact Pa).
  assert (Ls : (length (remove monom_eq_dec m (map fst (shift u a))) <= 1)%nat) by (assert (X := remove_length_lt monom_eq_dec _ _ Is); lia).
  assert (Lf := remove_len m _ (rt_nodup f Rf) Im). rewrite map_length in Lf.
  rewrite <- (map_length fst). etransitivity; [apply (NoDup_incl_length (rt_nodup r Rz) (l' := remove monom_eq_dec m (map fst f) ++ remove monom_eq_dec m (map fst (shift u a))))|].
  - intros x Ix. assert (Nx : x <> m) by (intros ->; exact (proj1 (rt_in r _ Rz Ix) Z)). apply in_or_app.
    destruct (comb_in f (shift u a) r k1 k2 x Rz S Ix) as [I|I]; [left|right]; apply in_in_remove; assumption.
  - rewrite app_length. lia.
Qed.
Lemma factor_len f r k l : ring_terms t o n f -> ring_terms t o n r -> k <> 0 -> l <> 0 -> (forall w, k * coef r w = l * coef f w) -> length r = length f.
Proof.
  intros Rf Rr Nk Nl S. assert (I := factor_in f r k l Rf Rr Nk Nl S). rewrite <- (map_length fst r), <- (map_length fst f).
  apply Nat.le_antisymm; (apply NoDup_incl_length; [apply rt_nodup; assumption|intros x Ix; apply I; exact Ix]).
Qed.
Lemma binom_factors k : kept_by_factors t o n (fun l => (length l <= k)%nat).
Proof. intros f r x l Rf Rr Df Nk Nl S. rewrite (factor_len f r x l Rf Rr Nk Nl S). exact Df. Qed.
Lemma binom_closed : closed_class t o n (fun l => (length l <= 2)%nat).
Proof.
  split; [apply binom_elim|]. split; [apply binom_factors|]. split; [|cbn; lia].
  intros g h x v w i u Rg Rh Rx Pg Ph Lv Lw Hi Lt [Lu _] S. rewrite <- (map_length fst).
  etransitivity; [apply (NoDup_incl_length (rt_nodup x Rx) (l' := map fst (shift u g)))|].
  - intros y Iy. apply coef_nz_in. rewrite <- S. apply (rt_in x y Rx Iy).
  - unfold shift. rewrite !map_length. exact Pg.
Qed.
Lemma c96_binomials F J : jp_history false t o n F J -> Forall (fun f => (length (terms f) <= 2)%nat) F ->
  (forall g, In g (basis J) -> (length (terms g) <= 2)%nat) /\
  forall a fuel r, ring_input t o n a -> jp_nf fuel false J a = Ok r -> (length (terms r) <= length (terms a))%nat.
Proof.
  intros H LF. split; [exact (c96_basis _ binom_closed F J H LF)|]. intros a fuel r Ra E.
  destruct (c96_nf _ binom_closed _ F J a fuel r (binom_elim (length (terms a))) (binom_factors (length (terms a))) H LF Ra (le_n _) E) as [X|X]; [rewrite X; cbn; lia|exact X].
Qed.

(* ------------------------------------------------------------------------------------------ *)
(** * Variables *)

Lemma vars_elim (V : nat -> Prop) : kept_by_elimination t o n (only_variables V) (only_variables V).
Proof.
  intros f a r u v k1 k2 Rf Ra Rz Df Pa (d & l & Ea) Lu Nm K1 S Z x i Ix Px. destruct (comb_in f (shift u a) r k1 k2 x Rz S Ix) as [I|I]; [exact (Df x i I Px)|].
  apply shift_in in I as (y & Iy & ->). unfold mprod in Px. cbn [vars] in Px. destruct (rt_in a y Ra Iy) as (_ & _ & Ly).
  rewrite vsum_addv, expo_addv in Px by congruence. destruct (Nat.eq_dec (expo u i) 0) as [Z0|N0]; [apply (Pa y i Iy); lia|].
  apply (Df _ i (coef_nz_in _ _ Nm)). cbn [vars]. assert (Lv : length v = n) by (apply (rt_in a (Mon (-1) v) Ra); rewrite Ea; left; reflexivity).
  rewrite vsum_addv, expo_addv by congruence. lia.
Qed.
Lemma vars_factors V : kept_by_factors t o n (only_variables V).
Proof. intros f r k l Rf Rz Df Nk Nl S x i Ix. apply Df. apply (factor_in f r k l Rf Rz Nk Nl S). exact Ix. Qed.
Lemma vars_closed V : closed_class t o n (only_variables V).
Proof.
  split; [apply vars_elim|]. split; [apply vars_factors|]. split.
  - intros g h x v w i u Rg Rh Rx Pg Ph (d & l & Eg) (d' & l' & Eh) Hi Lt [Lu Hu] S y j Iy Py.
    assert (I : In y (map fst (shift u g))) by (apply coef_nz_in; rewrite <- S; apply (rt_in x y Rx Iy)). apply shift_in in I as (y0 & I0 & ->).
    unfold mprod in Py. cbn [vars] in Py. destruct (rt_in g y0 Rg I0) as (_ & _ & L0). rewrite vsum_addv, expo_addv in Py by congruence.
    destruct (Nat.eq_dec (expo u j) 0) as [Z0|N0]; [apply (Pg y0 j I0); lia|].
    assert (j = i) as ->.
    { destruct (Nat.lt_ge_cases j n) as [Lj|Lj]; [|exfalso; apply N0; unfold expo; apply nth_overflow; lia]. assert (X := Hu j Lj). destruct (Nat.eqb_spec j i); [assumption|congruence]. }
    apply (Ph (Mon (-1) w) i); [rewrite Eh; left; reflexivity|cbn [vars]; lia].
  - intros m i [<-|[]] P0. cbn [fst vars] in P0. rewrite expo_zs in P0. lia.
Qed.
Lemma c96_variables V F J : jp_history false t o n F J -> Forall (fun f => only_variables V (terms f)) F ->
  (forall g, In g (basis J) -> only_variables V (terms g)) /\
  forall a fuel r, ring_input t o n a -> only_variables V (terms a) -> jp_nf fuel false J a = Ok r -> only_variables V (terms r).
Proof.
  intros H LF. split; [exact (c96_basis _ (vars_closed V) F J H LF)|]. intros a fuel r Ra Da E.
  destruct (c96_nf _ (vars_closed V) _ F J a fuel r (vars_elim V) (vars_factors V) H LF Ra Da E) as [X|X]; [rewrite X; intros m i []|exact X].
Qed.

(* ------------------------------------------------------------------------------------------ *)
(** * Differences of monomials *)

Lemma generated_congruence E : congruence n (generated n E).
Proof.
  split; [apply gen_refl|]. split; [apply gen_sym|]. split; [apply gen_trans|]. intros u v w Lu _ _ G.
  induction G as [w0 a b I L|a|a b _ IH|a b c _ IH1 _ IH2]; [|apply gen_refl|apply gen_sym; exact IH|eapply gen_trans; eassumption].
  rewrite !vsum_addv, !addv_assoc, <- !vsum_addv. apply gen_rel; [exact I|]. rewrite vsum_addv, addv_length; congruence.
Qed.

Section W.
Variables (F : list poly) (E : list (list nat * list nat)) (J : jpoly).
Hypothesis (H : jp_history false t o n F J) (HD : Forall2 (difference_of n) F E).
Notation RF := (hist_ring t o n F J H).

Lemma E_len u v : In (u, v) E -> length u = n /\ length v = n.
Proof. intro I. destruct (Forall2_in_r _ _ _ _ HD I) as (f & _ & L1 & L2 & _). auto. Qed.
Lemma diff_support f u v : difference_of n f (u, v) -> forall m, coef (terms f) m <> 0 -> m = Mon (-1) u \/ m = Mon (-1) v.
Proof.
  intros (_ & _ & S) m N. rewrite S in N. cbn [fst snd coef] in N. destruct (monom_eq_dec (Mon (-1) u) m); [left; congruence|]. destruct (monom_eq_dec (Mon (-1) v) m); [right; congruence|lia].
Qed.
Lemma vsum_zero v : length v = n -> vsum (repeat 0%nat n) v = v.
Proof.
  intro L. rewrite vsum_addv. apply expo_ext; [rewrite addv_length; rewrite repeat_length; congruence|]. intros i _. rewrite expo_addv by (rewrite repeat_length; congruence). rewrite expo_zs. reflexivity.
Qed.
Lemma F_rt : Forall (fun f => ring_terms t o n (terms f)) F.
Proof. eapply Forall_impl; [|exact RF]. intros f (V & E1 & E2 & E3 & R). split; [|exact R]. unfold valid_poly in V. congruence. Qed.
Lemma F_homog : Forall (fun f => homogeneous (generated n E) (terms f)) F.
Proof.
  apply Forall_forall. intros f If x y Ix Iy. assert (R := F_rt). rewrite Forall_forall in R.
  destruct (Forall2_in_l _ _ _ _ HD If) as ((u, v) & Ie & D). destruct (E_len u v Ie) as [Lu Lv].
  assert (G : generated n E u v) by (rewrite <- (vsum_zero u Lu), <- (vsum_zero v Lv); apply gen_rel; [exact Ie|apply repeat_length]).
  destruct (diff_support f u v D x (proj1 (rt_in _ x (R f If) Ix))) as [-> | ->], (diff_support f u v D y (proj1 (rt_in _ y (R f If) Iy))) as [-> | ->]; cbn [vars];
    [apply gen_refl|exact G|apply gen_sym; exact G|apply gen_refl].
Qed.
Lemma F_binom : Forall (fun f => (length (terms f) <= 2)%nat) F.
Proof.
  apply Forall_forall. intros f If. assert (R := F_rt). rewrite Forall_forall in R. destruct (Forall2_in_l _ _ _ _ HD If) as ((u, v) & Ie & D).
  rewrite <- (map_length fst). apply (NoDup_incl_length (rt_nodup _ (R f If)) (l' := [Mon (-1) u; Mon (-1) v])). intros x Ix.
  destruct (diff_support f u v D x (proj1 (rt_in _ x (R f If) Ix))) as [-> | ->]; cbn; auto.
Qed.

(** Everything in the ideal vanishes at (1, ..., 1). *)
Lemma ideal_sum p : rational_member n (among F) p -> sumc (fun _ => 1) p = 0.
Proof.
  intros (k & q & Nk & C & S).
  assert (X : sumc (fun _ => 1) q = 0).
  { clear S. induction C as [p0 Z|p0 r u g c _ IH (f & If & <-) Lu S].
    - rewrite (sumc_coef _ p0 []); [reflexivity|]. intro m. rewrite Z. reflexivity.
    - rewrite (sumc_coef _ p0 (r ++ scale c (shift u (terms f)))) by (intro m; rewrite coef_app, coef_scale; apply S). rewrite sumc_app, sumc_scale, sumc_shift, IH.
      destruct (Forall2_in_l _ _ _ _ HD If) as ((a, b) & Ie & (_ & _ & D)). cbn [fst snd] in D.
      rewrite (sumc_coef _ (terms f) ([(Mon (-1) a, 1)] ++ scale (-1) [(Mon (-1) b, 1)])) by (intro m; rewrite coef_app, coef_scale, D; ring). cbn. lia. }
  rewrite (sumc_coef _ q (scale k p)) in X by (intro m; rewrite coef_scale; apply S). rewrite sumc_scale in X. nia.
Qed.

(** x^u - x^v is in the ideal when u and v are equal words. *)
Definition two (u v : list nat) : list term := [(Mon (-1) u, 1); (Mon (-1) v, -1)].
Lemma word_ideal u v : generated n E u v -> rational_member n (among F) (two u v).
Proof.
  intro G. induction G as [w u v I L|u|u v _ IH|u v w _ IH1 _ IH2].
  - destruct (Forall2_in_r _ _ _ _ HD I) as (f & If & D1 & D2 & D). cbn [fst snd] in D.
    assert (M : rational_member n (among F) (shift w (terms f))).
    { apply mem_shift; [exact L|]. apply mem_gen; [exists f; auto|]. assert (R := RF). rewrite Forall_forall in R. eapply ring_input_monos. exact (R f If). }
    eapply mem_ext; [|exact M]. intro m. rewrite (coef_shift_lin w (terms f) [(Mon (-1) u, 1)] [(Mon (-1) v, 1)] 1 (-1)) by (intro x; rewrite D; ring).
    unfold shift, two. cbn [map fst snd coef]. unfold mprod. cbn [pos vars]. change (-1 =? -1) with true. cbv iota.
    destruct (monom_eq_dec (Mon (-1) (vsum w u)) m), (monom_eq_dec (Mon (-1) (vsum w v)) m); lia.
  - apply mem_zero. intro m. unfold two. cbn [coef]. destruct (monom_eq_dec (Mon (-1) u) m); lia.
  - apply (mem_lin n _ _ _ _ (-1) 0 IH IH). intro m. unfold two. cbn [coef]. destruct (monom_eq_dec (Mon (-1) u) m), (monom_eq_dec (Mon (-1) v) m); lia.
  - apply (mem_lin n _ _ _ _ 1 1 IH1 IH2). intro m. unfold two. cbn [coef]. destruct (monom_eq_dec (Mon (-1) u) m), (monom_eq_dec (Mon (-1) v) m), (monom_eq_dec (Mon (-1) w) m); lia.
Qed.

(** The normal form of a monomial is plus or minus a monomial that is the same word. *)
Lemma c96_word_nf a u fuel r : ring_input t o n a -> terms a = [(Mon (-1) u, 1)] -> jp_nf fuel false J a = Ok r ->
  exists w s, terms r = [(Mon (-1) w, s)] /\ (s = 1 \/ s = -1) /\ length w = n /\ generated n E u w.
Proof.
  intros Ra Ea Er. destruct (c82_nf t o n Hn Ho F J a fuel r H Ra Er) as (Rr & _ & _ & Pr).
  assert (Cl : all_in_class (generated n E) u (terms r)).
  { apply (proj2 (c96_homogeneous _ (generated_congruence E) F J H F_homog) a u fuel r Ra); [|exact Er]. rewrite Ea. intros m [<-|[]]. apply gen_refl. }
  assert (Le : (length (terms r) <= 1)%nat) by (assert (X := proj2 (c96_binomials F J H F_binom) a fuel r Ra Er); rewrite Ea in X; exact X).
  assert (Ne : terms r <> []).
  { intro Z. assert (X := nf_facts t o n Hn Ho F J a fuel r H Ra Er). destruct X as (_ & X & _). apply (rel_ideal t o n Hn Ho F J) in X; [|exact H].
    destruct X as (k & l & q & Nk & Nl & Mq & S). apply ideal_sum in Mq. rewrite Z in S.
    rewrite (sumc_coef _ q (scale k (terms a))) in Mq by (intro m; rewrite coef_scale; assert (Y := S m); cbn in Y; lia). rewrite sumc_scale, Ea in Mq. cbn in Mq. lia. }
  destruct Pr as [Pr|Pr]; [contradiction|]. destruct Rr as (V & E1 & E2 & E3 & R). unfold valid_poly in V. rewrite E1, E2, E3 in V.
  destruct (terms r) as [|[m s] [|x l]]; [congruence| |cbn in Le; lia]. assert (Pm := Forall_inv R). cbn [fst] in Pm. apply canonical_iff in V as (_ & M & _). assert (Mm := Forall_inv M). cbn [fst] in Mm.
  exists (vars m), s. assert (Em : m = Mon (-1) (vars m)) by (rewrite <- Pm; destruct m; reflexivity). rewrite <- Em. split; [reflexivity|]. split.
  - apply Pr. intro x. cbn. destruct (monom_eq_dec m x); [rewrite Z.add_0_r; apply Z.divide_refl|apply Z.divide_0_r].
  - split; [apply Mm|]. apply gen_sym. apply (Cl m). left. reflexivity.
Qed.

Lemma c96_word_sound a b u v fuel fuel' r s : ring_input t o n a -> ring_input t o n b -> terms a = [(Mon (-1) u, 1)] -> terms b = [(Mon (-1) v, 1)] ->
  jp_nf fuel false J a = Ok r -> jp_nf fuel' false J b = Ok s -> plus_minus (terms r) (terms s) -> generated n E u v.
Proof.
  intros Ra Rb Ea Eb Er Es P. destruct (c96_word_nf a u fuel r Ra Ea Er) as (w & x & Ew & _ & _ & Gw). destruct (c96_word_nf b v fuel' s Rb Eb Es) as (w' & x' & Ew' & _ & _ & Gw').
  assert (w = w') as ->.
  { rewrite Ew, Ew' in P. destruct P as [P|P]; cbn in P; congruence. }
  eapply gen_trans; [exact Gw|apply gen_sym; exact Gw'].
Qed.
Lemma c96_word a b u v fuel fuel' r s : jq J = [] -> passes_local_test t o n J ->
  ring_input t o n a -> ring_input t o n b -> terms a = [(Mon (-1) u, 1)] -> terms b = [(Mon (-1) v, 1)] ->
  jp_nf fuel false J a = Ok r -> jp_nf fuel' false J b = Ok s -> (plus_minus (terms r) (terms s) <-> generated n E u v).
Proof.
  intros Q L Ra Rb Ea Eb Er Es. split; [exact (c96_word_sound a b u v fuel fuel' r s Ra Rb Ea Eb Er Es)|]. intro G.
  apply (c82_ideal t o n Hn Ho F J a b fuel fuel' r s H Q L Ra Rb Er Es). exists 1, 1, (two u v). split; [lia|]. split; [lia|]. split; [apply word_ideal; exact G|].
  intro m. rewrite Ea, Eb. unfold two. cbn [coef]. destruct (monom_eq_dec (Mon (-1) u) m), (monom_eq_dec (Mon (-1) v) m); lia.
Qed.
End W.
End P.
