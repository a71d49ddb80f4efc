(** One variable: the steps of a round keep the obligations of the prolongations. *)
From Coq Require Import ZArith List Bool Arith Lia Permutation Sorted.
From Verif Require Import Outcome MonomModel MonomSpec MonomProofs PolyModel PolySpec PolyProofs PolyRedProofs PolyNfProofs
  PolyTopProofs JanetModel JanetSpec JanetProofs JanetFindProofs CompletionProofs JanetPolyModel TQModel JanetPolySpec IdealProofs JanetPolyProofs
  TQProofs GrowthProofs JanetTermSpec JanetTermProofs JanetTermMain ShapeProofs UnivProofs UnivLoopProofs.
Import ListNotations.
Local Open Scope Z_scope.

Notation X1 := (shift [1%nat]).
Definition flag (w : wrap) : Prop := nth 0 (wbuild w) false = true.
Notation tw J := (wraps (jroot J)).

(** The prolongation of w by the variable is accounted for in every filtration of the queue. *)
Definition ob (J : janet) (q : list wpoly) (T : list entry) : Prop := forall K, adm K T -> fW K q ->
  forall w p, In w (tw J) -> flag w -> In (wlm w, p) T -> K (S (deg (wlm w))) (X1 (terms p)).
(** An ancestor other than itself is that of the element one degree below. *)
Definition par (J : janet) (w : wrap) : Prop :=
  wanc w = wlm w \/ exists v, In v (tw J) /\ flag v /\ wanc v = wanc w /\ S (deg (wlm v)) = deg (wlm w).
Definition closed (J : janet) (T : list entry) (e : entry) : Prop :=
  covers T (S (deg (fst e))) -> exists w, In w (tw J) /\ wlm w = fst e /\ flag w.

Lemma filt_X1 K : filt K -> filt (fun d f => K (S d) (X1 f)).
Proof.
  intros F. split.
  - intros d p Z. apply (f_zero K F). intro m. rewrite (coef_shift_ext [1%nat] p []); [reflexivity|exact Z].
  - intros d f g h a b c Na E Kf Kg. apply (f_lin K F (S d) (X1 f) (X1 g) (X1 h) a b c Na); [|exact Kf|exact Kg]. intro m.
    rewrite <- (coef_shift_lin [1%nat] (scale a h) f g b c) by (intro x; rewrite coef_scale; apply E).
    rewrite (coef_shift_lin [1%nat] (scale a h) h [] a 0); [cbn [coef shift map]; ring|]. intro x. rewrite coef_scale. cbn [coef]. ring.
  - intros d d' p L Kp. apply (f_mono K F (S d)); [lia|exact Kp].
Qed.

Lemma covers_fst T T' d : (forall x, In x (map fst T) -> In x (map fst T')) -> covers T d -> covers T' d.
Proof. intros I (e & Ie & L). assert (X := I _ (in_map fst _ _ Ie)). apply in_map_iff in X as (e' & E & Ie'). exists e'. rewrite E. auto. Qed.
Lemma adm_perm K T T' : Permutation T T' -> adm K T -> adm K T'.
Proof.
  intros P [F Fu FT]. split; [exact F| |].
  - intros d p C. apply Fu. intro C'. apply C. eapply covers_fst; [|exact C']. intros x Ix. eapply Permutation_in; [apply Permutation_map; exact P|exact Ix].
  - intros e Ie. apply FT. eapply Permutation_in; [apply Permutation_sym; exact P|exact Ie].
Qed.

Lemma wraps_upd f m r : wraps (upd_tree f m r) = map (fun u => if same_key (wlm u) m then f u else u) (wraps r).
Proof. induction r as [|d ow nd IHd nv IHv]; [reflexivity|]. cbn [upd_tree wraps]. rewrite IHd, IHv, !map_app. destruct ow; reflexivity. Qed.

Section P.
Variables (t : pos_order) (o : base_order) (G : list term -> Prop).
Hypothesis Ho : o <> OAlex.
Let Hn : (0 < 1)%nat := Nat.lt_0_1.

Notation good := (good t o 1 G).
Notation goodz := (goodz t o 1 G).
Notation okq := (okq t o 1 G).
Notation okt := (okt t o 1 G).
Notation tinv := (tinv t o 1 G).
Notation gw := (gw t o 1 G).
Notation okh := (okh t o 1 G).
Notation le := (le t o).
Notation lt := (lt t o).
Notation incr_T := (incr_T t o).
Notation elt := (elt t o).
Notation before := (before t o).
Notation find1 J T := (find_poly false (-1) (Some [J]) T).

Record core (J : janet) (q : list wpoly) (T : list entry) : Prop := {
  c_ti : tinv J T;
  c_q : Forall okq q;
  c_ob : ob J q T;
  c_L : forall w, In w (tw J) -> flag w -> covers T (S (deg (wlm w)));
  c_B : forall w, In w (tw J) \/ In w (map wwrap q) -> par J w;
  c_D : forall w, In w (map wwrap q) -> ~ flag w }.

Lemma core_perm J q T T' : Permutation T T' -> core J q T -> core J q T'.
Proof.
  intros P [A B C D E F]. split; auto; [eapply tinv_perm; eassumption| |].
  - intros K Ad W w p Iw Fw Ip. apply (C K); auto; [eapply adm_perm; [apply Permutation_sym; exact P|exact Ad]|].
    eapply Permutation_in; [apply Permutation_sym; exact P|exact Ip].
  - intros w Iw Fw. eapply covers_fst; [|apply D; assumption]. intros x Ix. eapply Permutation_in; [apply Permutation_map; exact P|exact Ix].
Qed.
Lemma core_queue J q q' T : core J q T -> Forall okq q' -> sub q' q -> (forall K, adm K T -> fW K q' -> fW K q) -> core J q' T.
Proof.
  intros [A B C D E F] Q S W. split; auto.
  - intros K Ad Wk. apply C; auto.
  - intros w [I|I]; apply E; [left; exact I|right; apply S; exact I].
Qed.

Lemma closed_perm J T T' e : Permutation T T' -> closed J T e -> closed J T' e.
Proof.
  intros P C X. apply C. eapply covers_fst; [|exact X]. intros x Ix. eapply Permutation_in; [apply Permutation_map, Permutation_sym; exact P|exact Ix].
Qed.
Lemma closed_fst J T T' e e' : (forall x, In x (map fst T') -> In x (map fst T)) -> fst e' = fst e -> closed J T e -> closed J T' e'.
Proof. intros I E C X. rewrite E in *. apply C. eapply covers_fst; [exact I|exact X]. Qed.

(* ------------------------------------------------------------------------------------------ *)
(** * A new element *)

Lemma er_back J J' w v : Permutation (map (er 0) (tw J')) (er 0 w :: map (er 0) (tw J)) -> In v (tw J') ->
  exists v0, (v0 = w \/ In v0 (tw J)) /\ wlm v0 = wlm v /\ wanc v0 = wanc v /\ (flag v <-> flag v0).
Proof.
  intros P I. apply (in_map (er 0)) in I. eapply Permutation_in in I; [|exact P]. 
  assert (X : exists v0, (v0 = w \/ In v0 (tw J)) /\ er 0 v0 = er 0 v).
  { destruct I as [E|I]; [exists w; auto|]. apply in_map_iff in I as (v0 & E & I0). exists v0. auto. }
  destruct X as (v0 & I0 & E). exists v0. split; [exact I0|]. unfold er in E. injection E as E1 E2 E3 E4. unfold flag. rewrite E4. tauto.
Qed.
Lemma er_to J J' w v : Permutation (map (er 0) (tw J')) (er 0 w :: map (er 0) (tw J)) -> v = w \/ In v (tw J) ->
  exists v', In v' (tw J') /\ wlm v' = wlm v /\ wanc v' = wanc v /\ (flag v' <-> flag v).
Proof.
  intros P I. assert (X : In (er 0 v) (map (er 0) (tw J'))).
  { eapply Permutation_in; [apply Permutation_sym; exact P|]. destruct I as [->|I]; [left; reflexivity|right; apply in_map; exact I]. }
  apply in_map_iff in X as (v' & E & I'). exists v'. split; [exact I'|]. unfold er in E. injection E as E1 E2 E3 E4. unfold flag. rewrite E4. tauto.
Qed.

Lemma new_flag u m : ~ flag (wwrap u) -> ~ flag (update (wwrap u) m).
Proof. intro N. unfold update. destruct (_ =? 0)%Z; [exact N|]. unfold flag. cbn. rewrite nth_false. discriminate. Qed.
Lemma new_par J u m : par J (wwrap u) -> par J (update (wwrap u) m).
Proof. intro N. unfold update. destruct (_ =? 0)%Z; [exact N|]. left. reflexivity. Qed.

Lemma enter_core J q T u p J' : core J (u :: q) T -> ~ In (vars (plm u)) (lms (tw J)) -> good p -> hd p (plm u) ->
  (forall K d, filt K -> K d (terms p) -> K d (terms (wpol u))) -> insert false J (update (wwrap u) (plm u)) = Ok J' -> tinv J' ((plm u, p) :: T) ->
  core J' q ((plm u, p) :: T) /\
  (forall e, closed J T e -> (deg (plm u) <= deg (fst e))%nat -> closed J' ((plm u, p) :: T) e).
Proof.
  intros [A B C D E F] N Gp Hp Kp I H'. assert (Hu := Forall_inv B). assert (Gu := proj1 Hu).
  destruct (plm_mono t o 1 G u Gu) as [Mu Pu]. destruct (update_ok t o 1 G u (plm u) Hu Mu Pu) as (Ew & Ow & Fw). 
  assert (Elv : lv (update (wwrap u) (plm u)) = vars (plm u)) by (unfold lv; now rewrite Ew).
  destruct (insert_ok false 1 J (update (wwrap u) (plm u)) (ti_inv _ _ _ _ _ _ A) (ti_size _ _ _ _ _ _ A) Hn Ow Fw) as (J0 & E0 & _ & _ & _ & P);
    [rewrite Elv; exact N|discriminate|]. rewrite I in E0. injection E0 as <-.
  assert (Fu : ~ flag (update (wwrap u) (plm u))) by (apply new_flag; apply F; left; reflexivity).
  assert (Pm : forall w, par J w -> forall w', wlm w' = wlm w -> wanc w' = wanc w -> par J' w').
  { intros w [Q|(v & Iv & Fv & Av & Dv)] w' E1 E2; [left; congruence|]. right.
    destruct (er_to J J' _ v P (or_intror Iv)) as (v' & Iv' & L1 & L2 & L3). exists v'. rewrite L1, L2, L3, E1, E2. auto. }
  assert (Cov : forall d, covers T d -> covers ((plm u, p) :: T) d) by (intros d (e & Ie & L); exists e; split; [right; exact Ie|exact L]).
  assert (Fl : forall w, In w (tw J') -> flag w -> exists w0, In w0 (tw J) /\ flag w0 /\ wlm w0 = wlm w).
  { intros w Iw Fl. destruct (er_back J J' _ w P Iw) as (w0 & [->|I0] & L1 & L2 & L3); [exfalso; tauto|]. exists w0. tauto. }
  split; [split; [exact H'|exact (Forall_inv_tail B)| | | |]|].
  - intros K Ad Wq w p' Iw Fw' Ip. destruct (Fl w Iw Fw') as (w0 & I0 & F0 & L0). rewrite <- L0 in Ip |- *.
    assert (IT : In (wlm w0, p') T).
    { destruct Ip as [Ip|Ip]; [|exact Ip]. exfalso. injection Ip as E1 _. apply N. rewrite E1. apply (in_map lv) in I0. exact I0. }
    apply (C (fun d f => covers T d -> K d f)); auto.
    + destruct Ad as [Fi Fu' FT]. split; [|intros d f Nc X; contradiction|intros e Ie _; apply FT; right; exact Ie]. split.
      * intros d f Z _. apply (f_zero K Fi). exact Z.
      * intros d f g h a b c Na Eq Kf Kg Cd. apply (f_lin K Fi d f g h a b c Na Eq); auto.
      * intros d d' f L Kf Cd. apply (f_mono K Fi d); [exact L|]. apply Kf. eapply covers_le; [exact L|exact Cd].
    + apply fW_cons. split; [|intros v Iv _; apply Wq; exact Iv]. intros _. apply Kp; [apply Ad|]. apply (ad_T K _ Ad (plm u, p)). left. reflexivity.
  - intros w Iw Fw'. destruct (Fl w Iw Fw') as (w0 & I0 & F0 & L0). rewrite <- L0. apply Cov. apply D; assumption.
  - intros w [Iw|Iw].
    + destruct (er_back J J' _ w P Iw) as (w0 & I0 & L1 & L2 & _). apply (Pm w0); [|congruence|congruence].
      destruct I0 as [->|I0]; [apply new_par, E; right; left; reflexivity|apply E; left; exact I0].
    + apply (Pm w); [apply E; right; right; exact Iw|reflexivity|reflexivity].
  - intros w Iw. apply F. right. exact Iw.
  - intros e Ce Le (x & [<-|Ix] & L); [cbn [fst] in L; lia|]. destruct Ce as (w & Iw & Ew' & Fw'); [exists x; auto|].
    destruct (er_to J J' _ w P (or_intror Iw)) as (w' & I' & L1 & _ & L3). exists w'. split; [exact I'|]. split; [congruence|tauto].
Qed.

(* ------------------------------------------------------------------------------------------ *)
(** * A reduced tail *)

Lemma tail_core fuel J q T e T0 e' : core J q T -> Permutation T (e :: T0) -> tail_reduce fuel false (-1) [J] T0 e = Ok e' ->
  (forall x, In x T0 -> (deg (fst x) < deg (fst e))%nat -> closed J T x) -> fst e' = fst e /\ core J q (e' :: T0).
Proof.
  intros Co P Et Cl. assert (Co' := core_perm _ _ _ _ P Co). clear Co. rename Co' into Co.
  assert (Cl' : forall x, In x T0 -> (deg (fst x) < deg (fst e))%nat -> closed J (e :: T0) x) by (intros x Ix Lx; eapply closed_perm; [exact P|auto]).
  clear Cl P. destruct Co as [A B C D E F]. set (T1 := e :: T0) in *.
  assert (Tr := tail_reduce_ok t o 1 G Hn Ho fuel J T1 e T0 A (Permutation_refl _)). rewrite Et in Tr. cbn [safe] in Tr. destruct Tr as (Ef & H' & _).
  split; [exact Ef|].
  assert (Hg := ti_good _ _ _ _ _ _ A). destruct (Forall_inv Hg) as [Ge He].
  assert (Cov : forall d, covers (e' :: T0) d <-> covers T1 d).
  { intro d. split; apply covers_fst; cbn [map]; rewrite Ef; auto. }
  assert (Cl : covers T1 (deg (fst e))) by (exists e; split; [left; reflexivity|lia]).
  unfold tail_reduce in Et. destruct (p_nfTail fuel false (find1 J T0) (snd e)) as [[p2 c]| | | |] eqn:En; cbn [bind] in Et; try discriminate.
  destruct (if (c =? 0)%nat then Ok p2 else p_pp false p2) as [p3| | | |] eqn:Epp; cbn [bind] in Et; try discriminate. injection Et as <-. cbn [fst snd] in *.
  assert (Main : forall K, filt K -> (forall x, In x T0 -> (deg (fst x) < deg (fst e))%nat -> K (deg (fst x)) (terms (snd x))) ->
    (K (deg (fst e)) (terms p3) <-> K (deg (fst e)) (terms (snd e)))).
  { intros K Fi Lo. rewrite <- (nfTail_K t o G Ho K J T1 T0 (fst e) fuel (snd e) (deg (fst e)) p2 c A (fun x I => or_intror I) Fi Cl Lo (proj1 Ge) He (Nat.le_refl _) En).
    destruct (c =? 0)%nat; [injection Epp as <-; reflexivity|].
    apply (pp_f t o G K (deg (fst e)) p2 p3 Fi); [|exact Epp].
    assert (Nt := nft_safe t o 1 G (GT 1 G T0) (GT_GM 1 G T0) (below_find t o (fst e) (find1 J T0)) (find1 J T0) fuel (snd e) (fst e)
      (find_other t o 1 G Hn Ho J T1 e T0 A (Permutation_refl _)) Ge He).
    rewrite En in Nt. cbn [safe fst] in Nt. apply Nt. intros m _ Lm. unfold below_find. rewrite Lm. reflexivity. }
  split; [exact H'|exact B| | |exact E|exact F].
  - intros K Ad Wq. assert (Ad1 : adm K T1).
    { destruct Ad as [Fi Fu FT]. split; [exact Fi|intros d f Nc; apply Fu; rewrite Cov; exact Nc|].
      intros x [<-|Ix]; [|apply FT; right; exact Ix]. apply (Main K Fi); [intros x Ix _; apply FT; right; exact Ix|]. apply (FT (fst e, p3)). left. reflexivity. }
    assert (Ob := C K Ad1 Wq). intros w p Iw Fw [Ip|Ip]; [|apply Ob; [exact Iw|exact Fw|right; exact Ip]].
    injection Ip as E1 E2. subst p. rewrite <- E1.
    apply (Main (fun d f => K (S d) (X1 f)) (filt_X1 K (ad_f _ _ Ad))).
    + intros x Ix Lx. destruct (Cl' x Ix Lx) as (v & Iv & Ev & Fv); [exists e; split; [left; reflexivity|lia]|]. rewrite <- Ev. apply Ob; [exact Iv|exact Fv|].
      rewrite Ev. right. destruct x; exact Ix.
    + rewrite E1. apply Ob; [exact Iw|exact Fw|]. rewrite <- E1. left. destruct e; reflexivity.
  - intros w Iw Fw. apply Cov. apply D; assumption.
Qed.

(* ------------------------------------------------------------------------------------------ *)
(** * Prolongation *)

Lemma coef_zero l m : ~ In m (map fst l) -> coef l m = 0.
Proof.
  induction l as [|[x c] l IH]; intro N; [reflexivity|]. cbn [coef]. destruct (monom_eq_dec x m) as [E|E]; [exfalso; apply N; left; exact E|].
  rewrite IH by (intro I; apply N; right; exact I). reflexivity.
Qed.

Lemma triangle K J T : tinv J T -> adm K T -> forall D f, (forall i, (i < D)%nat -> exists e, In e T /\ deg (fst e) = i) ->
  (forall m, coef f m <> 0 -> mono 1 m /\ pos m = -1 /\ (deg m < D)%nat) -> K (pred D) f.
Proof.
  intros H A. induction D as [|D IH]; intros f Al Su.
  - apply (f_zero K (ad_f _ _ A)). intro m. destruct (Z.eq_dec (coef f m) 0) as [E|E]; [exact E|]. apply Su in E. lia.
  - destruct (Al D) as (e & Ie & De); [lia|]. assert (Hg := ti_good _ _ _ _ _ _ H). rewrite Forall_forall in Hg. destruct (Hg e Ie) as [Ge He].
    destruct (hd_mono t o 1 G _ _ (proj1 Ge) He) as [Me Pe].
    set (a := coef (terms (snd e)) (fst e)). assert (Na : a <> 0) by (apply (in_coef t o 1 G); [apply Ge|apply hd_in; exact He]).
    set (c := coef f (fst e)). set (f' := scale a f ++ scale (- c) (terms (snd e))).
    assert (Ef : forall m, coef f' m = a * coef f m - c * coef (terms (snd e)) m) by (intro m; unfold f'; rewrite coef_app, !coef_scale; ring).
    assert (K' : K (pred D) f').
    { apply IH; [intros i Hi; apply Al; lia|]. intros m Nm. rewrite Ef in Nm.
      assert (Nq : mono 1 m /\ pos m = -1 /\ (deg m <= D)%nat).
      { destruct (Z.eq_dec (coef f m) 0) as [E|E]; [|apply Su in E; lia || (destruct E as (E1 & E2 & E3); repeat split; try apply E1; try assumption; lia)].
        assert (Im : In m (map fst (terms (snd e)))) by (destruct (in_dec monom_eq_dec m (map fst (terms (snd e)))) as [I|I]; [exact I|]; rewrite (coef_zero _ _ I), E in Nm; lia).
        destruct (goodz_mono t o 1 G _ m (proj1 Ge) Im) as [Mm Pm]. split; [exact Mm|]. split; [exact Pm|].
        rewrite <- De. apply (deg_le t o G Ho (snd e)); [apply Ge|exact He|exact Im]. }
      destruct Nq as (Mm & Pm & Dm). split; [exact Mm|]. split; [exact Pm|]. destruct (Nat.eq_dec (deg m) D) as [E|E]; [|lia]. exfalso. apply Nm.
      assert (m = fst e) by (apply deg_inj; auto; lia). subst m. fold a c. ring. }
    cbn [pred]. apply (f_lin K (ad_f _ _ A) D f' (terms (snd e)) f a 1 c Na); [intro m; rewrite Ef; ring| |].
    + apply (f_mono K (ad_f _ _ A) (pred D)); [lia|exact K'].
    + rewrite <- De. apply (ad_T _ _ A). exact Ie.
Qed.

Lemma one_X1 p : goodz p -> map (fun x => (mul_var 0 (fst x), snd x)) (terms p) = X1 (terms p).
Proof.
  intros Gp. unfold shift. apply map_ext_in. intros [x c] I. cbn [fst snd]. f_equal. apply (in_map fst) in I.
  destruct (goodz_mono t o 1 G p x Gp I) as [Mx Px]. rewrite (one_var x Mx Px). reflexivity.
Qed.
Lemma deg_mul_var m : mono 1 m -> pos m = -1 -> deg (mul_var 0 m) = S (deg m) /\ mono 1 (mul_var 0 m) /\ pos (mul_var 0 m) = -1.
Proof.
  intros M P. rewrite (one_var m M P) at 1 2 3. unfold mul_var. cbn [vars pos incr]. rewrite (one_var m M P). cbn [pos]. rewrite !deg_X. split; [reflexivity|]. split; [|reflexivity].
  split; [reflexivity|cbn; lia].
Qed.

(** The tree after a build mark. *)
Lemma store_wraps J T w w' J1 : tinv J T -> In w (tw J) -> upd_trees (fun _ => w') (wlm w) [J] = [J1] -> wlm w' = wlm w ->
  (forall v, In v (tw J1) -> v = w' \/ In v (tw J)) /\ (forall v, In v (tw J) -> v = w \/ In v (tw J1)) .
Proof.
  intros H Iw E Ew. unfold upd_trees in E. cbn [map] in E. injection E as <-. cbn [jroot]. rewrite wraps_upd. split.
  - intros v Iv. apply in_map_iff in Iv as (v0 & E & I0). destruct (same_key (wlm v0) (wlm w)); subst; auto.
  - intros v Iv. destruct (same_key (wlm v) (wlm w)) eqn:E; [left; apply (tinv_key t o 1 G J T v w H Iv Iw E)|]. right.
    apply in_map_iff. exists v. rewrite E. auto.
Qed.

Lemma mark_core J q T w w' J1 q1 : core J q T -> In w (tw J) -> ~ flag w -> upd_trees (fun _ => w') (wlm w) [J] = [J1] -> tinv J1 T -> In w' (tw J1) ->
  wlm w' = wlm w -> wanc w' = wanc w -> flag w' -> covers T (S (deg (wlm w))) -> Forall okq q1 ->
  (forall K p, adm K T -> fW K q1 -> In (wlm w, p) T -> K (S (deg (wlm w))) (X1 (terms p))) ->
  (forall u, In u q1 -> In u q \/ (wanc (wwrap u) = wanc w /\ S (deg (wlm w)) = deg (wlm (wwrap u)) /\ ~ flag (wwrap u))) -> incl q q1 ->
  core J1 q1 T /\ (forall x, closed J T x -> closed J1 T x).
Proof.
  intros [A B C D E F] Iw Nw Eu H1 I1 E1 E2 Fw Cv Q1 Kw In1 Inc. destruct (store_wraps J T w w' J1 A Iw Eu E1) as [W1 W2].
  assert (Pm : forall v v', par J v -> wlm v' = wlm v -> wanc v' = wanc v -> par J1 v').
  { intros v v' [P|(x & Ix & Fx & Ax & Dx)] L1 L2; [left; congruence|]. right. exists x. rewrite L1, L2.
    destruct (W2 x Ix) as [->|I]; [contradiction|]. auto. }
  assert (Inq : forall v, In v (map wwrap q1) -> In v (map wwrap q) \/ (wanc v = wanc w /\ S (deg (wlm w)) = deg (wlm v) /\ ~ flag v)).
  { intros v Iv. apply in_map_iff in Iv as (u & <- & Iu). destruct (In1 u Iu) as [I|I]; [left; apply in_map; exact I|right; exact I]. }
  split; [split; [exact H1|exact Q1| | | |]|].
  - intros K Ad Wq v p Iv Fv Ip. destruct (W1 v Iv) as [->|I0].
    + rewrite E1 in *. apply (Kw K p Ad Wq Ip).
    + apply (C K Ad (fW_incl _ _ _ Inc Wq)); assumption.
  - intros v Iv Fv. destruct (W1 v Iv) as [->|I0]; [rewrite E1; exact Cv|apply D; assumption].
  - intros v [Iv|Iv].
    + destruct (W1 v Iv) as [->|I0]; [apply (Pm w); auto|apply (Pm v); auto].
    + destruct (Inq v Iv) as [I|(P1 & P2 & P3)]; [apply (Pm v); auto|]. right. exists w'. rewrite E1, E2. auto.
  - intros v Iv. destruct (Inq v Iv) as [I|(P1 & P2 & P3)]; [apply F; exact I|exact P3].
  - intros x Cx X. destruct (Cx X) as (v & Iv & Ev & Fv). exists v. destruct (W2 v Iv) as [->|I0]; [contradiction|]. auto.
Qed.

Lemma chain J q T : core J q T -> forall k w, deg (wlm w) = k -> In w (tw J) -> deg (wanc w) = 0%nat ->
  forall i, (i <= deg (wlm w))%nat -> exists e, In e T /\ deg (fst e) = i.
Proof.
  intros Co. induction k as [|k IH]; intros w Dk Iw A i Hi; (destruct (Nat.eq_dec i (deg (wlm w))) as [->|Ni];
    [destruct (wrap_mono t o G J T w (c_ti _ _ _ Co) Iw) as (e & Ie & Ee); exists e; split; [exact Ie|congruence]|]); [lia|].
  destruct (c_B _ _ _ Co w (or_introl Iw)) as [P|(v & Iv & Fv & Av & Dv)]; [rewrite P in A; lia|].
  apply (IH v); [lia|exact Iv|congruence|lia].
Qed.

Lemma prolong_core dg J q T e : core J q T -> In e T ->
  exists J' q', prolong_if false (-1) dg [J] e q = Ok ([J'], q') /\ core J' q' T /\ (forall x, closed J T x -> closed J' T x) /\
    ((deg (fst e) <= dg)%nat -> closed J' T e).
Proof.
  intros Co Ie. assert (H := c_ti _ _ _ Co). unfold prolong_if. destruct (Nat.leb_spec (deg (fst e)) dg) as [Ld|Ld].
  2:{ exists J, q. split; [reflexivity|]. split; [exact Co|]. split; [auto|]. intro; lia. }
  unfold prolong_entry. destruct (get_wrap_ok t o 1 G J T e H Ie) as (w & -> & Iw & Ew).
  assert (Hg := ti_good _ _ _ _ _ _ H). rewrite Forall_forall in Hg. destruct (Hg e Ie) as [Ge He].
  destruct (key_mono t o G J T e H Ie) as [Me Pe].
  assert (Sz : size (wlm w) = 1%nat) by (unfold size; rewrite Ew; apply Me). rewrite Sz. cbn [jp_prolong].
  assert (Ow : okw 1 w) by (assert (O := ji_ok _ _ (ti_inv _ _ _ _ _ _ H)); rewrite Forall_forall in O; auto).
  assert (Ow' := Ow). destruct Ow' as (O1 & O2 & O3 & O4). rewrite !(get_flag_ok 1) by (assumption || lia). cbn [bind].
  assert (Nm := jinv_flags 1 (jroot J) w 0 (ti_inv _ _ _ _ _ _ H) Iw Hn). unfold fl in Nm. rewrite (nm_one t o G J T w H Iw), Ew in Nm.
  destruct (nth 0 (wnm w) false) eqn:E1; cbn [andb].
  2:{ exists J, q. split; [reflexivity|]. split; [exact Co|]. split; [auto|]. intros _ X. apply Nm in X. discriminate. }
  destruct (nth 0 (wbuild w) false) eqn:E2; cbn [negb].
  { exists J, q. split; [reflexivity|]. split; [exact Co|]. split; [auto|]. intros _ X. exists w. auto. }
  assert (Cv : covers T (S (deg (fst e)))) by (apply Nm; reflexivity).
  assert (Nf : ~ flag w) by (unfold flag; rewrite E2; discriminate).
  assert (Sb : exists w', set_build false w 0 = Ok w' /\ kp 1 w w' /\ flag w').
  { unfold set_build. destruct (set_at_spec (wbuild w) 0) as (l' & E & L & N1 & _); [lia|]. rewrite E. eexists. split; [reflexivity|]. split.
    - repeat split; cbn; try assumption; try reflexivity; congruence.
    - unfold flag. cbn. rewrite N1. reflexivity. }
  destruct Sb as (w' & Eb & Kw & Fw'). destruct (store_ok t o 1 G J T w w' H Iw Kw) as (J1 & Eu & H1 & I1).
  destruct Kw as (L1 & L2 & _ & _).
  destruct (deg_mul_var (fst e) Me Pe) as (Dm & Mm & Pm).
  destruct (find_wrap_ok 1 Hn J (mul_var 0 (wlm w)) (ti_inv _ _ _ _ _ _ H)) as (d & -> & Fd); [rewrite Ew; exact Mm|]. cbn [bind].
  assert (Cl1 : closed J1 T e) by (intros _; exists w'; split; [exact I1|]; split; [congruence|exact Fw']).
  match goal with |- context [if ?b then _ else _] => destruct b eqn:Sk end.
  - rewrite Eb. cbn [bind]. rewrite Eu. exists J1, q. split; [reflexivity|]. destruct d as [d|]; [|discriminate]. destruct Fd as (_ & Id & Jd).
    rewrite Ew in *. assert (Ed : wlm d = mul_var 0 (fst e)) by (apply (exact_div t o G J T d _ H Id Jd Mm Pm); rewrite Dm; exact Cv).
    assert (A0 : deg (wanc w) = 0%nat).
    { destruct (c_B _ _ _ Co d (or_introl Id)) as [P|(v & Iv & Fv & _ & Dv)].
      - rewrite P, Ed in Sk. apply Bool.orb_true_iff in Sk as [Sk|Sk]; [apply Nat.leb_le in Sk; lia|]. apply Nat.ltb_lt in Sk.
        unfold lcm_deg in Sk. rewrite (vars_one (mul_var 0 (fst e))) in Sk by apply Mm. rewrite Dm in Sk. unfold deg. destruct (vars (wanc w)) as [|a [|b l]]; [reflexivity| |]; cbn in Sk; lia.
      - exfalso. apply Nf. rewrite Ed, Dm in Dv. destruct (wrap_mono t o G J T v H Iv) as (x & Ix & Ex). destruct (key_mono t o G J T x H Ix) as [Mx Px]. rewrite Ex in *.
        assert (wlm v = wlm w) by (rewrite Ew; apply deg_inj; auto; lia).
        rewrite <- (tinv_key t o 1 G J T v w H Iv Iw); [exact Fv|]. apply same_key_spec; congruence. }
    assert (All : forall i, (i < S (deg (mul_var 0 (fst e))))%nat -> exists x, In x T /\ deg (fst x) = i).
    { intros i Hi. rewrite Dm in Hi. destruct (Nat.eq_dec i (S (deg (fst e)))) as [->|Ni].
      - destruct (wrap_mono t o G J T d H Id) as (x & Ix & Ex). exists x. split; [exact Ix|]. rewrite Ex, Ed. exact Dm.
      - apply (chain J q T Co (deg (wlm w)) w eq_refl Iw A0). rewrite Ew. lia. }
    destruct (mark_core J q T w w' J1 q Co Iw Nf) as [Co1 Cm]; try assumption; try (rewrite Ew); auto.
    + apply (c_q _ _ _ Co).
    + intros K p Ad _ Ip. rewrite <- Dm. change (deg (mul_var 0 (fst e))) with (pred (S (deg (mul_var 0 (fst e))))). apply (triangle K J T H Ad _ _ All).
      intros m Nc. assert (Im : In m (map fst (X1 (terms p)))) by (destruct (in_dec monom_eq_dec m (map fst (X1 (terms p)))) as [I|I]; [exact I|]; rewrite (coef_zero _ _ I) in Nc; congruence).
      unfold shift in Im. rewrite map_map in Im. cbn [fst] in Im. apply in_map_iff in Im as ([x c] & <- & Ix). cbn [fst].
      destruct (Hg _ Ip) as [Gp Hp]. cbn [fst snd] in *. apply (in_map fst) in Ix. cbn [fst] in Ix. destruct (goodz_mono t o 1 G p x (proj1 Gp) Ix) as [Mx Px].
      assert (Lx := deg_le t o G Ho p (fst e) x (proj1 Gp) Hp Ix). rewrite (one_var x Mx Px). unfold mprod. cbn [vars pos addv]. 
      split; [split; [reflexivity|cbn; lia]|]. split; [reflexivity|]. rewrite Dm. cbn. lia.
    + apply incl_refl.
  - unfold prolong_wrap. rewrite !(get_flag_ok 1) by (assumption || lia). cbn [bind]. unfold assert_. cbn [andb]. rewrite Eb. cbn [bind].
    destruct (good_mul_var t o 1 G Hn 0 (snd e) (fst e)) as (pv & Epv & Gpv & Hpv); [lia|exact Ge|exact He|]. rewrite Epv. cbn [bind].
    set (v := Wrap (mul_var 0 (wlm w)) (wanc w) (repeat false (size (wlm w))) (repeat false (size (wlm w))) (repeat false (size (wlm w)))).
    destruct (insert_w t o 1 G Hn false q (WP v pv)) as (q1 & -> & P1 & _); [exact Gpv|apply okq_gw; apply (c_q _ _ _ Co)|]. cbn [bind]. rewrite Eu.
    exists J1, q1. split; [reflexivity|].
    assert (Tpv : terms pv = X1 (terms (snd e))).
    { rewrite <- (one_X1 (snd e) (proj1 Ge)). unfold p_mul_var, checked, assert_ in Epv. cbn [andb] in Epv. injection Epv as <-. reflexivity. }
    destruct (mark_core J q T w w' J1 q1 Co Iw Nf) as [Co1 Cm]; try assumption; try (rewrite Ew); auto.
    + eapply Permutation_Forall; [apply Permutation_sym; exact P1|]. constructor; [|apply (c_q _ _ _ Co)]. split; [exact Gpv|].
      split; [unfold size in Sz; unfold okw, lv, v, size; cbn [wwrap wlm wnm wnmd wbuild mul_var vars]; rewrite incr_length, !repeat_length, Sz; auto|]. split; [cbn; rewrite Ew; exact Pe|].
      intros i Hi. unfold fl, v. cbn [wnm wwrap]. apply nth_false.
    + intros K p Ad Wq Ip. assert (X := Wq (WP v pv)). cbn [wpol] in X. rewrite (plm_eq (WP v pv) _ Hpv), Dm, Tpv in X.
      assert (Ep : p = snd e).
      { assert (Nd := tinv_nd t o 1 G J T H). clear - Nd Ip Ie. destruct e as [m a]. cbn [fst snd] in *. 
        induction T as [|x l IH]; [destruct Ip|]. cbn [map] in Nd. apply NoDup_cons_iff in Nd as [Nx Nd].
        destruct Ip as [->|Ip], Ie as [Ee|Ie]; [congruence| | |auto].
        - exfalso. apply Nx. apply (in_map fst) in Ie. exact Ie.
        - exfalso. apply Nx. subst x. apply (in_map fst) in Ip. exact Ip. }
      rewrite Ep. apply X. eapply Permutation_in; [apply Permutation_sym; exact P1|left; reflexivity].
    + intros u Iu. eapply Permutation_in in Iu; [|exact P1]. destruct Iu as [<-|Iu]; [right|left; exact Iu]. cbn [wwrap]. unfold v. cbn [wanc wlm]. rewrite Ew, Dm.
      split; [reflexivity|]. split; [reflexivity|]. unfold flag. cbn [wbuild]. rewrite nth_false. discriminate.
    + intros x Ix. eapply Permutation_in; [apply Permutation_sym; exact P1|right; exact Ix].
Qed.
End P.
