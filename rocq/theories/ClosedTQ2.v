(** Closed classes of polynomials: algorithmTQ2 stays in them. *)
From Coq Require Import ZArith List Bool Arith Lia Permutation Sorted.
From Verif Require Import Outcome MonomModel MonomSpec MonomProofs PolyModel PolySpec PolyProofs PolyRedProofs PolyNfProofs CythonProofs
  JanetModel JanetSpec JanetProofs JanetFindProofs CompletionProofs JanetPolyModel TQModel JanetPolySpec IdealProofs JanetPolyProofs PolyTopProofs
  TQProofs JanetPolyTop JanetTermSpec JanetTermMain ShapeProofs AncProofs InvolutiveProofs InvolutiveTop NormalSpec LinTop LinSol ClosedSpec ClosedProofs ClosedMain ClosedTop
  NormalTop TQ2HPSpec TQ2Mult TQ2Normal.
Import ListNotations.
Local Open Scope Z_scope.

Section P.
Variables (t : pos_order) (o : base_order) (n : nat).
Hypothesis (Hn : (0 < n)%nat) (Ho : o <> OAlex).
Variable PP : list term -> Prop.
Hypothesis HE : kept_by_elimination t o n PP PP.
Hypothesis HF : kept_by_factors t o n PP.
Hypothesis HP : kept_by_prolongation t o n PP.
Notation fw := (ClosedProofs.fw PP).
Notation ft := (ClosedProofs.ft PP).
Notation A := (fun _ : list term => True).
Notation good := (good t o n A).
Notation okq := (okq t o n A).
Notation okh := (okh t o n A).
Notation oki := (oki t o n A).
Notation gw := (gw t o n A).
Notation GT := (GT n A).
Notation tinv := (tinv t o n A).
Notation find1 J T := (find_poly false (-1) (Some [J]) T).

Lemma take_tq2_in J T dg fuel : tinv J T -> ft T -> forall q tmp q1 tmp1, Forall okq q -> Forall gw tmp -> fw q -> fw tmp ->
  take_tq true fuel false (find1 J T) dg q tmp = Ok (Some (q1, tmp1)) -> fw q1 /\ fw tmp1.
Proof.
  intros H F. assert (GF := good_find_T t o n A Hn J T H).
  induction q as [|u q IH]; intros tmp q1 tmp1 Q Tm Fq Ft E; cbn [take_tq] in E; [injection E as <- <-; auto|].
  assert (Hu := Forall_inv Q). assert (Q' := Forall_inv_tail Q). assert (Fu := Forall_inv Fq). assert (Fq' := Forall_inv_tail Fq). cbv beta in Fu.
  rewrite (lm_plm t o n A false u (proj1 Hu)) in E. cbn [bind] in E. destruct (deg (plm u) <=? dg)%nat; [|injection E as <- <-; auto].
  assert (N := nf_safe t o n A Hn (GT T) (GT_GM n A T) _ fuel (wpol u) GF (proj1 (proj1 Hu))).
  destruct (p_nf fuel false (find1 J T) (wpol u)) as [[p c]| | | |] eqn:E1; cbn [bind] in E; try discriminate. cbn [safe fst] in N. destruct N as (Gr & _).
  assert (F1 := p_nf_in t o n PP PP HE (GT T) (GT_in n PP T F) _ fuel (wpol u) _ GF (proj1 (proj1 Hu)) Fu E1). cbn [fst] in F1.
  destruct (is_zero p) eqn:Zr; [eapply IH; eassumption|].
  assert (Gr' : good p) by (split; [exact Gr|intro Z; unfold is_zero in Zr; rewrite Z in Zr; discriminate]).
  destruct (good_hd t o n A _ Gr') as (m & Hm). rewrite (hd_lm false _ m Hm) in E. cbn [bind] in E. destruct (deg m =? 0)%nat; [discriminate|].
  assert (N := nft_safe t o n A (GT T) (GT_GM n A T) (find1 J T) (find1 J T) fuel p m GF Gr' Hm (fun _ _ _ => eq_refl)).
  destruct (p_nfTail fuel false (find1 J T) p) as [[p2 c2]| | | |] eqn:E2; cbn [bind fst snd] in E; try discriminate. cbn [safe fst] in N. destruct N as (G2 & Hm2 & _).
  assert (F2 := p_nfTail_in t o n Hn PP PP HE (GT T) (GT_in n PP T F) _ _ fuel p m _ GF Gr' Hm F1 (fun _ _ _ => eq_refl) E2). cbn [fst] in F2.
  destruct (if (c + c2 =? 0)%nat then Ok p2 else p_pp false p2) as [p3| | | |] eqn:E3; cbn [bind] in E; try discriminate.
  assert (X3 : good p3 /\ PP (terms p3)).
  { destruct (c + c2 =? 0)%nat; [injection E3 as <-; auto|]. split; [|eapply (pp_in t o n Hn PP HF); [apply G2|exact F2|exact E3]].
    destruct (good_pp t o n A p2 m G2 Hm2) as (p' & E' & G' & _). rewrite E3 in E'. injection E' as <-. exact G'. }
  destruct X3 as [G3 F3]. destruct (jp_insert false tmp _) as [tmp'| | | |] eqn:E4; cbn [bind] in E; try discriminate. apply jp_insert_perm in E4.
  apply (IH tmp' q1 tmp1 Q'); [| |exact (fw_perm PP _ _ (Permutation_sym E4) (Forall_cons (WP (wwrap u) p3) F3 Ft))|exact E].
  - eapply Permutation_Forall; [apply Permutation_sym; exact E4|]. constructor; [exact G3|exact Tm].
  - exact Fq'.
Qed.

(** The non-multiplicative flags of an element come from elements of the class. *)
Definition nmw (w : wrap) : Prop :=
  forall k, (k < n)%nat -> nth k (wnm w) false = true -> exists h v, ring_terms t o n h /\ PP h /\ leads h v /\ (expo (vars (wlm w)) k < expo v k)%nat.
Definition fi (x : titem) : Prop :=
  match x with Att e => PP (terms (snd e)) | Det w => PP (terms (wpol w)) /\ hd (wpol w) (wlm (wwrap w)) /\ nmw (wwrap w) end.

Lemma fi_ft l : Forall fi l -> ft (atts l).
Proof.
  induction 1 as [|x l Hx _ IH]; [constructor|]. destruct x as [e|w]; cbn [atts flat_map app]; [constructor; [exact Hx|exact IH]|exact IH].
Qed.
Lemma fi_pp l : Forall fi l -> Forall (fun x => PP (terms (item_poly x))) l.
Proof. apply Forall_impl. intros [e|w] X; cbn [fi item_poly] in *; [exact X|apply X]. Qed.

Lemma tree_nmw J T w : tinv J T -> ft T -> In w (wraps (jroot J)) -> nmw w.
Proof.
  intros H F Iw k K Nm.
  assert (Jn : janet_nm (lms (wraps (jroot J))) (lv w) k).
  { apply (flagsT_flags n 0 (jroot J)); [apply (ti_inv _ _ _ _ _ _ H)|intros; lia|apply (ti_inv _ _ _ _ _ _ H)|exact Iw|lia|lia|exact Nm]. }
  destruct Jn as (v & Iv & _ & Lv). destruct (tree_leads t o n PP J T H F v Iv) as (h & Rh & Ph & Lh). exists h, v. auto.
Qed.

Lemma prolong_det_in J T p : tinv J T -> good p -> PP (terms p) -> forall cnt k w q w' q', (k + cnt = n)%nat -> okw n w -> pos (wlm w) = -1 ->
  hd p (wlm w) -> nmw w -> fw q -> prolong_det false (-1) cnt k [J] w p q = Ok (w', q') -> fw q' /\ wlm w' = wlm w /\ nmw w'.
Proof.
  intros H Gp Pp. induction cnt as [|cnt IH]; intros k w q w' q' K Ow Pw Hp Nw Fq E; cbn [prolong_det] in E; [injection E as <- <-; auto|].
  assert (Ow' := Ow). destruct Ow' as (O1 & O2 & O3 & O4). rewrite !(get_flag_ok n) in E by (assumption || lia). cbn [bind] in E.
  destruct (nth k (wnm w) false) eqn:Nm; cbn [andb] in E.
  2:{ eapply IH; [|exact Ow|exact Pw|exact Hp|exact Nw|exact Fq|exact E]. lia. }
  destruct (negb (nth k (wbuild w) false)) eqn:Nb.
  2:{ eapply IH; [|exact Ow|exact Pw|exact Hp|exact Nw|exact Fq|exact E]. lia. }
  destruct (JanetPolyProofs.set_build_ok n Hn false w k) as (w1 & Ew & Kw); [exact Ow|lia|].
  assert (Kw' := Kw). destruct Kw' as (K1 & _ & K3 & K4).
  assert (N1 : nmw w1) by (unfold nmw; rewrite K1, K3; exact Nw).
  assert (Mm : mono n (mul_var k (wlm w))) by (split; cbn [mul_var vars pos]; [rewrite incr_length; exact O1|lia]).
  destruct (find_wrap_ok n Hn J (mul_var k (wlm w)) (ti_inv _ _ _ _ _ _ H) Mm) as (d & Ed & _). rewrite Ed in E. cbn [bind] in E.
  assert (Rec : forall q1, fw q1 -> prolong_det false (-1) cnt (Datatypes.S k) [J] w1 p q1 = Ok (w', q') -> fw q' /\ wlm w' = wlm w /\ nmw w').
  { intros q1 F1 X. rewrite <- K1. apply (IH (Datatypes.S k) w1 q1 w' q'); [lia|apply K4; exact Ow|rewrite K1; exact Pw|rewrite K1; exact Hp|exact N1|exact F1|exact X]. }
  match type of E with context [if ?b then _ else _] => destruct b end.
  - rewrite Ew in E. cbn [bind] in E. exact (Rec q Fq E).
  - unfold prolong_wrap in E. rewrite !(get_flag_ok n) in E by (assumption || lia). cbn [bind] in E. unfold assert_ in E. cbn [andb] in E. rewrite Ew in E. cbn [bind] in E.
    destruct (p_mul_var false k p) as [pv| | | |] eqn:Ep; cbn [bind] in E; try discriminate.
    destruct (jp_insert false q _) as [q1| | | |] eqn:Ei; cbn [bind] in E; try discriminate. apply jp_insert_perm in Ei.
    apply (Rec q1); [|exact E]. eapply fw_perm; [apply Permutation_sym; exact Ei|]. constructor; [|exact Fq]. cbn [wpol].
    destruct (Nw k ltac:(lia) Nm) as (h & v & Rh & Ph & Lh & Lv).
    destruct (good_mul_var t o n A Hn k p (wlm w)) as (pv' & Ep' & Gv & _); [lia|exact Gp|exact Hp|]. rewrite Ep in Ep'. injection Ep' as <-.
    apply (HP (terms p) h (terms pv) (vars (wlm w)) v k (InvolutiveProofs.e n k)); [apply (rt t o n); exact Gp|exact Rh|apply (rt t o n); exact Gv|exact Pp|exact Ph|apply (hd_leads t o n); [apply Gp|exact Hp]|exact Lh|lia|exact Lv|apply variable_e; lia|].
    apply (mul_var_coef t o n Hn); [lia|exact Gp|exact Ep].
Qed.

Lemma item_step_in fuel dg J q others x js' q' x' : tinv J (atts [x] ++ others) -> oki x -> fi x -> ft others -> Forall okq q -> fw q ->
  item_step fuel false (-1) dg [J] q others x = Ok (js', q', x') -> fi x' /\ fw q'.
Proof.
  intros H Ox Fx Fo Q Fq E. destruct x as [e|w]; cbn [item_step atts flat_map app] in *.
  - assert (FT : ft (e :: others)) by (constructor; assumption).
    destruct (tail_reduce _ _ _ _ _ _) as [e'| | | |] eqn:Et; cbn [bind] in E; try discriminate.
    destruct (tail_reduce_shape t o n A Hn Ho fuel J _ e _ e' H (Permutation_refl _) Et) as (_ & H' & _).
    assert (F' := tail_reduce_in t o n Hn Ho PP HE HF fuel J _ e _ e' H (Permutation_refl _) FT Et).
    destruct (prolong_if false (-1) dg [J] e' q) as [[js1 q1]| | | |] eqn:Ep; cbn [bind fst snd] in E; try discriminate. injection E as <- <- <-.
    split; [exact (Forall_inv F')|]. exact (prolong_if_in t o n Hn PP HP dg J _ e' q _ _ H' F' (or_introl eq_refl) Fq Ep).
  - destruct Ox as (Gw & Ow & Pw). destruct Fx as (Pp & Hd & Nw).
    destruct (tail_pp fuel false _ (wpol w)) as [p| | | |] eqn:Et; cbn [bind] in E; try discriminate.
    assert (X := tail_pp_ok t o n A Hn J others fuel (wpol w) _ H Gw Hd). rewrite Et in X. cbn [safe] in X. destruct X as (Gp & Hp & _).
    assert (Fp := tail_pp_in t o n Hn PP HE HF J others fuel (wpol w) _ p H Fo Gw Hd Pp Et).
    destruct (deg (wlm (wwrap w)) <=? dg)%nat.
    + destruct (prolong_det _ _ _ _ _ _ _ _) as [[w' q1]| | | |] eqn:Ed; cbn [bind fst snd] in E; try discriminate. injection E as <- <- <-.
      destruct (prolong_det_in J others p H Gp Fp (size (wlm (wwrap w))) 0%nat (wwrap w) q w' q1) as (F1 & L1 & N1); try assumption; [apply Ow|].
      split; [|exact F1]. cbn [fi wpol wwrap]. rewrite L1. auto.
    + injection E as <- <- <-. split; [|exact Fq]. cbn [fi wpol wwrap]. auto.
Qed.

Lemma walk2_in fuel dg : forall cnt J q d w k js' q' T', tinv J (atts d ++ opt w ++ atts k) -> Forall oki d -> Forall oki k -> Forall okq q ->
  Forall fi (d ++ optI w ++ k) -> fw q -> walk2 cnt fuel false (-1) dg [J] q d w k = Ok (js', q', T') -> Forall fi T' /\ fw q'.
Proof.
  induction cnt as [|cnt IH]; intros J q d w k js' q' T' H Od Ok' Q F B E; cbn [walk2] in E.
  { destruct w; [discriminate|]. destruct k; [|discriminate]. injection E as <- <- <-. cbn [app optI] in F. rewrite app_nil_r in F. auto. }
  assert (Redu : forall x w' k', Permutation (d ++ optI w ++ k) (x :: d ++ optI w' ++ k') -> oki x -> Forall oki k' ->
      (do r <- item_step fuel false (-1) dg [J] q (atts d ++ opt w' ++ atts k') x;
       let '(js1, q1, x') := r in walk2 cnt fuel false (-1) dg js1 q1 (d ++ [x']) w' k') = Ok (js', q', T') -> Forall fi T' /\ fw q').
  { intros x w' k' P Ox Ok2 X.
    assert (PPm : Permutation (atts d ++ opt w ++ atts k) (atts [x] ++ atts d ++ opt w' ++ atts k')).
    { rewrite <- !atts_optI, <- !atts_app. unfold atts. apply Permutation_flat_map. exact P. }
    assert (H' : tinv J (atts [x] ++ atts d ++ opt w' ++ atts k')) by (eapply tinv_perm; [exact H|exact PPm]).
    assert (F' := Permutation_Forall P F). assert (Fx := Forall_inv F'). assert (Fr := Forall_inv_tail F').
    assert (Fo : ft (atts d ++ opt w' ++ atts k')) by (rewrite <- atts_optI, <- !atts_app; apply fi_ft; exact Fr).
    assert (S := item_step_ok t o n A Hn Ho fuel dg J q _ x H' Ox Q).
    destruct (item_step _ _ _ _ _ _ _ _) as [[[js1 q1] x']| | | |] eqn:Es; cbn [bind] in X; try discriminate. cbn [safe] in S.
    destruct S as (J1 & -> & H1 & Ox' & Q1 & _). destruct (item_step_in fuel dg J q _ x _ _ _ H' Ox Fx Fo Q B Es) as [Fx' Fq1].
    apply (IH J1 q1 (d ++ [x']) w' k' js' q' T'); [| |exact Ok2|exact Q1| |exact Fq1|exact X].
    - eapply tinv_perm; [exact H1|]. rewrite atts_app, <- app_assoc. rewrite app_assoc, (Permutation_app_comm (atts [x'])), <- app_assoc. reflexivity.
    - apply Forall_app. auto.
    - rewrite <- app_assoc. cbn [app]. eapply Permutation_Forall; [apply Permutation_middle|]. constructor; assumption. }
  destruct w as [e|]; destruct k as [|x k].
  - apply (Redu (Att e) None []) in E; [exact E| |exact I|constructor]. cbn [optI app]. rewrite app_nil_r. apply Permutation_sym, Permutation_cons_append.
  - destruct (p_cmp false (snd e) (item_poly x)) as [c| | | |]; cbn [bind] in E; try discriminate. destruct (c <? 0).
    + apply (Redu (Att e) None (x :: k)) in E; [exact E| |exact I|exact Ok']. cbn [optI app]. apply Permutation_sym, Permutation_middle.
    + apply (Redu x (Some e) k) in E; [exact E| |exact (Forall_inv Ok')|exact (Forall_inv_tail Ok')]. cbn [optI]. rewrite !app_assoc. apply Permutation_sym, Permutation_middle.
  - injection E as <- <- <-. cbn [app optI] in F. rewrite app_nil_r in F. auto.
  - apply (Redu x None k) in E; [exact E| |exact (Forall_inv Ok')|exact (Forall_inv_tail Ok')]. cbn [optI app]. apply Permutation_sym, Permutation_middle.
Qed.

Lemma back_in js : forall l q q', Forall fi l -> fw q -> back js l q = Ok q' -> fw q'.
Proof.
  induction l as [|x l IH]; intros q q' F B E; cbn [back] in E; [injection E as <-; exact B|].
  destruct (back_item js x) as [u| | | |] eqn:Eb; cbn [bind] in E; try discriminate. apply (IH (u :: q) q' (Forall_inv_tail F)); [|exact E].
  constructor; [|exact B]. assert (Fx := Forall_inv F). destruct x as [e|w]; cbn [back_item fi] in *.
  - destruct (get_wrap js (fst e)); [|discriminate]. injection Eb as <-. exact Fx.
  - injection Eb as <-. apply Fx.
Qed.

Lemma tq2_loop_in : forall fuel pref J q T J', tinv J (atts T) -> Forall oki T -> Forall okq q -> Forall fi T -> fw q ->
  tq2_loop fuel false (-1) pref [J] q T = Ok J' -> j2one J' = None -> Forall fi (j2t J').
Proof.
  induction fuel as [|fuel IH]; intros pref J q T J' H OT Q FT Fq E On; destruct q as [|u q0] eqn:Eq; cbn [tq2_loop] in E; try discriminate.
  1,2: injection E as <-; exact FT.
  rewrite <- Eq in *. assert (Hu : okq u) by (rewrite Eq in Q; exact (Forall_inv Q)). assert (FA := fi_ft T FT).
  rewrite (lm_plm t o n A false u (proj1 Hu)) in E. cbn [bind] in E.
  assert (K1 := take_tq_ok t o n A Hn Ho true J (atts T) (deg (plm u)) (Datatypes.S fuel) H q [] Q (Forall_nil _)).
  destruct (take_tq _ _ _ _ _ _ _) as [r1| | | |] eqn:Ek; cbn [bind] in E; try discriminate. cbn [safe] in K1.
  destruct r1 as [[q1 tmp]|].
  2:{ destruct Hu as ([(_ & (A1 & A2 & A3) & _) _] & _). rewrite A1, A2, A3 in E. destruct (set_one false t o n (-1)) as [J1| | | |] eqn:Es; cbn [bind] in E; try discriminate.
      injection E as <-. cbn [j2one] in On. exfalso. unfold set_one in Es. bnd Es. bnd Es. injection Es as <-. discriminate. }
  destruct K1 as (Q1 & Tm & _). unfold assert_ in E. cbn [andb] in E. set (pref1 := if (pref =? 0)%nat then deg (plm u) else pref) in *.
  destruct (take_tq2_in J (atts T) _ _ H FA q [] q1 tmp Q (Forall_nil _) Fq (Forall_nil _) Ek) as [Fq1 Ftm].
  destruct tmp as [|w0 tmp0]; [eapply IH; [exact H|exact OT|exact Q1|exact FT|exact Fq1|exact E|exact On]|].
  assert (G0 := proj1 (proj1 (Forall_inv Tm))). rewrite (lm_plm t o n A false w0 G0) in E. cbn [bind] in E.
  destruct (same_deg_ok t o n A (deg (plm w0)) tmp0) as (eqs & rest & Es & Et); [eapply okh_gw; exact (Forall_inv_tail Tm)|].
  rewrite Es in E. cbn [bind] in E. subst tmp0. assert (Tm0 := Forall_inv_tail Tm). apply Forall_app in Tm0 as [Tm1 Tm2].
  assert (F0 := Forall_inv Ftm). cbv beta in F0. assert (Ftm0 := Forall_inv_tail Ftm). apply Forall_app in Ftm0 as [Fe Fr].
  assert (Ps := TQProofs.swap_min_perm eqs w0). destruct (swap_min w0 eqs) as [w1 eqs2]. cbn [fst snd] in Ps.
  assert (Ow : Forall (okh J) (w1 :: eqs2)) by (eapply Permutation_Forall; [exact Ps|constructor; [exact (Forall_inv Tm)|exact Tm1]]).
  assert (Fw : fw (w1 :: eqs2)) by (eapply Permutation_Forall; [exact Ps|constructor; assumption]).
  assert (H1 := Forall_inv Ow). assert (G1 := proj1 (proj1 H1)). assert (Hq := okh_okq t o n A _ _ (Forall_inv_tail Ow)). assert (Hr := okh_okq t o n A _ _ Tm2).
  assert (Q2 : Forall okq ((eqs2 ++ rest) ++ q1)) by (rewrite !Forall_app; auto).
  assert (Fq2 : fw ((eqs2 ++ rest) ++ q1)) by (unfold fw; rewrite !Forall_app; repeat split; [exact (Forall_inv_tail Fw)|exact Fr|exact Fq1]).
  assert (Kp := tail_pp_ok t o n A Hn J (atts T) (Datatypes.S fuel) (wpol w1) (plm w1) H G1 (plm_hd t o n A w1 G1)).
  destruct (tail_pp _ _ _ _) as [p| | | |] eqn:Etp; cbn [bind] in E; try discriminate. cbn [safe] in Kp. destruct Kp as (Gp & Hp & _).
  assert (Fp := tail_pp_in t o n Hn PP HE HF J (atts T) _ (wpol w1) (plm w1) p H FA G1 (plm_hd t o n A w1 G1) (Forall_inv Fw) Etp).
  assert (Ep : plm (WP (wwrap w1) p) = plm w1) by (apply plm_eq; exact Hp).
  assert (Hw : okh J (WP (wwrap w1) p)) by (split; [split; [exact Gp|apply H1]|unfold hirr; rewrite Ep; apply H1]).
  destruct (enter_w_ok t o n A Hn J (atts T) (WP (wwrap w1) p) H Hw) as (J2 & w' & E2 & Ew & H2). rewrite E2 in E. cbn [bind] in E. rewrite Ew in E. cbn [wpol] in H2.
  assert (FA2 : ft ((plm (WP (wwrap w1) p), p) :: atts T)) by (constructor; [exact Fp|exact FA]).
  destruct (deg (plm u) <? pref1)%nat.
  - destruct (back_ok t o n A J2 _ H2 T ((eqs2 ++ rest) ++ q1)) as (q3 & Eb & Q3 & _); [intros x Ix; right; exact Ix|exact OT|exact Q2|].
    assert (Fb := back_in _ _ _ _ FT Fq2 Eb). rewrite Eb in E. cbn [bind] in E.
    destruct (get_wrap_ok t o n A J2 _ (plm (WP (wwrap w1) p), p) H2) as (w'' & Eg & Iw & Ew2); [left; reflexivity|]. cbn [fst] in Eg. rewrite Eg in E. cbn [bind] in E.
    destruct (wrap_okw t o n A J2 _ w'' H2 Iw) as [O2 P2].
    apply (IH (deg (plm u)) jempty q3 [Det (WP w'' p)] J'); [split; [apply jinv_nil|reflexivity|constructor|constructor|constructor]| |exact Q3| |exact Fb|exact E|exact On].
    + constructor; [split; [exact Gp|split; assumption]|constructor].
    + constructor; [|constructor]. cbn [fi wpol wwrap]. split; [exact Fp|]. split; [rewrite Ew2; cbn [fst]; rewrite Ep; exact Hp|]. exact (tree_nmw J2 _ w'' H2 FA2 Iw).
  - destruct T as [|x0 T0].
    + cbn [bind] in E. apply (IH (deg (plm u)) J2 ((eqs2 ++ rest) ++ q1) [Att (plm (WP (wwrap w1) p), p)] J'); [exact H2| |exact Q2| |exact Fq2|exact E|exact On]; (constructor; [|constructor]); [exact I|exact Fp].
    + destruct (walk2 _ _ _ _ _ _ _ _ _ _) as [[[js3 q3] T3]| | | |] eqn:E5; cbn [bind] in E; try discriminate.
      assert (K := walk2_ok t o n A Hn Ho (Datatypes.S fuel) (deg (plm u)) (Datatypes.S (length (x0 :: T0))) J2 _ [] (Some (plm (WP (wwrap w1) p), p)) (x0 :: T0) H2 (Forall_nil _) OT Q2).
      rewrite E5 in K. cbn [safe] in K. destruct K as (J3 & -> & H3 & O3 & Q3 & _).
      assert (F12 : Forall fi ([] ++ optI (Some (plm (WP (wwrap w1) p), p)) ++ x0 :: T0)) by (constructor; [exact Fp|exact FT]).
      destruct (walk2_in _ _ _ J2 _ [] (Some (plm (WP (wwrap w1) p), p)) (x0 :: T0) _ _ _ H2 (Forall_nil _) OT Q2 F12 Fq2 E5) as [F3 Fq3].
      apply (IH (deg (plm u)) J3 q3 T3 J' H3 O3 Q3 F3 Fq3 E On).
Qed.
End P.

Section X.
Variables (t : pos_order) (o : base_order) (n : nat).
Hypothesis (Hn : (0 < n)%nat) (Ho : o <> OAlex).
Notation A := (fun _ : list term => True).
Section C.
Variable PP : list term -> Prop.
Hypothesis HC : closed_class t o n PP.
Notation HE := (proj1 HC).
Notation HF := (proj1 (proj2 HC)).
Notation HP := (proj1 (proj2 (proj2 HC))).
Variables (F : list poly) (J : jpoly) (fuel0 : nat) (J2 : jpoly2).
Hypothesis H : jp_history false t o n F J.
Hypothesis LF : Forall (fun f => PP (terms f)) F.
Hypothesis E0 : jp_tq2 fuel0 false J = Ok J2.

Lemma tq2_closed : j2one J2 = None -> Forall (fi t o n PP) (j2t J2).
Proof.
  intro On. unfold jp_tq2 in E0. destruct (jone J) as [w|] eqn:Eo; [injection E0 as <-; discriminate|].
  destruct (history_closed t o n Hn Ho PP HC F J H LF Eo) as [Fq Ft].
  assert (S := state_of t o n Hn Ho F J H). unfold jstate in S. rewrite Eo in S. destruct S as [Q D]. unfold set_pos in E0. rewrite (q_pos_ring t o n A _ Q) in E0.
  destruct D as [(D1 & D2 & D3)|(Ja & D1 & D2 & D3)].
  - rewrite D1, D2 in E0. change (-2 <? -1) with true in E0. cbn iota in E0. cbn [jtrees jpos jq jt firstn length app repeat Z.add Z.to_nat Z.opp Z.pos_sub Pos.pred_double] in E0. cbn [Nat.sub Pos.to_nat] in E0.
    change (repeat jempty (Z.to_nat (-1 + 2) - 0)) with [jempty] in E0. rewrite D3 in E0.
    apply (tq2_loop_in t o n Hn Ho PP HE HF HP fuel0 0%nat jempty (jq J) [] J2); [split; [apply jinv_nil|reflexivity|constructor|constructor|constructor]|constructor|exact Q|constructor|exact Fq|exact E0|exact On].
  - rewrite D2 in E0. change (-1 <? -1) with false in E0. cbn iota in E0. rewrite D1, D2 in E0.
    apply (tq2_loop_in t o n Hn Ho PP HE HF HP fuel0 0%nat Ja (jq J) (map Att (jt J)) J2); [rewrite atts_map; exact D3| |exact Q| |exact Fq|exact E0|exact On].
    + clear. induction (jt J) as [|e l IH]; constructor; [exact I|exact IH].
    + clear - Ft. induction Ft as [|e l X _ IH]; constructor; [exact X|exact IH].
Qed.

Lemma c96_tq2_basis : forall g, In g (basis2 J2) -> PP (terms g).
Proof.
  intros g Ig. unfold basis2 in Ig. destruct (j2one J2) as [w|] eqn:Eo.
  - destruct Ig as [<-|[]]. assert (S := tq2_state t o n Hn Ho F J fuel0 J2 H E0). unfold jstate2 in S. rewrite Eo in S. destruct S as (_ & E). rewrite E. apply HC.
  - assert (X := fi_pp t o n PP _ (tq2_closed Eo)). apply in_map_iff in Ig as (x & <- & Ix). rewrite Forall_forall in X. exact (X x Ix).
Qed.

Lemma c96_tq2_nf D a fuel r : kept_by_elimination t o n PP D -> kept_by_factors t o n D -> ring_input t o n a -> D (terms a) ->
  jp2_nf fuel false J2 a = Ok r -> terms r = [] \/ D (terms r).
Proof.
  intros De Df Ra Da E. assert (Ga := goodzA t o n a Ra).
  destruct (j2one J2) as [w|] eqn:Eo.
  - left. destruct (nf2_facts t o n Hn Ho F J fuel0 J2 H E0 a fuel r Ra E) as (Rr & _ & Ir & _). destruct (terms r) as [|[m c] l] eqn:Er; [reflexivity|exfalso].
    unfold NormalSpec.irreducible, tree_part in Ir. rewrite Eo in Ir. assert (S := tq2_state t o n Hn Ho F J fuel0 J2 H E0). unfold jstate2 in S. rewrite Eo in S. destruct S as (_ & Ew).
    apply (Ir m c (or_introl eq_refl) (repeat 0%nat n)). cbn [map]. assert (El : lead (wpol w) = repeat 0%nat n) by (unfold lead; rewrite Ew; reflexivity). rewrite El.
    split; [left; reflexivity|]. split; [intros i Hi; rewrite expo_zs; lia|]. intros i Hi _ (u & [<-|[]] & _ & X). lia.
  - set (SS := fun l => GM n A l /\ PP l).
    assert (FT := fi_ft t o n PP _ (tq2_closed Eo)).
    assert (GF : good_find false t o n SS (jp2_find false J2)).
    { assert (S' := tq2_stateA t o n Hn Ho F J fuel0 J2 H E0). unfold jstate2 in S'. rewrite Eo in S'. destruct S' as [(D1 & D2)|(Ja & D1 & D2 & D3 & _)].
      - intros m Mm. exists None. unfold jp2_find. rewrite Eo, D1. split; [reflexivity|discriminate].
      - intros m Mm. unfold jp2_find. rewrite Eo, D1, D2. destruct (good_find_T t o n A Hn Ja (atts (j2t J2)) D3 m Mm) as (w & Ew & W). exists w. split; [exact Ew|]. intros x Ex.
        destruct (W x Ex) as (X1 & X2 & X3 & X4 & X5 & X6). do 4 (split; [assumption|]). split; [|exact X6].
        exact (GT_in n PP (atts (j2t J2)) FT _ X5). }
    assert (HS : forall g, SS g -> GM n A g) by (intros g Hg; apply Hg).
    unfold jp2_nf in E. assert (N := nf_safe t o n A Hn SS HS _ fuel a GF Ga).
    destruct (p_nf fuel false (jp2_find false J2) a) as [[p k]| | | |] eqn:E1; cbn [bind fst] in E; try discriminate. cbn [safe fst] in N. destruct N as (Gp & _).
    assert (Dp := p_nf_in t o n PP D De SS (fun g Hg => Hg) _ fuel a _ GF Ga Da E1). cbn [fst] in Dp.
    destruct (terms p) as [|[m c] l] eqn:Ep.
    + unfold p_nfTail in E. rewrite Ep in E. cbn [bind fst] in E. rewrite <- Ep in Dp. right. exact (pp_in t o n Hn D Df p r Gp Dp E).
    + rewrite <- Ep in Dp. assert (Gp' : JanetPolyProofs.good t o n A p) by (split; [exact Gp|congruence]). assert (Hp : hd p m) by (exists c, l; exact Ep).
      assert (N := nft_safe t o n A SS HS _ (jp2_find false J2) fuel p m GF Gp' Hp (fun _ _ _ => eq_refl)).
      destruct (p_nfTail fuel false (jp2_find false J2) p) as [[p2 k2]| | | |] eqn:E2; cbn [bind fst] in E; try discriminate. cbn [safe fst] in N. destruct N as (G2 & _).
      assert (D2 := p_nfTail_in t o n Hn PP D De SS (fun g Hg => Hg) _ _ fuel p m _ GF Gp' Hp Dp (fun _ _ _ => eq_refl) E2). cbn [fst] in D2.
      right. exact (pp_in t o n Hn D Df p2 r (proj1 G2) D2 E).
Qed.
End C.

Section Y.
Variables (F : list poly) (J : jpoly) (fuel0 : nat) (J2 : jpoly2).
Hypothesis H : jp_history false t o n F J.
Hypothesis E0 : jp_tq2 fuel0 false J = Ok J2.

Lemma c96_tq2_homogeneous R : congruence n R -> Forall (fun f => homogeneous R (terms f)) F ->
  (forall g, In g (basis2 J2) -> homogeneous R (terms g)) /\
  forall a u fuel r, ring_input t o n a -> all_in_class R u (terms a) -> jp2_nf fuel false J2 a = Ok r -> all_in_class R u (terms r).
Proof.
  intros HR LF. assert (HC := homog_closed t o n Hn R HR). split; [exact (c96_tq2_basis _ HC F J fuel0 J2 H LF E0)|]. intros a u fuel r Ra Da E.
  destruct (c96_tq2_nf _ HC F J fuel0 J2 H LF E0 _ a fuel r (class_elim t o n Hn R HR u) (class_factors t o n Hn R u) Ra Da E) as [X|X]; [rewrite X; intros m []|exact X].
Qed.
Lemma c96_tq2_binomials : Forall (fun f => (length (terms f) <= 2)%nat) F ->
  (forall g, In g (basis2 J2) -> (length (terms g) <= 2)%nat) /\
  forall a fuel r, ring_input t o n a -> jp2_nf fuel false J2 a = Ok r -> (length (terms r) <= length (terms a))%nat.
Proof.
  intros LF. assert (HC := binom_closed t o n Hn). split; [exact (c96_tq2_basis _ HC F J fuel0 J2 H LF E0)|]. intros a fuel r Ra E.
  destruct (c96_tq2_nf _ HC F J fuel0 J2 H LF E0 _ a fuel r (binom_elim t o n Hn (length (terms a))) (binom_factors t o n Hn (length (terms a))) Ra (le_n _) E) as [X|X]; [rewrite X; cbn; lia|exact X].
Qed.
Lemma c96_tq2_variables V : Forall (fun f => only_variables V (terms f)) F ->
  (forall g, In g (basis2 J2) -> only_variables V (terms g)) /\
  forall a fuel r, ring_input t o n a -> only_variables V (terms a) -> jp2_nf fuel false J2 a = Ok r -> only_variables V (terms r).
Proof.
  intros LF. assert (HC := vars_closed t o n Hn V). split; [exact (c96_tq2_basis _ HC F J fuel0 J2 H LF E0)|]. intros a fuel r Ra Da E.
  destruct (c96_tq2_nf _ HC F J fuel0 J2 H LF E0 _ a fuel r (vars_elim t o n Hn V) (vars_factors t o n Hn V) Ra Da E) as [X|X]; [rewrite X; intros m i []|exact X].
Qed.

Lemma span2_ideal q : inv_span n (tree_part J2) q -> rational_member n (among F) q.
Proof.
  induction 1 as [p Z|p q u g c _ IH Ig Lu _ E]; [apply mem_zero; exact Z|].
  apply (mem_lin n (among F) q (shift u (terms g)) p 1 c); [exact IH|apply mem_shift; [exact Lu|]|].
  - apply (proj1 (c53_tq2 t o n F J fuel0 J2 Hn Ho H E0)). apply tree_part_basis. exact Ig.
  - intro m. rewrite E. lia.
Qed.

Lemma c96_tq2_word E a u fuel r : Forall2 (difference_of n) F E -> ring_input t o n a -> terms a = [(Mon (-1) u, 1)] -> jp2_nf fuel false J2 a = Ok r ->
  exists w s, terms r = [(Mon (-1) w, s)] /\ (s = 1 \/ s = -1) /\ length w = n /\ generated n E u w.
Proof.
  intros HD Ra Ea Er. destruct (nf2_facts t o n Hn Ho F J fuel0 J2 H E0 a fuel r Ra Er) as (Rr & _ & _ & Pr).
  assert (Cl : all_in_class (generated n E) u (terms r)).
  { apply (proj2 (c96_tq2_homogeneous _ (generated_congruence n E) (F_homog t o n Hn F E J H HD)) a u fuel r Ra); [|exact Er]. rewrite Ea. intros m [<-|[]]. apply gen_refl. }
  assert (Le : (length (terms r) <= 1)%nat) by (assert (X := proj2 (c96_tq2_binomials (F_binom t o n Hn F E J H HD)) a fuel r Ra Er); rewrite Ea in X; exact X).
  assert (Ne : terms r <> []).
  { intro Z. apply (n2_zero t o n Hn Ho F J fuel0 J2 H E0 a fuel r Ra Er) in Z as (k & q & Nk & Q & S). apply span2_ideal in Q. apply (ideal_sum n Hn F E HD) in Q.
    rewrite (sumc_coef _ q (scale k (terms a))) in Q by (intro m; rewrite coef_scale; apply S). rewrite sumc_scale, Ea in Q. cbn in Q. lia. }
  destruct Pr as [Pr|Pr]; [contradiction|]. destruct Rr as (V & E1 & E2 & E3 & R). unfold valid_poly in V. rewrite E1, E2, E3 in V.
  destruct (terms r) as [|[m s] [|x l]]; [congruence| |cbn in Le; lia]. assert (Pm := Forall_inv R). cbn [fst] in Pm. apply canonical_iff in V as (_ & M & _). assert (Mm := Forall_inv M). cbn [fst] in Mm.
  exists (vars m), s. assert (Em : m = Mon (-1) (vars m)) by (rewrite <- Pm; destruct m; reflexivity). rewrite <- Em. split; [reflexivity|]. split.
  - apply Pr. intro x. cbn. destruct (monom_eq_dec m x); [rewrite Z.add_0_r; apply Z.divide_refl|apply Z.divide_0_r].
  - split; [apply Mm|]. apply gen_sym. apply (Cl m). left. reflexivity.
Qed.
End Y.
End X.
