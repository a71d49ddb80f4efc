(** algorithmTQ, algorithmTQ1 and algorithmTQ2 keep the invariant of JanetPolyProofs.v. *)
From Coq Require Import ZArith List Bool Arith Lia Permutation Sorted.
From Verif Require Import Outcome MonomModel MonomSpec MonomProofs PolyModel PolySpec PolyProofs PolyRedProofs PolyNfProofs
  PolyTopProofs JanetModel JanetSpec JanetProofs JanetFindProofs JanetPolyModel TQModel JanetPolySpec IdealProofs JanetPolyProofs.
Import ListNotations.
Local Open Scope Z_scope.

Section P.
Variables (t : pos_order) (o : base_order) (n : nat) (G : list term -> Prop).
Hypothesis (Hn : (0 < n)%nat) (Ho : o <> OAlex).

Notation good := (good t o n G).
Notation goodz := (goodz t o n G).
Notation okq := (okq t o n G).
Notation tinv := (tinv t o n G).
Notation gw := (gw t o n G).
Notation GT := (GT n G).
Notation memK := (memK n).
Notation memW := (memW n).
Notation memT := (memT n).
Notation find1 J T := (find_poly false (-1) (Some [J]) T).

(** The leading monomial of u is not Janet-divisible by the tree. *)
Definition hirr (J : janet) (u : wpoly) : Prop := forall v, ~ janet_divides n (lms (wraps (jroot J))) v (vars (plm u)).
Definition okh (J : janet) (u : wpoly) : Prop := okq u /\ hirr J u.

Lemma GT_GM T g : GT T g -> GM n G g.
Proof. intros [X _]. exact X. Qed.

Lemma okh_okq J l : Forall (okh J) l -> Forall okq l.
Proof. intro H. eapply Forall_impl; [|exact H]. intros u Hu. apply Hu. Qed.
Lemma okh_gw J l : Forall (okh J) l -> Forall gw l.
Proof. intro H. apply okq_gw. eapply okh_okq. exact H. Qed.

Lemma tail_pp_ok J T fuel p m : tinv J T -> good p -> hd p m ->
  safe (fun p' => good p' /\ hd p' m /\ forall K, memT K T -> memK K p' -> memK K p) (tail_pp fuel false (find1 J T) p).
Proof.
  intros H Gp Hp. unfold tail_pp.
  eapply safe_bind; [apply (nft_safe t o n G (GT T) (GT_GM T) (find1 J T) (find1 J T) fuel p m (good_find_T t o n G Hn J T H) Gp Hp); auto|].
  intros [p2 c] (G2 & H2 & C2 & _). cbn [fst snd] in *.
  assert (B : forall K, memT K T -> memK K p2 -> memK K p).
  { intros K MT M. unfold JanetPolyProofs.memK. eapply congruent_mem; [apply (GT_mem n G); exact MT|exact M|exact C2]. }
  destruct (c =? 0)%nat; [cbn [safe]; auto|]. destruct (good_pp t o n G p2 m G2 H2) as (p3 & -> & A & B3 & C & _). cbn [safe].
  split; [exact A|]. split; [exact B3|]. intros K MT M. apply B; [exact MT|]. apply C. exact M.
Qed.

Lemma take_tq_ok tail J T dg fuel : tinv J T -> forall q tmp, Forall okq q -> Forall (okh J) tmp ->
  safe (fun r => match r with
                 | None => rational_member n G (one n)
                 | Some (q1, tmp1) => Forall okq q1 /\ Forall (okh J) tmp1 /\
                     forall K, memT K T -> memW K q1 -> memW K tmp1 -> memW K q /\ memW K tmp
                 end)
    (take_tq tail fuel false (find1 J T) dg q tmp).
Proof.
  intro H. assert (GF := good_find_T t o n G Hn J T H).
  induction q as [|u q IH]; intros tmp Q Tm; cbn [take_tq].
  - cbn [safe]. split; [exact Q|]. split; [exact Tm|]. auto.
  - assert (Hu := Forall_inv Q). assert (Q' := Forall_inv_tail Q). rewrite (lm_plm t o n G false u (proj1 Hu)). cbn [bind].
    destruct (deg (plm u) <=? dg)%nat.
    2:{ cbn [safe]. split; [exact Q|]. split; [exact Tm|]. auto. }
    eapply safe_bind; [apply (nf_safe t o n G Hn (GT T) (GT_GM T) _ fuel (wpol u) GF); apply Hu|].
    intros [p c0] (Gp & Cp & Dp). cbn [fst] in *.
    destruct (is_zero p) eqn:Zp.
    { eapply safe_impl; [apply IH; assumption|]. intros [[q1 tmp1]|]; [|auto]. intros (A & B & D). split; [exact A|]. split; [exact B|].
      intros K MT M1 M2. destruct (D K MT M1 M2) as [X Y]. split; [|exact Y]. constructor; [|exact X].
      unfold JanetPolyProofs.memK. eapply congruent_mem; [apply (GT_mem n G); exact MT| |exact Cp].
      unfold is_zero in Zp. destruct (terms p); [|discriminate]. apply mem_zero. reflexivity. }
    destruct Dp as [Dp|(m & Hm & Fm)]; [unfold is_zero in Zp; rewrite Dp in Zp; discriminate|].
    assert (Gp' : good p) by (split; [exact Gp|eapply hd_nz; exact Hm]).
    rewrite (hd_lm false p m Hm). cbn [bind]. destruct (deg m =? 0)%nat eqn:Dm.
    { cbn [safe]. apply Nat.eqb_eq in Dm. eapply const_member; eassumption. }
    eapply safe_bind with (P := fun r => good (fst r) /\ hd (fst r) m /\ forall K, memT K T -> memK K (fst r) -> memK K p).
    { destruct tail; [|cbn [safe fst]; auto].
      eapply safe_impl; [apply (nft_safe t o n G (GT T) (GT_GM T) (find1 J T) (find1 J T) fuel p m GF Gp' Hm); auto|].
      intros [p2 c] (G2 & H2 & C2 & _). cbn [fst] in *. split; [exact G2|]. split; [exact H2|]. intros K MT M.
      unfold JanetPolyProofs.memK. eapply congruent_mem; [apply (GT_mem n G); exact MT|exact M|exact C2]. }
    intros [p2 c] (G2 & H2 & B2). cbn [fst snd] in *.
    eapply safe_bind with (P := fun p3 => good p3 /\ hd p3 m /\ forall K, memK K p3 -> memK K p2).
    { destruct (c0 + c =? 0)%nat; [cbn [safe]; auto|]. destruct (good_pp t o n G p2 m G2 H2) as (p3 & -> & A & B & C & D). cbn [safe]. auto. }
    intros p3 (G3 & H3 & B3).
    assert (Ot : okh J (WP (wwrap u) p3)).
    { split; [split; [exact G3|]; apply Hu|]. unfold hirr. rewrite (plm_eq (WP (wwrap u) p3) m H3).
      destruct (hd_mono t o n G p3 m (proj1 G3) H3) as [Mm Pm]. exact (find_none_irr t o n G Hn J T m H Mm Pm Fm). }
    destruct (insert_w t o n G Hn false tmp (WP (wwrap u) p3)) as (tmp1 & -> & P1 & _); [exact G3|eapply okh_gw; exact Tm|]. cbn [bind].
    eapply safe_impl; [apply IH|].
    + exact Q'.
    + eapply Permutation_Forall; [apply Permutation_sym; exact P1|]. constructor; assumption.
    + intros [[q1 tmp2]|]; [|auto]. intros (A & B & D). split; [exact A|]. split; [exact B|].
      intros K MT M1 M2. destruct (D K MT M1 M2) as [X Y]. apply (Permutation_Forall P1) in Y.
      split; [|exact (Forall_inv_tail Y)]. constructor; [|exact X]. apply Forall_inv in Y. cbn [wpol] in Y.
      unfold JanetPolyProofs.memK. eapply congruent_mem; [apply (GT_mem n G); exact MT| |exact Cp].
      apply B2; [exact MT|]. apply B3. exact Y.
Qed.

Lemma swap_min_perm : forall l w, Permutation (w :: l) (fst (swap_min w l) :: snd (swap_min w l)).
Proof.
  induction l as [|u l IH]; intro w; cbn [swap_min]; [reflexivity|]. destruct (p_norm (wpol u) <? p_norm (wpol w)).
  - specialize (IH u). destruct (swap_min u l) as [v r]. cbn [fst snd] in *. rewrite IH. apply perm_swap.
  - specialize (IH w). destruct (swap_min w l) as [v r]. cbn [fst snd] in *. rewrite perm_swap, IH. apply perm_swap.
Qed.

Lemma tails_ok J T fuel m : tinv J T -> forall l, Forall (okh J) l -> Forall (fun u => plm u = m) l ->
  safe (fun l' => Forall (okh J) l' /\ Forall (fun u => plm u = m) l' /\ forall K, memT K T -> memW K l' -> memW K l)
    (tails fuel false (find1 J T) l).
Proof.
  intros H. induction l as [|u l IH]; intros O L; cbn [tails].
  - cbn [safe]. auto.
  - assert (Hu := Forall_inv O). assert (Eu := Forall_inv L). cbv beta in Eu.
    eapply safe_bind; [apply (tail_pp_ok J T fuel (wpol u) (plm u) H); [apply Hu|apply (plm_hd t o n G); apply Hu]|].
    intros p (Gp & Hp & Bp). eapply safe_bind; [apply IH; [exact (Forall_inv_tail O)|exact (Forall_inv_tail L)]|].
    intros r (A & B & C). cbn [safe].
    assert (Ep : plm (WP (wwrap u) p) = plm u) by (apply plm_eq; exact Hp).
    split; [|split].
    + constructor; [|exact A]. split; [split; [exact Gp|apply Hu]|]. unfold hirr. rewrite Ep. apply Hu.
    + constructor; [congruence|exact B].
    + intros K MT M. constructor; [apply Bp; [exact MT|exact (Forall_inv M)]|apply C; [exact MT|exact (Forall_inv_tail M)]].
Qed.

Lemma red_eq_ok a : okq a -> forall l, Forall okq l -> Forall (fun u => plm u = plm a) l ->
  exists l', red_eq false (wpol a) l = Ok l' /\ Forall okq l' /\ forall K, memK K (wpol a) -> memW K l' -> memW K l.
Proof.
  intro Ha. induction l as [|u l IH]; intros O L; cbn [red_eq].
  - exists []. split; [reflexivity|]. split; [constructor|]. auto.
  - assert (Hu := Forall_inv O). assert (Eu := Forall_inv L). cbv beta in Eu.
    destruct (good_reduction t o n G Hn (wpol u) (wpol a) (plm a)) as (r & -> & Gr & Lin & _);
      [apply Hu|apply Ha|rewrite <- Eu; apply (plm_hd t o n G); apply Hu|apply (plm_hd t o n G); apply Ha|]. cbn [bind].
    destruct (IH (Forall_inv_tail O) (Forall_inv_tail L)) as (l' & -> & A & B).
    destruct (is_zero r) eqn:Zr.
    + exists l'. split; [reflexivity|]. split; [exact A|]. intros K Ma M. constructor; [|apply B; assumption].
      eapply lin_mem; [exact Lin| |exact Ma]. unfold JanetPolyProofs.memK. unfold is_zero in Zr. destruct (terms r); [|discriminate]. apply mem_zero. reflexivity.
    + assert (Gr' : good r) by (split; [exact Gr|intro E; unfold is_zero in Zr; rewrite E in Zr; discriminate]).
      destruct (good_hd t o n G r Gr') as (m & Hm).
      destruct (good_pp t o n G r m Gr' Hm) as (p & -> & Gp & _ & Bp & _). cbn [bind].
      exists (WP (wwrap u) p :: l'). split; [reflexivity|]. split; [constructor; [split; [exact Gp|apply Hu]|exact A]|].
      intros K Ma M. constructor; [|apply B; [exact Ma|exact (Forall_inv_tail M)]].
      eapply lin_mem; [exact Lin| |exact Ma]. apply Bp. exact (Forall_inv M).
Qed.

Lemma insert_all_ok : forall l q, Forall okq l -> Forall okq q ->
  exists q', insert_all false q l = Ok q' /\ Permutation q' (l ++ q).
Proof.
  induction l as [|u l IH]; intros q O Q; cbn [insert_all].
  - exists q. auto.
  - destruct (insert_w t o n G Hn false q u) as (q1 & -> & P1 & _); [apply (Forall_inv O)|apply okq_gw; exact Q|]. cbn [bind].
    destruct (IH q1 (Forall_inv_tail O)) as (q' & E & P).
    { eapply Permutation_Forall; [apply Permutation_sym; exact P1|]. constructor; [exact (Forall_inv O)|exact Q]. }
    exists q'. split; [exact E|]. rewrite P, P1. cbn [app]. apply Permutation_sym, Permutation_middle.
Qed.

Lemma enter_w_ok J T u : tinv J T -> okh J u ->
  exists J' w, enter_w false [J] u = Ok ([J'], w) /\ wlm w = plm u /\ tinv J' ((plm u, wpol u) :: T).
Proof.
  intros H [Hu N]. assert (Gu := proj1 Hu). unfold enter_w. rewrite (lm_plm t o n G false u Gu). cbn [bind].
  destruct (plm_mono t o n G u Gu) as [Mu Pu]. destruct (update_ok t o n G u (plm u) Hu Mu Pu) as (Ew & Ow & Fw). cbv zeta.
  rewrite Ew, Pu. unfold tree_at. change (-1 <? -1) with false. cbn [Z.add Z.to_nat Z.pos_sub nth_error bind firstn skipn app].
  assert (Elv : lv (update (wwrap u) (plm u)) = vars (plm u)) by (unfold lv; now rewrite Ew).
  destruct (insert_ok false n J (update (wwrap u) (plm u)) (ti_inv _ _ _ _ _ _ H) (ti_size _ _ _ _ _ _ H) Hn Ow Fw) as (J' & -> & Ji' & Sz' & _ & P').
  { rewrite Elv. intro X. apply (N (vars (plm u))). split; [exact X|]. split; [intros i _; lia|intros i _ Y; lia]. }
  { discriminate. }
  cbn [bind].
  assert (Pw : Permutation (map wlm (wraps (jroot J'))) (plm u :: map wlm (wraps (jroot J)))).
  { apply (Permutation_map wlm) in P'. rewrite map_map in P'. cbn [map] in P'. rewrite map_map in P'. cbn [er wlm] in P'. rewrite Ew in P'. exact P'. }
  exists J', (update (wwrap u) (plm u)). split; [reflexivity|]. split; [exact Ew|].
  split; [exact Ji'|exact Sz'| | |].
  - apply Forall_forall. intros v Iv. assert (X : In (wlm v) (plm u :: map wlm (wraps (jroot J)))) by (eapply Permutation_in; [exact Pw|apply in_map; exact Iv]).
    destruct X as [X|X]; [rewrite <- X; exact Pu|]. apply in_map_iff in X as (v' & E' & I'). rewrite <- E'.
    assert (Y := ti_pos _ _ _ _ _ _ H). rewrite Forall_forall in Y. auto.
  - etransitivity; [exact Pw|]. cbn [map fst]. constructor. apply (ti_perm _ _ _ _ _ _ H).
  - constructor; [split; [exact Gu|apply (plm_hd t o n G); exact Gu]|apply (ti_good _ _ _ _ _ _ H)].
Qed.

Definition opt (w : option entry) : list entry := match w with Some x => [x] | None => [] end.

Lemma walk_ok fuel dg : forall cnt J q d w k, tinv J (d ++ opt w ++ k) -> Forall okq q ->
  safe (fun r => let '(js', q', T') := r in exists J', js' = [J'] /\ tinv J' T' /\ Forall okq q' /\
          forall K, memT K T' -> memW K q' -> memT K (d ++ opt w ++ k) /\ memW K q)
    (walk cnt fuel false (-1) dg [J] q d w k).
Proof.
  induction cnt as [|cnt IH]; intros J q d w k H Q; cbn [walk].
  { destruct w; [exact I|]. destruct k; cbn [safe]; auto. exists J. split; [reflexivity|]. cbn [app opt] in *. rewrite app_nil_r in *. auto. }
  assert (Redu : forall e w' k', Permutation (d ++ opt w ++ k) (e :: d ++ opt w' ++ k') ->
    safe (fun r => let '(js', q', T') := r in exists J', js' = [J'] /\ tinv J' T' /\ Forall okq q' /\
          forall K, memT K T' -> memW K q' -> memT K (d ++ opt w ++ k) /\ memW K q)
      (do e' <- tail_reduce fuel false (-1) [J] (d ++ opt w' ++ k') e;
        do r <- prolong_if false (-1) dg [J] e' q;
        walk cnt fuel false (-1) dg (fst r) (snd r) (d ++ [e']) w' k')).
  { intros e w' k' P. eapply safe_bind; [eapply (tail_reduce_ok t o n G Hn Ho); eassumption|]. intros e' (_ & H' & B').
    destruct (prolong_if_ok t o n G Hn dg J _ e' q H') as (J1 & q1 & -> & H1 & Q1 & I1); [left; reflexivity|exact Q|].
    cbn [bind fst snd].
    assert (P' : Permutation (e' :: d ++ opt w' ++ k') ((d ++ [e']) ++ opt w' ++ k')) by (rewrite <- app_assoc; apply Permutation_middle).
    eapply safe_impl; [apply IH; [|exact Q1]|].
    - eapply tinv_perm; [exact H1|exact P'].
    - intros [[js' q'] T'] (J' & -> & A & B & C). exists J'. split; [reflexivity|]. split; [exact A|]. split; [exact B|].
      intros K M1 M2. destruct (C K M1 M2) as [X Y]. split; [|eapply memW_incl; eassumption].
      unfold JanetPolyProofs.memT in X. apply (Permutation_Forall (Permutation_sym P')) in X.
      eapply Permutation_Forall; [apply Permutation_sym; exact P|]. constructor; [|exact (Forall_inv_tail X)].
      apply B'; [exact (Forall_inv_tail X)|exact (Forall_inv X)]. }
  destruct w as [e|]; destruct k as [|e' k].
  - apply (Redu e None []). cbn [opt app]. rewrite app_nil_r. apply Permutation_sym, Permutation_cons_append.
  - assert (Gg := ti_good _ _ _ _ _ _ H). cbn [opt] in Gg. rewrite !Forall_app in Gg. destruct Gg as (_ & G1 & G2).
    destruct (Forall_inv G1) as [Ge He], (Forall_inv G2) as [Ge' He'].
    unfold p_cmp. rewrite (hd_lm false _ _ He), (hd_lm false _ _ He'). cbn [bind].
    match goal with |- context [if ?b then _ else _] => destruct b end.
    + apply (Redu e None (e' :: k)). cbn [opt app]. apply Permutation_sym, Permutation_middle.
    + apply (Redu e' (Some e) k). cbn [opt]. rewrite !app_assoc. apply Permutation_sym, Permutation_middle.
  - cbn [safe]. exists J. split; [reflexivity|]. cbn [app opt] in *. rewrite app_nil_r in *. auto.
  - apply (Redu e' None k). cbn [opt app]. apply Permutation_sym, Permutation_middle.
Qed.

Lemma gall J q T K : tinv J T -> Forall okq q -> rational_member n K (one n) -> memT K T /\ memW K q.
Proof.
  intros H Q M. split; apply Forall_forall.
  - intros e Ie. assert (Gg := ti_good _ _ _ _ _ _ H). rewrite Forall_forall in Gg. apply (all_from_one t o n G Hn); [exact M|apply (Gg e Ie)].
  - intros v Iv. rewrite Forall_forall in Q. apply (all_from_one t o n G Hn); [exact M|apply (Q v Iv)].
Qed.

Lemma tq_loop_ok v : forall fuel J q T, tinv J T -> Forall okq q ->
  safe (fun J' => jstate t o n G J' /\ jq J' = [] /\ forall K, memJ n K J' -> memT K T /\ memW K q) (tq_loop v fuel false (-1) [J] q T).
Proof.
  induction fuel as [|fuel IH]; intros J q T H Q; destruct q as [|u q0] eqn:Eq; cbn [tq_loop].
  1,3: cbn [safe]; split; [|split; [reflexivity|intros K [M1 M2]; split; [exact M1|constructor]]];
    cbn [jstate jone jq jtrees jpos jt]; split; [constructor|right; exists J; auto].
  { exact I. }
  rewrite <- Eq in *. assert (Hu : okq u) by (rewrite Eq in Q; exact (Forall_inv Q)).
  rewrite (lm_plm t o n G false u (proj1 Hu)). cbn [bind].
  eapply safe_bind; [apply (take_tq_ok false J T (deg (plm u)) (S fuel) H q []); [exact Q|constructor]|].
  intros [[q1 tmp]|].
  - intros (Q1 & Tm & B1). unfold assert_. cbn [andb]. destruct tmp as [|w0 tmp0].
    { eapply safe_impl; [apply IH; assumption|]. intros J' (A & B & C). split; [exact A|]. split; [exact B|]. intros K M.
      destruct (C K M) as [X Y]. split; [exact X|]. apply B1; [exact X|exact Y|constructor]. }
    assert (H0 := Forall_inv Tm). assert (G0 := proj1 (proj1 H0)).
    rewrite (lm_plm t o n G false w0 G0). cbn [bind]. destruct (plm_mono t o n G w0 G0) as [M0 P0].
    destruct (same_lm_ok t o n G (plm w0) M0 P0 tmp0) as (eqs & rest & -> & Et & Es & _); [eapply okh_gw; exact (Forall_inv_tail Tm)|].
    cbn [bind]. subst tmp0. assert (Tm0 := Forall_inv_tail Tm). apply Forall_app in Tm0 as [Tm1 Tm2].
    eapply safe_bind with (P := fun w1 => okh J w1 /\ plm w1 = plm w0 /\ forall K, memT K T -> memK K (wpol w1) -> memK K (wpol w0)).
    { destruct v; [|cbn [safe]; auto].
      eapply safe_bind; [apply (tail_pp_ok J T (S fuel) (wpol w0) (plm w0) H G0); apply (plm_hd t o n G); exact G0|].
      intros p (Gp & Hp & Bp). cbn [safe wpol]. assert (Ep : plm (WP (wwrap w0) p) = plm w0) by (apply plm_eq; exact Hp).
      split; [|auto]. split; [split; [exact Gp|apply H0]|]. unfold hirr. rewrite Ep. apply H0. }
    intros w1 (O1 & E1 & B2).
    eapply safe_bind with (P := fun l => Forall (okh J) l /\ Forall (fun u => plm u = plm w0) l /\ forall K, memT K T -> memW K l -> memW K eqs).
    { destruct v; [apply tails_ok; assumption|cbn [safe]; auto]. }
    intros eqs1 (O2 & E2 & B3).
    assert (Ps := swap_min_perm eqs1 w1). destruct (swap_min w1 eqs1) as [w eqs2]. cbn [fst snd] in Ps.
    assert (Ow : Forall (okh J) (w :: eqs2)) by (eapply Permutation_Forall; [exact Ps|constructor; assumption]).
    assert (El : Forall (fun u => plm u = plm w0) (w :: eqs2)) by (eapply Permutation_Forall; [exact Ps|constructor; assumption]).
    assert (Bs : forall K, memT K T -> memW K (w :: eqs2) -> memW K rest -> memW K (w0 :: eqs ++ rest)).
    { intros K MT M Mr. apply (Permutation_Forall (Permutation_sym Ps)) in M. constructor; [apply B2; [exact MT|exact (Forall_inv M)]|].
      apply Forall_app. split; [apply B3; [exact MT|exact (Forall_inv_tail M)]|exact Mr]. }
    assert (Hw := Forall_inv Ow). assert (Hq := okh_okq _ _ (Forall_inv_tail Ow)). assert (Hr := okh_okq _ _ Tm2).
    destruct (v && negb (length eqs2 =? 0)%nat) eqn:Ev; unfold andb in Ev; rewrite ?Ev.
    + destruct (red_eq_ok w (proj1 Hw) eqs2 Hq) as (eqs3 & -> & O3 & B4).
      { apply Forall_inv in El as Ew. eapply Forall_impl; [|exact (Forall_inv_tail El)]. intros x Ex. cbv beta in *. congruence. }
      cbn [bind]. assert (Qr : Forall okq (rest ++ q1)) by (apply Forall_app; split; assumption).
      destruct (insert_w t o n G Hn false (rest ++ q1) w) as (q2 & -> & P2 & _); [apply Hw|apply okq_gw; exact Qr|]. cbn [bind].
      assert (Q2 : Forall okq q2) by (eapply Permutation_Forall; [apply Permutation_sym; exact P2|constructor; [apply Hw|exact Qr]]).
      destruct (insert_all_ok eqs3 q2 O3 Q2) as (q3 & -> & P3). cbn [bind].
      assert (Q3 : Forall okq q3) by (eapply Permutation_Forall; [apply Permutation_sym; exact P3|apply Forall_app; split; assumption]).
      eapply safe_impl; [apply (IH J q3 T H Q3)|]. intros J' (A & B & C). split; [exact A|]. split; [exact B|]. intros K M.
      destruct (C K M) as [X Y]. split; [exact X|]. apply (Permutation_Forall P3) in Y. apply Forall_app in Y as [Y1 Y2].
      apply (Permutation_Forall P2) in Y2. assert (Y3 := Forall_inv Y2). apply Forall_inv_tail in Y2. apply Forall_app in Y2 as [Y4 Y5].
      apply B1; [exact X|exact Y5|]. apply Bs; [exact X| |exact Y4]. constructor; [exact Y3|]. apply B4; assumption.
    + assert (Q2 : Forall okq ((eqs2 ++ rest) ++ q1)) by (rewrite !Forall_app; auto).
      destruct (enter_w_ok J T w H Hw) as (J2 & w' & -> & Ew & H2). cbn [bind]. rewrite Ew.
      eapply safe_bind with (P := fun r => let '(js', q', T') := r in exists J', js' = [J'] /\ tinv J' T' /\ Forall okq q' /\
          forall K, memT K T' -> memW K q' -> memT K ((plm w, wpol w) :: T) /\ memW K ((eqs2 ++ rest) ++ q1)).
      { destruct T as [|e0 T0]; [cbn [safe]; exists J2; auto|]. apply (walk_ok (S fuel) _ _ J2 _ [] (Some (plm w, wpol w)) (e0 :: T0)); assumption. }
      intros [[js3 q3] T3] (J3 & -> & H3 & Q3 & B4). cbn [bind].
      eapply safe_impl; [apply (IH J3 q3 T3 H3 Q3)|]. intros J' (A & B & C). split; [exact A|]. split; [exact B|]. intros K M.
      destruct (C K M) as [X Y]. destruct (B4 K X Y) as [X' Y']. assert (X1 := Forall_inv X'). assert (X2 := Forall_inv_tail X').
      unfold JanetPolyProofs.memW in Y'. rewrite !Forall_app in Y'. destruct Y' as [[Y1 Y2] Y3].
      split; [exact X2|]. apply B1; [exact X2|exact Y3|]. apply Bs; [exact X2| |exact Y2]. constructor; [exact X1|exact Y1].
  - intro M. destruct Hu as ([(_ & (A1 & A2 & A3) & _) _] & _). rewrite A1, A2, A3.
    destruct (set_one_ok t o n G Hn (-1) M) as (J' & -> & S' & N'). cbn [safe]. split; [exact S'|].
    unfold jstate in S'. destruct (jone J') as [w|] eqn:E; [|congruence]. destruct S' as ([_ Ew] & Ej & _). split; [exact Ej|].
    intros K Mk. apply (gall J); [exact H|exact Q|]. unfold memJ in Mk. rewrite E in Mk. unfold JanetPolyProofs.memK in Mk. rewrite Ew in Mk. exact Mk.
Qed.

Lemma tq_ok v fuel J : jstate t o n G J -> safe (fun J' => jstate t o n G J' /\ jq J' = [] /\ forall K, memJ n K J' -> memJ n K J) (jp_tq v fuel false J).
Proof.
  intro H. unfold jp_tq. destruct (jone J) as [w|] eqn:E.
  - cbn [safe]. split; [exact H|]. split; [unfold jstate in H; rewrite E in H; apply H|auto].
  - assert (H' := H). unfold jstate in H'. rewrite E in H'. destruct H' as [Q D]. unfold set_pos. rewrite (q_pos_ring t o n G _ Q).
    destruct D as [(D1 & D2 & D3)|(Ja & D1 & D2 & D3)].
    + rewrite D1, D2. change (-2 <? -1) with true. cbn iota. cbn [jtrees jpos jq jt firstn length app repeat Z.add Z.to_nat Z.opp Z.pos_sub Pos.pred_double]. cbn [Nat.sub Pos.to_nat].
      change (repeat jempty (Z.to_nat (-1 + 2) - 0)) with [jempty]. rewrite D3.
      assert (Ti : tinv jempty []) by (split; [apply jinv_nil|reflexivity|constructor|constructor|constructor]).
      eapply safe_impl; [apply (tq_loop_ok v fuel jempty (jq J) []); assumption|]. intros J' (A & B & C). split; [exact A|]. split; [exact B|].
      intros K M. unfold memJ. rewrite E, D3. apply C. exact M.
    + rewrite D2. change (-1 <? -1) with false. cbn iota. rewrite D1, D2.
      eapply safe_impl; [apply (tq_loop_ok v fuel Ja (jq J) (jt J)); assumption|]. intros J' (A & B & C). split; [exact A|]. split; [exact B|].
      intros K M. unfold memJ. rewrite E. apply C. exact M.
Qed.

(* ------------------------------------------------------------------------------------------ *)
(** * algorithmTQ2 *)

(** An element of mT outside the trees. *)
Definition okd (w : wpoly) : Prop := good (wpol w) /\ okw n (wwrap w) /\ pos (wlm (wwrap w)) = -1.
Definition oki (x : titem) : Prop := match x with Att _ => True | Det w => okd w end.
Definition memI (K : list term -> Prop) (l : list titem) : Prop := Forall (fun x => memK K (item_poly x)) l.

Lemma atts_app a b : atts (a ++ b) = atts a ++ atts b.
Proof. apply flat_map_app. Qed.
Lemma memI_atts K l : memI K l -> memT K (atts l).
Proof.
  induction 1 as [|x l Hx _ IH]; [constructor|]. destruct x as [e|w]; cbn [atts flat_map app]; [constructor; assumption|exact IH].
Qed.

Lemma prolong_det_ok J T p m : tinv J T -> good p -> hd p m -> forall cnt k w q, (k + cnt = n)%nat -> okw n w -> pos (wlm w) = -1 -> Forall okq q ->
  exists w' q', prolong_det false (-1) cnt k [J] w p q = Ok (w', q') /\ okw n w' /\ pos (wlm w') = -1 /\ Forall okq q' /\ incl q q'.
Proof.
  intros H Gp Hp. induction cnt as [|cnt IH]; intros k w q K Ow Pw Q; cbn [prolong_det].
  - exists w, q. split; [reflexivity|]. split; [exact Ow|]. split; [exact Pw|]. split; [exact Q|apply incl_refl].
  - assert (Ow' := Ow). destruct Ow' as (O1 & O2 & O3 & O4). rewrite !get_flag_ok with (n := n) by (assumption || lia). cbn [bind].
    destruct (nth k (wnm w) false && negb (nth k (wbuild w) false)) eqn:B.
    2:{ apply IH; try assumption; lia. }
    destruct (set_build_ok n Hn false w k) as (w1 & Ew & Kw); [exact Ow|lia|].
    assert (O1w : okw n w1) by (apply Kw; exact Ow). assert (P1w : pos (wlm w1) = -1) by (destruct Kw as (-> & _); exact Pw).
    assert (Mm : mono n (mul_var k (wlm w))) by (split; cbn [mul_var vars pos]; [rewrite incr_length; exact O1|lia]).
    destruct (find_wrap_ok n Hn J (mul_var k (wlm w)) (ti_inv _ _ _ _ _ _ H) Mm) as (d & -> & _). cbn [bind].
    match goal with |- context [if ?b then _ else _] => destruct b end.
    + rewrite Ew. cbn [bind]. apply IH; try assumption; lia.
    + unfold prolong_wrap. rewrite !get_flag_ok with (n := n) by (assumption || lia). cbn [bind]. unfold assert_. cbn [andb].
      rewrite Ew. cbn [bind].
      destruct (good_mul_var t o n G Hn k p m) as (pv & -> & Gpv & Hpv); [lia|exact Gp|exact Hp|]. cbn [bind].
      destruct (insert_w t o n G Hn false q (WP (Wrap (mul_var k (wlm w)) (wanc w) (repeat false (size (wlm w))) (repeat false (size (wlm w))) (repeat false (size (wlm w)))) pv))
        as (q1 & -> & P1 & _); [exact Gpv|apply okq_gw; exact Q|]. cbn [bind].
      assert (Q1 : Forall okq q1).
      { eapply Permutation_Forall; [apply Permutation_sym; exact P1|]. constructor; [|exact Q]. unfold lv in O1.
        split; [exact Gpv|]. split; [unfold okw, lv, size; cbn; rewrite incr_length, !repeat_length, O1; auto|]. split; [exact Pw|].
        intros i Hi. unfold fl. cbn. apply nth_false. }
      destruct (IH (S k) w1 q1) as (w' & q' & E & A & B' & Q' & Inc); try assumption; [lia|].
      exists w', q'. split; [exact E|]. split; [exact A|]. split; [exact B'|]. split; [exact Q'|]. intros x Ix. apply Inc.
      eapply Permutation_in; [apply Permutation_sym; exact P1|right; exact Ix].
Qed.

Lemma item_step_ok fuel dg J q others x : tinv J (atts [x] ++ others) -> oki x -> Forall okq q ->
  safe (fun r => let '(js', q', x') := r in exists J', js' = [J'] /\ tinv J' (atts [x'] ++ others) /\ oki x' /\ Forall okq q' /\ incl q q' /\
          forall K, memT K others -> memK K (item_poly x') -> memK K (item_poly x))
    (item_step fuel false (-1) dg [J] q others x).
Proof.
  intros H Ox Q. destruct x as [e|w]; cbn [item_step atts flat_map app] in *.
  - eapply safe_bind; [eapply (tail_reduce_ok t o n G Hn Ho); [exact H|reflexivity]|]. intros e' (_ & H' & B').
    destruct (prolong_if_ok t o n G Hn dg J _ e' q H') as (J1 & q1 & -> & H1 & Q1 & I1); [left; reflexivity|exact Q|].
    cbn [bind fst snd safe]. exists J1. split; [reflexivity|]. cbn [atts flat_map app]. auto.
  - destruct Ox as (Gw & Ow & Pw). destruct (good_hd t o n G (wpol w) Gw) as (m & Hm).
    eapply safe_bind; [apply (tail_pp_ok J others fuel (wpol w) m H Gw Hm)|]. intros p (Gp & Hp & Bp).
    destruct (deg (wlm (wwrap w)) <=? dg)%nat.
    + destruct (prolong_det_ok J others p m H Gp Hp (size (wlm (wwrap w))) 0 (wwrap w) q) as (w' & q' & -> & A & B & Q' & Inc); try assumption.
      { apply Ow. }
      cbn [bind safe fst snd]. exists J. split; [reflexivity|]. cbn [atts flat_map app oki item_poly wpol].
      split; [exact H|]. split; [split; [exact Gp|split; assumption]|]. auto.
    + cbn [safe]. exists J. split; [reflexivity|]. cbn [atts flat_map app oki item_poly wpol].
      split; [exact H|]. split; [split; [exact Gp|split; assumption]|]. split; [exact Q|]. split; [apply incl_refl|]. exact Bp.
Qed.

Definition optI (w : option entry) : list titem := match w with Some x => [Att x] | None => [] end.
Lemma atts_optI w : atts (optI w) = opt w.
Proof. destruct w; reflexivity. Qed.

Lemma walk2_ok fuel dg : forall cnt J q d w k, tinv J (atts d ++ opt w ++ atts k) -> Forall oki d -> Forall oki k -> Forall okq q ->
  safe (fun r => let '(js', q', T') := r in exists J', js' = [J'] /\ tinv J' (atts T') /\ Forall oki T' /\ Forall okq q' /\
          forall K, memI K T' -> memW K q' -> memI K (d ++ optI w ++ k) /\ memW K q)
    (walk2 cnt fuel false (-1) dg [J] q d w k).
Proof.
  induction cnt as [|cnt IH]; intros J q d w k H Od Ok' Q; cbn [walk2].
  { destruct w; [exact I|]. destruct k; cbn [safe]; auto. exists J. split; [reflexivity|]. cbn [app opt optI atts flat_map] in *. rewrite app_nil_r in *. auto. }
  assert (Redu : forall x w' k', Permutation (d ++ optI w ++ k) (x :: d ++ optI w' ++ k') -> oki x -> Forall oki k' ->
    safe (fun r => let '(js', q', T') := r in exists J', js' = [J'] /\ tinv J' (atts T') /\ Forall oki T' /\ Forall okq q' /\
          forall K, memI K T' -> memW K q' -> memI K (d ++ optI w ++ k) /\ memW K q)
      (do r <- item_step fuel false (-1) dg [J] q (atts d ++ opt w' ++ atts k') x;
       let '(js', q', x') := r in walk2 cnt fuel false (-1) dg js' q' (d ++ [x']) w' k')).
  { intros x w' k' P Ox Ok2.
    assert (PP : Permutation (atts d ++ opt w ++ atts k) (atts [x] ++ atts d ++ opt w' ++ atts k')).
    { rewrite <- !atts_optI, <- !atts_app. unfold atts. apply Permutation_flat_map. exact P. }
    eapply safe_bind; [apply item_step_ok; [eapply tinv_perm; [exact H|exact PP]|exact Ox|exact Q]|].
    intros [[js1 q1] x'] (J1 & -> & H1 & Ox' & Q1 & I1 & B1).
    eapply safe_impl; [apply IH|].
    - eapply tinv_perm; [exact H1|]. rewrite atts_app, <- app_assoc. rewrite app_assoc, (Permutation_app_comm (atts [x'])), <- app_assoc. reflexivity.
    - apply Forall_app. auto.
    - exact Ok2.
    - exact Q1.
    - intros [[js' q'] T'] (J' & -> & A & B & C & D). exists J'. split; [reflexivity|]. split; [exact A|]. split; [exact B|]. split; [exact C|].
      intros K M1 M2. destruct (D K M1 M2) as [X Y]. split; [|eapply memW_incl; eassumption].
      unfold memI in *. rewrite <- app_assoc in X. cbn [app] in X. apply (Permutation_Forall (Permutation_sym (Permutation_middle _ _ _))) in X.
      eapply Permutation_Forall; [apply Permutation_sym; exact P|]. constructor; [|exact (Forall_inv_tail X)].
      apply B1; [|exact (Forall_inv X)]. rewrite <- atts_optI, <- !atts_app. apply memI_atts. exact (Forall_inv_tail X). }
  destruct w as [e|]; destruct k as [|x k].
  - apply (Redu (Att e) None []); [|exact I|constructor]. cbn [optI app]. rewrite app_nil_r. apply Permutation_sym, Permutation_cons_append.
  - assert (Gg := ti_good _ _ _ _ _ _ H). rewrite Forall_app in Gg. destruct Gg as (_ & G1). cbn [opt app] in G1.
    destruct (Forall_inv G1) as [Ge He].
    assert (Gx : good (item_poly x)).
    { destruct x as [e'|w]; [|apply (Forall_inv Ok')]. cbn [atts flat_map app] in G1. apply Forall_inv_tail in G1. apply (Forall_inv G1). }
    destruct (good_hd t o n G _ Gx) as (mx & Hx).
    unfold p_cmp. rewrite (hd_lm false _ _ He), (hd_lm false _ _ Hx). cbn [bind].
    match goal with |- context [if ?b then _ else _] => destruct b end.
    + apply (Redu (Att e) None (x :: k)); [|exact I|exact Ok']. cbn [optI app]. apply Permutation_sym, Permutation_middle.
    + apply (Redu x (Some e) k); [|exact (Forall_inv Ok')|exact (Forall_inv_tail Ok')]. cbn [optI]. rewrite !app_assoc. apply Permutation_sym, Permutation_middle.
  - cbn [safe]. exists J. split; [reflexivity|]. cbn [app opt optI atts flat_map] in *. rewrite app_nil_r in *. auto.
  - apply (Redu x None k); [|exact (Forall_inv Ok')|exact (Forall_inv_tail Ok')]. cbn [optI app]. apply Permutation_sym, Permutation_middle.
Qed.

Lemma okw_clear w : okw n w -> okw n (clear_nm w) /\ forall i, fl (clear_nm w) i = false.
Proof.
  intros (A & B & C & D). split; [|intro i; unfold fl; cbn; apply nth_false].
  repeat split; cbn; try assumption. rewrite repeat_length. exact B.
Qed.
Lemma wrap_okw J T w : tinv J T -> In w (wraps (jroot J)) -> okw n w /\ pos (wlm w) = -1.
Proof.
  intros H Iw. assert (O := ji_ok _ _ (ti_inv _ _ _ _ _ _ H)). rewrite Forall_forall in O. assert (P := ti_pos _ _ _ _ _ _ H). rewrite Forall_forall in P. auto.
Qed.

Lemma back_ok J T : tinv J T -> forall l q, incl (atts l) T -> Forall oki l -> Forall okq q ->
  exists q', back [J] l q = Ok q' /\ Forall okq q' /\ forall K, memW K q' -> memI K l /\ memW K q.
Proof.
  intro H. induction l as [|x l IH]; intros q Inc Oi Q; cbn [back].
  - exists q. split; [reflexivity|]. split; [exact Q|]. intros K M. split; [constructor|exact M].
  - assert (X : exists u, back_item [J] x = Ok u /\ okq u /\ wpol u = item_poly x).
    { destruct x as [e|w]; cbn [back_item].
      - assert (Ie : In e T) by (apply Inc; left; reflexivity). destruct (get_wrap_ok t o n G J T e H Ie) as (w & -> & Iw & Ew).
        eexists. split; [reflexivity|]. split; [|reflexivity]. destruct (wrap_okw J T w H Iw) as [Ow Pw]. destruct (okw_clear w Ow) as [O1 F1].
        assert (Gg := ti_good _ _ _ _ _ _ H). rewrite Forall_forall in Gg. split; [apply (Gg e Ie)|]. split; [exact O1|]. split; [exact Pw|]. auto.
      - eexists. split; [reflexivity|]. split; [|reflexivity]. destruct (Forall_inv Oi) as (Gw & Ow & Pw). destruct (okw_clear _ Ow) as [O1 F1].
        split; [exact Gw|]. split; [exact O1|]. split; [exact Pw|]. auto. }
    destruct X as (u & -> & Ou & Eu). cbn [bind].
    destruct (IH (u :: q)) as (q' & E & Q' & B).
    + intros y Iy. apply Inc. destruct x; cbn [atts flat_map app]; [right; exact Iy|exact Iy].
    + exact (Forall_inv_tail Oi).
    + constructor; assumption.
    + exists q'. split; [exact E|]. split; [exact Q'|]. intros K M. destruct (B K M) as [X Y].
      split; [constructor; [rewrite <- Eu; exact (Forall_inv Y)|exact X]|exact (Forall_inv_tail Y)].
Qed.

(** The object after algorithmTQ2. *)
Definition jstate2 (J : jpoly2) : Prop :=
  match j2one J with
  | Some w => is_unit t o n G w
  | None => (j2trees J = None /\ j2t J = []) \/ exists Ja, j2trees J = Some [Ja] /\ j2pos J = -1 /\ tinv Ja (atts (j2t J)) /\ Forall oki (j2t J)
  end.
Definition memJ2 (K : list term -> Prop) (J : jpoly2) : Prop :=
  match j2one J with Some w => memK K (wpol w) | None => memI K (j2t J) end.

Lemma tq2_loop_ok : forall fuel pref J q T, tinv J (atts T) -> Forall oki T -> Forall okq q ->
  safe (fun J' => jstate2 J' /\ forall K, memJ2 K J' -> memI K T /\ memW K q) (tq2_loop fuel false (-1) pref [J] q T).
Proof.
  induction fuel as [|fuel IH]; intros pref J q T H OT Q; destruct q as [|u q0] eqn:Eq; cbn [tq2_loop].
  1,3: cbn [safe]; split; [|intros K M; split; [exact M|constructor]]; cbn [jstate2 j2one j2trees j2t j2pos]; right; exists J; auto.
  { exact I. }
  rewrite <- Eq in *. assert (Hu : okq u) by (rewrite Eq in Q; exact (Forall_inv Q)).
  rewrite (lm_plm t o n G false u (proj1 Hu)). cbn [bind].
  eapply safe_bind; [apply (take_tq_ok true J (atts T) (deg (plm u)) (S fuel) H q []); [exact Q|constructor]|].
  intros [[q1 tmp]|].
  - intros (Q1 & Tm & B1). unfold assert_. cbn [andb]. set (pref1 := if (pref =? 0)%nat then deg (plm u) else pref).
    destruct tmp as [|w0 tmp0].
    { eapply safe_impl; [apply (IH pref1 J q1 T); assumption|]. intros J' (A & C). split; [exact A|]. intros K M.
      destruct (C K M) as [X Y]. split; [exact X|]. apply B1; [apply memI_atts; exact X|exact Y|constructor]. }
    assert (H0 := Forall_inv Tm). assert (G0 := proj1 (proj1 H0)).
    rewrite (lm_plm t o n G false w0 G0). cbn [bind].
    destruct (same_deg_ok t o n G (deg (plm w0)) tmp0) as (eqs & rest & -> & Et); [eapply okh_gw; exact (Forall_inv_tail Tm)|].
    cbn [bind]. subst tmp0. assert (Tm0 := Forall_inv_tail Tm). apply Forall_app in Tm0 as [Tm1 Tm2].
    assert (Ps := swap_min_perm eqs w0). destruct (swap_min w0 eqs) as [w1 eqs2]. cbn [fst snd] in Ps.
    assert (Ow : Forall (okh J) (w1 :: eqs2)) by (eapply Permutation_Forall; [exact Ps|constructor; assumption]).
    assert (H1 := Forall_inv Ow). assert (G1 := proj1 (proj1 H1)). assert (Hq := okh_okq _ _ (Forall_inv_tail Ow)). assert (Hr := okh_okq _ _ Tm2).
    assert (Q2 : Forall okq ((eqs2 ++ rest) ++ q1)) by (rewrite !Forall_app; auto).
    eapply safe_bind; [apply (tail_pp_ok J (atts T) (S fuel) (wpol w1) (plm w1) H G1); apply (plm_hd t o n G); exact G1|].
    intros p (Gp & Hp & Bp). assert (Ep : plm (WP (wwrap w1) p) = plm w1) by (apply plm_eq; exact Hp).
    assert (Hw : okh J (WP (wwrap w1) p)) by (split; [split; [exact Gp|apply H1]|unfold hirr; rewrite Ep; apply H1]).
    destruct (enter_w_ok J (atts T) (WP (wwrap w1) p) H Hw) as (J2 & w' & -> & Ew & H2). cbn [bind]. rewrite Ew. cbn [wpol] in H2.
    eapply safe_bind with (P := fun r => let '(js', q', T') := r in exists J', js' = [J'] /\ tinv J' (atts T') /\ Forall oki T' /\ Forall okq q' /\
        forall K, memI K T' -> memW K q' -> memK K p /\ memI K T /\ memW K ((eqs2 ++ rest) ++ q1)).
    { destruct (deg (plm u) <? pref1)%nat.
      - destruct (back_ok J2 _ H2 T ((eqs2 ++ rest) ++ q1)) as (q3 & -> & Q3 & B3); [intros x Ix; right; exact Ix|exact OT|exact Q2|]. cbn [bind].
        destruct (get_wrap_ok t o n G J2 _ (plm (WP (wwrap w1) p), p) H2) as (w'' & Eg & Iw & Ew2); [left; reflexivity|]. cbn [fst] in Eg. rewrite Eg.
        cbn [safe map]. exists jempty. split; [reflexivity|]. cbn [atts flat_map app].
        split; [split; [apply jinv_nil|reflexivity|constructor|constructor|constructor]|].
        destruct (wrap_okw J2 _ w'' H2 Iw) as [O2 P2].
        split; [constructor; [split; [exact Gp|split; assumption]|constructor]|]. split; [exact Q3|].
        intros K M1 M2. destruct (B3 K M2) as [X Y]. split; [exact (Forall_inv M1)|]. auto.
      - destruct T as [|x0 T0].
        + cbn [safe]. exists J2. split; [reflexivity|]. split; [exact H2|]. split; [constructor; [exact I|constructor]|]. split; [exact Q2|].
          intros K M1 M2. split; [exact (Forall_inv M1)|]. split; [constructor|exact M2].
        + eapply safe_impl; [apply (walk2_ok (S fuel) (deg (plm u)) _ J2 _ [] (Some (plm (WP (wwrap w1) p), p)) (x0 :: T0)); [exact H2|constructor|exact OT|exact Q2]|].
          intros [[js' q'] T'] (J' & -> & A & B & C & D). exists J'. split; [reflexivity|]. split; [exact A|]. split; [exact B|]. split; [exact C|].
          intros K M1 M2. destruct (D K M1 M2) as [X Y]. cbn [app optI] in X. split; [exact (Forall_inv X)|]. split; [exact (Forall_inv_tail X)|exact Y]. }
    intros [[js3 q3] T3] (J3 & -> & H3 & O3 & Q3 & B4). cbn [bind].
    eapply safe_impl; [apply (IH (deg (plm u)) J3 q3 T3 H3 O3 Q3)|]. intros J' (A & C). split; [exact A|]. intros K M.
    destruct (C K M) as [X Y]. destruct (B4 K X Y) as (X1 & X2 & Y').
    unfold JanetPolyProofs.memW in Y'. rewrite !Forall_app in Y'. destruct Y' as [[Y1 Y2] Y3]. assert (MT := memI_atts K T X2).
    split; [exact X2|]. apply B1; [exact MT|exact Y3|].
    assert (M1 : memW K (w1 :: eqs2)) by (constructor; [apply Bp; assumption|exact Y1]).
    apply (Permutation_Forall (Permutation_sym Ps)) in M1. constructor; [exact (Forall_inv M1)|]. apply Forall_app. split; [exact (Forall_inv_tail M1)|exact Y2].
  - intro M. destruct Hu as ([(_ & (A1 & A2 & A3) & _) _] & _). rewrite A1, A2, A3.
    destruct (set_one_ok t o n G Hn (-1) M) as (J' & -> & S' & N'). cbn [bind safe].
    unfold jstate in S'. destruct (jone J') as [w|] eqn:E; [|congruence]. destruct S' as (U & _). unfold jstate2, memJ2. cbn [j2one]. split; [exact U|].
    intros K Mk. destruct U as [_ Ew]. unfold JanetPolyProofs.memK in Mk. rewrite Ew in Mk. split.
    + apply Forall_forall. intros x Ix. apply (all_from_one t o n G Hn); [exact Mk|]. destruct x as [e|w1].
      * assert (Gg := ti_good _ _ _ _ _ _ H). rewrite Forall_forall in Gg. apply (Gg e). unfold atts. apply in_flat_map. exists (Att e). split; [exact Ix|left; reflexivity].
      * rewrite Forall_forall in OT. apply (OT _ Ix).
    + apply (gall J q (atts T)); assumption.
Qed.

Lemma atts_map l : atts (map Att l) = l.
Proof. induction l as [|e l IH]; cbn [map atts flat_map app]; [reflexivity|]. f_equal. exact IH. Qed.
Lemma memI_map K l : memI K (map Att l) -> memT K l.
Proof. intro M. apply memI_atts in M. rewrite atts_map in M. exact M. Qed.

Lemma tq2_ok fuel J : jstate t o n G J -> safe (fun J' => jstate2 J' /\ forall K, memJ2 K J' -> memJ n K J) (jp_tq2 fuel false J).
Proof.
  intro H. unfold jp_tq2. destruct (jone J) as [w|] eqn:E.
  - cbn [safe]. unfold jstate in H. unfold jstate2, memJ2, memJ. cbn [j2one]. rewrite E in *. split; [apply H|auto].
  - assert (H' := H). unfold jstate in H'. rewrite E in H'. destruct H' as [Q D]. unfold set_pos. rewrite (q_pos_ring t o n G _ Q).
    destruct D as [(D1 & D2 & D3)|(Ja & D1 & D2 & D3)].
    + rewrite D1, D2. change (-2 <? -1) with true. cbn iota. cbn [jtrees jpos jq jt firstn length app repeat Z.add Z.to_nat Z.opp Z.pos_sub Pos.pred_double]. cbn [Nat.sub Pos.to_nat].
      change (repeat jempty (Z.to_nat (-1 + 2) - 0)) with [jempty]. rewrite D3.
      assert (Ti : tinv jempty []) by (split; [apply jinv_nil|reflexivity|constructor|constructor|constructor]).
      eapply safe_impl; [apply (tq2_loop_ok fuel 0 jempty (jq J) []); [exact Ti|constructor|exact Q]|]. intros J' (A & C). split; [exact A|].
      intros K M. unfold memJ. rewrite E, D3. split; [constructor|apply C; exact M].
    + rewrite D2. change (-1 <? -1) with false. cbn iota. rewrite D1, D2.
      eapply safe_impl; [apply (tq2_loop_ok fuel 0 Ja (jq J) (map Att (jt J))); [rewrite atts_map; exact D3| |exact Q]|].
      { apply Forall_forall. intros x Ix. apply in_map_iff in Ix as (e & <- & _). exact I. }
      intros J' (A & C). split; [exact A|].
      intros K M. unfold memJ. rewrite E. destruct (C K M) as [X Y]. split; [apply memI_map; exact X|exact Y].
Qed.
End P.
