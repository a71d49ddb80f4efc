(** push and nf of a debug build: no assertion fails, whatever was done before. *)
From Coq Require Import ZArith List Bool Arith Lia Permutation Sorted.
From Verif Require Import Outcome MonomModel MonomSpec MonomProofs PolyModel PolySpec PolyProofs PolyRedProofs PolyNfProofs PolyTopProofs
  JanetModel JanetSpec JanetProofs JanetFindProofs CompletionProofs JanetPolyModel TQModel JanetPolySpec IdealProofs JanetPolyProofs
  TQProofs JanetPolyTop TQ2Mult CythonProofs DebugProofs DebugTQ DebugPrinc.
Import ListNotations.
Local Open Scope Z_scope.

Section P.
Variables (t : pos_order) (o : base_order) (n : nat).
Hypothesis (Hn : (0 < n)%nat) (Ho : o <> OAlex).
Notation A := (fun _ : list term => True).
Notation goodz := (goodz t o n A).
Notation good := (good t o n A).
Notation tinv := (tinv t o n A).
Notation jstate := (jstate t o n A).

Lemma in_goodz a : ring_input t o n a -> goodz a.
Proof. intro Ra. apply ring_input_goodz; [exact Ra|apply mem_gen; [exact Logic.I|eapply ring_input_monos; exact Ra]]. Qed.

Definition body (fuel : nat) (find : monom -> outcome (option poly)) (a : poly) : outcome poly :=
  do r <- p_nf fuel true find a; do r2 <- p_nfTail fuel true find (fst r); p_pp true (fst r2).

Lemma gf_tree Ja T : tinv Ja T -> good_find true t o n (GT n A T) (find_poly true (-1) (Some [Ja]) T).
Proof.
  intros H m Hm. destruct (Z.eq_dec (pos m) (-1)) as [Pm|Pm].
  - rewrite (dfind t o n Hn Ja T m H Hm Pm). destruct (good_find_T t o n A Hn Ja T H m Hm) as (w & E & W). exists w. split; [exact E|].
    intros a Ea. destruct (W a Ea) as (W1 & W2 & W3 & W4 & W5 & (W6 & _) & W7). split; [exact W1|]. split; [exact W2|]. split; [exact W3|]. split; [exact W4|]. split; [exact W5|].
    split; [split; [exact W6|intros _; left; exact Pm]|exact W7].
  - exists None. split; [|discriminate]. unfold find_poly, find_wrap. assert (L : -1 <? pos m = true) by (apply Z.ltb_lt; destruct Hm as [_ Hm]; lia). rewrite L. reflexivity.
Qed.
Lemma body_full G find a : good_find true t o n G find -> ring_input t o n a -> exists N, forall fuel, (N <= fuel)%nat -> exists r, body fuel find a = Ok r.
Proof.
  intros F (V & E1 & E2 & E3 & R). destruct (c17_full true G find a) as (N & X); [congruence|exact V|rewrite E1, E2, E3; exact F|].
  exists N. intros fuel L. destruct (X fuel L) as (q & j & r & k & X1 & X2 & _ & Vr & _). unfold body. rewrite X1. cbn [bind fst]. rewrite X2. cbn [bind fst].
  destruct (p_pp_ok true r Vr) as (r' & g & -> & _). eauto.
Qed.
(** The basis 1: every monomial has a reducer. *)
Lemma body_one w find a : is_unit t o n A w -> (forall m, find m = Ok (Some (wpol w))) -> ring_input t o n a -> exists N, forall fuel, (N <= fuel)%nat -> exists r, body fuel find a = Ok r.
Proof.
  intros [Gw Ew] Ef Ra. assert (Ga := in_goodz a Ra). set (f0 := fun m => if pos m =? -1 then Ok (Some (wpol w)) else Ok (@None poly)).
  assert (F0 : good_find true t o n (GM n A) f0).
  { intros m Hm. unfold f0. destruct (Z.eqb_spec (pos m) (-1)) as [Pm|Pm]; [|exists None; split; [reflexivity|discriminate]].
    exists (Some (wpol w)). split; [reflexivity|]. intros x X. injection X as <-. destruct Gw as (V & (S1 & S2 & S3) & R & M).
    split; [exact V|]. split; [exact S1|]. split; [exact S2|]. split; [exact S3|]. split; [split; assumption|].
    split; [split; [rewrite Pm; exact R|intros _; left; exact Pm]|]. exists (Mon (-1) (repeat 0%nat n)), 1, []. split; [exact Ew|].
    split; [left; reflexivity|]. split; [cbn; rewrite repeat_length; symmetry; apply Hm|]. intro i. cbn [vars]. unfold expo.
    assert (X : nth i (repeat 0%nat n) 0%nat = 0%nat) by (clear; revert i; induction n; intros [|i]; cbn; auto). rewrite X. lia. }
  assert (X : forall fuel f r0, goodz f -> nf_loop fuel true find r0 f = nf_loop fuel true f0 r0 f).
  { induction fuel as [|fuel IH]; intros f r0 Hf; cbn [nf_loop]; destruct (terms f) as [|[m c] l] eqn:Et; try reflexivity;
      (destruct (hd_mono t o n A f m Hf) as [Mm Pm]; [exists c, l; exact Et|]); assert (Em : f0 m = Ok (Some (wpol w))) by (unfold f0; rewrite Pm; reflexivity);
      rewrite Ef, Em; [reflexivity|]. cbn [bind].
    destruct Hf as (V & I & R & M). destruct (nf_step true t o n (GM n A) f0 F0 f m c l (wpol w) V I Et Em) as (r & -> & Vr & Ir & _ & C). cbn [bind]. apply IH.
    apply (congruent_goodz t o n A (GM n A) (fun g H => H) f); [split; [|split; [|split]]; assumption|assumption..|]. apply C. apply congruent_refl. }
  destruct Ga as (Va & Ia & Rg & Mg).
  destruct (nf_terminates true t o n _ f0 F0 Ho a Va Ia) as (N & r & k & T). exists N. intros fuel L.
  destruct (nf_partial true t o n _ f0 F0 fuel a 0%nat r (0 + k) Va Ia (T fuel 0%nat L)) as (Vr & Ir & Cr & Dr).
  assert (Gr : goodz r) by (apply (congruent_goodz t o n A (GM n A) (fun g H => H) a); [split; [|split; [|split]]; assumption|assumption..]).
  assert (Zr : terms r = []).
  { destruct Dr as [Dr|(m & c & l & Er & Fm)]; [exact Dr|]. destruct (hd_mono t o n A r m Gr) as [_ Pm]; [exists c, l; exact Er|]. unfold f0 in Fm. rewrite Pm in Fm. discriminate. }
  unfold body, p_nf. rewrite X by (split; [|split; [|split]]; assumption). rewrite (T fuel 0%nat L). cbn [bind fst]. unfold p_nfTail. rewrite Zr. cbn [bind fst].
  destruct (p_pp_ok true r Vr) as (r' & g & -> & _). eauto.
Qed.

Lemma state_comparable J a : jstate J -> goodz a -> jp_comparable J a = true.
Proof.
  intros S Ga. assert (K : forall p, goodz p -> comparable p a = true).
  { intros p (_ & Ip & _). destruct Ga as (_ & (I1 & I2 & I3) & _). apply (inring_comparable t o n p a Ip I1 I2 I3). }
  unfold jp_comparable, JanetPolyProofs.jstate in *. destruct (jone J) as [w|].
  { destruct S as (_ & -> & -> & _). reflexivity. }
  destruct S as [Q D]. destruct (jq J) as [|u q].
  - destruct D as [(_ & _ & ->)|(Ja & _ & _ & T)]; [reflexivity|]. destruct (jt J) as [|e l]; [reflexivity|].
    assert (G := ti_good _ _ _ _ _ _ T). destruct (Forall_inv G) as [[Ge _] _]. rewrite (K _ Ge). reflexivity.
  - assert (G := proj1 (proj1 (Forall_inv Q))). rewrite (K _ G). rewrite orb_true_r. reflexivity.
Qed.

Lemma debug_history_push F J a : jp_history false t o n F J -> ring_input t o n a -> exists J', jp_push true J a = Ok J' /\ jp_push false J a = Ok J'.
Proof.
  intros H Ra. destruct (history_state t o n F J Hn Ho H) as (S0 & _).
  assert (S : jstate J) by (eapply jstate_G; [|exact S0]; intros; exact Logic.I). assert (Ga := in_goodz a Ra).
  assert (X : exists J', jp_push true J a = Ok J').
  { unfold jp_push, assert_. rewrite (state_comparable J a S Ga). cbn [andb negb]. destruct (jone J) as [w|] eqn:E; [eauto|]. destruct (is_zero a) eqn:Z; [eauto|].
    assert (G : good a) by (split; [exact Ga|intro X; unfold is_zero in Z; rewrite X in Z; discriminate]).
    destruct (good_hd t o n A a G) as [m Hm]. rewrite (hd_lm true a m Hm). cbn [bind]. rewrite (p_copy_id true a (proj1 Ra)). cbn [bind].
    unfold JanetPolyProofs.jstate in S. rewrite E in S. destruct S as [Q D].
    destruct (insert_w t o n A Hn true (jq J) (WP (new_wrap m) a)) as (q & -> & _); [exact G|apply okq_gw; exact Q|]. cbn [bind]. eauto. }
  destruct X as [J' X]. exists J'. split; [exact X|exact (d_push _ _ _ X)].
Qed.

Lemma debug_history_nf F J a : jp_history false t o n F J -> ring_input t o n a ->
  exists N r, forall fuel, (N <= fuel)%nat -> jp_nf fuel true J a = Ok r /\ jp_nf fuel false J a = Ok r.
Proof.
  intros H Ra. destruct (history_state t o n F J Hn Ho H) as (S0 & _).
  assert (S : jstate J) by (eapply jstate_G; [|exact S0]; intros; exact Logic.I). assert (Ga := in_goodz a Ra).
  assert (B : exists N, forall fuel, (N <= fuel)%nat -> exists r, body fuel (jp_find true J) a = Ok r).
  { assert (S' := S). unfold JanetPolyProofs.jstate in S'. destruct (jone J) as [w|] eqn:E.
    - destruct S' as (U & _). apply (body_one w _ a U); [|exact Ra]. intro m. unfold jp_find. rewrite E. reflexivity.
    - destruct S' as [_ [(D1 & D2 & D3)|(Ja & D1 & D2 & D3)]].
      + apply (body_full (GM n A) _ a); [|exact Ra]. intros m Hm. exists None. unfold jp_find. rewrite E, D1. split; [reflexivity|discriminate].
      + assert (Ej : jp_find true J = find_poly true (-1) (Some [Ja]) (jt J)) by (unfold jp_find; rewrite E, D1, D2; reflexivity).
        rewrite Ej. exact (body_full _ _ a (gf_tree Ja (jt J) D3) Ra). }
  destruct B as [N1 B]. destruct (c40_nf t o n F J a Hn Ho H Ra) as (N2 & r & E & _). exists (N1 + N2)%nat, r. intros fuel L.
  destruct (B fuel ltac:(lia)) as [r' E']. assert (X : jp_nf fuel true J a = Ok r').
  { unfold jp_nf, assert_. rewrite (state_comparable J a S Ga). exact E'. }
  assert (Y := d_jp_nf _ _ _ _ X). rewrite (E fuel) in Y by lia. injection Y as ->. split; [exact X|apply E; lia].
Qed.

Lemma debug_history_nf2 F J fuel0 J2 a : jp_history false t o n F J -> jp_tq2 fuel0 false J = Ok J2 -> ring_input t o n a ->
  exists N, forall fuel, (N <= fuel)%nat -> exists r, jp2_nf fuel true J2 a = Ok r /\ jp2_nf fuel false J2 a = Ok r.
Proof.
  intros H E2 Ra. assert (S := tq2_stateA t o n Hn Ho F J fuel0 J2 H E2).
  assert (B : exists N, forall fuel, (N <= fuel)%nat -> exists r, body fuel (jp2_find true J2) a = Ok r).
  { unfold jstate2 in S. destruct (j2one J2) as [w|] eqn:E.
    - apply (body_one w _ a S); [|exact Ra]. intro m. unfold jp2_find. rewrite E. reflexivity.
    - destruct S as [(D1 & D2)|(Ja & D1 & D2 & D3 & _)].
      + apply (body_full (GM n A) _ a); [|exact Ra]. intros m Hm. exists None. unfold jp2_find. rewrite E, D1. split; [reflexivity|discriminate].
      + assert (Ej : jp2_find true J2 = find_poly true (-1) (Some [Ja]) (atts (j2t J2))) by (unfold jp2_find; rewrite E, D1, D2; reflexivity).
        rewrite Ej. exact (body_full _ _ a (gf_tree Ja _ D3) Ra). }
  destruct B as [N1 B]. exists N1. intros fuel L. destruct (B fuel L) as [r E']. exists r. split; [exact E'|]. exact (d_jp2_nf _ _ _ _ E').
Qed.
End P.
