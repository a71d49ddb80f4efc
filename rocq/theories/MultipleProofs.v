(** Multiplicative multiples of basis elements have normal form 0. *)
From Coq Require Import ZArith List Bool Arith Lia Permutation.
From Verif Require Import Outcome MonomModel MonomSpec MonomProofs PolyModel PolySpec PolyProofs PolyRedProofs PolyNfProofs
  PolyTopProofs JanetModel JanetSpec JanetProofs JanetFindProofs JanetPolyModel TQModel JanetPolySpec IdealProofs JanetPolyProofs JanetPolyTop
  InvolutiveProofs InvolutiveTop JanetPolyHPProofs.
Import ListNotations.
Local Open Scope Z_scope.

Lemma jstate_distinct t o n G J : jstate t o n G J -> NoDup (map lead (basis J)).
Proof.
  intro S. unfold jstate, basis in *. destruct (jone J) as [w|].
  - cbn. repeat constructor. intros [].
  - destruct S as [_ [(_ & _ & ->)|(Ja & _ & _ & T)]]; [constructor|]. rewrite (tinv_leads _ _ _ _ _ _ T).
    assert (P := Permutation_map vars (ti_perm _ _ _ _ _ _ T)). rewrite map_map in P. eapply Permutation_NoDup; [exact P|].
    apply (ji_nd _ _ (ti_inv _ _ _ _ _ _ T)).
Qed.

Lemma multiples_state t o n J g u x : (0 < n)%nat -> jstate t o n (fun _ => True) J -> jone J = None -> In g (basis J) ->
  length u = n -> (forall i, (i < n)%nat -> (0 < expo u i)%nat -> ~ janet_nm (map lead (basis J)) (lead g) i) ->
  ring_input t o n x -> (forall m, coef (terms x) m = coef (shift u (terms g)) m) ->
  exists r, (forall fuel, (1 <= fuel)%nat -> jp_nf fuel false J x = Ok r) /\ terms r = [].
Proof.
  intros Hn SA Eo Ig Lu Mu Rx Ex.
  assert (HB : forall b, In b (basis J) -> ring_input t o n b /\ terms b <> []).
  { intros b Ib. destruct (jstate_basis _ _ _ _ _ _ SA Ib) as [A B]. split; [eapply goodz_ring_input; exact A|exact B]. }
  destruct (HB g Ig) as [Rg Ng].
  assert (ND := jstate_distinct t o n _ J SA).
  destruct (head_of t o n (basis J) HB g Ig) as (c & l & Eg & Nc & Lg & _).
  assert (Tx : terms x = shift u (terms g)).
  { destruct Rx as (V & A1 & A2 & A3 & _). destruct Rg as (V' & B1 & B2 & B3 & B4). unfold valid_poly in V, V'.
    rewrite A1, A2, A3 in V. rewrite B1, B2, B3 in V'. apply (canonical_unique t o n); [exact V| |exact Ex]. apply shift_canonical; assumption. }
  set (M := R (addv u (lead g))).
  assert (Hx : terms x = (M, c) :: shift u l) by (rewrite Tx, Eg; unfold shift; cbn [map fst snd]; change (Mon (-1) u) with (R u); rewrite mprod_R; reflexivity).
  assert (D : janet_divides n (map lead (basis J)) (lead g) (vars M)).
  { split; [apply in_map; exact Ig|]. cbn [M R vars]. split.
    - intros i Hi. rewrite expo_addv by lia. lia.
    - intros i Hi. rewrite expo_addv by lia. intro L. apply Mu; [exact Hi|lia]. }
  assert (Lx : forall y, In y (map lead (basis J)) -> length y = n) by (apply (U_len t o n (basis J) HB)).
  assert (MM : mono n M) by (apply R_mono; rewrite addv_length; lia).
  assert (Ef : jp_find false J M = Ok (Some g)).
  { destruct (proj2 (find_spec t o n Hn J SA Eo) M MM eq_refl) as (w & Ew & W). destruct w as [a|].
    - destruct W as [Ia Da]. rewrite Ew. do 2 f_equal. apply (lead_inj (basis J) ND); [exact Ia|exact Ig|]. eapply (janet_unique n); [exact Lx|exact Da|exact D].
    - exfalso. unfold jstate in SA. assert (EL := jstate_leads t o n _ J SA Eo). unfold jstate in SA. rewrite Eo in SA. destruct SA as [_ [(D1 & D2 & D3)|(Ja & D1 & D2 & D3)]].
      + unfold basis in Ig. rewrite Eo, D3 in Ig. destruct Ig.
      + unfold jp_find in Ew. rewrite Eo, D1, D2 in Ew. apply (find_none_irr t o n _ Hn Ja (jt J) M D3 MM eq_refl Ew (lead g)).
        rewrite <- EL in D. eapply perm_janet; [|exact D]. assert (P := Permutation_map vars (ti_perm _ _ _ _ _ _ D3)). rewrite map_map in P. apply Permutation_sym. exact P. }
  assert (Gg := goodzA t o n g Rg). assert (Gx := goodzA t o n x Rx).
  destruct (c14 false x g M c (shift u l) (R (lead g)) c l) as (r & k1 & k2 & u' & Er & SR & Vr & K1 & _ & Lu' & Hu' & Sm & Z & _);
    [apply Rx|apply Rg|eapply goodz_same; eassumption|exact Hx|exact Eg| | |].
  - split; [right; reflexivity|]. split; [unfold M; cbn [R vars]; rewrite addv_length; lia|]. intro i. unfold M; cbn [R vars]. rewrite expo_addv by lia. lia.
  - split; [|discriminate]. apply Rg.
  - assert (Eu : u' = u).
    { change (Mon (-1) u') with (R u') in Hu'. rewrite mprod_R in Hu'. unfold M in Hu'. injection Hu' as Hu'. destruct Rx as (_ & P & _). rewrite P in Lu'.
      apply expo_ext; [congruence|]. intros i Hi. assert (Y := f_equal (fun v => expo v i) Hu'). cbn beta in Y. rewrite !expo_addv in Y by lia. lia. }
    subst u'.
    assert (Cx : coef (terms x) M <> 0).
    { rewrite Hx. destruct Rx as (V & _). unfold valid_poly in V. rewrite Hx in V. destruct (canonical_coef _ _ _ _ M c V (or_introl eq_refl)) as [E1 N1]. rewrite E1. exact N1. }
    assert (Ek : k1 = k2). { rewrite Sm, <- Ex in Z. nia. }
    assert (Tr : terms r = []).
    { destruct (terms r) as [|[m d] l'] eqn:El; [reflexivity|exfalso]. unfold valid_poly in Vr. rewrite El in Vr. destruct (canonical_coef _ _ _ _ m d Vr (or_introl eq_refl)) as [E1 N1].
      rewrite Sm, <- Ex in E1. nia. }
    exists r. split; [|exact Tr]. intros [|fuel] Hf; [lia|]. unfold jp_nf, assert_. cbn [andb]. unfold p_nf. cbn [nf_loop]. rewrite Hx, Ef. cbn [bind]. rewrite Er. cbn [bind].
    assert (El : nf_loop fuel false (jp_find false J) 1 r = Ok (r, 1%nat)) by (destruct fuel; cbn [nf_loop]; rewrite Tr; reflexivity).
    rewrite El. cbn [bind fst]. unfold p_nfTail. rewrite Tr. cbn [bind fst]. unfold p_pp. rewrite Tr. reflexivity.
Qed.

Lemma c54_multiples t o n F J g u x : (0 < n)%nat -> o <> OAlex -> jp_history false t o n F J -> In g (basis J) ->
  length u = n -> (forall i, (i < n)%nat -> (0 < expo u i)%nat -> ~ janet_nm (map lead (basis J)) (lead g) i) ->
  ring_input t o n x -> (forall m, coef (terms x) m = coef (shift u (terms g)) m) ->
  exists N r, (forall fuel, (N <= fuel)%nat -> jp_nf fuel false J x = Ok r) /\ terms r = [].
Proof.
  intros Hn Ho H Ig Lu Mu Rx Ex.
  destruct (jone J) as [w|] eqn:Eo.
  { destruct (c40_one t o n F J x Hn Ho H Rx) as (N & r & A & B); [congruence|]. exists N, r. auto. }
  destruct (history_state t o n F J Hn Ho H) as (S & _).
  destruct (multiples_state t o n J g u x Hn) as (r & A & B); try assumption; [eapply jstate_G; [|exact S]; auto|].
  exists 1%nat, r. auto.
Qed.
