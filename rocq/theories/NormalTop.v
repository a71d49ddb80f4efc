(** JanetPolyInt::nf returns the irreducible primitive representative of the class of its argument. *)
From Coq Require Import ZArith List Bool Arith Lia Permutation.
From Verif Require Import Outcome MonomModel MonomSpec MonomProofs PolyModel PolySpec PolyProofs PolyRedProofs PolyNfProofs
  JanetModel JanetSpec JanetProofs JanetFindProofs JanetPolyModel JanetPolySpec IdealProofs JanetPolyProofs JanetPolyTop
  InvolutiveProofs InvolutiveTop NormalSpec NormalProofs.
Import ListNotations.
Local Open Scope Z_scope.

Section T.
Variables (t : pos_order) (o : base_order) (n : nat).
Hypothesis Hn : (0 < n)%nat.
Hypothesis Ho : o <> OAlex.
Let A : list term -> Prop := fun _ => True.

Lemma state_of F J : jp_history false t o n F J -> jstate t o n A J.
Proof. intro H. destruct (history_state t o n F J Hn Ho H) as (S0 & _). eapply jstate_G; [|exact S0]. intros; exact I. Qed.
Lemma basis_ok F J : jp_history false t o n F J -> forall b, In b (basis J) -> ring_input t o n b /\ terms b <> [].
Proof.
  intros H b Ib. destruct (jstate_basis _ _ _ _ _ _ (state_of F J H) Ib) as [X1 X2]. split; [eapply goodz_ring_input; exact X1|exact X2].
Qed.
Lemma find_full J : jstate t o n A J -> forall m, mono n m -> pos m = -1 -> exists w, jp_find false J m = Ok w /\
  match w with Some a => In a (basis J) /\ janet_divides n (map lead (basis J)) (lead a) (vars m)
             | None => forall u, ~ janet_divides n (map lead (basis J)) u (vars m) end.
Proof.
  intros S m Mm Pm. destruct (jone J) as [w|] eqn:Eo.
  - unfold jstate in S. rewrite Eo in S. destruct S as ([_ Ew] & _). exists (Some (wpol w)). unfold jp_find, basis. rewrite Eo. split; [reflexivity|].
    split; [left; reflexivity|]. cbn [map]. assert (El : lead (wpol w) = repeat 0%nat n) by (unfold lead; now rewrite Ew). rewrite El.
    split; [left; reflexivity|]. split; [intros i Hi; rewrite expo_repeat; destruct (i <? n)%nat; lia|].
    intros i Hi _ (u & [<-|[]] & _ & X). lia.
  - assert (EL := jstate_leads t o n A J S Eo). unfold jstate in S. rewrite Eo in S. destruct S as [_ [(D1 & D2 & D3)|(Ja & D1 & D2 & D3)]].
    + exists None. unfold jp_find. rewrite Eo, D1. split; [reflexivity|]. intros u (Iu & _). rewrite <- EL, D3 in Iu. destruct Iu.
    + assert (Ej : jp_find false J = find_poly false (-1) (Some [Ja]) (jt J)) by (unfold jp_find; rewrite Eo, D1, D2; reflexivity). rewrite Ej.
      assert (P := Permutation_map vars (ti_perm _ _ _ _ _ _ D3)). rewrite map_map in P.
      destruct (find_poly_ok t o n A Hn Ja (jt J) m D3 Mm) as (w & Ew & W). exists w. split; [exact Ew|]. destruct w as [a|].
      * destruct W as (k & Ik & Ga & (c & l & Ea) & _ & D).
        assert (La : lead a = vars k) by (unfold lead; now rewrite Ea).
        split; [unfold basis; rewrite Eo; apply in_map_iff; exists (k, a); auto|]. rewrite La, <- EL. eapply perm_janet; [|exact D]. exact P.
      * intros u D. apply (W Pm u). rewrite <- EL in D. eapply perm_janet; [|exact D]. apply Permutation_sym. exact P.
Qed.

Lemma nf_body fuel J a : jp_nf fuel false J a =
  (do r1 <- p_nf fuel false (jp_find false J) a; do r2 <- p_nfTail fuel false (jp_find false J) (fst r1); p_pp false (fst r2)).
Proof. reflexivity. Qed.

Lemma nf_facts F J a fuel r : jp_history false t o n F J -> ring_input t o n a -> jp_nf fuel false J a = Ok r ->
  ring_input t o n r /\ rel n (basis J) (terms a) (terms r) /\ irreducible n (basis J) (terms r) /\ (terms r = [] \/ primitive (terms r)).
Proof.
  intros H Ra E. rewrite nf_body in E.
  exact (nf_all t o n (basis J) (basis_ok F J H) (c39_distinct t o n F J Hn Ho H) (jp_find false J) (find_full J (state_of F J H)) fuel a r Ra E).
Qed.
Lemma c82_nf F J a fuel r : jp_history false t o n F J -> ring_input t o n a -> jp_nf fuel false J a = Ok r ->
  ring_input t o n r /\ same_class n (basis J) (terms a) (terms r) /\ irreducible n (basis J) (terms r) /\ (terms r = [] \/ primitive (terms r)).
Proof.
  intros H Ra E. destruct (nf_facts F J a fuel r H Ra E) as (X1 & X2 & X3). split; [exact X1|]. split; [|exact X3].
  apply (rel_class t o n (basis J) (basis_ok F J H) (c39_distinct t o n F J Hn Ho H)). exact X2.
Qed.
Lemma c82_unique F J r s : jp_history false t o n F J -> ring_input t o n r -> ring_input t o n s ->
  irreducible n (basis J) (terms r) -> irreducible n (basis J) (terms s) ->
  (terms r = [] \/ primitive (terms r)) -> (terms s = [] \/ primitive (terms s)) -> same_class n (basis J) (terms r) (terms s) ->
  plus_minus (terms r) (terms s).
Proof.
  intros H Rr Rs Ir Is Pr Ps C. apply (unique t o n (basis J) (basis_ok F J H) (c39_distinct t o n F J Hn Ho H)); auto.
  apply (class_rel t o n (basis J) (basis_ok F J H) (c39_distinct t o n F J Hn Ho H)). exact C.
Qed.

Lemma rel_sym B a b : rel n B a b -> rel n B b a.
Proof.
  intros (k & l & q & Nk & Nl & Q & E). exists l, k, (scale (-1) q). split; [exact Nl|]. split; [exact Nk|]. split.
  - apply (rs_lin n B _ q [] _ (-1) 0 1); [lia|exact Q|apply rs_zero; reflexivity|]. intro m. rewrite coef_scale. cbn [coef]. lia.
  - intro m. rewrite coef_scale, E. ring.
Qed.
Lemma plus_minus_rel B r s : plus_minus r s -> rel n B r s.
Proof.
  intro P. destruct (plus_minus_coef r s P) as (e & [-> | ->] & E); [exists 1, 1, []|exists 1, (-1), []];
    (split; [lia|]; split; [lia|]; split; [apply rs_zero; reflexivity|]; intro m; rewrite E; cbn [coef]; lia).
Qed.
Lemma c82_class F J a b fuel fuel' r s : jp_history false t o n F J -> ring_input t o n a -> ring_input t o n b ->
  jp_nf fuel false J a = Ok r -> jp_nf fuel' false J b = Ok s ->
  (plus_minus (terms r) (terms s) <-> same_class n (basis J) (terms a) (terms b)).
Proof.
  intros H Ra Rb Ea Eb. assert (HB := basis_ok F J H). assert (ND := c39_distinct t o n F J Hn Ho H).
  destruct (nf_facts F J a fuel r H Ra Ea) as (A1 & A2 & A3 & A4). destruct (nf_facts F J b fuel' s H Rb Eb) as (B1 & B2 & B3 & B4). split.
  - intro P. apply (rel_class t o n _ HB ND). eapply rel_trans; [exact A2|]. eapply rel_trans; [apply plus_minus_rel; exact P|]. apply rel_sym. exact B2.
  - intro C. apply (unique t o n _ HB ND); auto. apply (class_rel t o n _ HB ND) in C. eapply rel_trans; [apply rel_sym; exact A2|]. eapply rel_trans; [exact C|exact B2].
Qed.
Lemma c82_zero F J a fuel r : jp_history false t o n F J -> ring_input t o n a -> jp_nf fuel false J a = Ok r ->
  (terms r = [] <-> exists k q, k <> 0 /\ inv_span n (basis J) q /\ forall m, coef q m = k * coef (terms a) m).
Proof.
  intros H Ra E. assert (HB := basis_ok F J H). assert (ND := c39_distinct t o n F J Hn Ho H).
  destruct (nf_facts F J a fuel r H Ra E) as (A1 & A2 & A3 & A4). split.
  - intro Z. rewrite Z in A2. destruct A2 as (k & l & q & Nk & Nl & Q & Eq).
    apply (rs_span t o n _ HB ND). apply (rs_lin n (basis J) _ q [] _ (-1) 0 k); [exact Nk|exact Q|apply rs_zero; reflexivity|].
    intro m. specialize (Eq m). cbn [coef] in *. lia.
  - intros (k & q & Nk & Q & Eq).
    assert (R0 : ring_input t o n (Poly t o n [])) by (split; [split; [constructor|split; constructor]|repeat split; constructor]).
    assert (P : plus_minus (terms r) (terms (Poly t o n []))).
    { apply (unique t o n _ HB ND); auto; [intros m c []|]. eapply rel_trans; [apply rel_sym; exact A2|].
      exists k, 1, (scale (-1) q). split; [exact Nk|]. split; [lia|]. split.
      - apply (rs_lin n (basis J) _ q [] _ (-1) 0 1); [lia|apply (span_rs t o n _ HB ND); exact Q|apply rs_zero; reflexivity|]. intro m. rewrite coef_scale. cbn [coef]. lia.
      - intro m. rewrite coef_scale, Eq. cbn [terms coef]. lia. }
    destruct P as [P|P]; exact P.
Qed.
Lemma c82_again F J a fuel fuel' r r' : jp_history false t o n F J -> ring_input t o n a ->
  jp_nf fuel false J a = Ok r -> jp_nf fuel' false J r = Ok r' -> r' = r.
Proof.
  intros H Ra E E'. destruct (nf_facts F J a fuel r H Ra E) as (A1 & A2 & A3 & A4). rewrite nf_body in E'.
  exact (nf_again t o n (basis J) (jp_find false J) (find_full J (state_of F J H)) fuel' r r' A1 A3 A4 E').
Qed.

(* ---- modulo the ideal ---- *)
Lemma rel_ideal F J a b : jp_history false t o n F J -> rel n (basis J) a b -> same_mod_ideal n F a b.
Proof.
  intros H R. apply (rel_class t o n _ (basis_ok F J H) (c39_distinct t o n F J Hn Ho H)) in R as (k & l & q & Nk & Nl & Q & E).
  exists k, l, q. split; [exact Nk|]. split; [exact Nl|]. split; [|exact E].
  clear E. induction Q as [p Z|p q u g c _ IH Ig Lu _ E]; [apply mem_zero; exact Z|].
  apply (mem_lin n (among F) q (shift u (terms g)) p 1 c); [exact IH|apply mem_shift; [exact Lu|apply (c39_members t o n F J g Hn Ho H Ig)]|].
  intro m. rewrite E. lia.
Qed.
Lemma smi_trans F a b c : same_mod_ideal n F a b -> same_mod_ideal n F b c -> same_mod_ideal n F a c.
Proof.
  intros (k & l & q & Nk & Nl & Q & E) (k' & l' & q' & Nk' & Nl' & Q' & E'). exists (k' * k), (l * l'), (scale k' q ++ scale l q').
  split; [nia|]. split; [nia|]. split.
  - apply (mem_lin n (among F) q q' _ k' l); [exact Q|exact Q'|]. intro m. now rewrite coef_app, !coef_scale.
  - intro m. rewrite coef_app, !coef_scale. transitivity (k' * (k * coef a m)); [ring|]. rewrite E.
    transitivity (l * (k' * coef b m) + k' * coef q m); [ring|]. rewrite E'. ring.
Qed.
Lemma smi_sym F a b : same_mod_ideal n F a b -> same_mod_ideal n F b a.
Proof.
  intros (k & l & q & Nk & Nl & Q & E). exists l, k, (scale (-1) q). split; [exact Nl|]. split; [exact Nk|]. split.
  - apply (mem_lin n (among F) q q _ (-1) 0); [exact Q|exact Q|]. intro m. rewrite coef_scale. lia.
  - intro m. rewrite coef_scale, E. ring.
Qed.
Lemma member_same F1 F2 p : same_ideal n F1 F2 -> rational_member n (among F1) p -> rational_member n (among F2) p.
Proof. intros [S _] M. eapply mem_trans; [|exact M]. intros g (f & If & <-). exact (S f If). Qed.
Lemma same_ideal_sym F1 F2 : same_ideal n F1 F2 -> same_ideal n F2 F1.
Proof. intros [S1 S2]. split; assumption. Qed.
Lemma smi_same F1 F2 a b : same_ideal n F1 F2 -> same_mod_ideal n F1 a b -> same_mod_ideal n F2 a b.
Proof. intros S (k & l & q & Nk & Nl & Q & E). exists k, l, q. do 2 (split; [assumption|]). split; [eapply member_same; eauto|exact E]. Qed.
Lemma c82_objects F1 J1 F2 J2 a b fuel fuel' r s :
  jp_history false t o n F1 J1 -> jp_history false t o n F2 J2 -> jq J1 = [] -> jq J2 = [] ->
  passes_local_test t o n J1 -> passes_local_test t o n J2 -> same_ideal n F1 F2 -> ring_input t o n a -> ring_input t o n b ->
  jp_nf fuel false J1 a = Ok r -> jp_nf fuel' false J2 b = Ok s ->
  (plus_minus (terms r) (terms s) <-> same_mod_ideal n F1 (terms a) (terms b)).
Proof.
  intros H1 H2 Q1 Q2 L1 L2 S Ra Rb Ea Eb.
  destruct (nf_facts F1 J1 a fuel r H1 Ra Ea) as (A1 & A2 & A3 & A4). destruct (nf_facts F2 J2 b fuel' s H2 Rb Eb) as (B1 & B2 & B3 & B4).
  assert (MA := rel_ideal F1 J1 _ _ H1 A2). assert (MB := smi_same F2 F1 _ _ (same_ideal_sym _ _ S) (rel_ideal F2 J2 _ _ H2 B2)). split.
  - intro P. eapply smi_trans; [exact MA|]. eapply smi_trans; [|apply smi_sym; exact MB].
    destruct (plus_minus_coef _ _ P) as (e & Ee & E). exists 1, e, []. split; [lia|]. split; [lia|]. split; [apply mem_zero; reflexivity|]. intro m. rewrite E. cbn [coef]. lia.
  - intro M. assert (X : same_mod_ideal n F1 (terms r) (terms s)) by (eapply smi_trans; [apply smi_sym; exact MA|]; eapply smi_trans; [exact M|exact MB]).
    destruct X as (k & l & q & Nk & Nl & Q & E). destruct (diff_exists t o n r s k l A1 B1) as (d & Cd & Ed & Id).
    assert (Zd : d = []).
    { destruct d as [|[m c] d']; [reflexivity|exfalso]. set (D := Poly t o n ((m, c) :: d')).
      assert (RD : ring_input t o n D).
      { split; [exact Cd|]. do 3 (split; [reflexivity|]). apply Forall_forall. intros [x y] Ix. cbn [fst]. apply (Id x y Ix). }
      assert (MD : rational_member n (among F1) (terms D)).
      { eapply (mem_ext n (among F1) q); [|exact Q]. intro x. cbn [terms D]. rewrite Ed, E. ring. }
      destruct (Id m c (or_introl eq_refl)) as (Pm & Mm & _ & [(c' & I')|(c' & I')]).
      - destruct (c46_leading t o n Hn Ho F1 J1 D H1 Q1 L1 RD ltac:(discriminate) MD) as (g & _ & J). exact (A3 m c' I' (lead g) J).
      - destruct (c46_leading t o n Hn Ho F2 J2 D H2 Q2 L2 RD ltac:(discriminate) (member_same _ _ _ S MD)) as (g & _ & J). exact (B3 m c' I' (lead g) J). }
    destruct A1 as (Vr & G1 & G2 & G3 & _), B1 as (Vs & K1 & K2 & K3 & _). unfold valid_poly in Vr, Vs. rewrite G1, G2, G3 in Vr. rewrite K1, K2, K3 in Vs.
    apply (proportional t o n _ _ k l); auto. intro m. specialize (Ed m). rewrite Zd in Ed. cbn [coef] in Ed. lia.
Qed.
Lemma same_ideal_refl F J : jp_history false t o n F J -> same_ideal n F F.
Proof.
  intro H. assert (X : Forall (ring_input t o n) F).
  { clear -H. induction H; [constructor|constructor; assumption|assumption|assumption]. }
  rewrite Forall_forall in X. split; intros f If; apply (mem_among t o n); auto.
Qed.
Lemma c82_ideal F J a b fuel fuel' r s : jp_history false t o n F J -> jq J = [] -> passes_local_test t o n J -> ring_input t o n a -> ring_input t o n b ->
  jp_nf fuel false J a = Ok r -> jp_nf fuel' false J b = Ok s -> (plus_minus (terms r) (terms s) <-> same_mod_ideal n F (terms a) (terms b)).
Proof. intros H Q L Ra Rb Ea Eb. apply (c82_objects F J F J a b fuel fuel' r s); auto. apply (same_ideal_refl F J H). Qed.
End T.
