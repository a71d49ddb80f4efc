(** The properties of JanetPolyInt for all histories of an object. *)
From Coq Require Import ZArith List Bool Arith Lia Permutation Sorted.
From Verif Require Import Outcome MonomModel MonomSpec MonomProofs PolyModel PolySpec PolyProofs PolyRedProofs PolyNfProofs
  PolyTopProofs JanetModel JanetSpec JanetProofs JanetFindProofs JanetPolyModel JanetPolySpec IdealProofs JanetPolyProofs TQModel TQProofs.
Import ListNotations.
Local Open Scope Z_scope.

Lemma goodz_G t o n (G G' : list term -> Prop) p : (forall g, G g -> G' g) -> goodz t o n G p -> goodz t o n G' p.
Proof. intros I (A & B & C & D). split; [exact A|]. split; [exact B|]. split; [exact C|]. eapply mem_mono; eassumption. Qed.
Lemma good_G t o n (G G' : list term -> Prop) p : (forall g, G g -> G' g) -> good t o n G p -> good t o n G' p.
Proof. intros I [A B]. split; [eapply goodz_G; eassumption|exact B]. Qed.
Lemma jstate_G t o n (G G' : list term -> Prop) J : (forall g, G g -> G' g) -> jstate t o n G J -> jstate t o n G' J.
Proof.
  intros I. unfold jstate. destruct (jone J) as [w|].
  - intros ([A B] & C). split; [|exact C]. split; [eapply goodz_G; eassumption|exact B].
  - intros [Q D]. split.
    + eapply Forall_impl; [|exact Q]. intros u (A & B). split; [eapply good_G; eassumption|exact B].
    + destruct D as [D|(Ja & A & B & [T1 T2 T3 T4 T5])]; [left; exact D|right]. exists Ja. split; [exact A|]. split; [exact B|].
      split; try assumption. eapply Forall_impl; [|exact T5]. intros e [X Y]. split; [eapply good_G; eassumption|exact Y].
Qed.

Lemma ring_input_goodz t o n (G : list term -> Prop) p : ring_input t o n p -> rational_member n G (terms p) -> goodz t o n G p.
Proof. intros (V & A & B & C & R) M. split; [exact V|]. split; [split; [exact A|split; [exact B|exact C]]|]. split; assumption. Qed.
Lemma goodz_ring_input t o n (G : list term -> Prop) p : goodz t o n G p -> ring_input t o n p.
Proof. intros (V & (A & B & C) & R & M). split; [exact V|]. split; [exact A|]. split; [exact B|]. split; assumption. Qed.
Lemma ring_input_monos t o n p : ring_input t o n p -> monos n (terms p).
Proof. intros (V & A & _). apply canonical_iff in V as (_ & M & _). rewrite A in M. exact M. Qed.

Lemma mem_among t o n F p : ring_input t o n p -> In p F -> rational_member n (among F) (terms p).
Proof. intros R I. apply mem_gen; [exists p; auto|eapply ring_input_monos; exact R]. Qed.

(** The invariant along a history; nothing pushed is lost. *)
Lemma history_state t o n F J : (0 < n)%nat -> o <> OAlex -> jp_history false t o n F J ->
  jstate t o n (among F) J /\ Forall (ring_input t o n) F /\
  forall K, memJ n K J -> Forall (fun f => rational_member n K (terms f)) F.
Proof.
  intros Hn Ho. induction 1 as [|F J a J' _ (IH1 & IH2 & IH3) Ra E|F J fuel J' _ (IH1 & IH2 & IH3) E|F J one fuel J' _ (IH1 & IH2 & IH3) E].
  - split; [|split; constructor]. cbn [jstate jone jq jp_empty jtrees jpos jt]. split; [constructor|left; auto].
  - assert (IJ : jstate t o n (among (a :: F)) J) by (eapply jstate_G; [|exact IH1]; intros g (f & If & Ef); exists f; split; [right; exact If|exact Ef]).
    assert (Ga : goodz t o n (among (a :: F)) a) by (apply ring_input_goodz; [exact Ra|eapply mem_among; [exact Ra|left; reflexivity]]).
    destruct (push_ok t o n (among (a :: F)) Hn J a IJ Ga) as (J2 & E2 & S2 & B2). rewrite E in E2. injection E2 as <-.
    split; [exact S2|]. split; [constructor; assumption|]. intros K M. destruct (B2 K M) as [M1 M2]. constructor; [exact M2|apply IH3; exact M1].
  - assert (X := build_ok t o n (among F) Hn Ho fuel J IH1). rewrite E in X. cbn [safe] in X. destruct X as (A & B & C).
    split; [exact A|]. split; [exact IH2|]. intros K M. apply IH3. apply C. exact M.
  - assert (X := tq_ok t o n (among F) Hn Ho one fuel J IH1). rewrite E in X. cbn [safe] in X. destruct X as (A & B & C).
    split; [exact A|]. split; [exact IH2|]. intros K M. apply IH3. apply C. exact M.
Qed.

Lemma jstate_basis t o n G J g : jstate t o n G J -> In g (basis J) -> good t o n G g.
Proof.
  unfold jstate, basis. destruct (jone J) as [w|].
  - intros ([A B] & _) [<-|[]]. split; [exact A|]. rewrite B. discriminate.
  - intros [_ [(_ & _ & ->)|(Ja & _ & _ & T)]] I; [destruct I|]. apply in_map_iff in I as (e & <- & Ie).
    assert (X := ti_good _ _ _ _ _ _ T). rewrite Forall_forall in X. apply (X e Ie).
Qed.

Lemma c39_members t o n F J g : (0 < n)%nat -> o <> OAlex -> jp_history false t o n F J -> In g (basis J) ->
  ring_input t o n g /\ terms g <> [] /\ rational_member n (among F) (terms g).
Proof.
  intros Hn Ho H I. destruct (history_state t o n F J Hn Ho H) as (S & _). destruct (jstate_basis _ _ _ _ _ _ S I) as [A B].
  split; [eapply goodz_ring_input; exact A|]. split; [exact B|apply A].
Qed.

Lemma c39_safe t o n F J : (0 < n)%nat -> o <> OAlex -> jp_history false t o n F J ->
  (forall a, ring_input t o n a -> exists J', jp_push false J a = Ok J') /\
  (forall fuel, (exists J', jp_build fuel false J = Ok J') \/ jp_build fuel false J = OutOfFuel) /\
  (forall one fuel, (exists J', jp_tq one fuel false J = Ok J') \/ jp_tq one fuel false J = OutOfFuel) /\
  (forall fuel, (exists J', jp_tq2 fuel false J = Ok J') \/ jp_tq2 fuel false J = OutOfFuel).
Proof.
  intros Hn Ho H. destruct (history_state t o n F J Hn Ho H) as (S & _). split; [|split; [|split]].
  - intros a Ra. assert (IJ : jstate t o n (among (a :: F)) J) by (eapply jstate_G; [|exact S]; intros g (f & If & Ef); exists f; split; [right; exact If|exact Ef]).
    assert (Ga : goodz t o n (among (a :: F)) a) by (apply ring_input_goodz; [exact Ra|eapply mem_among; [exact Ra|left; reflexivity]]).
    destruct (push_ok t o n (among (a :: F)) Hn J a IJ Ga) as (J2 & E2 & _). exists J2. exact E2.
  - intro fuel. assert (X := build_ok t o n (among F) Hn Ho fuel J S). destruct (jp_build fuel false J) as [J'| | | |]; cbn [safe] in X; try tauto. left. exists J'. reflexivity.
  - intros one fuel. assert (X := tq_ok t o n (among F) Hn Ho one fuel J S). destruct (jp_tq one fuel false J) as [J'| | | |]; cbn [safe] in X; try tauto. left. exists J'. reflexivity.
  - intro fuel. assert (X := tq2_ok t o n (among F) Hn Ho fuel J S). destruct (jp_tq2 fuel false J) as [J'| | | |]; cbn [safe] in X; try tauto. left. exists J'. reflexivity.
Qed.

(** An object whose mQ is empty generates with its basis everything that was pushed. *)
Lemma done_same_ideal t o n F J f : (0 < n)%nat -> o <> OAlex -> jp_history false t o n F J -> jq J = [] ->
  In f F -> rational_member n (among (basis J)) (terms f).
Proof.
  intros Hn Ho H Q I. destruct (history_state t o n F J Hn Ho H) as (S & _ & B).
  assert (Y : memJ n (among (basis J)) J).
  { unfold memJ. destruct (jone J) as [w|] eqn:Eo.
    - unfold memK. apply (mem_among t o n); [|unfold basis; rewrite Eo; left; reflexivity].
      eapply goodz_ring_input. apply (jstate_basis t o n (among F) J); [exact S|unfold basis; rewrite Eo; left; reflexivity].
    - rewrite Q. split; [|constructor]. apply Forall_forall. intros e Ie. unfold memK.
      assert (Ib : In (snd e) (basis J)) by (unfold basis; rewrite Eo; apply in_map; exact Ie).
      apply (mem_among t o n); [|exact Ib]. eapply goodz_ring_input. apply (jstate_basis t o n (among F) J); [exact S|exact Ib]. }
  assert (Z := B _ Y). rewrite Forall_forall in Z. exact (Z f I).
Qed.
Lemma c48_same_ideal t o n F J fuel J' f : (0 < n)%nat -> o <> OAlex -> jp_history false t o n F J -> jp_build fuel false J = Ok J' ->
  In f F -> rational_member n (among (basis J')) (terms f).
Proof.
  intros Hn Ho H E I. destruct (history_state t o n F J Hn Ho H) as (S0 & _).
  assert (X := build_ok t o n (among F) Hn Ho fuel J S0). rewrite E in X. cbn [safe] in X. destruct X as (_ & Q & _).
  eapply done_same_ideal; [exact Hn|exact Ho|exact (hist_build _ _ _ _ _ _ _ _ H E)|exact Q|exact I].
Qed.

(** algorithmTQ and algorithmTQ1 *)
Lemma c53_tq t o n F J one fuel J' : (0 < n)%nat -> o <> OAlex -> jp_history false t o n F J -> jp_tq one fuel false J = Ok J' ->
  jq J' = [] /\ (forall g, In g (basis J') -> ring_input t o n g /\ terms g <> [] /\ rational_member n (among F) (terms g)) /\
  (forall f, In f F -> rational_member n (among (basis J')) (terms f)).
Proof.
  intros Hn Ho H E. destruct (history_state t o n F J Hn Ho H) as (S0 & _).
  assert (X := tq_ok t o n (among F) Hn Ho one fuel J S0). rewrite E in X. cbn [safe] in X. destruct X as (_ & Q & _).
  assert (H' := hist_tq _ _ _ _ _ _ _ _ _ H E). split; [exact Q|]. split.
  - intros g. apply (c39_members t o n F J' g Hn Ho H').
  - intros f. apply (done_same_ideal t o n F J' f Hn Ho H' Q).
Qed.
(** algorithmTQ2 *)
Lemma c53_tq2 t o n F J fuel J' : (0 < n)%nat -> o <> OAlex -> jp_history false t o n F J -> jp_tq2 fuel false J = Ok J' ->
  (forall g, In g (basis2 J') -> ring_input t o n g /\ terms g <> [] /\ rational_member n (among F) (terms g)) /\
  (forall f, In f F -> rational_member n (among (basis2 J')) (terms f)).
Proof.
  intros Hn Ho H E. destruct (history_state t o n F J Hn Ho H) as (S0 & _ & B).
  assert (X := tq2_ok t o n (among F) Hn Ho fuel J S0). rewrite E in X. cbn [safe] in X. destruct X as (S & C).
  assert (Gb : forall g, In g (basis2 J') -> good t o n (among F) g).
  { intros g Ig. unfold basis2 in Ig. unfold jstate2 in S. destruct (j2one J') as [w|].
    - destruct Ig as [<-|[]]. destruct S as [Gw Ew]. split; [exact Gw|]. rewrite Ew. discriminate.
    - apply in_map_iff in Ig as (x & <- & Ix). destruct S as [(_ & S)|(Ja & _ & _ & Ti & Oi)]; [rewrite S in Ix; destruct Ix|].
      destruct x as [e|w]; [|rewrite Forall_forall in Oi; apply (Oi _ Ix)].
      assert (Gg := ti_good _ _ _ _ _ _ Ti). rewrite Forall_forall in Gg. apply (Gg e). unfold atts. apply in_flat_map.
      exists (Att e). split; [exact Ix|left; reflexivity]. }
  split.
  - intros g Ig. destruct (Gb g Ig) as [A N]. split; [eapply goodz_ring_input; exact A|]. split; [exact N|apply A].
  - intros f If. assert (Y : memJ2 n (among (basis2 J')) J').
    { assert (M : forall g, In g (basis2 J') -> memK n (among (basis2 J')) g).
      { intros g Ig. apply (mem_among t o n); [eapply goodz_ring_input; apply (Gb g Ig)|exact Ig]. }
      unfold memJ2. unfold basis2 in M at 1. destruct (j2one J') as [w|]; [apply M; left; reflexivity|].
      apply Forall_forall. intros x Ix. apply M. apply in_map. exact Ix. }
    assert (Z := B _ (C _ Y)). rewrite Forall_forall in Z. exact (Z f If).
Qed.

Lemma tinv_leads t o n G Ja T : tinv t o n G Ja T -> map lead (map snd T) = map vars (map fst T).
Proof.
  intros H. assert (X := ti_good _ _ _ _ _ _ H). clear H. induction X as [|e T [_ (c & l & E)] _ IH]; [reflexivity|]. cbn [map]. f_equal; [|exact IH].
  unfold lead. now rewrite E.
Qed.

Lemma c39_distinct t o n F J : (0 < n)%nat -> o <> OAlex -> jp_history false t o n F J -> NoDup (map lead (basis J)).
Proof.
  intros Hn Ho H. destruct (history_state t o n F J Hn Ho H) as (S & _). unfold jstate, basis in *. destruct (jone J) as [w|].
  - cbn. repeat constructor. intros [].
  - destruct S as [_ [(_ & _ & ->)|(Ja & _ & _ & T)]]; [constructor|]. rewrite (tinv_leads _ _ _ _ _ _ T).
    assert (P := Permutation_map vars (ti_perm _ _ _ _ _ _ T)). rewrite map_map in P. eapply Permutation_NoDup; [exact P|].
    apply (ji_nd _ _ (ti_inv _ _ _ _ _ _ T)).
Qed.

Lemma jstate_leads t o n G J : jstate t o n G J -> jone J = None -> map vars (map fst (jt J)) = map lead (basis J).
Proof.
  unfold jstate, basis. intros S E. rewrite E in *. destruct S as [_ [(_ & _ & ->)|(Ja & _ & _ & T)]]; [reflexivity|].
  symmetry. eapply tinv_leads; exact T.
Qed.

Lemma c40_nf t o n F J a : (0 < n)%nat -> o <> OAlex -> jp_history false t o n F J -> ring_input t o n a ->
  exists N r, (forall fuel, (N <= fuel)%nat -> jp_nf fuel false J a = Ok r) /\ ring_input t o n r /\
    reduces_to n (among (basis J)) (terms a) (terms r) /\
    (forall m c, In (m, c) (terms r) -> forall u, ~ janet_divides n (map lead (basis J)) u (vars m)).
Proof.
  intros Hn Ho H Ra. destruct (history_state t o n F J Hn Ho H) as (S & _).
  set (A := fun _ : list term => True).
  assert (SA : jstate t o n A J) by (eapply jstate_G; [|exact S]; intros; exact Logic.I).
  assert (Ga : goodz t o n A a) by (apply ring_input_goodz; [exact Ra|apply mem_gen; [exact Logic.I|eapply ring_input_monos; exact Ra]]).
  destruct (jp_nf_ok t o n A Hn Ho J a SA Ga) as (N & r & E & Gr & C & D). exists N, r. split; [exact E|].
  split; [eapply goodz_ring_input; exact Gr|]. split; [exact C|]. destruct (jone J) as [w|] eqn:Eo.
  - rewrite D. intros m c [].
  - intros m c I. rewrite <- (jstate_leads t o n A J SA Eo). apply D. apply in_map_iff. exists (m, c). auto.
Qed.

(** When isOne() is true every normal form is 0. *)
Lemma c40_one t o n F J a : (0 < n)%nat -> o <> OAlex -> jp_history false t o n F J -> ring_input t o n a -> jone J <> None ->
  exists N r, (forall fuel, (N <= fuel)%nat -> jp_nf fuel false J a = Ok r) /\ terms r = [].
Proof.
  intros Hn Ho H Ra No. destruct (history_state t o n F J Hn Ho H) as (S & _).
  set (A := fun _ : list term => True).
  assert (SA : jstate t o n A J) by (eapply jstate_G; [|exact S]; intros; exact Logic.I).
  assert (Ga : goodz t o n A a) by (apply ring_input_goodz; [exact Ra|apply mem_gen; [exact Logic.I|eapply ring_input_monos; exact Ra]]).
  destruct (jp_nf_ok t o n A Hn Ho J a SA Ga) as (N & r & E & Gr & C & D). exists N, r. split; [exact E|].
  destruct (jone J); [exact D|congruence].
Qed.

(** A polynomial whose normal form is 0 lies in the ideal of the pushed polynomials. *)
Lemma c40_zero t o n F J a : (0 < n)%nat -> o <> OAlex -> jp_history false t o n F J -> ring_input t o n a ->
  exists N r, (forall fuel, (N <= fuel)%nat -> jp_nf fuel false J a = Ok r) /\
    (terms r = [] -> rational_member n (among F) (terms a)).
Proof.
  intros Hn Ho H Ra. destruct (c40_nf t o n F J a Hn Ho H Ra) as (N & r & E & _ & C & _). exists N, r. split; [exact E|]. intro Z.
  apply (mem_trans n (among (basis J))).
  - intros g (b & Ib & <-). apply (c39_members t o n F J b Hn Ho H Ib).
  - destruct C as (k & l & q & K & L & Cq & Eq). rewrite Z in Eq. cbn [coef] in Eq. exists (- k), q. split; [lia|]. split; [exact Cq|].
    intro m. specialize (Eq m). lia.
Qed.

Lemma c47_sound t o n F J : (0 < n)%nat -> o <> OAlex -> jp_history false t o n F J -> jone J <> None -> rational_member n (among F) (one n).
Proof.
  intros Hn Ho H No. destruct (history_state t o n F J Hn Ho H) as (S & _). unfold jstate in S. destruct (jone J) as [w|]; [|congruence].
  destruct S as ([(_ & _ & _ & M) E] & _). rewrite E in M. exact M.
Qed.
