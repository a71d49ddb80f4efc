(** Multiplicative multiples of the elements that algorithmTQ2 left in the tree. *)
From Coq Require Import ZArith List Bool Arith Lia Permutation.
From Verif Require Import Outcome MonomModel MonomSpec PolyModel PolySpec JanetModel JanetSpec JanetPolyModel TQModel JanetPolySpec
  IdealProofs JanetPolyProofs TQProofs JanetPolyTop MultipleProofs TQ2HPSpec TQ2HPProofs.
Import ListNotations.
Local Open Scope Z_scope.

Lemma tree_part_atts J : j2one J = None -> tree_part J = map snd (atts (j2t J)).
Proof. intro E. unfold tree_part, atts. rewrite E. induction (j2t J) as [|[e|d] l IH]; cbn [flat_map app map]; congruence. Qed.

Lemma nf_loop_same f g : (forall m, f m = g m) -> forall fuel k p, nf_loop fuel false f k p = nf_loop fuel false g k p.
Proof.
  intro E. induction fuel as [|fuel IH]; intros k p; cbn [nf_loop]; destruct (terms p) as [|[m c] l]; try reflexivity; rewrite E; destruct (g m) as [[a|]| | | |]; cbn [bind]; try reflexivity.
  destruct (p_reduction false p a); cbn [bind]; try reflexivity. apply IH.
Qed.
Lemma nft_loop_same f g : (forall m, f m = g m) -> forall fuel k p a b, nft_loop fuel false f k p a b = nft_loop fuel false g k p a b.
Proof.
  intro E. induction fuel as [|fuel IH]; intros k p a b; cbn [nft_loop]; destruct b as [|[m c] l]; try reflexivity. rewrite E. destruct (g m) as [[w|]| | | |]; cbn [bind]; try reflexivity; [|apply IH].
  destruct (red_tail false p a ((m, c) :: l) w) as [[x y]| | | |]; cbn [bind]; try reflexivity. apply IH.
Qed.
Lemma nf_same J K : (forall m, jp2_find false J m = jp_find false K m) -> forall fuel a, jp2_nf fuel false J a = jp_nf fuel false K a.
Proof.
  intros E fuel a. unfold jp2_nf, jp_nf, assert_. cbn [andb]. unfold p_nf. rewrite (nf_loop_same _ _ E). destruct (nf_loop fuel false (jp_find false K) 0 a) as [[b k]| | | |]; cbn [bind fst]; try reflexivity.
  unfold p_nfTail. destruct (terms b) as [|x l]; [reflexivity|]. rewrite (nft_loop_same _ _ E). reflexivity.
Qed.

Section S.
Variables (t : pos_order) (o : base_order) (n : nat).
Hypothesis Hn : (0 < n)%nat.
Hypothesis Ho : o <> OAlex.

Lemma tq2_state F J fuel J2 : jp_history false t o n F J -> jp_tq2 fuel false J = Ok J2 -> jstate2 t o n (among F) J2.
Proof.
  intros H E. destruct (history_state t o n F J Hn Ho H) as (S0 & _).
  assert (X := tq2_ok t o n (among F) Hn Ho fuel J S0). rewrite E in X. cbn [safe] in X. exact (proj1 X).
Qed.

Lemma tq2_stateA F J fuel J2 : jp_history false t o n F J -> jp_tq2 fuel false J = Ok J2 -> jstate2 t o n (fun _ => True) J2.
Proof.
  intros H E. destruct (history_state t o n F J Hn Ho H) as (S0 & _).
  assert (S1 : jstate t o n (fun _ => True) J) by (eapply jstate_G; [|exact S0]; intros; exact Logic.I).
  assert (X := tq2_ok t o n _ Hn Ho fuel J S1). rewrite E in X. cbn [safe] in X. exact (proj1 X).
Qed.

(** The object whose elements are those in the tree: same answers of find and nf. *)
Lemma tree_object G J2 : jstate2 t o n G J2 ->
  exists K, jstate t o n G K /\ basis K = tree_part J2 /\ (jone K = None <-> j2one J2 = None) /\
    (forall m, jp2_find false J2 m = jp_find false K m).
Proof.
  intros S. destruct (j2one J2) as [w|] eqn:Eo; unfold jstate2 in S; rewrite Eo in S; [|destruct S as [(E1 & E2)|(Ja & E1 & E2 & Ti & _)]].
  - exists (JP (Some w) [] [] (-2) None). split; [unfold jstate; cbn [jone jtrees jpos jt jq]; auto|]. split; [unfold tree_part; rewrite Eo; reflexivity|].
    split; [cbn [jone]; tauto|]. intro m. unfold jp2_find. rewrite Eo. reflexivity.
  - exists jp_empty. split; [unfold jstate; cbn [jp_empty jone jtrees jpos jt jq]; split; [constructor|left; auto]|].
    split; [rewrite tree_part_atts, E2 by exact Eo; reflexivity|]. split; [cbn [jp_empty jone]; tauto|].
    intro m. unfold jp2_find, jp_find. rewrite Eo, E1, E2. reflexivity.
  - exists (JP None [] (atts (j2t J2)) (-1) (Some [Ja])).
    split; [unfold jstate; cbn [jone jtrees jpos jt jq]; split; [constructor|right; exists Ja; auto]|].
    split; [rewrite tree_part_atts by exact Eo; reflexivity|]. split; [cbn [jone]; tauto|].
    intro m. unfold jp2_find, jp_find. rewrite Eo, E1, E2. reflexivity.
Qed.

Theorem tq2_leads F J fuel J2 : jp_history false t o n F J -> jp_tq2 fuel false J = Ok J2 -> NoDup (map lead (tree_part J2)).
Proof.
  intros H E. destruct (tree_object _ J2 (tq2_state F J fuel J2 H E)) as (K & S & B & _). rewrite <- B. eapply jstate_distinct. exact S.
Qed.

Theorem tq2_nf F J fuel J2 a : jp_history false t o n F J -> jp_tq2 fuel false J = Ok J2 -> ring_input t o n a ->
  exists N r, (forall fuel, (N <= fuel)%nat -> jp2_nf fuel false J2 a = Ok r) /\ ring_input t o n r /\
    reduces_to n (among (tree_part J2)) (terms a) (terms r) /\
    (forall m c, In (m, c) (terms r) -> forall u, ~ janet_divides n (map lead (tree_part J2)) u (vars m)) /\
    (j2one J2 <> None -> terms r = []).
Proof.
  intros H E Ra. set (A := fun _ : list term => True).
  assert (S2 := tq2_state F J fuel J2 H E). destruct (tree_object _ J2 S2) as (K & S & B & Q & Fi).
  assert (SA : jstate t o n A K) by (eapply jstate_G; [|exact S]; intros; exact Logic.I).
  assert (Ga : goodz t o n A a) by (apply ring_input_goodz; [exact Ra|apply mem_gen; [exact Logic.I|eapply ring_input_monos; exact Ra]]).
  destruct (jp_nf_ok t o n A Hn Ho K a SA Ga) as (N & r & En & Gr & C & D). exists N, r.
  split; [intros f Hf; rewrite (nf_same _ _ Fi); apply En; exact Hf|].
  split; [eapply goodz_ring_input; exact Gr|]. rewrite <- B. split; [exact C|]. destruct (jone K) as [w|] eqn:Eo.
  - rewrite D. split; [intros m c []|reflexivity].
  - split; [|intro X; exfalso; apply X, Q; reflexivity].
    intros m c I. rewrite <- (jstate_leads t o n A K SA Eo). apply D. apply in_map_iff. exists (m, c). auto.
Qed.

Lemma tree_part_basis J2 g : In g (tree_part J2) -> In g (basis2 J2).
Proof.
  unfold tree_part, basis2. destruct (j2one J2); [auto|]. intro I. apply in_flat_map in I as (x & Ix & Ig). destruct x as [e|w]; [|destruct Ig].
  destruct Ig as [<-|[]]. apply in_map_iff. exists (Att e). auto.
Qed.

Theorem tq2_zero F J fuel J2 a : jp_history false t o n F J -> jp_tq2 fuel false J = Ok J2 -> ring_input t o n a ->
  exists N r, (forall fuel, (N <= fuel)%nat -> jp2_nf fuel false J2 a = Ok r) /\ (terms r = [] -> rational_member n (among F) (terms a)).
Proof.
  intros H E Ra. destruct (tq2_nf F J fuel J2 a H E Ra) as (N & r & En & _ & C & _). exists N, r. split; [exact En|]. intro Z.
  apply (mem_trans n (among (tree_part J2))).
  - intros g (b & Ib & <-). apply (proj1 (c53_tq2 t o n F J fuel J2 Hn Ho H E)). apply tree_part_basis. exact Ib.
  - destruct C as (k & l & q & K & L & Cq & Eq). rewrite Z in Eq. cbn [coef] in Eq. exists (- k), q. split; [lia|]. split; [exact Cq|].
    intro m. specialize (Eq m). lia.
Qed.

Theorem tq2_multiples F J fuel J2 g u x : jp_history false t o n F J -> jp_tq2 fuel false J = Ok J2 -> In g (tree_part J2) ->
  length u = n -> (forall i, (i < n)%nat -> (0 < expo u i)%nat -> ~ janet_nm (map lead (tree_part J2)) (lead g) i) ->
  ring_input t o n x -> (forall m, coef (terms x) m = coef (shift u (terms g)) m) ->
  exists N r, (forall fuel, (N <= fuel)%nat -> jp2_nf fuel false J2 x = Ok r) /\ terms r = [].
Proof.
  intros H E Ig Lu Mu Rx Ex. destruct (j2one J2) as [w|] eqn:Eo.
  - destruct (tq2_nf F J fuel J2 x H E Rx) as (N & r & En & _ & _ & _ & Z). exists N, r. split; [exact En|]. apply Z. congruence.
  - destruct (tree_object _ J2 (tq2_state F J fuel J2 H E)) as (K & S & B & Q & Fi). rewrite <- B in *.
    destruct (multiples_state t o n K g u x Hn) as (r & X & Y); try assumption; [eapply jstate_G; [|exact S]; auto|apply Q; exact Eo|].
    exists 1%nat, r. split; [|exact Y]. intros f Hf. rewrite (nf_same _ _ Fi). apply X. exact Hf.
Qed.

(** All elements in the tree. *)
Lemma all_tree_part J2 : all_in_trees J2 -> tree_part J2 = basis2 J2.
Proof.
  intro A. unfold tree_part, basis2. destruct (j2one J2); [reflexivity|]. rewrite (all_atts _ A). induction (atts (j2t J2)) as [|e l IH]; [reflexivity|]. cbn [map flat_map app item_poly]. f_equal. exact IH.
Qed.
End S.
