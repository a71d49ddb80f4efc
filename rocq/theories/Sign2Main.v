(** algorithmTQ2 on systems that differ by signs. *)
From Coq Require Import ZArith List Bool Arith Lia.
From Verif Require Import Outcome MonomModel MonomSpec MonomProofs PolyModel PolySpec JanetModel JanetPolyModel TQModel JanetPolySpec SignSpec SignProofs SignMain.
Import ListNotations.
Local Open Scope Z_scope.

Section Loops.
Variable (s : nat -> bool) (n : nat) (dbg : bool).
Notation prel := (SignProofs.prel s n).
Notation fndrel := (SignProofs.fndrel s n).
Notation wrel := (SignMain.wrel s n).
Notation erel := (SignMain.erel s n).
Notation L := (Forall2 wrel).
Notation T := (Forall2 erel).
Ltac same H := rewrite H; eapply al_bind; [apply (al_refl eqr); reflexivity|]; intros ? ? ->.

Definition irel (x y : titem) : Prop := match x, y with Att e, Att e' => erel e e' | Det w, Det w' => wrel w w' | _, _ => False end.
Notation I := (Forall2 irel).
Lemma irel_poly x y : irel x y -> prel (item_poly x) (item_poly y).
Proof. destruct x, y; cbn; try contradiction; intros [_ H]; exact H. Qed.
Lemma irel_lm x y : irel x y -> item_lm y = item_lm x.
Proof. destruct x, y; cbn; try contradiction; intros [E _]; congruence. Qed.
Lemma atts_al l l' : I l l' -> T (atts l) (atts l').
Proof.
  induction 1 as [|x y l l' H Hl IH]; [constructor|]. destruct x, y; try contradiction; cbn; [constructor; assumption|exact IH].
Qed.
Lemma map_att_al l l' : T l l' -> I (map Att l) (map Att l').
Proof. induction 1; constructor; assumption. Qed.

Lemma prolong_det_al mpos js cnt : forall k w p p' q q', prel p p' -> L q q' ->
  alike (pairrel eqr L) (prolong_det dbg mpos cnt k js w p q) (prolong_det dbg mpos cnt k js w p' q').
Proof.
  induction cnt as [|cnt IH]; intros k w p p' q q' Hp Hq; cbn [prolong_det]; [split; [reflexivity|exact Hq]|].
  eapply al_bind; [apply (al_refl eqr); reflexivity|]. intros nm ? ->.
  eapply al_bind; [apply (al_refl eqr); reflexivity|]. intros bl ? ->.
  destruct (nm && negb bl); [|apply IH; assumption].
  eapply al_bind; [apply (al_refl eqr); reflexivity|]. intros d ? ->.
  destruct (match d with Some _ => _ | None => _ end).
  - eapply al_bind; [apply (al_refl eqr); reflexivity|]. intros w' ? ->. apply IH; assumption.
  - eapply al_bind; [apply (al_refl eqr); reflexivity|]. intros [v w'] ? ->.
    ab pv pv' Hpv; [apply mul_var_al, Hp|]. ab r r' Hr; [apply insert_al; [exact Hq|split; [reflexivity|exact Hpv]]|].
    apply IH; assumption.
Qed.
Lemma item_step_al fuel mpos dg js q q' o o' x y : L q q' -> T o o' -> irel x y ->
  alike (pairrel (pairrel eqr L) irel) (item_step fuel dbg mpos dg js q o x) (item_step fuel dbg mpos dg js q' o' y).
Proof.
  intros Hq Ho H. destruct x as [e|w], y as [e'|w']; try contradiction; cbn [irel] in H; cbn [item_step].
  - ab x x' Hx; [eapply tail_reduce_al; [exact Ho|exact H]|]. ab r r' Hr; [apply prolong_if_al; [exact Hx|exact Hq]|]. destruct Hr as [E Hr].
    split; [split; [exact E|exact Hr]|exact Hx].
  - destruct H as [E Hp]. ab p p' Hpp; [apply tail_pp_al; [apply find_poly_al, Ho|exact Hp]|]. rewrite E.
    destruct (deg (wlm (wwrap w)) <=? dg)%nat.
    + ab r r' Hr; [apply prolong_det_al; [exact Hpp|exact Hq]|]. destruct Hr as [Er Hr]. split; [split; [reflexivity|exact Hr]|]. split; [exact Er|exact Hpp].
    + split; [split; [reflexivity|exact Hq]|]. split; [reflexivity|exact Hpp].
Qed.
Definition m2rel (x y : list janet * list wpoly * list titem) : Prop := pairrel (pairrel eqr L) I x y.
Lemma walk2_al cnt fuel mpos dg : forall js q q' d d' w w' k k', L q q' -> I d d' -> optrel erel w w' -> I k k' ->
  alike m2rel (walk2 cnt fuel dbg mpos dg js q d w k) (walk2 cnt fuel dbg mpos dg js q' d' w' k').
Proof.
  induction cnt as [|cnt IH]; intros js q q' d d' w w' k k' Hq Hd Hw Hk; cbn [walk2].
  - destruct w, w'; try contradiction; destruct Hk; try exact Logic.I. split; [split; [reflexivity|exact Hq]|exact Hd].
  - cbv zeta. assert (Redu : forall x x' w1 w1' k1 k1', irel x x' -> optrel erel w1 w1' -> I k1 k1' ->
      alike m2rel
        (do r <- item_step fuel dbg mpos dg js q (atts d ++ match w1 with Some e => [e] | None => [] end ++ atts k1) x;
         let '(js', q', x') := r in walk2 cnt fuel dbg mpos dg js' q' (d ++ [x']) w1 k1)
        (do r <- item_step fuel dbg mpos dg js q' (atts d' ++ match w1' with Some e => [e] | None => [] end ++ atts k1') x';
         let '(js', q', x') := r in walk2 cnt fuel dbg mpos dg js' q' (d' ++ [x']) w1' k1')).
    { intros x x' w1 w1' k1 k1' He H1 H2.
      ab r r' Hr; [apply item_step_al; [exact Hq|apply Forall2_app; [apply atts_al; exact Hd|]; apply Forall2_app; [|apply atts_al; exact H2]|exact He]|].
      { destruct w1, w1'; try contradiction; [constructor; [exact H1|constructor]|constructor]. }
      destruct r as [[js1 q1] x1], r' as [[js1' q1'] x1']. destruct Hr as [[E Hr] Hx]. cbn in E, Hr, Hx. unfold eqr in E. subst js1'.
      apply IH; try assumption. apply Forall2_app; [exact Hd|constructor; [exact Hx|constructor]]. }
    destruct w as [e|], w' as [e'|]; try contradiction; destruct Hk as [|f f' k k' Hf Hk].
    + apply (Redu (Att e) (Att e') None None [] []); [exact Hw|exact Logic.I|constructor].
    + cbn in Hw. same (prel_cmp s n dbg (snd e) (snd e') (item_poly f) (item_poly f') (proj2 Hw) (irel_poly _ _ Hf)). destruct (a <? 0).
      * apply (Redu (Att e) (Att e') None None (f :: k) (f' :: k')); [assumption|exact Logic.I|constructor; assumption].
      * apply (Redu f f' (Some e) (Some e') k k'); assumption.
    + split; [split; [reflexivity|exact Hq]|exact Hd].
    + apply (Redu f f' None None k k'); [exact Hf|exact Logic.I|exact Hk].
Qed.
Lemma back_al js t : forall t' q q', I t t' -> L q q' -> alike L (back js t q) (back js t' q').
Proof.
  induction t as [|x t IH]; intros t' q q' H Hq; destruct t' as [|y t']; inversion H as [|? ? ? ? Hx Hl]; subst; cbn [back]; [exact Hq|].
  ab u u' Hu; [instantiate (1 := wrel)|apply IH; [exact Hl|constructor; assumption]].
  destruct x as [e|w], y as [e'|w']; try contradiction; destruct Hx as [E Hx]; cbn [back_item]; rewrite E; [destruct (get_wrap js (fst e)); [|exact Logic.I]|]; split; cbn; auto.
Qed.
Lemma assertT2_al mpos js t t' : I t t' -> alike eqr (assertT2 dbg mpos js t) (assertT2 dbg mpos js t').
Proof.
  intro H. unfold assertT2. assert (X : T (map (fun x => (item_lm x, item_poly x)) t) (map (fun x => (item_lm x, item_poly x)) t')).
  { clear - H. induction H as [|x y t t' Hx H IH]; [constructor|]. cbn. constructor; [split; [apply irel_lm|apply irel_poly]; exact Hx|exact IH]. }
  assert (F := find_poly_al s n dbg mpos (Some js) _ _ (atts_al _ _ H)).
  inversion X as [|[k u] [k' v] l l' Huv Hl]; [reflexivity|]. apply (assert_t_al s n); [exact F|apply Huv|exact Hl].
Qed.
Definition j2rel (J K : jpoly2) : Prop := optrel wrel (j2one J) (j2one K) /\ I (j2t J) (j2t K) /\ j2pos K = j2pos J /\ j2trees K = j2trees J.
Lemma tq2_loop_al fuel mpos : forall pref js q q' t t', L q q' -> I t t' ->
  alike j2rel (tq2_loop fuel dbg mpos pref js q t) (tq2_loop fuel dbg mpos pref js q' t').
Proof.
  induction fuel as [|fuel IH]; intros pref js q q' t t' Hq Ht.
  - destruct Hq; cbn; [|exact Logic.I]. split; [exact Logic.I|]. cbn. repeat split; try constructor; assumption.
  - remember (Datatypes.S fuel) as fu eqn:Efu. destruct fu; [discriminate|]. injection Efu as Efu.
    cbn [tq2_loop]. remember (Datatypes.S fu) as fu1. pose proof Hq as Hq0. destruct Hq as [|u v q q' Huv Hq].
    { split; [exact Logic.I|]. cbn. repeat split; try constructor; assumption. }
    cbv zeta. pose proof (find_poly_al s n dbg mpos (Some js) _ _ (atts_al _ _ Ht)) as Hf.
    same (prel_lm s n dbg _ _ (proj2 Huv)).
    ab r r' Hr; [apply take_tq_al; [exact Hf|exact Hq0|constructor]|].
    destruct r as [[q1 tmp]|], r' as [[q1' tmp']|]; try contradiction.
    + destruct Hr as [H1 H2]. cbn in H1, H2. apply al_assert; [rewrite (sort_eq s n _ _ H1), (sort_eq s n _ _ H2); reflexivity|].
      destruct H2 as [|w0 w0' tmp tmp' Hw0 H2]; [subst fu; apply IH; assumption|].
      same (prel_lm s n dbg _ _ (proj2 Hw0)). ab x y Hx; [apply same_deg_al, H2|]. destruct x as [eqs rest], y as [eqs' rest']. destruct Hx as [X1 X2]. cbn in X1, X2.
      pose proof (swap_min_al s n eqs w0 w0' eqs' Hw0 X1) as K. destruct (swap_min w0 eqs) as [w1 e2], (swap_min w0' eqs') as [w1' e2']. destruct K as [K1 K2]. cbn in K1, K2.
      assert (Q2 : L ((e2 ++ rest) ++ q1) ((e2' ++ rest') ++ q1')) by (repeat apply Forall2_app; assumption).
      apply al_assert; [rewrite (sort_eq s n _ _ Q2); reflexivity|].
      ab p p' Hp; [apply tail_pp_al; [exact Hf|apply K1]|].
      assert (Hw : wrel (WP (wwrap w1) p) (WP (wwrap w1') p')) by (split; [apply K1|exact Hp]).
      ab z z' Hz; [eapply enter_w_al; exact Hw|]. unfold eqr in Hz. subst z'. destruct z as [js2 w2].
      assert (He : erel (wlm w2, p) (wlm w2, p')) by (split; [reflexivity|exact Hp]).
      ab x y Hx.
      { instantiate (1 := m2rel). destruct (deg a <? _)%nat.
        - ab q3 q3' Hq3; [apply back_al; assumption|]. destruct (get_wrap js2 (wlm w2)); [|exact Logic.I]. split; [split; [reflexivity|exact Hq3]|]. constructor; [split; [reflexivity|exact Hp]|constructor].
        - pose proof Ht as Ht0. destruct Ht as [|f f' t t' Hff Ht].
          + split; [split; [reflexivity|exact Q2]|]. constructor; [exact He|constructor].
          + rewrite (f2_len _ _ _ Ht0). apply walk2_al; [exact Q2|constructor|exact He|exact Ht0]. }
      destruct x as [[js3 q3] t3], y as [[js3' q3'] t3']. destruct Hx as [[Z1 Z2] Z3]. cbn in Z1, Z2, Z3.
      unfold eqr in Z1. subst js3'. ab b b' Hb; [destruct dbg eqn:Ed; [rewrite <- Ed; apply assertT2_al, Z3|reflexivity]|].
      unfold eqr in Hb. subst b'. apply al_assert; [reflexivity|]. subst fu. apply IH; assumption.
    + pose proof (proj2 Huv) as (-> & -> & E3 & E4 & _). rewrite E3, E4. ab J K HJ; [apply (set_one_al s n)|].
      destruct HJ as (Ho & _ & _ & HP & HT). split; [exact Ho|]. cbn. auto.
Qed.
Lemma tq2_al fuel J K : jrel s n J K -> alike j2rel (jp_tq2 fuel dbg J) (jp_tq2 fuel dbg K).
Proof.
  intro H. unfold jp_tq2. pose proof H as (Ho & _ & _ & HP & HT). destruct (jone J), (jone K); try contradiction; [split; [exact Ho|]; cbn; auto|].
  pose proof (set_pos_al s n J K H) as (P1 & P2 & P3 & P4 & P5). rewrite P4, P5. destruct (jtrees (set_pos J)) eqn:E; [apply tq2_loop_al; [exact P2|apply map_att_al; exact P3]|].
  inversion P2; [|exact Logic.I]. split; [exact Logic.I|]. cbn. split; [apply map_att_al; exact P3|]. auto.
Qed.
Lemma find2_al J K : j2rel J K -> fndrel (jp2_find dbg J) (jp2_find dbg K).
Proof.
  intros (Ho & Ht & Hp & Hj) m. unfold jp2_find. destruct (j2one J), (j2one K); try contradiction; [apply Ho|].
  rewrite Hp, Hj. apply find_poly_al, atts_al, Ht.
Qed.
Lemma jp2_nf_al fuel J K a b : j2rel J K -> prel a b -> alike prel (jp2_nf fuel dbg J a) (jp2_nf fuel dbg K b).
Proof.
  intros H Hab. unfold jp2_nf. ab r r' Hr; [apply p_nf_al; [apply find2_al, H|exact Hab]|]. ab x y Hx; [apply p_nfTail_al; [apply find2_al, H|apply Hr]|].
  apply pp_al, Hx.
Qed.
Lemma basis2_al J K : j2rel J K -> Forall2 (flips s) (basis2 J) (basis2 K).
Proof.
  intros (Ho & Ht & _). unfold basis2. destruct (j2one J) as [w|], (j2one K) as [w'|]; try contradiction.
  - constructor; [apply (prel_flips s n), Ho|constructor].
  - induction Ht as [|u v t t' Huv Ht IH]; [constructor|]. constructor; [apply (prel_flips s n), irel_poly, Huv|exact IH].
Qed.
Theorem c97_tq2_signs cs ds fuel : Forall2 (cmd_flips n s) cs ds ->
  alike (fun J K => Forall2 (flips s) (basis2 J) (basis2 K) /\ (j2one K = None <-> j2one J = None) /\
           (forall m, alike (fun w v => match w, v with Some p, Some q => flips s p q | None, None => True | _, _ => False end) (jp2_find dbg J m) (jp2_find dbg K m)) /\
           (forall fuel a b, sized n a -> flips s a b -> alike (flips s) (jp2_nf fuel dbg J a) (jp2_nf fuel dbg K b)))
    (do J <- jrun dbg jp_empty cs; jp_tq2 fuel dbg J) (do J <- jrun dbg jp_empty ds; jp_tq2 fuel dbg J).
Proof.
  intro H. eapply al_bind; [apply run_al; [exact H|apply empty_rel]|]. intros J0 K0 H0. eapply al_weaken; [apply tq2_al; exact H0|]. intros J K HJ. split; [apply basis2_al, HJ|].
  split; [destruct HJ as (Ho & _); destruct (j2one J), (j2one K); try contradiction; intuition congruence|]. split.
  - intro m. eapply al_weaken; [apply find2_al, HJ|]. intros [p|] [q|]; cbn; auto. apply (prel_flips s n).
  - intros fu a b Sa F. eapply al_weaken; [apply jp2_nf_al; [exact HJ|apply sized_prel; assumption]|]. apply (prel_flips s n).
Qed.
End Loops.
