(** Which prolongations critI() and critII() count. *)
From Coq Require Import ZArith List Bool Arith Lia Permutation.
From Verif Require Import Outcome MonomModel MonomSpec JanetModel PolyModel JanetPolyModel TQModel JanetPolySpec CompletionProofs AncProofs CntModel CntSpec CntProofs CntBalance.
Import ListNotations.
Local Open Scope Z_scope.

(** find does not look at the flags of build. *)
Definition wr (u u' : wrap) : Prop := wlm u' = wlm u /\ wanc u' = wanc u /\ wnm u' = wnm u.
Lemma wr_refl u : wr u u.
Proof. repeat split. Qed.
Definition owr (a b : option wrap) : Prop := match a, b with Some u, Some u' => wr u u' | None, None => True | _, _ => False end.
Definition fwr (a b : outcome (option wrap)) : Prop := match a, b with Ok x, Ok y => owr x y | Ok _, _ => False | _, Ok _ => False | _, _ => a = b end.
Lemma check_wr dbg u u' m : wr u u' -> check_div dbg u' m = check_div dbg u m.
Proof.
  intros (E1 & _ & E2). unfold check_div. generalize 0%nat. induction (vars m) as [|x l IH]; intro v; cbn [check_from]; [reflexivity|]. rewrite E1, E2, !IH. reflexivity.
Qed.
Lemma is_nil_trel R r r' : trel R r r' -> is_nil r' = is_nil r.
Proof. inversion 1; reflexivity. Qed.
Lemma find_loop_wr dbg m r r' : trel wr r r' -> forall d v, fwr (find_loop dbg m d v r) (find_loop dbg m d v r').
Proof.
  induction 1 as [|dg ow ow' nd nd' nv nv' Hw Td IHd Tv IHv]; intros d v; cbn [find_loop].
  { unfold oob. destruct dbg; reflexivity. }
  rewrite (is_nil_trel _ _ _ Td), (is_nil_trel _ _ _ Tv). unfold assert_. destruct (dbg && negb (0 <? d)%nat); [reflexivity|].
  destruct (mget dbg m v) as [x| | | |]; cbn [bind]; try reflexivity.
  destruct ((dg <? x)%nat && negb (is_nil nd)); [apply IHd|]. destruct (x <? dg)%nat; [exact I|]. destruct (d <? x)%nat; [reflexivity|]. cbv zeta.
  destruct (d - x =? 0)%nat.
  - destruct ow as [u|], ow' as [u'|]; try contradiction.
    + unfold assert_div, assert_. destruct Hw as (E1 & E2 & E3). rewrite E1. destruct (dbg && negb (divisiable m (wlm u))); [reflexivity|]. repeat split; assumption.
    + destruct (dbg && negb (negb ((dg <? x)%nat && is_nil nv))); [reflexivity|exact I].
  - destruct ow as [u|], ow' as [u'|]; try contradiction.
    + rewrite (check_wr dbg u u' m Hw). destruct (check_div dbg u m) as [b| | | |]; cbn [bind]; try reflexivity. destruct b; [exact Hw|]. destruct (is_nil nv); [|apply IHv].
      unfold assert_div, assert_. destruct Hw as (E1 & E2 & E3). rewrite E1. destruct (dbg && negb (divisiable m (wlm u))); [reflexivity|]. repeat split; assumption.
    + cbn [bind]. destruct (is_nil nv); [|apply IHv]. destruct (dbg && negb false); [reflexivity|exact I].
Qed.
Lemma find_wr dbg m r r' : trel wr r r' -> fwr (find dbg r m) (find dbg r' m).
Proof.
  intro T. unfold find. inversion T as [|dg ow ow' nd nd' nv nv' Hw Td Tv]; subst; [exact I|]. destruct (deg m =? 0)%nat; [destruct (dg =? 0)%nat; [exact Hw|exact I]|]. apply find_loop_wr. exact T.
Qed.
Lemma upd_wr f m r : (forall u, In u (wraps r) -> same_key (wlm u) m = true -> wr u (f u)) -> trel wr r (upd_tree f m r).
Proof.
  induction r as [|d ow nd IHd nv IHv]; intro H; cbn [upd_tree]; [constructor|]. rewrite wraps_node in H. constructor.
  - destruct ow as [u|]; [|exact I]. destruct (same_key (wlm u) m) eqn:E; [|apply wr_refl]. apply H; [|exact E]. rewrite !in_app_iff. left. left. reflexivity.
  - apply IHd. intros u Iu. apply H. rewrite !in_app_iff. tauto.
  - apply IHv. intros u Iu. apply H. rewrite !in_app_iff. tauto.
Qed.

Lemma key_eq a b : size a = size b -> same_key a b = true -> a = b.
Proof.
  unfold same_key, size. intros Hs H. apply andb_prop in H as [H1 H2]. apply Z.eqb_eq in H1. destruct a as [pa va], b as [pb vb]. cbn [pos vars] in *. subst. f_equal. revert vb Hs H2.
  induction va as [|x va IH]; intros [|y vb] Hs H; cbn [eqv length] in *; try discriminate; [reflexivity|]. destruct (x =? y)%nat eqn:E; [|discriminate]. apply Nat.eqb_eq in E. subst. f_equal. apply IH; [lia|exact H].
Qed.
(** All leading monomials differ and have the same number of variables. *)
Definition fine (l : list wrap) : Prop := NoDup (map wlm l) /\ exists n, forall u, In u l -> size (wlm u) = n.
Lemma nodup_key (l : list wrap) u w : fine l -> In u l -> In w l -> same_key (wlm u) (wlm w) = true -> u = w.
Proof.
  intros [N [n Hn]] Iu Iw K. apply key_eq in K; [|rewrite !Hn; auto]. clear Hn. induction l as [|x l IH]; [destruct Iu|]. cbn [map] in N. inversion N as [|? ? N1 N2]; subst.
  destruct Iu as [->|Iu], Iw as [->|Iw]; auto.
  - exfalso. apply N1. rewrite K. apply in_map. exact Iw.
  - exfalso. apply N1. rewrite <- K. apply in_map. exact Iu.
Qed.
Lemma upd_find dbg mpos js w w' m : fine (L js) -> In w (L js) -> wr w w' -> fwr (find_wrap dbg mpos (Some js) m) (find_wrap dbg mpos (Some (upd_trees (fun _ => w') (wlm w) js)) m).
Proof.
  intros N Iw W. unfold find_wrap, tree_at. destruct (mpos <? pos m); [exact I|]. destruct (pos m <? -1); [unfold oob; destruct dbg; reflexivity|].
  unfold upd_trees. rewrite nth_error_map. destruct (nth_error js (Z.to_nat (pos m + 1))) as [J|] eqn:EJ; cbn [option_map bind]; [|unfold oob; destruct dbg; reflexivity]. cbn [jroot].
  apply find_wr, upd_wr. intros u Iu K. rewrite (nodup_key (L js) u w N); [exact W| |exact Iw|exact K]. unfold L. apply in_concat. exists (wraps (jroot J)). split; [|exact Iu].
  apply in_map_iff. exists J. split; [reflexivity|]. eapply nth_error_In. exact EJ.
Qed.
Lemma upd_keys js w w' : fine (L js) -> In w (L js) -> wlm w' = wlm w -> fine (L (upd_trees (fun _ => w') (wlm w) js)).
Proof.
  intros F Iw E. assert (M : map wlm (L (upd_trees (fun _ => w') (wlm w) js)) = map wlm (L js)).
  { rewrite L_upd, map_map. apply map_ext_in. intros u Iu. destruct (same_key (wlm u) (wlm w)) eqn:K; [|reflexivity]. rewrite (nodup_key (L js) u w F Iu Iw K). exact E. }
  destruct F as [N [n Hn]]. split; [rewrite M; exact N|]. exists n. intros u Iu. apply (in_map wlm) in Iu. rewrite M in Iu. apply in_map_iff in Iu as (x & <- & Ix). apply Hn. exact Ix.
Qed.

Lemma set_build_wr dbg w k w' : set_build dbg w k = Ok w' -> wr w w' /\ forall i, (k < i)%nat -> nth i (wbuild w') false = nth i (wbuild w) false.
Proof.
  unfold set_build. destruct (set_at (wbuild w) k) as [l|] eqn:E; [|unfold oob; destruct dbg; discriminate]. intro X. injection X as <-. split; [repeat split|]. cbn [wbuild].
  revert k l E. induction (wbuild w) as [|b bs IH]; intros [|k] l E i Hi; cbn [set_at] in E; try discriminate.
  - injection E as <-. destruct i; [lia|reflexivity].
  - destruct (set_at bs k) as [r|] eqn:Er; [|discriminate]. injection E as <-. destruct i as [|i]; [reflexivity|]. cbn [nth]. eapply IH; [exact Er|lia].
Qed.
Lemma deg_incr : forall v i, (i < length v)%nat -> degv (incr i v) = (degv v + 1)%nat.
Proof. induction v as [|x v IH]; intros [|i] H; cbn [length] in H; try lia; cbn [incr degv fold_right]; [lia|]. fold (degv (incr i v)). fold (degv v). rewrite IH; lia. Qed.
Lemma deg_mul i m : (i < size m)%nat -> deg (mul_var i m) = (deg m + 1)%nat.
Proof. unfold deg, size, mul_var. cbn [vars]. apply deg_incr. Qed.

(** Counting from variable k on. *)
Definition cnt_from (P : nat -> bool) (k n : nat) : nat := length (filter P (seq k n)).
Lemma cnt_ext P Q k n : (forall i, (k <= i < k + n)%nat -> P i = Q i) -> cnt_from P k n = cnt_from Q k n.
Proof.
  unfold cnt_from. intro H. f_equal. apply filter_ext_in. intros i Ii. apply in_seq in Ii. apply H. lia.
Qed.
Lemma cnt_cons P k n : cnt_from P k (S n) = ((if P k then 1 else 0) + cnt_from P (S k) n)%nat.
Proof. unfold cnt_from. cbn [seq filter]. destruct (P k); reflexivity. Qed.

Section C.
Variables (dbg : bool) (mpos : Z).
Definition is1 js w i := considered w i && criterion1 dbg mpos js w i.
Definition is2 js w i := considered w i && (negb (criterion1 dbg mpos js w i) && criterion2 dbg mpos js w i).
Definition is0 js w i := considered w i && (negb (criterion1 dbg mpos js w i) && negb (criterion2 dbg mpos js w i)).
Lemma is_next js w w' k (Iw : In w (L js)) : fine (L js) -> set_build dbg w k = Ok w' -> forall i, (k < i)%nat ->
  let js' := upd_trees (fun _ => w') (wlm w) js in is1 js' w' i = is1 js w i /\ is2 js' w' i = is2 js w i /\ is0 js' w' i = is0 js w i.
Proof.
  intros N E i Hi js'. destruct (set_build_wr _ _ _ _ E) as [W Bf]. pose proof W as (W1 & W2 & W3).
  assert (C : considered w' i = considered w i) by (unfold considered; rewrite W3, (Bf i Hi); reflexivity).
  assert (D : match divisor dbg mpos js' w' i, divisor dbg mpos js w i with Some d', Some d => wanc d' = wanc d | None, None => True | _, _ => False end).
  { unfold divisor. rewrite W1. assert (F := upd_find dbg mpos js w w' (mul_var i (wlm w)) N Iw W). fold js' in F.
    destruct (find_wrap dbg mpos (Some js) (mul_var i (wlm w))) as [[d|]| | | |], (find_wrap dbg mpos (Some js') (mul_var i (wlm w))) as [[d'|]| | | |]; cbn [fwr owr] in F; try contradiction; try exact I; try discriminate.
    apply F. }
  unfold is1, is2, is0, criterion1, criterion2. rewrite C, W1, W2.
  destruct (divisor dbg mpos js' w' i) as [d'|], (divisor dbg mpos js w i) as [d|]; try contradiction; [rewrite D|]; auto.
Qed.

Lemma k_prolong_counts p : forall cnt k js w q c js' q' c', (k + cnt = size (wlm w))%nat -> fine (L js) -> In w (L js) ->
  k_prolong dbg mpos cnt k js w p q c = Ok (js', q', c') ->
  n_critI c' = (n_critI c + cnt_from (is1 js w) k cnt)%nat /\ n_critII c' = (n_critII c + cnt_from (is2 js w) k cnt)%nat /\ length q' = (length q + cnt_from (is0 js w) k cnt)%nat.
Proof.
  induction cnt as [|cnt IH]; intros k js w q c js' q' c' Sz N Iw E; cbn [k_prolong] in E.
  { injection E as <- <- <-. unfold cnt_from. cbn. lia. }
  rewrite !cnt_cons. bnd E. bnd E.
  assert (Fl : considered w k = v && negb v0).
  { unfold considered, get_flag in *. destruct (nth_error (wnm w) k) eqn:E1; [|unfold oob in Ev; destruct dbg; discriminate]. destruct (nth_error (wbuild w) k) eqn:E2; [|unfold oob in Ev0; destruct dbg; discriminate].
    rewrite (nth_error_nth _ _ false E1), (nth_error_nth _ _ false E2). congruence. }
  unfold is1 at 1, is2 at 1, is0 at 1. rewrite Fl. destruct (v && negb v0) eqn:Eb.
  2:{ cbn [andb]. apply IH in E; [|lia|exact N|exact Iw]. lia. }
  cbn [andb]. cbv zeta in E. bnd E.
  assert (D1 : criterion1 dbg mpos js w k = match v1 with Some d => (deg (wanc w) + deg (wanc d) <=? deg (mul_var k (wlm w)))%nat | None => false end)
    by (unfold criterion1, divisor; rewrite Ev1, deg_mul by lia; reflexivity).
  assert (D2 : criterion2 dbg mpos js w k = match v1 with Some d => (lcm_deg (wanc w) (wanc d) <? deg (mul_var k (wlm w)))%nat | None => false end)
    by (unfold criterion2, divisor; rewrite Ev1, deg_mul by lia; reflexivity).
  rewrite D1, D2.
  assert (Next : forall w', set_build dbg w k = Ok w' -> forall qq cc, k_prolong dbg mpos cnt (S k) (upd_trees (fun _ => w') (wlm w) js) w' p qq cc = Ok (js', q', c') ->
    n_critI c' = (n_critI cc + cnt_from (is1 js w) (S k) cnt)%nat /\ n_critII c' = (n_critII cc + cnt_from (is2 js w) (S k) cnt)%nat /\ length q' = (length qq + cnt_from (is0 js w) (S k) cnt)%nat).
  { intros w' Es qq cc Ek. destruct (set_build_wr _ _ _ _ Es) as [(W1 & _) _].
    apply IH in Ek; [|rewrite W1; lia|apply upd_keys; assumption|apply (store_step js w w' Iw W1)].
    rewrite (cnt_ext (is1 js w) (is1 (upd_trees (fun _ => w') (wlm w) js) w')), (cnt_ext (is2 js w) (is2 (upd_trees (fun _ => w') (wlm w) js) w')), (cnt_ext (is0 js w) (is0 (upd_trees (fun _ => w') (wlm w) js) w')); [exact Ek|..];
      intros i Hi; symmetry; apply (is_next js w w' k Iw N Es); lia. }
  match type of E with (if ?b then _ else _) = _ => destruct b end.
  - bnd E. destruct (Next _ eq_refl _ _ E) as (A & B & C). cbn [inc_critI n_critI n_critII negb andb] in *. lia.
  - match type of E with (if ?b then _ else _) = _ => destruct b end.
    + bnd E. destruct (Next _ eq_refl _ _ E) as (A & B & C). cbn [inc_critII n_critI n_critII negb andb] in *. lia.
    + bnd E. destruct v2 as [nw w']. bnd E. bnd E. apply prolong_old in Ev2. apply jp_insert_perm, Permutation_length in Ev4. cbn [length] in Ev4.
      destruct (Next _ Ev2 _ _ E) as (A & B & C). cbn [negb andb] in *. lia.
Qed.
End C.

Theorem c88_criteria dbg mpos n js w p q c js' q' c' : NoDup (map wlm (concat (map (fun J => wraps (jroot J)) js))) ->
  (forall u, In u (concat (map (fun J => wraps (jroot J)) js)) -> size (wlm u) = n) -> In w (concat (map (fun J => wraps (jroot J)) js)) ->
  k_prolong dbg mpos (size (wlm w)) 0 js w p q c = Ok (js', q', c') ->
  n_critI c' = (n_critI c + how_many (fun i => considered w i && criterion1 dbg mpos js w i) (size (wlm w)))%nat /\
  n_critII c' = (n_critII c + how_many (fun i => considered w i && (negb (criterion1 dbg mpos js w i) && criterion2 dbg mpos js w i)) (size (wlm w)))%nat /\
  length q' = (length q + how_many (fun i => considered w i && (negb (criterion1 dbg mpos js w i) && negb (criterion2 dbg mpos js w i))) (size (wlm w)))%nat.
Proof. intros N Hs I E. exact (k_prolong_counts dbg mpos p (size (wlm w)) 0 js w q c js' q' c' eq_refl (conj N (ex_intro _ n Hs)) I E). Qed.

(** * What build() counts when it takes elements *)
Lemma c88_taken fuel dbg find dg : forall q tmp c q1 tmp1 c1, k_take_block fuel dbg find dg q tmp c = Ok (Some (q1, tmp1), c1) ->
  exists taken, q = taken ++ q1 /\ n_red c1 = (n_red c + all_steps fuel dbg find taken)%nat.
Proof.
  induction q as [|u q IH]; intros tmp c q1 tmp1 c1 E; cbn [k_take_block] in E; [injection E as <- <- <-; exists []; split; [reflexivity|cbn; lia]|].
  bnd E. destruct (deg v <=? dg)%nat; [|injection E as <- <- <-; exists []; split; [reflexivity|cbn; lia]].
  bnd E. cbv zeta in E. destruct v0 as [p r0]. cbn [fst] in E.
  assert (T0 : tail_steps fuel dbg find u = match terms p with [] => 0 | _ => match p_nfTail fuel dbg find p with Ok (_, r) => r | _ => 0 end end%nat) by (unfold tail_steps; rewrite Ev0; reflexivity).
  unfold is_zero in E. destruct (terms p) as [|x l] eqn:Ep.
  { apply IH in E as (taken & -> & E). exists (u :: taken). split; [reflexivity|]. unfold all_steps in *. cbn [fold_right]. rewrite T0. exact E. }
  bnd E. destruct (deg v0 =? 0)%nat; [discriminate|]. bnd E. destruct v1 as [p2 k]. bnd E. bnd E.
  apply IH in E as (taken & -> & E). exists (u :: taken). split; [reflexivity|]. unfold all_steps in *. cbn [fold_right]. rewrite T0.
  destruct (Nat.eqb_spec k 0); cbn [n_red add_red] in E; lia.
Qed.
