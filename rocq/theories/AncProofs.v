(** Ancestors and flags of the elements: what every step of completion keeps, read off the structure of the code. *)
From Coq Require Import ZArith List Bool Arith Lia Permutation.
From Verif Require Import Outcome MonomModel MonomSpec JanetModel PolyModel JanetPolyModel TQModel JanetPolyProofs.
Import ListNotations.
Local Open Scope Z_scope.

Lemma assert_inv {A} dbg c (k : outcome A) r : assert_ dbg c k = Ok r -> k = Ok r.
Proof. unfold assert_. destruct (dbg && negb c); [discriminate|auto]. Qed.

Ltac bnd E := match type of E with
  | bind ?x _ = Ok _ => let v := fresh "v" in let Ev := fresh "Ev" in destruct x as [v| | | |] eqn:Ev; cbn [bind] in E; [|discriminate|discriminate|discriminate|discriminate]
  end.

(* ------------------------------------------------------------------------------------------ *)
(** * Lists of polynomials *)

(** The wraps of l' are wraps of l. *)
Definition wsub (l' l : list wpoly) : Prop := incl (map wwrap l') (map wwrap l).

Lemma wsub_refl l : wsub l l. Proof. apply incl_refl. Qed.
Lemma wsub_trans a b c : wsub a b -> wsub b c -> wsub a c.
Proof. intros A B. eapply incl_tran; eassumption. Qed.
Lemma wsub_incl l l' : incl l' l -> wsub l' l.
Proof. intros P. apply incl_map. exact P. Qed.
Lemma wsub_perm l l' : Permutation l' l -> wsub l' l.
Proof. intros P. apply wsub_incl. intros x. apply Permutation_in. exact P. Qed.
Lemma wsub_app a b a' b' : wsub a' a -> wsub b' b -> wsub (a' ++ b') (a ++ b).
Proof. unfold wsub. rewrite !map_app. intros A B. apply incl_app; [apply incl_appl|apply incl_appr]; assumption. Qed.
Lemma wsub_map l l' : map wwrap l' = map wwrap l -> wsub l' l.
Proof. unfold wsub. intros ->. apply incl_refl. Qed.
Lemma wsub_cons u v l' l : wwrap u = wwrap v -> wsub l' l -> wsub (u :: l') (v :: l).
Proof. intros E S x [X|X]; [left; cbn in *; congruence|right; apply S; exact X]. Qed.
Lemma wsub_tl u l' l : wsub l' l -> wsub l' (u :: l).
Proof. intros S x X. right. apply S. exact X. Qed.

Lemma place_perm dbg w : forall l l', place dbg l w = Ok l' -> Permutation l' (w :: l).
Proof.
  induction l as [|u l IH]; intros l' E; cbn [place] in E; [injection E as <-; reflexivity|]. bnd E. destruct (0 <? v); [|injection E as <-; reflexivity].
  bnd E. injection E as <-. rewrite (IH _ eq_refl). apply perm_swap.
Qed.
Lemma jp_insert_perm dbg l w l' : jp_insert dbg l w = Ok l' -> Permutation l' (w :: l).
Proof. intro E. apply assert_inv in E. eapply place_perm. exact E. Qed.
Lemma insert_all_perm dbg : forall l q q', insert_all dbg q l = Ok q' -> Permutation q' (l ++ q).
Proof.
  induction l as [|u l IH]; intros q q' E; cbn [insert_all] in E; [injection E as <-; reflexivity|]. bnd E. apply IH in E. apply jp_insert_perm in Ev.
  rewrite E, Ev. symmetry. apply Permutation_middle.
Qed.

Lemma take_block_sub fuel dbg find dg : forall q tmp q1 tmp1, take_block fuel dbg find dg q tmp = Ok (Some (q1, tmp1)) -> wsub (q1 ++ tmp1) (q ++ tmp).
Proof.
  induction q as [|u q IH]; intros tmp q1 tmp1 E; cbn [take_block] in E; [injection E as <- <-; apply wsub_refl|]. bnd E.
  destruct (deg v <=? dg)%nat; [|injection E as <- <-; apply wsub_refl]. bnd E. destruct (is_zero (fst v0)); [apply IH in E; apply wsub_tl; exact E|].
  bnd E. destruct (deg v1 =? 0)%nat; [discriminate|]. bnd E. destruct v2 as [p2 c]. bnd E. bnd E. apply IH in E. apply jp_insert_perm in Ev4.
  eapply wsub_trans; [exact E|]. eapply wsub_trans with (b := WP (wwrap u) v2 :: q ++ tmp); [|apply wsub_cons; [reflexivity|apply wsub_refl]].
  apply wsub_perm. rewrite Ev4. symmetry. apply Permutation_middle.
Qed.
Lemma same_deg_app dbg d : forall l a b, same_deg dbg d l = Ok (a, b) -> l = a ++ b.
Proof.
  induction l as [|u l IH]; intros a b E; cbn [same_deg] in E; [injection E as <- <-; reflexivity|]. bnd E. destruct (deg v =? d)%nat; [|injection E as <- <-; reflexivity].
  bnd E. injection E as <- <-. destruct v0 as [x y]. cbn [fst snd app]. f_equal. apply IH. reflexivity.
Qed.
Lemma same_lm_app dbg m : forall l a b, same_lm dbg m l = Ok (a, b) -> l = a ++ b.
Proof.
  induction l as [|u l IH]; intros a b E; cbn [same_lm] in E; [injection E as <- <-; reflexivity|]. bnd E. destruct (eqm v m)%nat; [|injection E as <- <-; reflexivity].
  bnd E. injection E as <- <-. destruct v0 as [x y]. cbn [fst snd app]. f_equal. apply IH. reflexivity.
Qed.
Lemma red_all_wraps dbg a : forall l l', red_all dbg a l = Ok l' -> map wwrap l' = map wwrap l.
Proof.
  induction l as [|u l IH]; intros l' E; cbn [red_all] in E; [injection E as <-; reflexivity|]. bnd E. apply assert_inv in E. bnd E. injection E as <-. cbn [map wwrap]. f_equal. apply IH. reflexivity.
Qed.
Lemma scan_sub dbg : forall cnt pre l a b, scan cnt dbg pre l = Ok (a, b) -> wsub (a ++ b) (pre ++ l).
Proof.
  induction cnt as [|cnt IH]; intros pre [|k l] a b E; cbn [scan] in E; try discriminate.
  1,2: injection E as <- <-; apply wsub_refl.
  bnd E. bnd E. destruct v0 as [[|e eqs] j].
  - bnd E. apply IH in E. apply red_all_wraps in Ev1. rewrite <- app_assoc in E. eapply wsub_trans; [exact E|]. apply wsub_app; [apply wsub_refl|]. cbn [app].
    apply wsub_cons; [reflexivity|apply wsub_map; exact Ev1].
  - injection E as <- <-. apply same_lm_app in Ev0. rewrite Ev0. apply wsub_perm. rewrite <- app_assoc. apply Permutation_app_head.
    etransitivity; [apply Permutation_sym, Permutation_middle|]. constructor.
    etransitivity; [apply Permutation_app_comm|]. apply Permutation_app_tail. apply Permutation_sym, Permutation_rev.
Qed.
Lemma red_by_sub dbg a : forall l tmp tmp', red_by dbg a l tmp = Ok tmp' -> wsub tmp' (l ++ tmp).
Proof.
  induction l as [|u l IH]; intros tmp tmp' E; cbn [red_by] in E; [injection E as <-; apply wsub_refl|]. bnd E. destruct (is_zero v); [apply IH in E; apply wsub_tl; exact E|].
  bnd E. apply IH in E. apply jp_insert_perm in Ev0. eapply wsub_trans; [exact E|].
  eapply wsub_trans with (b := WP (wwrap u) v :: l ++ tmp); [|apply wsub_cons; [reflexivity|apply wsub_refl]]. apply wsub_perm. rewrite Ev0. symmetry. apply Permutation_middle.
Qed.
Lemma block_loop_sub dbg : forall fuel tmp q tmp2 q2 dg, block_loop fuel dbg tmp q = Ok (tmp2, q2, dg) -> wsub (tmp2 ++ q2) (tmp ++ q).
Proof.
  induction fuel as [|fuel IH]; intros tmp q tmp2 q2 dg E; cbn [block_loop] in E; [discriminate|]. destruct tmp as [|u l]; [unfold null_head in E; destruct dbg; discriminate|].
  bnd E. bnd E. destruct v0 as [blk rest]. apply assert_inv in E. bnd E. apply same_deg_app in Ev0. subst l. destruct v0 as [tmp' [|w0 t2]].
  - injection E as <- <- <-. apply scan_sub in Ev1. rewrite app_nil_r in Ev1. change ((u :: blk ++ rest) ++ q) with ((u :: (blk ++ rest)) ++ q).
    replace ((u :: (blk ++ rest)) ++ q) with ((u :: blk) ++ rest ++ q) by (cbn [app]; rewrite <- app_assoc; reflexivity). apply wsub_app; [exact Ev1|apply wsub_refl].
  - assert (Pm := min_norm_ok t2 w0 []). cbv zeta in Pm. cbn [app] in Pm. destruct (min_norm w0 [] t2) as [w others]. cbn [fst snd] in Pm.
    bnd E. bnd E. apply assert_inv in E. apply IH in E. apply red_by_sub in Ev2. apply jp_insert_perm in Ev0. apply scan_sub in Ev1. cbn [app] in Ev1.
    replace ((u :: (blk ++ rest)) ++ q) with ((u :: blk) ++ rest ++ q) by (cbn [app]; rewrite <- app_assoc; reflexivity).
    eapply wsub_trans; [exact E|]. apply wsub_app; [|apply wsub_refl]. eapply wsub_trans; [exact Ev2|]. eapply wsub_trans; [|exact Ev1].
    apply wsub_perm. rewrite Ev0, Pm. rewrite Permutation_app_comm. cbn [app]. apply Permutation_middle.
Qed.

Lemma take_tq_sub tail fuel dbg find dg : forall q tmp q1 tmp1, take_tq tail fuel dbg find dg q tmp = Ok (Some (q1, tmp1)) -> wsub (q1 ++ tmp1) (q ++ tmp).
Proof.
  induction q as [|u q IH]; intros tmp q1 tmp1 E; cbn [take_tq] in E; [injection E as <- <-; apply wsub_refl|]. bnd E.
  destruct (deg v <=? dg)%nat; [|injection E as <- <-; apply wsub_refl]. bnd E. destruct v0 as [p c0]. destruct (is_zero p); [apply IH in E; apply wsub_tl; exact E|].
  bnd E. destruct (deg v0 =? 0)%nat; [discriminate|]. bnd E. bnd E. bnd E. apply IH in E. apply jp_insert_perm in Ev4.
  eapply wsub_trans; [exact E|]. eapply wsub_trans with (b := WP (wwrap u) v2 :: q ++ tmp); [|apply wsub_cons; [reflexivity|apply wsub_refl]].
  apply wsub_perm. rewrite Ev4. symmetry. apply Permutation_middle.
Qed.
Lemma swap_min_perm : forall l w, let (v, r) := swap_min w l in Permutation (v :: r) (w :: l).
Proof.
  induction l as [|u l IH]; intro w; cbn [swap_min]; [reflexivity|]. destruct (p_norm (wpol u) <? p_norm (wpol w)).
  - assert (X := IH u). destruct (swap_min u l) as [v r]. rewrite perm_swap. rewrite X. reflexivity.
  - assert (X := IH w). destruct (swap_min w l) as [v r]. rewrite perm_swap. rewrite X. apply perm_swap.
Qed.
Lemma tails_wraps fuel dbg find : forall l l', tails fuel dbg find l = Ok l' -> map wwrap l' = map wwrap l.
Proof.
  induction l as [|u l IH]; intros l' E; cbn [tails] in E; [injection E as <-; reflexivity|]. bnd E. bnd E. injection E as <-. cbn [map wwrap]. f_equal. apply IH. reflexivity.
Qed.
Lemma red_eq_sub dbg a : forall l l', red_eq dbg a l = Ok l' -> wsub l' l.
Proof.
  induction l as [|u l IH]; intros l' E; cbn [red_eq] in E; [injection E as <-; apply wsub_refl|]. bnd E. destruct (is_zero v); [apply wsub_tl, IH; exact E|].
  bnd E. bnd E. injection E as <-. apply wsub_cons; [reflexivity|apply IH; reflexivity].
Qed.

(* ------------------------------------------------------------------------------------------ *)
(** * Trees *)

(** u' is u, with more NM flags. *)
Definition more (u u' : wrap) : Prop :=
  wlm u' = wlm u /\ wanc u' = wanc u /\ wbuild u' = wbuild u /\ forall i, nth i (wnm u) false = true -> nth i (wnm u') false = true.
Inductive grows : list wrap -> list wrap -> Prop :=
| g_nil : grows [] []
| g_cons u u' l l' : more u u' -> grows l l' -> grows (u :: l) (u' :: l')
| g_swap u v l : grows (u :: v :: l) (v :: u :: l)
| g_trans l l' l'' : grows l l' -> grows l' l'' -> grows l l''.

Lemma more_refl u : more u u. Proof. repeat split; auto. Qed.
Lemma more_trans u v w : more u v -> more v w -> more u w.
Proof. intros (A & B & C & D) (A' & B' & C' & D'). repeat split; try congruence. auto. Qed.
Lemma all_more l : Forall2 more l l.
Proof. induction l; constructor; auto using more_refl. Qed.
Lemma set_at_true l : forall i l', set_at l i = Some l' -> (forall j, nth j l false = true -> nth j l' false = true) /\ nth i l' false = true.
Proof.
  induction l as [|b l IH]; intros [|i] l' E; cbn [set_at] in E; try discriminate.
  - injection E as <-. split; [|reflexivity]. intros [|j] X; [reflexivity|exact X].
  - destruct (set_at l i) as [r|] eqn:Er; [|discriminate]. injection E as <-. destruct (IH i r Er) as [A B]. split; [|exact B]. intros [|j] X; [exact X|apply A; exact X].
Qed.
Lemma set_at_only l : forall i l', set_at l i = Some l' -> forall j, nth j l' false = true -> j = i \/ nth j l false = true.
Proof.
  induction l as [|b l IH]; intros [|i] l' E; cbn [set_at] in E; try discriminate.
  - injection E as <-. intros [|j] X; [left; reflexivity|right; exact X].
  - destruct (set_at l i) as [r|] eqn:Er; [|discriminate]. injection E as <-. intros [|j] X; [right; exact X|]. destruct (IH i r Er j X) as [->|Y]; [left; reflexivity|right; exact Y].
Qed.
Lemma set_nm_more dbg w i w' : set_nm dbg w i = Ok w' -> more w w'.
Proof.
  unfold set_nm. destruct (set_at (wnm w) i) as [l|] eqn:E; [|unfold oob; destruct dbg; discriminate]. intro X. injection X as <-. repeat split. cbn [wnm]. apply (set_at_true _ _ _ E).
Qed.
Lemma opt_set_nm_more dbg ow i ow' : opt_set_nm dbg ow i = Ok ow' -> match ow, ow' with Some u, Some u' => more u u' | None, None => True | _, _ => False end.
Proof. destruct ow as [u|]; cbn [opt_set_nm]; intro E; [|injection E as <-; exact Logic.I]. bnd E. injection E as <-. eapply set_nm_more. exact Ev. Qed.

Definition ol (ow : option wrap) : list wrap := match ow with Some u => [u] | None => [] end.
Lemma wraps_node d ow nd nv : wraps (Node d ow nd nv) = ol ow ++ wraps nv ++ wraps nd.
Proof. reflexivity. Qed.
Lemma opt_ol dbg ow i ow' : opt_set_nm dbg ow i = Ok ow' -> Forall2 more (ol ow) (ol ow').
Proof. intro E. apply opt_set_nm_more in E. destruct ow, ow'; try contradiction; cbn [ol]; [constructor; [exact E|constructor]|constructor]. Qed.

Lemma set_nm_tree_more dbg v : forall r r', set_nm_tree dbg r v = Ok r' -> Forall2 more (wraps r) (wraps r').
Proof.
  induction r as [|d ow nd IH1 nv IH2]; intros r' E; cbn [set_nm_tree] in E; [injection E as <-; constructor|]. bnd E. bnd E. bnd E. injection E as <-.
  rewrite !wraps_node. apply Forall2_app; [eapply opt_ol; exact Ev0|]. apply Forall2_app; [apply IH2|apply IH1]; reflexivity.
Qed.
Lemma build_chain_wraps dbg w : forall l d next r, build_chain dbg w d l next = Ok r -> wraps r = w :: wraps next.
Proof.
  induction l as [|x l IH]; intros d next r E; cbn [build_chain] in E; [unfold oob in E; destruct dbg; discriminate|]. destruct (Nat.ltb x d).
  - bnd E. injection E as <-. rewrite wraps_node. rewrite (IH _ _ _ Ev). reflexivity.
  - injection E as <-. reflexivity.
Qed.
Lemma build_at_wraps dbg w d var next r : build_at dbg w d var next = Ok r -> wraps r = w :: wraps next.
Proof.
  unfold build_at. intro E. bnd E. apply assert_inv in E. bnd E. apply build_chain_wraps in Ev0. destruct next; [injection E as <-; exact Ev0|].
  apply assert_inv in E. injection E as <-. exact Ev0.
Qed.
Lemma walk_more dbg : forall j w var w', JanetModel.walk dbg w var j = Ok w' -> more w w'.
Proof.
  induction j as [|d ow nd _ nv IH]; intros w var w' E; cbn [JanetModel.walk] in E; [injection E as <-; apply more_refl|]. bnd E.
  assert (M : more w v) by (destruct (Nat.ltb 0 d || negb (is_nil nd)); [eapply set_nm_more; exact Ev|injection Ev as <-; apply more_refl]).
  destruct (Nat.eqb d 0); [|injection E as <-; exact M]. eapply more_trans; [exact M|eapply IH; exact E].
Qed.


Lemma g_refl l : grows l l.
Proof. induction l; constructor; auto using more_refl. Qed.
Lemma g_perm l l' : Permutation l l' -> grows l l'.
Proof. induction 1; [constructor|constructor; auto using more_refl|apply g_swap|eapply g_trans; eassumption]. Qed.
Lemma g_F2 l l' : Forall2 more l l' -> grows l l'.
Proof. induction 1; constructor; auto. Qed.
Lemma g_app_r a a' b : grows a a' -> grows (a ++ b) (a' ++ b).
Proof. induction 1; cbn [app]; [apply g_refl|constructor; assumption|apply g_swap|eapply g_trans; eassumption]. Qed.
Lemma g_app_l a b b' : grows b b' -> grows (a ++ b) (a ++ b').
Proof. intro B. induction a; cbn [app]; [exact B|constructor; [apply more_refl|assumption]]. Qed.
Lemma g_app a a' b b' : grows a a' -> grows b b' -> grows (a ++ b) (a' ++ b').
Proof. intros A B. eapply g_trans; [apply g_app_r; exact A|apply g_app_l; exact B]. Qed.
Lemma g_src w w1 l l' : more w w1 -> grows (w1 :: l) l' -> grows (w :: l) l'.
Proof. intros M H. eapply g_trans; [|exact H]. constructor; [exact M|apply g_refl]. Qed.
Lemma g_len l l' : grows l l' -> length l' = length l.
Proof. induction 1; cbn [length]; congruence. Qed.
Lemma g_to l l' : grows l l' -> forall x, In x l -> exists x', In x' l' /\ more x x'.
Proof.
  induction 1 as [|u u' l l' M A IH|u v l|l l' l'' A IH A' IH']; intros x Ix.
  - destruct Ix.
  - destruct Ix as [->|Ix]; [exists u'; split; [left; reflexivity|exact M]|]. destruct (IH x Ix) as (x' & I' & M'). exists x'. split; [right; exact I'|exact M'].
  - exists x. split; [|apply more_refl]. cbn [In] in *. tauto.
  - destruct (IH x Ix) as (y & Iy & My). destruct (IH' y Iy) as (z & Iz & Mz). exists z. split; [exact Iz|eapply more_trans; eassumption].
Qed.
Lemma g_back l l' : grows l l' -> forall x', In x' l' -> exists x, In x l /\ more x x'.
Proof.
  induction 1 as [|u u' l l' M A IH|u v l|l l' l'' A IH A' IH']; intros x Ix.
  - destruct Ix.
  - destruct Ix as [->|Ix]; [exists u; split; [left; reflexivity|exact M]|]. destruct (IH x Ix) as (x' & I' & M'). exists x'. split; [right; exact I'|exact M'].
  - exists x. split; [|apply more_refl]. cbn [In] in *. tauto.
  - destruct (IH' x Ix) as (y & Iy & My). destruct (IH y Iy) as (z & Iz & Mz). exists z. split; [exact Iz|eapply more_trans; eassumption].
Qed.
Lemma g_lms l l' : grows l l' -> Permutation (map wlm l) (map wlm l').
Proof. induction 1 as [|u u' l l' (M & _) A IH|u v l|l l' l'' A IH A' IH']; cbn [map]; [constructor|rewrite M; constructor; exact IH|constructor|etransitivity; eassumption]. Qed.

Lemma ins_loop_grows dbg : forall j w d var r, ins_loop dbg w d var j = Ok r ->
  (length (wraps r) <= S (length (wraps j)))%nat /\ (length (wraps r) = S (length (wraps j)) -> grows (w :: wraps j) (wraps r)).
Proof.
  induction j as [|dg ow nd IHd nv IHv]; intros w d var r E; cbn [ins_loop] in E.
  { apply build_at_wraps in E. rewrite E. cbn [wraps length]. split; [lia|]. intros _. apply g_refl. }
  apply assert_inv in E. bnd E. rewrite wraps_node.
  destruct (Nat.ltb dg v && negb (is_nil nd)).
  { bnd E. injection E as <-. apply IHd in Ev0 as [A B]. rewrite wraps_node. rewrite !app_length in *. split; [lia|]. intro Le.
    eapply g_trans; [apply g_perm; rewrite app_assoc; apply Permutation_middle|]. rewrite <- app_assoc. apply g_app_l, g_app_l. apply B. lia. }
  destruct (Nat.ltb v dg).
  { bnd E. apply build_at_wraps in E. rewrite E, wraps_node. cbn [length]. split; [lia|]. intros _. constructor; [eapply set_nm_more; exact Ev0|apply g_refl]. }
  destruct (Nat.ltb dg v).
  { bnd E. bnd E. bnd E. injection E as <-. apply build_at_wraps in Ev2. apply set_nm_tree_more in Ev1. apply opt_ol in Ev0. apply g_F2 in Ev0, Ev1.
    rewrite wraps_node, Ev2. cbn [wraps]. assert (L0 := g_len _ _ Ev0). assert (L1 := g_len _ _ Ev1). rewrite !app_length in *. cbn [length]. split; [lia|]. intro Le.
    assert (Z : wraps nd = []) by (destruct (wraps nd); [reflexivity|cbn [length] in Le; lia]). rewrite Z, app_nil_r.
    eapply g_trans; [apply g_perm, Permutation_cons_append|]. rewrite app_assoc. apply g_app_r. apply g_app; assumption. }
  bnd E. assert (M1 : more w v0) by (destruct (is_nil nd); [injection Ev0 as <-; apply more_refl|eapply set_nm_more; exact Ev0]).
  bnd E. assert (M2 : Forall2 more (ol ow) (ol v1)).
  { destruct ow as [u|]; [|injection Ev1 as <-; constructor].
    destruct (first_gt _ _ _); [eapply opt_ol; exact Ev1|injection Ev1 as <-; apply all_more]. }
  destruct (Nat.ltb d v); [discriminate|]. destruct (Nat.eqb (d - v) 0).
  { assert (X : (do w2 <- JanetModel.walk dbg v0 (S var) nv; Ok (Node dg (Some w2) nd nv)) = Ok r).
    { destruct v1; [destruct dbg; [discriminate|exact E]|exact E]. }
    bnd X. injection X as <-. apply walk_more in Ev2. rewrite wraps_node. cbn [ol]. assert (L := g_len _ _ (g_F2 _ _ M2)). rewrite !app_length. cbn [length].
    split; [lia|]. intro Le. assert (Z : ol ow = []) by (destruct (ol ow); [reflexivity|cbn [length] in *; lia]). rewrite Z. cbn [app].
    constructor; [eapply more_trans; eassumption|apply g_refl]. }
  bnd E. assert (M3 : Forall2 more (ol v1) (ol v2)).
  { destruct (is_nil nv); [|injection Ev2 as <-; apply all_more]. destruct v1 as [u|]; [|destruct dbg; discriminate]. bnd Ev2. eapply opt_ol. exact Ev2. }
  bnd E. injection E as <-. apply IHv in Ev3 as [A B]. rewrite wraps_node. apply g_F2 in M2, M3. assert (L2 := g_len _ _ M2). assert (L3 := g_len _ _ M3).
  rewrite !app_length in *. split; [lia|]. intro Le.
  eapply g_trans; [apply g_perm; apply Permutation_middle|]. apply g_app; [eapply g_trans; eassumption|].
  change (w :: wraps nv ++ wraps nd) with ((w :: wraps nv) ++ wraps nd). apply g_app_r. eapply g_src; [exact M1|]. apply B. lia.
Qed.
Lemma insert_grows dbg J w J' : insert dbg J w = Ok J' -> jsize J' = S (jsize J) /\
  (length (wraps (jroot J')) <= S (length (wraps (jroot J))))%nat /\
  (length (wraps (jroot J')) = S (length (wraps (jroot J))) -> grows (w :: wraps (jroot J)) (wraps (jroot J'))).
Proof.
  unfold insert. intro E. bnd E. destruct v; [discriminate|]. bnd E.
  assert (X : J' = JT (S (jsize J)) v).
  { destruct dbg; [|injection E as <-; reflexivity]. bnd E. destruct v0; [|discriminate]. apply assert_inv in E. injection E as <-. reflexivity. }
  subst J'. cbn [jsize jroot]. split; [reflexivity|]. unfold ins_root in Ev0. destruct (jroot J) as [|dg ow nd nv].
  - apply build_at_wraps in Ev0. rewrite Ev0. cbn [wraps length]. split; [lia|]. intros _. apply g_refl.
  - eapply ins_loop_grows. exact Ev0.
Qed.

(* ------------------------------------------------------------------------------------------ *)
(** * The trees of an object *)

Definition L (js : list janet) : list wrap := concat (map (fun J => wraps (jroot J)) js).
Fixpoint sz (js : list janet) : nat := match js with [] => 0 | J :: js' => (jsize J + sz js')%nat end.

Fixpoint apart (l : list monom) : Prop :=
  match l with [] => True | m :: l' => Forall (fun k => same_key m k = false) l' /\ apart l' end.

Lemma eqv_refl a : eqv a a = true.
Proof. induction a as [|x a IH]; cbn [eqv]; [reflexivity|]. rewrite Nat.eqb_refl. exact IH. Qed.
Lemma eqv_sym : forall a b, eqv a b = eqv b a.
Proof. induction a as [|x a IH]; intros [|y b]; cbn [eqv]; try reflexivity. rewrite Nat.eqb_sym, IH. reflexivity. Qed.
Lemma key_refl m : same_key m m = true.
Proof. unfold same_key. rewrite Z.eqb_refl, eqv_refl. reflexivity. Qed.
Lemma key_sym a b : same_key a b = same_key b a.
Proof. unfold same_key. rewrite Z.eqb_sym, eqv_sym. reflexivity. Qed.
Lemma apart_perm l l' : Permutation l l' -> apart l -> apart l'.
Proof.
  induction 1 as [|x l l' P IH|x y l|l l' l'' A IH A' IH']; cbn [apart]; auto.
  - intros [F A]. split; [eapply Permutation_Forall; eassumption|auto].
  - intros [F [F' A]]. inversion F; subst. split; [constructor; [rewrite key_sym; assumption|assumption]|]. split; assumption.
Qed.
Lemma apart_app a x b : apart (a ++ x :: b) -> (forall y, In y a \/ In y b -> same_key y x = false) /\ apart (a ++ b).
Proof.
  intro H. apply (apart_perm _ (x :: a ++ b)) in H; [|apply Permutation_sym, Permutation_middle]. destruct H as [F A]. split; [|exact A].
  intros y Iy. rewrite key_sym. rewrite Forall_forall in F. apply F. apply in_or_app. exact Iy.
Qed.

Definition small (js : list janet) : Prop := (length (L js) <= sz js)%nat.
Definition sound (js : list janet) : Prop := sz js = length (L js) /\ apart (map wlm (L js)).

(** What is kept. *)
Definition above (w : wrap) : Prop :=
  pos (wanc w) = pos (wlm w) /\ length (vars (wanc w)) = length (vars (wlm w)) /\ forall i, (expo (vars (wanc w)) i <= expo (vars (wlm w)) i)%nat.
Definition flags (w : wrap) : Prop := forall i, nth i (wbuild w) false = true -> nth i (wnm w) false = true.
Definition rooted (l : list wrap) (w : wrap) : Prop := exists x, In x l /\ wlm x = wanc w /\ wanc x = wanc w.
Definition fine (l : list wrap) (w : wrap) : Prop := above w /\ flags w /\ (wanc w = wlm w \/ rooted l w).
Definition Inv (js : list janet) (q : list wpoly) : Prop :=
  (forall w, In w (L js) -> above w /\ flags w /\ rooted (L js) w) /\ forall u, In u q -> fine (L js) (wwrap u).

Lemma Inv_sub js q q' : wsub q' q -> Inv js q -> Inv js q'.
Proof.
  intros S [A B]. split; [exact A|]. intros u Iu. assert (X : In (wwrap u) (map wwrap q)) by (apply S; apply in_map; exact Iu).
  apply in_map_iff in X as (v & <- & Iv). apply B. exact Iv.
Qed.
Lemma Inv_app js a b : Inv js (a ++ b) -> Inv js a /\ Inv js b.
Proof. intro H. split; eapply Inv_sub; try exact H; apply wsub_incl; [apply incl_appl|apply incl_appr]; apply incl_refl. Qed.
Lemma Inv_more js u q : Inv js q -> fine (L js) (wwrap u) -> Inv js (u :: q).
Proof. intros [A B] X. split; [exact A|]. intros v [<-|Iv]; auto. Qed.

Lemma more_above u u' : more u u' -> above u -> above u'.
Proof. intros (A & B & _ & _). unfold above. rewrite A, B. auto. Qed.
Lemma more_flags u u' : more u u' -> flags u -> flags u'.
Proof. intros (_ & _ & C & D) F i X. rewrite C in X. auto. Qed.
Lemma rooted_to l l' w : (forall x, In x l -> exists x', In x' l' /\ wlm x' = wlm x /\ wanc x' = wanc x) -> rooted l w -> rooted l' w.
Proof. intros T (x & Ix & E1 & E2). destruct (T x Ix) as (x' & I' & F1 & F2). exists x'. repeat split; congruence. Qed.
Lemma rooted_eq l u u' : wanc u' = wanc u -> rooted l u -> rooted l u'.
Proof. intros E (x & Ix & E1 & E2). exists x. rewrite E. auto. Qed.

Lemma false_flag m i : nth i (repeat false m) false = true -> False.
Proof. revert i. induction m as [|m IH]; intros [|i]; cbn; try discriminate. apply IH. Qed.
Lemma fine_new l m : fine l (new_wrap m).
Proof.
  split; [|split].
  - repeat split; auto.
  - intros i X. cbn [new_wrap wbuild] in X. apply false_flag in X. destruct X.
  - left. reflexivity.
Qed.
Lemma fine_update l w m : fine l w -> fine l (update w m).
Proof. unfold update. destruct (lex (wlm w) m =? 0); [auto|]. intros _. apply (fine_new l m). Qed.

(** A wrap enters a tree. *)
Definition put (js : list janet) (k : nat) (J : janet) : list janet := firstn k js ++ J :: skipn (S k) js.
Lemma split_at {A} (l : list A) k x : nth_error l k = Some x -> l = firstn k l ++ x :: skipn (S k) l.
Proof. revert k; induction l as [|y l IH]; intros [|k] E; cbn in *; try discriminate; [congruence|]. f_equal. apply IH. exact E. Qed.
Lemma L_app a b : L (a ++ b) = L a ++ L b.
Proof. unfold L. rewrite map_app, concat_app. reflexivity. Qed.
Lemma sz_app a b : sz (a ++ b) = (sz a + sz b)%nat.
Proof. induction a; cbn [app sz]; lia. Qed.

Lemma put_step dbg js k J w J' : nth_error js k = Some J -> insert dbg J w = Ok J' ->
  (small js -> small (put js k J')) /\
  (small js -> sound (put js k J') -> sound js /\ grows (w :: L js) (L (put js k J'))).
Proof.
  intros Ek E. destruct (insert_grows dbg J w J' E) as (S1 & L1 & G1). assert (Es := split_at js k J Ek).
  remember (firstn k js) as a eqn:Ea. remember (skipn (S k) js) as b eqn:Eb. unfold put. rewrite <- Ea, <- Eb. clear Ea Eb Ek.
  assert (E1 : L js = L a ++ wraps (jroot J) ++ L b) by (rewrite Es, L_app; reflexivity).
  assert (E2 : sz js = (sz a + (jsize J + sz b))%nat) by (rewrite Es, sz_app; reflexivity).
  assert (E3 : L (a ++ J' :: b) = L a ++ wraps (jroot J') ++ L b) by (rewrite L_app; reflexivity).
  assert (E4 : sz (a ++ J' :: b) = (sz a + (jsize J' + sz b))%nat) by (rewrite sz_app; reflexivity).
  unfold small, sound. rewrite E1, E2, E3, E4. rewrite !app_length. rewrite S1. split; [lia|]. intros Sm [Le Ap].
  assert (G : grows (w :: L a ++ wraps (jroot J) ++ L b) (L a ++ wraps (jroot J') ++ L b)).
  { eapply g_trans; [apply g_perm, Permutation_middle|]. apply g_app_l. change (w :: wraps (jroot J) ++ L b) with ((w :: wraps (jroot J)) ++ L b). apply g_app_r. apply G1. lia. }
  split; [|exact G]. split; [lia|]. apply g_lms in G. apply Permutation_sym in G. apply (apart_perm _ _ G) in Ap. cbn [map apart] in Ap. apply Ap.
Qed.
Lemma Inv_put js js' u w q m : w = update (wwrap u) m -> grows (w :: L js) (L js') -> Inv js (u :: q) -> Inv js' q.
Proof.
  intros Ew G [A B]. assert (Fw : fine (L js) w) by (rewrite Ew; apply fine_update; apply B; left; reflexivity).
  assert (To : forall x, In x (L js) -> exists x', In x' (L js') /\ wlm x' = wlm x /\ wanc x' = wanc x).
  { intros x Ix. destruct (g_to _ _ G x (or_intror Ix)) as (x' & I' & M1 & M2 & _). exists x'. auto. }
  split.
  - intros x' I'. destruct (g_back _ _ G x' I') as (x & [<-|Ix] & M).
    + destruct Fw as (F1 & F2 & F3). split; [eapply more_above; eassumption|]. split; [eapply more_flags; eassumption|]. apply (rooted_eq _ w); [apply M|].
      destruct F3 as [F3|F3]; [|eapply rooted_to; eassumption]. destruct (g_to _ _ G w (or_introl eq_refl)) as (y & Iy & M1 & M2 & _). exists y. repeat split; congruence.
    + destruct (A x Ix) as (A1 & A2 & A3). split; [eapply more_above; eassumption|]. split; [eapply more_flags; eassumption|].
      apply (rooted_eq _ x); [apply M|eapply rooted_to; eassumption].
  - intros v Iv. destruct (B v (or_intror Iv)) as (B1 & B2 & B3). split; [exact B1|]. split; [exact B2|]. destruct B3 as [B3|B3]; [left; exact B3|right; eapply rooted_to; eassumption].
Qed.

Lemma tree_at_nth dbg js p J : tree_at dbg js p = Ok J -> nth_error js (Z.to_nat (p + 1)) = Some J.
Proof.
  unfold tree_at, oob. destruct (p <? -1); [destruct dbg; discriminate|]. destruct (nth_error js _); [|destruct dbg; discriminate]. intro E. injection E as ->. reflexivity.
Qed.
(** From js and q to js' and q'. *)
Definition keeps (js : list janet) (q : list wpoly) (js' : list janet) (q' : list wpoly) : Prop :=
  small js -> small js' /\ (sound js' -> sound js /\ (Inv js q -> Inv js' q')).
Lemma keeps_trans a qa b qb c qc : keeps a qa b qb -> keeps b qb c qc -> keeps a qa c qc.
Proof.
  intros H1 H2 S. destruct (H1 S) as [S1 X1]. destruct (H2 S1) as [S2 X2]. split; [exact S2|]. intro So. destruct (X2 So) as [So1 I2]. destruct (X1 So1) as [So0 I1]. split; [exact So0|auto].
Qed.
Lemma keeps_sub js q q' : wsub q' q -> keeps js q js q'.
Proof. intros S Sm. split; [exact Sm|]. intro So. split; [exact So|]. apply Inv_sub. exact S. Qed.

Lemma enter_keeps dbg : forall l q js js' new, enter dbg js l = Ok (js', new) -> keeps js (l ++ q) js' q.
Proof.
  induction l as [|u l IH]; intros q js js' new E; cbn [enter] in E; [injection E as <- _; apply keeps_sub, wsub_refl|]. bnd E. bnd E. bnd E. bnd E. bnd E. destruct v3 as [js1 e1].
  cbn [fst snd] in E. injection E as <- <-. apply (IH q) in Ev3. eapply keeps_trans; [|exact Ev3]. intro Sm.
  apply tree_at_nth in Ev1. destruct (put_step dbg js _ v1 _ v2 Ev1 Ev2) as [P1 P2]. split; [apply P1; exact Sm|]. intro So. destruct (P2 Sm So) as [P3 P4]. split; [exact P3|].
  intro I. eapply Inv_put; [reflexivity|exact P4|exact I].
Qed.
Lemma enter_w_keeps dbg js u js' w q : enter_w dbg js u = Ok (js', w) -> keeps js (u :: q) js' q.
Proof.
  unfold enter_w. intro E. bnd E. bnd E. bnd E. injection E as <- <-. intro Sm. apply tree_at_nth in Ev0. destruct (put_step dbg js _ v0 _ v1 Ev0 Ev1) as [P1 P2].
  split; [apply P1; exact Sm|]. intro So. destruct (P2 Sm So) as [P3 P4]. split; [exact P3|]. intro I. eapply Inv_put; [reflexivity|exact P4|exact I].
Qed.

(* ------------------------------------------------------------------------------------------ *)
(** * prolong *)

Lemma wraps_upd f m r : wraps (upd_tree f m r) = map (fun u => if same_key (wlm u) m then f u else u) (wraps r).
Proof.
  induction r as [|d ow nd IH1 nv IH2]; cbn [upd_tree]; [reflexivity|]. rewrite !wraps_node, !map_app, IH1, IH2. destruct ow as [u|]; reflexivity.
Qed.
Lemma L_upd f m js : L (upd_trees f m js) = map (fun u => if same_key (wlm u) m then f u else u) (L js).
Proof.
  unfold L, upd_trees. rewrite map_map. cbn [jroot]. induction js as [|J js IH]; cbn [map concat]; [reflexivity|]. rewrite map_app, wraps_upd, IH. reflexivity.
Qed.
Lemma sz_upd f m js : sz (upd_trees f m js) = sz js.
Proof. induction js as [|J js IH]; cbn [upd_trees map sz jsize]; [reflexivity|]. unfold upd_trees in IH. rewrite IH. reflexivity. Qed.

Lemma store_step js w w' : In w (L js) -> wlm w' = wlm w -> let js' := upd_trees (fun _ => w') (wlm w) js in
  (small js -> small js') /\ In w' (L js') /\ (sound js' -> sound js /\ exists a b, L js = a ++ w :: b /\ L js' = a ++ w' :: b).
Proof.
  intros I E js'. unfold small, sound. unfold js'. rewrite sz_upd, L_upd, map_length. split; [auto|]. split.
  - apply in_map_iff. exists w. rewrite key_refl. auto.
  - intros [Sz Ap]. apply in_split in I as (a & b & El). rewrite El in *. rewrite map_app in Ap. cbn [map] in Ap. rewrite key_refl in Ap. rewrite map_app in Ap. cbn [map] in Ap.
    assert (X := Ap). apply apart_app in X as [X _].
    assert (Id : forall l, (forall u, In u l -> In u a \/ In u b) -> map (fun u => if same_key (wlm u) (wlm w) then w' else u) l = l).
    { intros l H. rewrite <- (map_id l) at 2. apply map_ext_in. intros u Iu. destruct (same_key (wlm u) (wlm w)) eqn:K; [|reflexivity]. exfalso.
      assert (Y : same_key (wlm w') (wlm w') = false); [|rewrite key_refl in Y; discriminate]. apply X.
      destruct (H u Iu) as [Ia|Ib]; [left|right]; apply in_map; apply in_map_iff; exists u; rewrite K; auto. }
    split.
    + split; [exact Sz|]. rewrite (Id a), (Id b) in Ap by auto. rewrite map_app. cbn [map]. rewrite <- E. exact Ap.
    + exists a, b. split; [reflexivity|]. rewrite map_app. cbn [map]. rewrite key_refl. rewrite (Id a), (Id b) by auto. reflexivity.
Qed.
Lemma Inv_store js js' q w w' a b : L js = a ++ w :: b -> L js' = a ++ w' :: b -> wlm w' = wlm w -> wanc w' = wanc w -> flags w' -> Inv js q -> Inv js' q.
Proof.
  intros E E' Em Ea Fl [A B].
  assert (To : forall x, In x (L js) -> exists x', In x' (L js') /\ wlm x' = wlm x /\ wanc x' = wanc x).
  { intros x Ix. rewrite E in Ix. rewrite E'. apply in_app_or in Ix as [Ix|[<-|Ix]]; [exists x|exists w'|exists x]; (split; [|auto]); apply in_or_app; cbn [In]; auto. }
  assert (Ow : In w (L js)) by (rewrite E; apply in_or_app; right; left; reflexivity).
  split.
  - intros x Ix. assert (X : x = w' \/ In x (L js)). { rewrite E' in Ix. rewrite E. apply in_app_or in Ix as [Ix|[<-|Ix]]; [right|left|right]; auto; apply in_or_app; cbn [In]; auto. }
    destruct X as [->|X].
    + destruct (A w Ow) as (A1 & A2 & A3). split; [unfold above in *; rewrite Em, Ea; exact A1|]. split; [exact Fl|]. apply (rooted_eq _ w); [exact Ea|eapply rooted_to; eassumption].
    + destruct (A x X) as (A1 & A2 & A3). split; [exact A1|]. split; [exact A2|eapply rooted_to; eassumption].
  - intros v Iv. destruct (B v Iv) as (B1 & B2 & B3). split; [exact B1|]. split; [exact B2|]. destruct B3 as [B3|B3]; [left; exact B3|right; eapply rooted_to; eassumption].
Qed.

Lemma get_flag_nth dbg l i : get_flag dbg l i = Ok true -> nth i l false = true.
Proof. unfold get_flag, oob. destruct (nth_error l i) as [b|] eqn:E; [|destruct dbg; discriminate]. intro X. injection X as ->. apply nth_error_nth. exact E. Qed.
Lemma set_build_ok dbg w k w' : set_build dbg w k = Ok w' -> nth k (wnm w) false = true -> wlm w' = wlm w /\ wanc w' = wanc w /\ (flags w -> flags w').
Proof.
  unfold set_build. destruct (set_at (wbuild w) k) as [l|] eqn:E; [|unfold oob; destruct dbg; discriminate]. intros X N. injection X as <-. cbn [wlm wanc]. split; [reflexivity|]. split; [reflexivity|].
  intros F i Hi. cbn [wbuild wnm] in *. destruct (set_at_only _ _ _ E i Hi) as [->|Y]; [exact N|apply F; exact Y].
Qed.
Lemma incr_expo : forall l k i, (expo l i <= expo (incr k l) i)%nat.
Proof. induction l as [|x l IH]; intros [|k] [|i]; cbn [incr expo nth]; try lia. apply IH. Qed.
Lemma incr_len : forall l k, length (incr k l) = length l.
Proof. induction l as [|x l IH]; intros [|k]; cbn [incr length]; auto. Qed.

Lemma prolong_fine dbg k w v w' l : prolong_wrap dbg k w = Ok (v, w') -> above w -> rooted l w -> fine l v.
Proof.
  unfold prolong_wrap. intros E A R. bnd E. bnd E. bnd E. apply assert_inv in E. bnd E. injection E as <- <-. split; [|split].
  - destruct A as (A1 & A2 & A3). unfold above. cbn [wanc wlm mul_var pos vars]. split; [exact A1|]. split; [rewrite incr_len; exact A2|].
    intro i. assert (X := A3 i). assert (Y := incr_expo (vars (wlm w)) k i). lia.
  - intros i X. cbn [wbuild] in X. apply false_flag in X. destruct X.
  - right. destruct R as (x & Ix & E1 & E2). exists x. auto.
Qed.
Lemma prolong_old dbg k w v w' : prolong_wrap dbg k w = Ok (v, w') -> set_build dbg w k = Ok w'.
Proof. unfold prolong_wrap. intro E. bnd E. bnd E. bnd E. apply assert_inv in E. bnd E. injection E as _ <-. reflexivity. Qed.

Lemma jp_prolong_keeps dbg mpos p : forall cnt k js w q js' q', In w (L js) -> jp_prolong dbg mpos cnt k js w p q = Ok (js', q') -> keeps js q js' q'.
Proof.
  induction cnt as [|cnt IH]; intros k js w q js' q' Iw E; cbn [jp_prolong] in E; [injection E as <- <-; apply keeps_sub, wsub_refl|]. bnd E. bnd E.
  destruct v; [destruct v0|]; cbn [andb negb] in E; [eapply IH; eassumption| |eapply IH; eassumption]. apply get_flag_nth in Ev. bnd E.
  match type of E with (if ?c then _ else _) = _ => destruct c end.
  - bnd E. destruct (set_build_ok dbg w k v0 Ev2 Ev) as (Em & Ea & Fl). destruct (store_step js w v0 Iw Em) as (S1 & S2 & S3). cbv zeta in S1, S2, S3.
    eapply keeps_trans; [|eapply IH; [exact S2|exact E]]. intro Sm. split; [apply S1; exact Sm|]. intro So. destruct (S3 So) as (So' & a & b & E1 & E2). split; [exact So'|]. intro In0.
    apply (Inv_store js _ q w v0 a b E1 E2 Em Ea); [|exact In0]. apply Fl. apply In0. exact Iw.
  - bnd E. destruct v0 as [nw w']. bnd E. bnd E. assert (Eb := prolong_old _ _ _ _ _ Ev2). destruct (set_build_ok dbg w k w' Eb Ev) as (Em & Ea & Fl).
    destruct (store_step js w w' Iw Em) as (S1 & S2 & S3). cbv zeta in S1, S2, S3.
    eapply keeps_trans; [|eapply IH; [exact S2|exact E]]. intro Sm. split; [apply S1; exact Sm|]. intro So. destruct (S3 So) as (So' & a & b & E1 & E2). split; [exact So'|]. intro In0.
    apply jp_insert_perm in Ev4. assert (In1 : Inv js (WP nw v0 :: q)).
    { apply Inv_more; [exact In0|]. cbn [wwrap]. destruct In0 as [A _]. destruct (A w Iw) as (A1 & A2 & A3). eapply prolong_fine; eassumption. }
    apply (Inv_sub _ _ v1) in In1; [|apply wsub_perm; exact Ev4]. apply (Inv_store js _ v1 w w' a b E1 E2 Em Ea); [|exact In1]. apply Fl. apply In0. exact Iw.
Qed.
Lemma get_wrap_in js m w : get_wrap js m = Some w -> In w (L js).
Proof. unfold get_wrap. intro E. apply find_some in E. apply E. Qed.
Lemma prolong_if_keeps dbg mpos dg js e q r : prolong_if dbg mpos dg js e q = Ok r -> keeps js q (fst r) (snd r).
Proof.
  unfold prolong_if, prolong_entry. destruct (deg (fst e) <=? dg)%nat; [|intro E; injection E as <-; apply keeps_sub, wsub_refl].
  destruct (get_wrap js (fst e)) as [w|] eqn:Ew; [|discriminate]. destruct r as [js' q']. apply jp_prolong_keeps. eapply get_wrap_in. exact Ew.
Qed.

(* ------------------------------------------------------------------------------------------ *)
(** * The rounds *)

Lemma merge_loop_keeps dbg fuel mpos dg : forall cnt js q d j k js' q' T', merge_loop cnt fuel dbg mpos dg js q d j k = Ok (js', q', T') -> keeps js q js' q'.
Proof.
  induction cnt as [|cnt IH]; intros js q d j k js' q' T' E; cbn [merge_loop] in E.
  { destruct j; [destruct k|]; try discriminate. injection E as <- <- _. apply keeps_sub, wsub_refl. }
  assert (Put : forall e j' k', (do b <- (if dbg then p_isNf (find_poly dbg mpos (Some js) (d ++ j ++ k)) (snd e) else Ok true);
      assert_ dbg b (do r <- prolong_if dbg mpos dg js e q; merge_loop cnt fuel dbg mpos dg (fst r) (snd r) (d ++ [e]) j' k')) = Ok (js', q', T') -> keeps js q js' q').
  { intros e j' k' X. bnd X. apply assert_inv in X. bnd X. eapply keeps_trans; [eapply prolong_if_keeps; exact Ev0|eapply IH; exact X]. }
  assert (Redu : forall e k', (do e' <- tail_reduce fuel dbg mpos js (d ++ j ++ k') e; do r <- prolong_if dbg mpos dg js e' q;
      merge_loop cnt fuel dbg mpos dg (fst r) (snd r) (d ++ [e']) j k') = Ok (js', q', T') -> keeps js q js' q').
  { intros e k' X. bnd X. bnd X. eapply keeps_trans; [eapply prolong_if_keeps; exact Ev0|eapply IH; exact X]. }
  destruct j as [|e j'], k as [|e' k'].
  - injection E as <- <- _. apply keeps_sub, wsub_refl.
  - eapply Redu. exact E.
  - eapply Put. exact E.
  - bnd E. destruct (v <? 0); [eapply Put; exact E|eapply Redu; exact E].
Qed.
Lemma walk_keeps dbg fuel mpos dg : forall cnt js q d w k js' q' T', walk cnt fuel dbg mpos dg js q d w k = Ok (js', q', T') -> keeps js q js' q'.
Proof.
  induction cnt as [|cnt IH]; intros js q d w k js' q' T' E; cbn [walk] in E.
  { destruct w; [discriminate|destruct k; [|discriminate]]. injection E as <- <- _. apply keeps_sub, wsub_refl. }
  assert (Redu : forall e w' k', (do e' <- tail_reduce fuel dbg mpos js (d ++ match w' with Some x => [x] | None => [] end ++ k') e; do r <- prolong_if dbg mpos dg js e' q;
      walk cnt fuel dbg mpos dg (fst r) (snd r) (d ++ [e']) w' k') = Ok (js', q', T') -> keeps js q js' q').
  { intros e w' k' X. bnd X. bnd X. eapply keeps_trans; [eapply prolong_if_keeps; exact Ev0|eapply IH; exact X]. }
  destruct w as [e|], k as [|e' k'].
  - eapply Redu. exact E.
  - bnd E. destruct (v <? 0); eapply Redu; exact E.
  - injection E as <- <- _. apply keeps_sub, wsub_refl.
  - eapply Redu. exact E.
Qed.

(** What a call gives. *)
Definition gives (js : list janet) (q : list wpoly) (J' : jpoly) : Prop :=
  jone J' = None -> exists js', jtrees J' = Some js' /\ keeps js q js' (jq J').

Lemma gives_keeps a qa b qb J' : keeps a qa b qb -> gives b qb J' -> gives a qa J'.
Proof. intros K H O. destruct (H O) as (js' & E & X). exists js'. split; [exact E|]. eapply keeps_trans; eassumption. Qed.

Lemma set_one_gives dbg t o n mpos js q J' : set_one dbg t o n mpos = Ok J' -> gives js q J'.
Proof. unfold set_one. intro E. bnd E. bnd E. injection E as <-. intro O. discriminate. Qed.

Lemma block_tq_gives dbg mpos : forall fuel js q T J', block_tq fuel dbg mpos js q T = Ok J' -> gives js q J'.
Proof.
  assert (Nl : forall js T, gives js [] (JP None [] T mpos (Some js))).
  { intros js T _. exists js. split; [reflexivity|apply keeps_sub, wsub_refl]. }
  induction fuel as [|fuel IH]; intros js q T J' E; destruct q as [|u q]; cbn [block_tq] in E; try discriminate.
  1,2: injection E as <-; apply Nl.
  bnd E. bnd E. destruct v0 as [[q1 tmp]|]; [|eapply set_one_gives; exact E]. apply assert_inv in E. apply take_block_sub in Ev0. rewrite app_nil_r in Ev0.
  destruct tmp as [|w tmp].
  - rewrite app_nil_r in Ev0. eapply gives_keeps; [apply keeps_sub; exact Ev0|eapply IH; exact E].
  - bnd E. destruct v0 as [[tmp2 q2] dg]. bnd E. destruct v0 as [js2 new]. bnd E. destruct v0 as [[js3 q3] t3]. bnd E. apply assert_inv in E.
    apply block_loop_sub in Ev1. apply (enter_keeps dbg tmp2 q2) in Ev2. apply merge_loop_keeps in Ev3.
    eapply gives_keeps; [|eapply IH; exact E]. eapply keeps_trans; [|exact Ev3]. eapply keeps_trans; [|exact Ev2]. apply keeps_sub.
    eapply wsub_trans; [exact Ev1|]. eapply wsub_trans; [|exact Ev0]. apply wsub_perm. apply Permutation_app_comm.
Qed.

Lemma tq_loop_gives one dbg mpos : forall fuel js q T J', tq_loop one fuel dbg mpos js q T = Ok J' -> gives js q J'.
Proof.
  assert (Nl : forall js T, gives js [] (JP None [] T mpos (Some js))).
  { intros js T _. exists js. split; [reflexivity|apply keeps_sub, wsub_refl]. }
  induction fuel as [|fuel IH]; intros js q T J' E; destruct q as [|u q]; cbn [tq_loop] in E; try discriminate.
  1,2: injection E as <-; apply Nl.
  cbv zeta in E. bnd E. bnd E. destruct v0 as [[q1 tmp]|]; [|eapply set_one_gives; exact E]. apply assert_inv in E. apply take_tq_sub in Ev0. rewrite app_nil_r in Ev0.
  destruct tmp as [|w0 tmp].
  - rewrite app_nil_r in Ev0. eapply gives_keeps; [apply keeps_sub; exact Ev0|eapply IH; exact E].
  - bnd E. bnd E. destruct v1 as [eqs rest]. apply same_lm_app in Ev2. subst tmp. bnd E. bnd E.
    assert (E1 : wwrap v1 = wwrap w0) by (destruct one; [bnd Ev2; injection Ev2 as <-; reflexivity|injection Ev2 as <-; reflexivity]).
    assert (E2 : map wwrap v2 = map wwrap eqs) by (destruct one; [eapply tails_wraps; exact Ev3|injection Ev3 as <-; reflexivity]).
    assert (Sm := swap_min_perm v2 v1). destruct (swap_min v1 v2) as [w eqs2].
    assert (Sw : wsub (w :: eqs2 ++ rest ++ q1) (u :: q)).
    { eapply wsub_trans; [|exact Ev0]. eapply wsub_trans with (b := (v1 :: v2) ++ rest ++ q1); [apply wsub_perm; change (w :: eqs2 ++ rest ++ q1) with ((w :: eqs2) ++ rest ++ q1); rewrite Sm; reflexivity|].
      eapply wsub_trans with (b := (w0 :: eqs) ++ rest ++ q1); [apply wsub_app; [apply wsub_cons; [exact E1|apply wsub_map; exact E2]|apply wsub_refl]|].
      apply wsub_perm. change (w0 :: eqs ++ rest) with ((w0 :: eqs) ++ rest). rewrite app_assoc. apply Permutation_app_comm. }
    destruct (one && negb (length eqs2 =? 0)%nat).
    + bnd E. bnd E. bnd E. apply assert_inv in E. apply red_eq_sub in Ev4. apply jp_insert_perm in Ev5. apply insert_all_perm in Ev6.
      eapply gives_keeps; [|eapply IH; exact E]. apply keeps_sub. eapply wsub_trans; [|exact Sw]. eapply wsub_trans; [apply wsub_perm; exact Ev6|].
      eapply wsub_trans with (b := v3 ++ w :: rest ++ q1); [apply wsub_perm; rewrite Ev5; reflexivity|].
      eapply wsub_trans with (b := eqs2 ++ w :: rest ++ q1); [apply wsub_app; [exact Ev4|apply wsub_refl]|]. apply wsub_perm. symmetry. apply Permutation_middle.
    + cbv zeta in E. apply assert_inv in E. bnd E. destruct v3 as [js2 w']. apply (enter_w_keeps dbg js w js2 w' ((eqs2 ++ rest) ++ q1)) in Ev4.
      bnd E. destruct v3 as [[js3 q3] t3]. bnd E. apply assert_inv in E. eapply gives_keeps; [|eapply IH; exact E].
      eapply keeps_trans; [apply keeps_sub; exact Sw|]. rewrite app_assoc. eapply keeps_trans; [exact Ev4|].
      destruct T; [injection Ev5 as <- <- _; apply keeps_sub, wsub_refl|]. eapply walk_keeps. exact Ev5.
Qed.
