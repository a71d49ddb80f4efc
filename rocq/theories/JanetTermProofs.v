(** The loops of JanetPolyInt end, as long as the basis does not grow forever. *)
From Coq Require Import ZArith List Bool Arith Lia Permutation Sorted Relations Wellfounded.
From Verif Require Import Outcome MonomModel MonomSpec MonomProofs PolyModel PolySpec PolyProofs PolyRedProofs PolyNfProofs
  PolyTopProofs JanetModel JanetSpec JanetProofs JanetFindProofs JanetPolyModel TQModel JanetPolySpec IdealProofs JanetPolyProofs
  TQProofs MultisetProofs GrowthProofs JanetTermSpec.
Import ListNotations.
Local Open Scope Z_scope.

(* ------------------------------------------------------------------------------------------ *)
(** * Calls that end *)

Lemma ends_ok {A} (x : A) : ends (fun _ => Ok x).
Proof. exists 0%nat, x. reflexivity. Qed.
Lemma ends_bind {A B} (f : nat -> outcome A) (g : nat -> A -> outcome B) :
  ends f -> (forall N x, (forall fuel, (N <= fuel)%nat -> f fuel = Ok x) -> ends (fun k => g k x)) -> ends (fun k => bind (f k) (g k)).
Proof.
  intros (N & x & H) K. destruct (K N x H) as (M & y & L). exists (Nat.max N M), y. intros fuel Hf. rewrite H by lia. cbn [bind]. apply L. lia.
Qed.
Lemma ends_ext {A} (f g : nat -> outcome A) : (forall k, g k = f k) -> ends f -> ends g.
Proof. intros E (N & x & H). exists N, x. intros k Hk. rewrite E. auto. Qed.
Lemma ends_S {A} (f : nat -> outcome A) : ends (fun k => f (S k)) -> ends f.
Proof. intros (N & x & H). exists (S N), x. intros [|k] Hk; [lia|]. apply H. lia. Qed.
Lemma ends_S' {A} (f : nat -> outcome A) : ends f -> ends (fun k => f (S k)).
Proof. intros (N & x & H). exists N, x. intros k Hk. apply H. lia. Qed.
Lemma ends_safe {A B} (P : A -> Prop) (f : nat -> outcome A) (g : nat -> A -> outcome B) :
  ends f -> (forall k, safe P (f k)) -> (forall x, P x -> ends (fun k => g k x)) -> ends (fun k => bind (f k) (g k)).
Proof.
  intros E S K. apply ends_bind; [exact E|]. intros N x H. apply K. specialize (S N). rewrite H in S by lia. exact S.
Qed.

Section P.
Variables (t : pos_order) (o : base_order) (n : nat) (G : list term -> Prop).
Hypothesis (Hn : (0 < n)%nat) (Ho : o <> OAlex).

Notation good := (good t o n G).
Notation goodz := (goodz t o n G).
Notation okq := (okq t o n G).
Notation okt := (okt t o n G).
Notation tinv := (tinv t o n G).
Notation gw := (gw t o n G).
Notation GT := (GT n G).
Notation le := (le t o).
Notation lt := (lt t o).
Notation find1 J T := (find_poly false (-1) (Some [J]) T).
Notation MR := (MonomProofs.mlt t o n).

Lemma p_nf_ends SS find p : good_find false t o n SS find -> goodz p -> ends (fun k => p_nf k false find p).
Proof.
  intros F (V & I & _). destruct (nf_terminates false t o n SS find F Ho p V I) as (N & r & k & H). exists N, (r, (0 + k)%nat).
  intros fuel Hf. apply H. exact Hf.
Qed.
Lemma p_nft_ends SS find find' p lm : good_find false t o n SS find -> good p -> hd p lm ->
  (forall m, mono n m -> cmp1 t o lm m = 1 -> find' m = find m) -> ends (fun k => p_nfTail k false find' p).
Proof.
  intros F [(V & I & _) _] (c & l & El) E. unfold p_nfTail. rewrite El.
  assert (V' : pvalid (with_terms p ([(lm, c)] ++ l))) by (cbn [app]; rewrite <- El, (with_same); exact V).
  destruct (nft_terminates false t o n SS find F Ho p [(lm, c)] l V' I) as (N & r & k & H). exists N, (r, (0 + k)%nat).
  intros fuel Hf. rewrite (nft_ext t o n SS find find' lm F E fuel p [(lm, c)] l 0%nat V' I eq_refl). apply H. exact Hf.
Qed.

(* ------------------------------------------------------------------------------------------ *)
(** * algorithmBlockTQ *)

Lemma take_block_ends J T dg : tinv J T -> forall q tmp, Forall okq q -> Forall (okt J) tmp -> StronglySorted le tmp ->
  ends (fun k => take_block k false (find1 J T) dg q tmp).
Proof.
  intro H. assert (GF := good_find_T t o n G Hn J T H).
  induction q as [|u q IH]; intros tmp Q Tm S; cbn [take_block]; [apply ends_ok|].
  assert (Hu := Forall_inv Q). assert (Q' := Forall_inv_tail Q). rewrite (lm_plm t o n G false u (proj1 Hu)). cbn [bind].
  destruct (deg (plm u) <=? dg)%nat; [|apply ends_ok].
  eapply ends_safe; [eapply p_nf_ends; [exact GF|apply Hu]|intro k; apply (nf_safe t o n G Hn (GT T) (GT_GM n G T) _ k (wpol u) GF); apply Hu|].
  intros [p c0] (Gp & _ & Dp). cbn [fst] in *. destruct (is_zero p) eqn:Zp; [apply IH; assumption|].
  destruct Dp as [Dp|(m & Hm & Fm)]; [unfold is_zero in Zp; rewrite Dp in Zp; discriminate|].
  assert (Gp' : good p) by (split; [exact Gp|eapply hd_nz; exact Hm]).
  rewrite (hd_lm false p m Hm). cbn [bind]. destruct (deg m =? 0)%nat; [apply ends_ok|].
  eapply ends_safe; [eapply p_nft_ends; [exact GF|exact Gp'|exact Hm|auto]|
    intro k; apply (nft_safe t o n G (GT T) (GT_GM n G T) _ (find1 J T) k p m GF Gp' Hm); auto|].
  intros [p2 c] (G2 & H2 & _ & Z2). cbn [fst] in *.
  eapply ends_safe with (P := fun p3 => good p3 /\ hd p3 m /\ map fst (terms p3) = map fst (terms p2)).
  { destruct (c =? 0)%nat; [apply ends_ok|]. destruct (good_pp t o n G p2 m G2 H2) as (p3 & -> & _). apply ends_ok. }
  { intros _. destruct (c =? 0)%nat; [cbn [safe]; auto|]. destruct (good_pp t o n G p2 m G2 H2) as (p3 & -> & A & B & C & D). cbn [safe]. auto. }
  intros p3 (G3 & H3 & M3).
  assert (Ot : okt J (WP (wwrap u) p3)).
  { split; [split; [exact G3|]; apply Hu|]. intros x Ix. cbn [wpol] in Ix. destruct (goodz_mono t o n G p3 x (proj1 G3) Ix) as [Mx Px].
    apply (find_none_irr t o n G Hn J T x H Mx Px). rewrite M3 in Ix. destruct H2 as (d & l & E2). rewrite E2 in Ix, Z2. cbn [map tl fst] in Ix, Z2.
    destruct Ix as [<-|Ix]; [exact Fm|apply Z2; exact Ix]. }
  destruct (insert_w t o n G Hn false tmp (WP (wwrap u) p3)) as (tmp1 & -> & P1 & S1);
    [exact G3|eapply Forall_impl; [|exact Tm]; intros v Hv; apply Hv|]. cbn [bind].
  apply IH; [exact Q'| |auto]. eapply Permutation_Forall; [apply Permutation_sym; exact P1|]. constructor; assumption.
Qed.

Lemma take_block_len fuel find dg : forall q tmp q1 tmp1,
  take_block fuel false find dg q tmp = Ok (Some (q1, tmp1)) -> (length q1 <= length q)%nat.
Proof.
  induction q as [|u q IH]; intros tmp q1 tmp1 E; cbn [take_block] in E; [injection E as <- <-; cbn; lia|].
  destruct (p_lm false (wpol u)) as [m| | | |]; cbn [bind] in E; try discriminate.
  destruct (deg m <=? dg)%nat; [|injection E as <- <-; lia]. cbn [length].
  destruct (p_nf fuel false find (wpol u)) as [[p c0]| | | |]; cbn [bind fst] in E; try discriminate.
  destruct (is_zero p); [apply IH in E; lia|].
  destruct (p_lm false p) as [m'| | | |]; cbn [bind] in E; try discriminate.
  destruct (deg m' =? 0)%nat; [discriminate|].
  destruct (p_nfTail fuel false find p) as [[p2 c]| | | |]; cbn [bind] in E; try discriminate.
  destruct (if (c =? 0)%nat then Ok p2 else p_pp false p2) as [p3| | | |]; cbn [bind] in E; try discriminate.
  destruct (jp_insert false tmp _) as [tmp'| | | |]; cbn [bind] in E; try discriminate.
  apply IH in E. lia.
Qed.
Lemma take_block_head fuel find u q tmp q1 tmp1 m : p_lm false (wpol u) = Ok m ->
  take_block fuel false find (deg m) (u :: q) tmp = Ok (Some (q1, tmp1)) -> (length q1 <= length q)%nat.
Proof.
  intros Em E. cbn [take_block] in E. rewrite Em in E. cbn [bind] in E. rewrite Nat.leb_refl in E.
  destruct (p_nf fuel false find (wpol u)) as [[p c0]| | | |]; cbn [bind fst] in E; try discriminate.
  destruct (is_zero p); [eapply take_block_len; exact E|].
  destruct (p_lm false p) as [m'| | | |]; cbn [bind] in E; try discriminate.
  destruct (deg m' =? 0)%nat; [discriminate|].
  destruct (p_nfTail fuel false find p) as [[p2 c]| | | |]; cbn [bind] in E; try discriminate.
  destruct (if (c =? 0)%nat then Ok p2 else p_pp false p2) as [p3| | | |]; cbn [bind] in E; try discriminate.
  destruct (jp_insert false tmp _) as [tmp'| | | |]; cbn [bind] in E; try discriminate.
  eapply take_block_len; exact E.
Qed.

Lemma same_deg_all d : forall l a b, Forall gw l -> same_deg false d l = Ok (a, b) -> Forall (fun v => deg (plm v) = d) a.
Proof.
  induction l as [|u l IH]; intros a b F E; cbn [same_deg] in E; [injection E as <- <-; constructor|].
  rewrite (lm_plm t o n G false u (Forall_inv F)) in E. cbn [bind] in E. destruct (Nat.eqb_spec (deg (plm u)) d) as [D|D].
  2:{ injection E as <- <-. constructor. }
  destruct (same_deg false d l) as [[a' b']| | | |] eqn:El; cbn [bind fst snd] in E; try discriminate. injection E as <- <-.
  constructor; [exact D|]. eapply IH; [exact (Forall_inv_tail F)|reflexivity].
Qed.

(** One pass of the do loop: it ends the loop, or the leading monomials become smaller. *)
Lemma block_step J tmp q : tmp <> [] -> Forall (okt J) tmp -> StronglySorted le tmp ->
  (exists tmp2 q2 dg, (forall fuel, block_loop (S fuel) false tmp q = Ok (tmp2, q2, dg)) /\
     tmp2 <> [] /\ Forall (fun u => deg (plm u) = dg) tmp2) \/
  (exists t2 q2, (forall fuel, block_loop (S fuel) false tmp q = block_loop fuel false t2 q2) /\
     t2 <> [] /\ Forall (okt J) t2 /\ StronglySorted le t2 /\ MultisetProofs.mlt _ MR (map plm t2) (map plm tmp)).
Proof.
  intros Ne O S. destruct tmp as [|u l]; [congruence|]. cbn [block_loop].
  assert (Hu := Forall_inv O). assert (Ol := Forall_inv_tail O). rewrite (lm_plm t o n G false u (proj1 (proj1 Hu))). cbn [bind].
  destruct (same_deg_ok t o n G (deg (plm u)) l (okt_gw t o n G J _ Ol)) as (blk & rest & Es & ->). rewrite Es. cbn [bind]. unfold assert_. cbn [andb].
  apply same_deg_all in Es; [|exact (okt_gw t o n G J _ Ol)].
  apply Forall_app in Ol as [Ob Or]. change (u :: blk ++ rest) with ((u :: blk) ++ rest) in S. apply ss_app in S as (Sb & _ & _).
  destruct (scan_ok t o n G Hn J (Datatypes.S (length blk)) [] (u :: blk)) as (tmp1 & tmp2 & -> & O1 & _ & Pl & D1);
    [cbn [app]; constructor; assumption|constructor|exact Sb|constructor|cbn [length]; lia|]. cbn [bind app] in *.
  assert (Db : Forall (fun m => deg m = deg (plm u)) (map plm (u :: blk))).
  { apply Forall_map. constructor; [reflexivity|exact Es]. }
  destruct tmp2 as [|w0 tmp2].
  - left. rewrite app_nil_r in *. destruct D1 as [_ D1]. exists tmp1, (rest ++ q), (deg (plm u)). split; [reflexivity|]. split.
    + intro Z. discriminate (D1 Z).
    + apply (Permutation_Forall (Permutation_sym Pl)) in Db. apply Forall_map in Db. exact Db.
  - right. destruct D1 as (D1 & D2 & D0). apply Forall_app in O1 as [O1 O2]. assert (Pm := min_norm_ok tmp2 w0 []). cbv zeta in Pm. cbn [app] in Pm.
    destruct (min_norm w0 [] tmp2) as [w others]. cbn [fst snd] in Pm.
    assert (O3 : Forall (okt J) (w :: others)) by (eapply Permutation_Forall; [exact Pm|exact O2]).
    assert (D3 : Forall (fun v => plm v = plm w) others).
    { assert (D4 : Forall (fun v => plm v = plm w0) (w :: others)) by (eapply Permutation_Forall; [exact Pm|constructor; [reflexivity|exact D2]]).
      rewrite (Forall_inv D4). exact (Forall_inv_tail D4). }
    destruct (insert_w t o n G Hn false tmp1 w) as (t1 & -> & P1 & S1); [apply (Forall_inv O3)|eapply (okt_gw t o n G); exact O1|]. cbn [bind].
    destruct (red_by_ok t o n G Hn J w (Forall_inv O3) others t1) as (t2 & -> & O4 & S4 & I4 & _ & zs & Z1 & Z2);
      [exact (Forall_inv_tail O3)|exact D3|eapply Permutation_Forall; [apply Permutation_sym; exact P1|constructor; [exact (Forall_inv O3)|exact O1]]|auto|].
    cbn [bind]. exists t2, (rest ++ q). split; [reflexivity|]. split.
    { assert (Iw : In w t2) by (apply I4; eapply Permutation_in; [apply Permutation_sym; exact P1|left; reflexivity]). intros ->. destruct Iw. }
    split; [exact O4|]. split; [exact S4|].
    destruct others as [|x others].
    { apply Permutation_sym, Permutation_length in Pm. cbn in Pm. destruct tmp2; [congruence|discriminate]. }
    assert (Ex := Forall_inv D3).
    eapply mlt_perm_l; [symmetry; exact Z1|].
    assert (Q : mle _ MR (plm x :: map plm others ++ map plm t1) (map plm (u :: blk ++ rest))).
    { eapply mle_trans with (b := map plm (u :: blk)).
      - left. rewrite <- Pl, map_app. rewrite (Permutation_map plm P1), (Permutation_map plm Pm). cbn [map].
        rewrite <- (Permutation_middle (map plm tmp1) (plm x :: map plm others) (plm w)).
        apply (Permutation_app_comm (plm x :: map plm others) (plm w :: map plm tmp1)).
      - change (u :: blk ++ rest) with ((u :: blk) ++ rest). rewrite map_app. apply mle_app_l. }
    eapply mlt_mle; [|exact Q]. apply mlt_replace. rewrite Ex. exact Z2.
Qed.

Lemma block_loop_ends J : forall tmp q, tmp <> [] -> Forall (okt J) tmp -> StronglySorted le tmp ->
  ends (fun k => block_loop k false tmp q) /\
  forall k, safe (fun r => let '(tmp2, q2, dg) := r in tmp2 <> [] /\ Forall (fun u => deg (plm u) = dg) tmp2) (block_loop k false tmp q).
Proof.
  intro tmp. remember (map plm tmp) as L eqn:EL. revert tmp EL.
  induction L as [L IH] using (well_founded_induction (mlt_wf' _ MR (MonomProofs.mlt_wf t o n Ho))).
  intros tmp -> q Ne O S. destruct (block_step J tmp q Ne O S) as [(tmp2 & q2 & dg & E & D)|(t2 & q2 & E & N2 & O2 & S2 & L2)].
  - split; [exists 1%nat, (tmp2, q2, dg); intros [|k] Hk; [lia|apply E]|]. intros [|k]; [exact Logic.I|]. rewrite E. exact D.
  - destruct (IH _ L2 t2 eq_refl q2 N2 O2 S2) as [I1 I2]. split.
    + apply ends_S. eapply ends_ext; [exact E|exact I1].
    + intros [|k]; [exact Logic.I|]. rewrite E. apply I2.
Qed.

(** The new elements, by their leading monomials. *)
Lemma enter_new : forall l js js' new, Forall okq l -> enter false js l = Ok (js', new) -> map fst new = map plm l.
Proof.
  induction l as [|u l IH]; intros js js' new O E; cbn [enter] in E; [injection E as <- <-; reflexivity|].
  assert (Hu := Forall_inv O). rewrite (lm_plm t o n G false u (proj1 Hu)) in E. cbn [bind] in E.
  destruct (plm_mono t o n G u (proj1 Hu)) as [Mu Pu]. destruct (update_ok t o n G u (plm u) Hu Mu Pu) as (Ew & _ & _).
  destruct (p_pp false (wpol u)) as [p| | | |]; cbn [bind] in E; try discriminate.
  destruct (tree_at false js _) as [J| | | |]; cbn [bind] in E; try discriminate.
  destruct (insert false J _) as [J'| | | |]; cbn [bind] in E; try discriminate.
  destruct (enter false _ l) as [[j2 new2]| | | |] eqn:E2; cbn [bind fst snd] in E; try discriminate. injection E as <- <-.
  cbn [map fst]. f_equal; [exact Ew|]. eapply IH; [exact (Forall_inv_tail O)|exact E2].
Qed.

Lemma tail_reduce_ends J T e T0 : tinv J T -> Permutation T (e :: T0) -> ends (fun k => tail_reduce k false (-1) [J] T0 e).
Proof.
  intros H P. unfold tail_reduce.
  assert (Ie : In e T) by (eapply Permutation_in; [apply Permutation_sym; exact P|left; reflexivity]).
  assert (Hg := ti_good _ _ _ _ _ _ H). rewrite Forall_forall in Hg. destruct (Hg _ Ie) as [Ge He].
  assert (HS : forall g, GT T0 g -> GM n G g) by (intros g [X _]; exact X).
  assert (FO := find_other t o n G Hn Ho J T e T0 H P).
  assert (Xb : forall m, mono n m -> cmp1 t o (fst e) m = 1 -> find1 J T0 m = below_find t o (fst e) (find1 J T0) m)
    by (intros m _ C; unfold below_find; rewrite C; reflexivity).
  eapply ends_safe.
  { eapply p_nft_ends; [exact FO|exact Ge|exact He|exact Xb]. }
  { intro k. apply (nft_safe t o n G (GT T0) HS (below_find t o (fst e) (find1 J T0)) (find1 J T0) k (snd e) (fst e) FO Ge He Xb). }
  intros [p c] (Gp & Hp & _). cbn [fst] in *. destruct (c =? 0)%nat; [apply ends_ok|].
  destruct (good_pp t o n G p (fst e) Gp Hp) as (p3 & -> & _). cbn [bind]. apply ends_ok.
Qed.
Lemma tail_reduce_fst fuel js T0 e e' : tail_reduce fuel false (-1) js T0 e = Ok e' -> fst e' = fst e.
Proof.
  unfold tail_reduce. intro E. destruct (p_nfTail _ _ _ _) as [[p c]| | | |]; cbn [bind] in E; try discriminate.
  destruct (if (c =? 0)%nat then Ok p else p_pp false p) as [p'| | | |]; cbn [bind] in E; try discriminate. injection E as <-. reflexivity.
Qed.

Lemma merge_ends dg : forall cnt J q d j k, tinv J (d ++ j ++ k) -> Forall okq q -> (length j + length k <= cnt)%nat ->
  ends (fun f => merge_loop cnt f false (-1) dg [J] q d j k).
Proof.
  induction cnt as [|cnt IH]; intros J q d j k H Q L; cbn [merge_loop].
  { destruct j; [destruct k|]; cbn in L; try lia. apply ends_ok. }
  assert (Put : forall e j' k', Permutation (d ++ j ++ k) (d ++ e :: j' ++ k') -> (length j' + length k' <= cnt)%nat ->
    ends (fun f => do b <- Ok true; assert_ false b (do r <- prolong_if false (-1) dg [J] e q;
           merge_loop cnt f false (-1) dg (fst r) (snd r) (d ++ [e]) j' k'))).
  { intros e j' k' P Lc. cbn [bind]. unfold assert_. cbn [andb].
    assert (H' : tinv J (d ++ e :: j' ++ k')) by (eapply tinv_perm; eassumption).
    destruct (prolong_if_ok t o n G Hn dg J _ e q H') as (J1 & q1 & -> & H1 & Q1 & I1); [apply in_or_app; right; left; reflexivity|exact Q|].
    cbn [bind fst snd]. apply IH; [rewrite <- app_assoc; exact H1|exact Q1|exact Lc]. }
  assert (Redu : forall e k', Permutation (d ++ j ++ k) (e :: d ++ j ++ k') -> (length j + length k' <= cnt)%nat ->
    ends (fun f => do e' <- tail_reduce f false (-1) [J] (d ++ j ++ k') e;
        do r <- prolong_if false (-1) dg [J] e' q;
        merge_loop cnt f false (-1) dg (fst r) (snd r) (d ++ [e']) j k')).
  { intros e k' P Lc. eapply ends_safe; [eapply tail_reduce_ends; eassumption|intro f; eapply (tail_reduce_ok t o n G Hn Ho); eassumption|].
    intros e' (_ & H' & _).
    destruct (prolong_if_ok t o n G Hn dg J _ e' q H') as (J1 & q1 & -> & H1 & Q1 & I1); [left; reflexivity|exact Q|].
    cbn [bind fst snd]. apply IH; [|exact Q1|exact Lc]. eapply tinv_perm; [exact H1|]. rewrite <- app_assoc. apply Permutation_middle. }
  destruct j as [|e j]; destruct k as [|e' k]; cbn [length] in L.
  - apply ends_ok.
  - apply Redu; [cbn [app]; apply Permutation_sym, Permutation_middle|cbn [length]; lia].
  - apply Put; [reflexivity|cbn [length]; lia].
  - assert (Gg := ti_good _ _ _ _ _ _ H). rewrite !Forall_app in Gg. destruct Gg as (_ & G1 & G2).
    destruct (Forall_inv G1) as [Ge He], (Forall_inv G2) as [Ge' He'].
    unfold p_cmp. rewrite (hd_lm false _ _ He), (hd_lm false _ _ He'). cbn [bind].
    match goal with |- context [if ?b then _ else _] => destruct b end.
    + apply Put; [reflexivity|cbn [length]; lia].
    + apply Redu; [rewrite !app_assoc; apply Permutation_sym, Permutation_middle|cbn [length]; lia].
Qed.

Lemma merge_perm fuel dg : forall cnt js q d j k js' q' T', merge_loop cnt fuel false (-1) dg js q d j k = Ok (js', q', T') ->
  Permutation (map fst T') (map fst (d ++ j ++ k)).
Proof.
  induction cnt as [|cnt IH]; intros js q d j k js' q' T' E; cbn [merge_loop] in E.
  { destruct j; [destruct k|]; try discriminate. injection E as <- <- <-. cbn [app]. now rewrite app_nil_r. }
  assert (Put : forall e j' k', Permutation (d ++ j ++ k) (d ++ e :: j' ++ k') ->
    (do b <- Ok true; assert_ false b (do r <- prolong_if false (-1) dg js e q;
           merge_loop cnt fuel false (-1) dg (fst r) (snd r) (d ++ [e]) j' k')) = Ok (js', q', T') -> Permutation (map fst T') (map fst (d ++ j ++ k))).
  { intros e j' k' P X. cbn [bind] in X. unfold assert_ in X. cbn [andb] in X. destruct (prolong_if _ _ _ _ _ _) as [[a b]| | | |]; cbn [bind fst snd] in X; try discriminate.
    apply IH in X. rewrite X, (Permutation_map fst P), <- app_assoc. reflexivity. }
  assert (Redu : forall e k', Permutation (d ++ j ++ k) (e :: d ++ j ++ k') ->
    (do e' <- tail_reduce fuel false (-1) js (d ++ j ++ k') e;
        do r <- prolong_if false (-1) dg js e' q;
        merge_loop cnt fuel false (-1) dg (fst r) (snd r) (d ++ [e']) j k') = Ok (js', q', T') -> Permutation (map fst T') (map fst (d ++ j ++ k))).
  { intros e k' P X. destruct (tail_reduce _ _ _ _ _ _) as [e'| | | |] eqn:Et; cbn [bind] in X; try discriminate. apply tail_reduce_fst in Et.
    destruct (prolong_if _ _ _ _ _ _) as [[a b]| | | |]; cbn [bind fst snd] in X; try discriminate.
    apply IH in X. rewrite X, (Permutation_map fst P), <- app_assoc. cbn [app]. rewrite map_app. cbn [map]. rewrite Et, <- Permutation_middle, <- map_app. reflexivity. }
  destruct j as [|e j]; destruct k as [|e' k].
  - injection E as <- <- <-. cbn [app]. now rewrite app_nil_r.
  - apply (Redu e' k); [cbn [app]; apply Permutation_sym, Permutation_middle|exact E].
  - apply (Put e j []); [reflexivity|exact E].
  - destruct (p_cmp false (snd e) (snd e')) as [c| | | |]; cbn [bind] in E; try discriminate. destruct (c <? 0).
    + apply (Put e j (e' :: k)); [reflexivity|exact E].
    + apply (Redu e' k); [rewrite !app_assoc; apply Permutation_sym, Permutation_middle|exact E].
Qed.
End P.
