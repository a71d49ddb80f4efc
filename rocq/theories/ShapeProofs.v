(** The order, the coefficients and the tails of the elements of mT. *)
From Coq Require Import ZArith List Bool Arith Lia Permutation Sorted.
From Verif Require Import Outcome MonomModel MonomSpec MonomProofs PolyModel PolySpec PolyProofs PolyRedProofs PolyNfProofs
  PolyTopProofs JanetModel JanetSpec JanetProofs JanetFindProofs CompletionProofs JanetPolyModel TQModel JanetPolySpec IdealProofs JanetPolyProofs
  TQProofs GrowthProofs JanetTermSpec JanetTermProofs JanetTermMain.
Import ListNotations.
Local Open Scope Z_scope.

(** nfTail without a reduction changes nothing. *)
Lemma nft_count dbg find : forall fuel r p pre rest q c, nft_loop fuel dbg find r p pre rest = Ok (q, c) ->
  (r <= c)%nat /\ (c = r -> q = with_terms p (pre ++ rest)).
Proof.
  induction fuel as [|fuel IH]; intros r p pre rest q c E; cbn [nft_loop] in E; destruct rest as [|[m d] rest].
  1,3: injection E as <- <-; split; [lia|]; intros _; now rewrite app_nil_r.
  { discriminate. }
  destruct (find m) as [w| | | |]; cbn [bind] in E; try discriminate. destruct w as [a|].
  - destruct (red_tail _ _ _ _ _) as [[pre' rest']| | | |]; cbn [bind] in E; try discriminate. apply IH in E as [E _]. split; lia.
  - apply IH in E as [E1 E2]. split; [exact E1|]. intro X. rewrite (E2 X), <- app_assoc. reflexivity.
Qed.
Lemma nfTail_count fuel dbg find p q : p_nfTail fuel dbg find p = Ok (q, 0%nat) -> q = p.
Proof.
  unfold p_nfTail. destruct (terms p) as [|x l] eqn:E; [congruence|]. intro H. apply nft_count in H as [_ H]. rewrite (H eq_refl). cbn [app].
  rewrite <- E. apply with_same.
Qed.

Section P.
Variables (t : pos_order) (o : base_order) (n : nat) (G : list term -> Prop).
Hypothesis (Hn : (0 < n)%nat) (Ho : o <> OAlex).

Notation good := (good t o n G).
Notation okq := (okq t o n G).
Notation okt := (okt t o n G).
Notation tinv := (tinv t o n G).
Notation gw := (gw t o n G).
Notation le := (le t o).
Notation lt := (lt t o).
Notation rinv := (rinv t o n G).
Notation okh := (okh t o n G).

Definition elt (a b : entry) : Prop := cmp1 t o (fst b) (fst a) = 1.
Definition keys (T : list entry) : list (list nat) := map vars (map fst T).
Definition pr (e : entry) : Prop := primitive (terms (snd e)).
Definition tred (U : list (list nat)) (e : entry) : Prop :=
  forall x, In x (tl (map fst (terms (snd e)))) -> forall v, ~ janet_divides n U v (vars x).
Definition incr_T (T : list entry) : Prop := StronglySorted elt T.
Definition nf_T (T : list entry) : Prop := Forall (tred (keys T)) T.

Lemma keys_perm T T' : Permutation T T' -> Permutation (keys T) (keys T').
Proof. intro P. unfold keys. apply Permutation_map, Permutation_map. exact P. Qed.
Lemma tred_perm U V e : Permutation U V -> tred U e -> tred V e.
Proof. intros P H x Ix v C. apply (H x Ix v). eapply jd_perm; [symmetry; exact P|exact C]. Qed.

Lemma pp_prim p r : good p -> p_pp false p = Ok r -> primitive (terms r).
Proof.
  intros [Hp Np] E. destruct (p_pp_ok false p (proj1 Hp)) as (r' & g & E' & _ & _ & _ & _ & _ & [X|X] & _); [congruence|]. rewrite E in E'. injection E' as <-. exact X.
Qed.

Lemma find_none J T T0 m : tinv J T -> mono n m -> pos m = -1 -> find_poly false (-1) (Some [J]) T0 m = Ok None ->
  forall v, ~ janet_divides n (keys T) v (vars m).
Proof.
  intros H Mm Pm E v C. unfold find_poly in E. destruct (find_wrap_ok n Hn J m (ti_inv _ _ _ _ _ _ H) Mm) as (r & Er & R). rewrite Er in E. cbn [bind] in E.
  destruct r as [u|]; [destruct (lookup T0 (wlm u)); discriminate|]. apply (R Pm v). eapply jd_perm; [symmetry; apply (leads_lms t o n G J T H)|exact C].
Qed.

Lemma tail_reduce_shape fuel J T e T0 e' : tinv J T -> Permutation T (e :: T0) -> tail_reduce fuel false (-1) [J] T0 e = Ok e' ->
  fst e' = fst e /\ tinv J (e' :: T0) /\ (pr e -> pr e') /\ tred (keys T) e'.
Proof.
  intros H P E. assert (S := tail_reduce_ok t o n G Hn Ho fuel J T e T0 H P). rewrite E in S. cbn [safe] in S. destruct S as (S1 & S2 & _).
  split; [exact S1|]. split; [exact S2|].
  assert (Ie : In e T) by (eapply Permutation_in; [apply Permutation_sym; exact P|left; reflexivity]).
  assert (Hg := ti_good _ _ _ _ _ _ H). rewrite Forall_forall in Hg. destruct (Hg _ Ie) as [Ge He].
  assert (HS : forall g, GT n G T0 g -> GM n G g) by (intros g [X _]; exact X).
  unfold tail_reduce in E.
  assert (N := nft_safe t o n G (GT n G T0) HS (below_find t o (fst e) (find_poly false (-1) (Some [J]) T0)) (find_poly false (-1) (Some [J]) T0) fuel (snd e) (fst e)
     (find_other t o n G Hn Ho J T e T0 H P) Ge He).
  assert (N' : forall m, mono n m -> cmp1 t o (fst e) m = 1 -> find_poly false (-1) (Some [J]) T0 m = below_find t o (fst e) (find_poly false (-1) (Some [J]) T0) m).
  { intros m _ C. unfold below_find. rewrite C. reflexivity. }
  specialize (N N'). destruct (p_nfTail fuel false _ (snd e)) as [[p c]| | | |] eqn:En; cbn [bind] in E; try discriminate.
  cbn [safe fst] in N. destruct N as (Gp & Hp & _ & Z).
  assert (Tp : forall x, In x (tl (map fst (terms p))) -> forall v, ~ janet_divides n (keys T) v (vars x)).
  { intros x Ix. assert (Ix' : In x (map fst (terms p))) by (destruct (map fst (terms p)); [exact Ix|right; exact Ix]).
    destruct (goodz_mono t o n G p x (proj1 Gp) Ix') as [Mx Px]. apply (find_none J T T0 x H Mx Px).
    assert (Zx := Z x Ix). unfold below_find in Zx. destruct (Z.eqb_spec (cmp1 t o (fst e) x) 1) as [C|C]; [exact Zx|]. exfalso. apply C.
    destruct (hd_below t o n G p (fst e) x (proj1 Gp) Hp Ix') as [->|C']; [|exact C']. exfalso.
    assert (Ca := goodz_canon _ _ _ _ _ (proj1 Gp)). apply canonical_iff in Ca as (So & _ & _). destruct Hp as (d & l & El). rewrite El in So, Ix. cbn [map tl fst] in Ix.
    apply (sorted_below t o) in So as [B _]. unfold below in B. rewrite Forall_forall in B. apply in_map_iff in Ix as (y & Ey & Iy).
    specialize (B y Iy). cbn [fst] in B. rewrite Ey, cmp1_refl in B. lia. }
  destruct (c =? 0)%nat eqn:Ec.
  - cbn [bind] in E. injection E as <-. apply Nat.eqb_eq in Ec. subst c. apply nfTail_count in En. subst p. split; [auto|exact Tp].
  - destruct (good_pp t o n G p (fst e) Gp Hp) as (p3 & Ep & Gp3 & _ & _ & M3). rewrite Ep in E. cbn [bind] in E. injection E as <-. split.
    + intros _. apply (pp_prim p); assumption.
    + intros x Ix. cbn [snd] in Ix. rewrite M3 in Ix. exact (Tp x Ix).
Qed.

Lemma elt_trans a b c : length (vars (fst a)) = n -> length (vars (fst b)) = n -> length (vars (fst c)) = n -> elt a b -> elt b c -> elt a c.
Proof. intros La Lb Lc. unfold elt. intros A B. eapply cmp1_trans; [| |exact B|exact A]; unfold size; congruence. Qed.

Lemma key_cmp J T a b : tinv J T -> In a T -> In b T -> fst a <> fst b -> cmp1 t o (fst a) (fst b) <> 1 -> elt a b.
Proof.
  intros H Ia Ib N C. destruct (tinv_len t o n G J T a H Ia) as [La Pa]. destruct (tinv_len t o n G J T b H Ib) as [Lb Pb]. unfold elt.
  assert (Sz : size (fst a) = size (fst b)) by (unfold size; congruence).
  rewrite (cmp1_antisym t o (fst a) (fst b) Sz). destruct (cmp1_range t o (fst a) (fst b)) as [X|[X|X]]; [congruence| |lia].
  exfalso. apply N. apply (cmp1_eq t o) in X; [exact X|exact Sz].
Qed.

(** What the two walks through mT do to the order, the coefficients and the tails. *)
Lemma ent_cmp J T a b : tinv J T -> In a T -> In b T -> p_cmp false (snd a) (snd b) = Ok (cmp1 t o (fst a) (fst b)).
Proof.
  intros H Ia Ib. assert (Gg := ti_good _ _ _ _ _ _ H). rewrite Forall_forall in Gg. destruct (Gg a Ia) as [Ga Ha], (Gg b Ib) as [_ Hb].
  unfold p_cmp. rewrite (hd_lm false _ _ Ha), (hd_lm false _ _ Hb). cbn [bind]. destruct Ga as [(_ & (_ & -> & ->) & _) _]. reflexivity.
Qed.

Definition before (d l : list entry) : Prop := forall a b, In a d -> In b l -> elt a b.
Lemma elt_fst a a' b : fst a' = fst a -> elt a b -> elt a' b.
Proof. unfold elt. now intros ->. Qed.
Lemma incr_snoc d e : incr_T d -> before d [e] -> incr_T (d ++ [e]).
Proof.
  intros S B. apply ss_app. split; [exact S|]. split; [repeat constructor|]. apply Forall_forall. intros a Ia. constructor; [apply B; [exact Ia|left; reflexivity]|constructor].
Qed.
Lemma head_below J T e e' l : tinv J T -> In e T -> incl (e' :: l) T -> incr_T (e' :: l) -> elt e e' -> before [e] (e' :: l).
Proof.
  intros H Ie Il S L a b [<-|[]] [<-|Ib]; [exact L|]. apply StronglySorted_inv in S as [_ F]. rewrite Forall_forall in F.
  apply (elt_trans e e' b); [apply (tinv_len t o n G J T e H Ie)|apply (tinv_len t o n G J T e' H (Il _ (or_introl eq_refl)))|apply (tinv_len t o n G J T b H (Il _ (or_intror Ib)))|exact L|apply F; exact Ib].
Qed.
Lemma nd_neq (T : list entry) x y a b c : NoDup (map fst T) -> Permutation T (a ++ x :: b ++ y :: c) -> fst x <> fst y.
Proof.
  intros N P. apply (Permutation_map fst) in P. apply (Permutation_NoDup P) in N. rewrite map_app in N. cbn [map] in N. rewrite map_app in N. cbn [map] in N.
  apply NoDup_remove in N as [_ N]. intro E. apply N. rewrite E, !in_app_iff. right. right. left. reflexivity.
Qed.

Lemma merge_shape fuel dg : forall cnt J q d j k js' q' T', tinv J (d ++ j ++ k) -> Forall okq q ->
  merge_loop cnt fuel false (-1) dg [J] q d j k = Ok (js', q', T') ->
  (incr_T d -> incr_T j -> incr_T k -> before d (j ++ k) -> incr_T T') /\
  (Forall pr d -> Forall pr j -> Forall pr k -> Forall pr T') /\
  (forall U, Permutation (keys (d ++ j ++ k)) U -> Forall (tred U) d -> Forall (tred U) j -> Forall (tred U) T').
Proof.
  induction cnt as [|cnt IH]; intros J q d j k js' q' T' H Q E; cbn [merge_loop] in E.
  { destruct j; [destruct k|]; try discriminate. injection E as <- <- <-. auto. }
  assert (Put : forall e j' k', Permutation (d ++ j ++ k) (d ++ e :: j' ++ k') ->
      (do b <- Ok true; assert_ false b (do r <- prolong_if false (-1) dg [J] e q;
           merge_loop cnt fuel false (-1) dg (fst r) (snd r) (d ++ [e]) j' k')) = Ok (js', q', T') ->
      (incr_T d -> incr_T j' -> incr_T k' -> before d (e :: j' ++ k') -> before [e] (j' ++ k') -> incr_T T') /\
      (Forall pr d -> pr e -> Forall pr j' -> Forall pr k' -> Forall pr T') /\
      (forall U, Permutation (keys (d ++ j ++ k)) U -> Forall (tred U) d -> tred U e -> Forall (tred U) j' -> Forall (tred U) T')).
  { intros e j' k' P X. cbn [bind] in X. unfold assert_ in X. cbn [andb] in X.
    assert (H' : tinv J (d ++ e :: j' ++ k')) by (eapply tinv_perm; eassumption).
    destruct (prolong_if_ok t o n G Hn dg J _ e q H') as (J1 & q1 & Ep & H1 & Q1 & _); [apply in_or_app; right; left; reflexivity|exact Q|].
    rewrite Ep in X. cbn [bind fst snd] in X. apply IH in X as (A & B & C); [|rewrite <- app_assoc; exact H1|exact Q1]. split; [|split].
    - intros Sd Sj Sk Bd Be. apply A; [apply incr_snoc; [exact Sd|]|exact Sj|exact Sk|].
      + intros a b Ia [<-|[]]. apply Bd; [exact Ia|left; reflexivity].
      + intros a b Ia Ib. apply in_app_iff in Ia as [Ia|Ia]; [apply Bd; [exact Ia|right; exact Ib]|apply Be; assumption].
    - intros Pd Pe Pj Pk. apply B; [|exact Pj|exact Pk]. apply Forall_app. auto.
    - intros U PU Td Te Tj. apply C; [rewrite <- app_assoc; rewrite <- PU; apply keys_perm; symmetry; exact P| |exact Tj]. apply Forall_app. auto. }
  assert (Redu : forall e k', Permutation (d ++ j ++ k) (e :: d ++ j ++ k') ->
      (do e' <- tail_reduce fuel false (-1) [J] (d ++ j ++ k') e;
        do r <- prolong_if false (-1) dg [J] e' q;
        merge_loop cnt fuel false (-1) dg (fst r) (snd r) (d ++ [e']) j k') = Ok (js', q', T') ->
      (incr_T d -> incr_T j -> incr_T k' -> before d (e :: j ++ k') -> before [e] (j ++ k') -> incr_T T') /\
      (Forall pr d -> pr e -> Forall pr j -> Forall pr k' -> Forall pr T') /\
      (forall U, Permutation (keys (d ++ j ++ k)) U -> Forall (tred U) d -> Forall (tred U) j -> Forall (tred U) T')).
  { intros e k' P X. destruct (tail_reduce _ _ _ _ _ _) as [e'| | | |] eqn:Et; cbn [bind] in X; try discriminate.
    destruct (tail_reduce_shape fuel J _ e _ e' H P Et) as (E1 & H' & Pe' & Te').
    destruct (prolong_if_ok t o n G Hn dg J _ e' q H') as (J1 & q1 & Ep & H1 & Q1 & _); [left; reflexivity|exact Q|].
    rewrite Ep in X. cbn [bind fst snd] in X.
    assert (P' : Permutation (e' :: d ++ j ++ k') ((d ++ [e']) ++ j ++ k')) by (rewrite <- app_assoc; apply Permutation_middle).
    apply IH in X as (A & B & C); [|eapply tinv_perm; [exact H1|exact P']|exact Q1]. split; [|split].
    - intros Sd Sj Sk Bd Be. apply A; [apply incr_snoc; [exact Sd|]|exact Sj|exact Sk|].
      + intros a b Ia [<-|[]]. unfold elt. rewrite E1. apply Bd; [exact Ia|left; reflexivity].
      + intros a b Ia Ib. apply in_app_iff in Ia as [Ia|[<-|[]]]; [apply Bd; [exact Ia|right; exact Ib]|]. eapply elt_fst; [exact E1|]. apply Be; [left; reflexivity|exact Ib].
    - intros Pd Pe Pj Pk. apply B; [|exact Pj|exact Pk]. apply Forall_app. auto.
    - intros U PU Td Tj. apply C; [| |exact Tj].
      + rewrite <- PU, <- (keys_perm _ _ P'), (keys_perm _ _ P). unfold keys. cbn [map]. rewrite E1. reflexivity.
      + apply Forall_app. split; [exact Td|]. constructor; [|constructor]. eapply tred_perm; [exact PU|exact Te']. }
  destruct j as [|e j]; destruct k as [|e' k].
  - injection E as <- <- <-. auto.
  - apply Redu in E as (A & B & C); [|cbn [app]; apply Permutation_sym, Permutation_middle]. split; [|split; [|exact C]].
    + intros Sd Sj Sk Bd. cbn [app] in *. apply StronglySorted_inv in Sk as [Sk Fk]. rewrite Forall_forall in Fk. apply A; try assumption.
      intros a b [<-|[]] Ib. apply Fk; exact Ib.
    + intros Pd Pj Pk. apply B; try assumption; [exact (Forall_inv Pk)|exact (Forall_inv_tail Pk)].
  - apply Put in E as (A & B & C); [|reflexivity]. split; [|split].
    + intros Sd Sj Sk Bd. rewrite app_nil_r in *. apply StronglySorted_inv in Sj as [Sj Fj]. rewrite Forall_forall in Fj. apply A; try assumption.
      intros a b [<-|[]] Ib. apply Fj; exact Ib.
    + intros Pd Pj Pk. apply B; try assumption; [exact (Forall_inv Pj)|exact (Forall_inv_tail Pj)].
    + intros U PU Td Tj. apply C; try assumption; [exact (Forall_inv Tj)|exact (Forall_inv_tail Tj)].
  - assert (Ie : In e (d ++ (e :: j) ++ e' :: k)) by (rewrite !in_app_iff; right; left; left; reflexivity).
    assert (Ie' : In e' (d ++ (e :: j) ++ e' :: k)) by (rewrite !in_app_iff; right; right; left; reflexivity).
    assert (Ne : fst e <> fst e') by (apply (nd_neq (d ++ (e :: j) ++ e' :: k) e e' d j k); [apply (tinv_nd t o n G J _ H)|reflexivity]).
    rewrite (ent_cmp J _ e e' H Ie Ie') in E. cbn [bind] in E. destruct (Z.ltb_spec (cmp1 t o (fst e) (fst e')) 0) as [L|L].
    + apply Put in E as (A & B & C); [|reflexivity]. split; [|split].
      * intros Sd Sj Sk Bd. assert (L' : elt e e') by (apply (key_cmp J _ e e' H Ie Ie' Ne); lia).
        assert (Sj' := Sj). apply StronglySorted_inv in Sj as [Sj Fj]. rewrite Forall_forall in Fj. apply A; try assumption.
        intros a b [<-|[]] Ib. apply in_app_iff in Ib as [Ib|Ib]; [apply Fj; exact Ib|].
        apply (head_below J _ e e' k H Ie); [|exact Sk|exact L'|left; reflexivity|exact Ib]. intros x Ix. apply in_or_app. right. apply in_or_app. right. exact Ix.
      * intros Pd Pj Pk. apply B; try assumption; [exact (Forall_inv Pj)|exact (Forall_inv_tail Pj)].
      * intros U PU Td Tj. apply C; try assumption; [exact (Forall_inv Tj)|exact (Forall_inv_tail Tj)].
    + apply Redu in E as (A & B & C); [|rewrite !app_assoc; apply Permutation_sym, Permutation_middle]. split; [|split; [|exact C]].
      * intros Sd Sj Sk Bd. assert (L' : elt e' e).
        { apply (key_cmp J _ e' e H Ie' Ie); [congruence|]. rewrite cmp1_antisym; [lia|]. unfold size.
          destruct (tinv_len t o n G J _ e H Ie), (tinv_len t o n G J _ e' H Ie'). congruence. }
        assert (Sk' := Sk). apply StronglySorted_inv in Sk as [Sk Fk]. rewrite Forall_forall in Fk. apply A; try assumption.
        { intros a b Ia Ib. apply Bd; [exact Ia|]. rewrite in_app_iff. destruct Ib as [<-|Ib]; [right; left; reflexivity|].
          apply in_app_iff in Ib as [Ib|Ib]; [left; exact Ib|right; right; exact Ib]. }
        intros a b [<-|[]] Ib. apply in_app_iff in Ib as [Ib|Ib]; [|apply Fk; exact Ib].
        apply (head_below J _ e' e j H Ie'); [|exact Sj|exact L'|left; reflexivity|exact Ib]. intros x Ix. apply in_or_app. right. apply in_or_app. left. exact Ix.
      * intros Pd Pj Pk. apply B; try assumption; [exact (Forall_inv Pk)|exact (Forall_inv_tail Pk)].
Qed.

Lemma walk_shape fuel dg : forall cnt J q d w k js' q' T', tinv J (d ++ opt w ++ k) -> Forall okq q ->
  walk cnt fuel false (-1) dg [J] q d w k = Ok (js', q', T') ->
  (incr_T d -> incr_T k -> before d (opt w ++ k) -> incr_T T') /\
  (forall U, Permutation (keys (d ++ opt w ++ k)) U -> Forall (tred U) d -> Forall (tred U) T').
Proof.
  induction cnt as [|cnt IH]; intros J q d w k js' q' T' H Q E; cbn [walk] in E.
  { destruct w; [discriminate|]. destruct k; [|discriminate]. injection E as <- <- <-. auto. }
  assert (Redu : forall e w' k', Permutation (d ++ opt w ++ k) (e :: d ++ opt w' ++ k') ->
      (do e' <- tail_reduce fuel false (-1) [J] (d ++ opt w' ++ k') e;
        do r <- prolong_if false (-1) dg [J] e' q;
        walk cnt fuel false (-1) dg (fst r) (snd r) (d ++ [e']) w' k') = Ok (js', q', T') ->
      (incr_T d -> incr_T k' -> before d (e :: opt w' ++ k') -> before [e] (opt w' ++ k') -> incr_T T') /\
      (forall U, Permutation (keys (d ++ opt w ++ k)) U -> Forall (tred U) d -> Forall (tred U) T')).
  { intros e w' k' P X. destruct (tail_reduce _ _ _ _ _ _) as [e'| | | |] eqn:Et; cbn [bind] in X; try discriminate.
    destruct (tail_reduce_shape fuel J _ e _ e' H P Et) as (E1 & H' & _ & Te').
    destruct (prolong_if_ok t o n G Hn dg J _ e' q H') as (J1 & q1 & Ep & H1 & Q1 & _); [left; reflexivity|exact Q|].
    rewrite Ep in X. cbn [bind fst snd] in X.
    assert (P' : Permutation (e' :: d ++ opt w' ++ k') ((d ++ [e']) ++ opt w' ++ k')) by (rewrite <- app_assoc; apply Permutation_middle).
    apply IH in X as (A & C); [|eapply tinv_perm; [exact H1|exact P']|exact Q1]. split.
    - intros Sd Sk Bd Be. apply A; [apply incr_snoc; [exact Sd|]|exact Sk|].
      + intros a b Ia [<-|[]]. unfold elt. rewrite E1. apply Bd; [exact Ia|left; reflexivity].
      + intros a b Ia Ib. apply in_app_iff in Ia as [Ia|[<-|[]]]; [apply Bd; [exact Ia|right; exact Ib]|]. eapply elt_fst; [exact E1|]. apply Be; [left; reflexivity|exact Ib].
    - intros U PU Td. apply C.
      + rewrite <- PU, <- (keys_perm _ _ P'), (keys_perm _ _ P). unfold keys. cbn [map]. rewrite E1. reflexivity.
      + apply Forall_app. split; [exact Td|]. constructor; [|constructor]. eapply tred_perm; [exact PU|exact Te']. }
  destruct w as [e|]; destruct k as [|e' k].
  - apply (Redu e None []) in E as (A & C); [|cbn [opt app]; rewrite app_nil_r; apply Permutation_sym, Permutation_cons_append]. split; [|exact C].
    intros Sd Sk Bd. apply A; try assumption. intros a b _ [].
  - cbn [opt] in H, Redu |- *. assert (Ie : In e (d ++ [e] ++ e' :: k)) by (rewrite !in_app_iff; right; left; left; reflexivity).
    assert (Ie' : In e' (d ++ [e] ++ e' :: k)) by (rewrite !in_app_iff; right; right; left; reflexivity).
    assert (Ne : fst e <> fst e') by (apply (nd_neq (d ++ [e] ++ e' :: k) e e' d [] k); [apply (tinv_nd t o n G J _ H)|reflexivity]).
    rewrite (ent_cmp J _ e e' H Ie Ie') in E. cbn [bind] in E. destruct (Z.ltb_spec (cmp1 t o (fst e) (fst e')) 0) as [L|L].
    + apply (Redu e None (e' :: k)) in E as (A & C); [|cbn [opt app]; apply Permutation_sym, Permutation_middle]. split; [|exact C].
      intros Sd Sk Bd. assert (L' : elt e e') by (apply (key_cmp J _ e e' H Ie Ie' Ne); lia). apply A; try assumption.
      cbn [opt app]. apply (head_below J _ e e' k H Ie); [|exact Sk|exact L']. intros x Ix. apply in_or_app. right. right. exact Ix.
    + apply (Redu e' (Some e) k) in E as (A & C); [|cbn [opt]; rewrite !app_assoc; apply Permutation_sym, Permutation_middle]. split; [|exact C].
      intros Sd Sk Bd. assert (L' : elt e' e).
      { apply (key_cmp J _ e' e H Ie' Ie); [congruence|]. rewrite cmp1_antisym; [lia|]. unfold size.
        destruct (tinv_len t o n G J _ e H Ie), (tinv_len t o n G J _ e' H Ie'). congruence. }
      apply StronglySorted_inv in Sk as [Sk Fk]. rewrite Forall_forall in Fk. apply A; try assumption.
      * intros a b Ia Ib. apply Bd; [exact Ia|]. cbn [opt app] in *. destruct Ib as [<-|[<-|Ib]]; [right; left; reflexivity|left; reflexivity|right; right; exact Ib].
      * intros a b [<-|[]] Ib. cbn [opt app] in Ib. destruct Ib as [<-|Ib]; [exact L'|apply Fk; exact Ib].
  - injection E as <- <- <-. auto.
  - apply (Redu e' None k) in E as (A & C); [|cbn [opt app]; apply Permutation_sym, Permutation_middle]. split; [|exact C].
    intros Sd Sk Bd. apply StronglySorted_inv in Sk as [Sk Fk]. rewrite Forall_forall in Fk. apply A; try assumption.
    intros a b [<-|[]] Ib. cbn [opt app] in Ib. apply Fk; exact Ib.
Qed.

(* ------------------------------------------------------------------------------------------ *)
(** * The new elements of algorithmBlockTQ *)

Definition mons (u : wpoly) : list monom := map fst (terms (wpol u)).
(** The leading monomial of a does not occur in another element b. *)
Definition clean (a b : wpoly) : Prop := plm a <> plm b -> ~ In (plm a) (mons b).

Lemma red_all_shape a : gw a -> forall l l', Forall gw l -> Forall (lt a) l -> red_all false (wpol a) l = Ok l' ->
  Forall2 (fun u u' => plm u' = plm u /\ ~ In (plm a) (mons u') /\ forall x, In x (mons u') -> In x (mons u) \/ In x (mons a)) l l'.
Proof.
  intro Ha. induction l as [|u l IH]; intros l' Gl L E; cbn [red_all] in E; [injection E as <-; constructor|].
  assert (Hu := Forall_inv Gl). assert (Lu := Forall_inv L).
  destruct (good_redMaybe t o n G Hn (wpol u) (wpol a) (plm u) (plm a)) as (r & Er & Gr & Hr & _ & Inc);
    [exact Hu|exact Ha|apply (plm_hd t o n G); exact Hu|apply (plm_hd t o n G); exact Ha|exact Lu|]. rewrite Er in E. cbn [bind] in E. unfold assert_ in E. cbn [andb] in E.
  destruct (red_all false (wpol a) l) as [l2| | | |] eqn:El; cbn [bind] in E; try discriminate. injection E as <-.
  constructor; [|apply IH; [exact (Forall_inv_tail Gl)|exact (Forall_inv_tail L)|reflexivity]]. split; [apply plm_eq; exact Hr|]. split; [|exact Inc].
  destruct (plm_hd t o n G a Ha) as (d & a' & Ea).
  destruct (c16_redMaybe false (wpol u) (wpol a) (plm a) d a') as (r' & k1 & k2 & E' & _ & _ & _ & _ & Z);
    [apply Hu|apply Ha|apply (goodz_same t o n G); [apply Hu|apply Ha]|apply Hu|exact Ea|apply Hu|apply Ha|].
  rewrite Er in E'. injection E' as <-. intro I. exact (in_coef t o n G r _ (proj1 Gr) I Z).
Qed.

Lemma below_lead u x : gw u -> In x (mons u) -> x = plm u \/ cmp1 t o (plm u) x = 1.
Proof. intros Hu I. apply (hd_below t o n G (wpol u)); [apply Hu|apply (plm_hd t o n G); exact Hu|exact I]. Qed.

Lemma scan_shape J : forall cnt pre l tmp, Forall (okt J) (pre ++ l) -> StronglySorted lt pre -> StronglySorted le l ->
  Forall (fun a => Forall (lt a) l) pre -> (forall a b, In a pre -> In b (pre ++ l) -> clean a b) ->
  scan cnt false pre l = Ok (tmp, []) -> forall a b, In a tmp -> In b tmp -> clean a b.
Proof.
  induction cnt as [|cnt IH]; intros pre l tmp O Sp Sl X Cl E.
  { destruct l; [|discriminate]. cbn [scan] in E. injection E as <-. rewrite app_nil_r in Cl. exact Cl. }
  destruct l as [|k l]; cbn [scan] in E.
  { injection E as <-. rewrite app_nil_r in Cl. exact Cl. }
  assert (O' := O). apply Forall_app in O' as [Op Ol]. assert (Hk := Forall_inv Ol). assert (Ol' := Forall_inv_tail Ol).
  assert (Gl := okt_gw t o n G J _ Ol'). assert (Gk : gw k) by apply Hk. destruct (plm_mono t o n G k Gk) as [Mk Pk].
  rewrite (lm_plm t o n G false k Gk) in E. cbn [bind] in E.
  destruct (same_lm_ok t o n G (plm k) Mk Pk l Gl) as (eqs & rest & Es & El & Ae & Br). rewrite Es in E. cbn [bind] in E.
  apply StronglySorted_inv in Sl as [Sl Fk]. destruct eqs as [|e eqs]; [|discriminate]. cbn [app] in El. subst rest.
  assert (Lk : Forall (lt k) l).
  { destruct l as [|v l]; [constructor|]. assert (Hv := Forall_inv Gl).
    assert (L0 : lt k v) by (destruct (le_cases t o n G k v Gk Hv (Forall_inv Fk)) as [L|Eq]; [exact L|congruence]).
    constructor; [exact L0|]. apply StronglySorted_inv in Sl as [_ Fv]. apply Forall_inv_tail in Gl. rewrite Forall_forall in *.
    intros w Iw. eapply (lt_le_trans t o n G); [exact Gk|exact Hv|apply Gl; exact Iw|exact L0|apply Fv; exact Iw]. }
  destruct (red_all_ok t o n G Hn J k Hk l Ol' Lk) as (l' & Er & Ol2 & Pl & _). rewrite Er in E. cbn [bind] in E.
  assert (Sh := red_all_shape k Gk l l' Gl Lk Er).
  assert (Tr : forall a, Forall (lt a) l -> Forall (lt a) l').
  { intros a. unfold JanetPolyProofs.lt. clear -Pl. revert l Pl. induction l' as [|v' l' IHl]; intros [|v l] Pl F; try discriminate; [constructor|].
    cbn [map] in Pl. injection Pl as P1 P2. constructor; [rewrite P1; exact (Forall_inv F)|apply (IHl l P2); exact (Forall_inv_tail F)]. }
  revert E. apply IH.
  - rewrite <- app_assoc. apply Forall_app. split; [exact Op|]. constructor; assumption.
  - apply ss_app. split; [exact Sp|]. split; [repeat constructor|]. eapply Forall_impl; [|exact X]. intros a Fa. constructor; [exact (Forall_inv Fa)|constructor].
  - exact (ss_map l l' (fun a b => cmp1 t o a b <> 1) Pl Sl).
  - apply Forall_app. split; [|constructor; [apply Tr; exact Lk|constructor]].
    eapply Forall_impl; [|exact X]. intros a Fa. apply Tr. exact (Forall_inv_tail Fa).
  - intros a b Ia Ib. rewrite <- app_assoc in Ib. apply in_app_iff in Ia. apply in_app_iff in Ib. cbn [app] in Ib.
    assert (Lp : forall p, In p pre -> lt p k) by (intros p Ip; rewrite Forall_forall in X; exact (Forall_inv (X p Ip))).
    assert (Gp : forall p, In p pre -> gw p) by (intros p Ip; rewrite Forall_forall in Op; apply (Op p Ip)).
    destruct Ia as [Ia|[<-|[]]].
    + destruct Ib as [Ib|[<-|Ib]].
      * apply Cl; [exact Ia|]. apply in_or_app. left. exact Ib.
      * apply Cl; [exact Ia|]. apply in_or_app. right. left. reflexivity.
      * destruct (Forall2_in_r _ _ _ _ Sh Ib) as (u & Iu & E1 & _ & E3). intros Ne I. apply E3 in I as [I|I].
        -- apply (Cl a u Ia); [apply in_or_app; right; right; exact Iu|congruence|exact I].
        -- apply (Cl a k Ia); [apply in_or_app; right; left; reflexivity|apply (lt_neq t o n Hn); apply Lp; exact Ia|exact I].
    + destruct Ib as [Ib|[<-|Ib]].
      * intros Ne I. destruct (below_lead b _ (Gp b Ib) I) as [Z|Z]; [congruence|]. assert (Lb := Lp b Ib). unfold JanetPolyProofs.lt in Lb.
        rewrite (cmp1_antisym t o (plm b) (plm k)) in Lb by (apply (plm_size t o n G); [apply Gp; exact Ib|exact Gk]). lia.
      * intro Z. congruence.
      * destruct (Forall2_in_r _ _ _ _ Sh Ib) as (u & Iu & _ & E2 & _). intros _. exact E2.
Qed.

Lemma block_loop_shape J : forall fuel tmp q tmp2 q2 dg, tmp <> [] -> Forall (okt J) tmp -> StronglySorted le tmp ->
  block_loop fuel false tmp q = Ok (tmp2, q2, dg) -> forall a b, In a tmp2 -> In b tmp2 -> clean a b.
Proof.
  induction fuel as [|fuel IH]; intros tmp q tmp2 q2 dg Ne O S E; cbn [block_loop] in E; [discriminate|]. destruct tmp as [|u l]; [congruence|].
  assert (Hu := Forall_inv O). assert (Ol := Forall_inv_tail O). rewrite (lm_plm t o n G false u (proj1 (proj1 Hu))) in E. cbn [bind] in E.
  destruct (same_deg_ok t o n G (deg (plm u)) l (okt_gw t o n G J _ Ol)) as (blk & rest & Es & El). rewrite Es in E. subst l. cbn [bind] in E. unfold assert_ in E. cbn [andb] in E.
  apply Forall_app in Ol as [Ob Or]. change (u :: blk ++ rest) with ((u :: blk) ++ rest) in S. apply ss_app in S as (Sb & _ & _).
  destruct (scan_ok t o n G Hn J (Datatypes.S (length blk)) [] (u :: blk)) as (tmp1 & tmp3 & Ec & O1 & _ & _ & D1);
    [cbn [app]; constructor; assumption|constructor|exact Sb|constructor|cbn [length]; lia|]. rewrite Ec in E. cbn [bind] in E.
  destruct tmp3 as [|w0 tmp3].
  - injection E as <- <- <-. apply (scan_shape J _ _ _ _) with (6 := Ec); [cbn [app]; constructor; assumption|constructor|exact Sb|constructor|]. intros a b [].
  - destruct D1 as (D1 & D2 & _). apply Forall_app in O1 as [O1 O2]. assert (Pm := min_norm_ok tmp3 w0 []). cbv zeta in Pm. cbn [app] in Pm.
    destruct (min_norm w0 [] tmp3) as [w others]. cbn [fst snd] in Pm.
    assert (O3 : Forall (okt J) (w :: others)) by (eapply Permutation_Forall; [exact Pm|exact O2]).
    assert (D3 : Forall (fun v => plm v = plm w) others).
    { assert (D4 : Forall (fun v => plm v = plm w0) (w :: others)) by (eapply Permutation_Forall; [exact Pm|constructor; [reflexivity|exact D2]]).
      rewrite (Forall_inv D4). exact (Forall_inv_tail D4). }
    destruct (insert_w t o n G Hn false tmp1 w) as (t1 & E1 & P1 & S1); [apply (Forall_inv O3)|eapply (okt_gw t o n G); exact O1|]. rewrite E1 in E. cbn [bind] in E.
    destruct (red_by_ok t o n G Hn J w (Forall_inv O3) others t1) as (t2 & E2 & O4 & S4 & I4 & _);
      [exact (Forall_inv_tail O3)|exact D3|eapply Permutation_Forall; [apply Permutation_sym; exact P1|constructor; [exact (Forall_inv O3)|exact O1]]|auto|].
    rewrite E2 in E. cbn [bind] in E. revert E. apply IH; [|exact O4|exact S4].
    assert (Iw : In w t2) by (apply I4; eapply Permutation_in; [apply Permutation_sym; exact P1|left; reflexivity]). intros ->. destruct Iw.
Qed.

Lemma enter_shape : forall l js js' new, Forall okq l -> enter false js l = Ok (js', new) ->
  Forall2 (fun u e => fst e = plm u /\ map fst (terms (snd e)) = mons u /\ pr e) l new.
Proof.
  induction l as [|u l IH]; intros js js' new O E; cbn [enter] in E; [injection E as <- <-; constructor|].
  assert (Hu := Forall_inv O). assert (Gu := proj1 Hu). rewrite (lm_plm t o n G false u Gu) in E. cbn [bind] in E.
  destruct (plm_mono t o n G u Gu) as [Mu Pu]. destruct (update_ok t o n G u (plm u) Hu Mu Pu) as (Ew & _ & _). cbv zeta in E, Ew.
  destruct (good_pp t o n G (wpol u) (plm u) Gu (plm_hd t o n G u Gu)) as (p & Ep & Gp & _ & _ & Mp). rewrite Ep in E. cbn [bind] in E.
  destruct (tree_at false js _) as [J| | | |]; cbn [bind] in E; try discriminate.
  destruct (insert false J _) as [J'| | | |]; cbn [bind] in E; try discriminate.
  destruct (enter false _ l) as [[j2 new2]| | | |] eqn:E2; cbn [bind fst snd] in E; try discriminate. injection E as <- <-.
  constructor; [|eapply IH; [exact (Forall_inv_tail O)|exact E2]]. cbn [fst snd]. split; [exact Ew|]. split; [exact Mp|]. exact (pp_prim (wpol u) p Gu Ep).
Qed.

(* ------------------------------------------------------------------------------------------ *)
(** * One round of each algorithm *)

(** The monomials of a polynomial have at most the degree of the leading one. *)
Lemma deg_below a b : o = ODegLex -> mono n a -> mono n b -> pos a = -1 -> pos b = -1 -> cmp1 t o a b = 1 -> (total (vars b) <= total (vars a))%nat.
Proof.
  intros E Ma Mb Pa Pb C. apply (cmp1_spec t o) in C; [|eapply mono_size; eassumption]. rewrite E in C. unfold module_gt in C. cbn [base_gt] in C.
  destruct t; [destruct C as [[C|[C _]]|[_ C]]; lia|destruct C as [C|[_ [C|[C _]]]]; lia].
Qed.

(** A divisor of the same degree is equal. *)
Lemma div_same u v : length u = n -> length v = n -> divides n u v -> (total v <= total u)%nat -> u = v.
Proof.
  clear. unfold divides. revert u v. induction n as [|k IH]; intros [|x u] [|y v] Lu Lv D T; try discriminate; [reflexivity|].
  assert (D0 := D 0%nat ltac:(lia)). cbn in D0. assert (D1 : forall i, (i < k)%nat -> (expo u i <= expo v i)%nat) by (intros i Hi; exact (D (Datatypes.S i) ltac:(lia))).
  cbn in Lu, Lv, T. injection Lu as Lu. injection Lv as Lv.
  assert (X : (total u <= total v)%nat).
  { clear -D1 Lu Lv. revert v k D1 Lu Lv. induction u as [|a u IH]; intros [|b v] k D L1 L2; cbn in *; subst; try lia; try discriminate.
    assert (D0 := D 0%nat ltac:(lia)). cbn in D0. injection L2 as L2. specialize (IH v (length u) (fun i Hi => D (Datatypes.S i) ltac:(lia)) eq_refl L2). lia. }
  f_equal; [lia|]. apply IH; [exact Lu|exact Lv|exact D1|lia].
Qed.

Lemma jd_incl U V u m : incl U V -> In u U -> janet_divides n V u m -> janet_divides n U u m.
Proof.
  intros I Iu (_ & D & N). split; [exact Iu|]. split; [exact D|]. intros i Hi L (w & Iw & C). apply (N i Hi L). exists w. split; [apply I; exact Iw|exact C].
Qed.

Lemma new_tred J T tmp new dg : o = ODegLex -> tinv J T -> Forall (okt J) tmp -> Forall (fun u => deg (plm u) = dg) tmp ->
  (forall a b, In a tmp -> In b tmp -> clean a b) ->
  Forall2 (fun u e => fst e = plm u /\ map fst (terms (snd e)) = mons u /\ pr e) tmp new -> Forall (tred (keys (new ++ T))) new.
Proof.
  intros Od H O Dg Cl F. apply Forall_forall. intros e Ie. destruct (Forall2_in_r _ _ _ _ F Ie) as (u & Iu & E1 & E2 & _).
  rewrite Forall_forall in O, Dg. assert (Hu := O u Iu). assert (Gu : gw u) by apply Hu. intros x Ix v C. rewrite E2 in Ix.
  assert (Ix' : In x (mons u)) by (destruct (mons u); [exact Ix|right; exact Ix]).
  destruct (goodz_mono t o n G (wpol u) x (proj1 Gu) Ix') as [Mx Px]. destruct (plm_mono t o n G u Gu) as [Mu Pu].
  assert (Iv := proj1 C). unfold keys in Iv. rewrite !map_app, in_app_iff in Iv. destruct Iv as [Iv|Iv].
  - rewrite map_map in Iv. apply in_map_iff in Iv as (e' & Ev & Ie'). destruct (Forall2_in_r _ _ _ _ F Ie') as (u' & Iu' & E1' & _). subst v. rewrite E1' in C.
    assert (Gu' : gw u') by apply (O u' Iu'). destruct (plm_mono t o n G u' Gu') as [Mu' Pu'].
    (* x is smaller than the leading monomial of u *)
    assert (Ne : x <> plm u).
    { intros ->. destruct (plm_hd t o n G u Gu) as (d & l & El). assert (Ca := goodz_canon _ _ _ _ _ (proj1 Gu)). apply canonical_iff in Ca as (So & _ & _).
      unfold mons in Ix. rewrite El in So, Ix. cbn [map tl fst] in Ix. apply (sorted_below t o) in So as [B _]. unfold below in B. rewrite Forall_forall in B.
      apply in_map_iff in Ix as (y & Ey & Iy). specialize (B y Iy). cbn [fst] in B. rewrite Ey, cmp1_refl in B. lia. }
    destruct (below_lead u x Gu Ix') as [Z|Z]; [congruence|].
    assert (Dx := deg_below _ _ Od Mu Mx Pu Px Z). assert (D1 := Dg u Iu). assert (D2 := Dg u' Iu'). unfold deg in D1, D2. rewrite degv_total in D1, D2.
    assert (Eq : vars (plm u') = vars x) by (apply div_same; [apply Mu'|apply Mx|apply C|lia]).
    assert (Eq' : plm u' = x) by (destruct (plm u'), x; cbn in *; congruence).
    apply (Cl u' u Iu' Iu); [congruence|]. rewrite Eq'. exact Ix'.
  - destruct Hu as [_ Ir]. apply (Ir x Ix' v). eapply jd_perm; [symmetry; apply (leads_lms t o n G J T H)|].
    eapply jd_incl; [|exact Iv|exact C]. unfold keys. rewrite !map_app. apply incl_appr. apply incl_refl.
Qed.

Lemma perm_keys T new T' : Permutation (map fst T') (map fst (new ++ T)) -> Permutation (keys (new ++ T)) (keys T').
Proof. intro P. unfold keys. apply Permutation_map. symmetry. exact P. Qed.

Lemma unit_prim mpos J : set_one false t o n mpos = Ok J -> exists w, jone J = Some w /\ terms (wpol w) = one n.
Proof. unfold set_one. assert (E : p_const false t o n 1 = Ok (Poly t o n (one n))) by reflexivity. rewrite E. cbn [bind]. unfold p_lm. cbn [terms one bind]. intro X. injection X as <-. eexists. split; reflexivity. Qed.

Definition out (Q : list entry -> Prop) (r : rstate + jpoly) : Prop :=
  match r with inl s' => Q (snd s') | inr J => (exists w, jone J = Some w /\ terms (wpol w) = one n) \/ (jone J = None /\ Q (jt J)) end.

Lemma block_round_shape fuel s r : rinv s -> block_round fuel false (-1) s = Ok r ->
  match r with inl s' => rinv s' | inr _ => True end /\
  (incr_T (snd s) -> out incr_T r) /\ (Forall pr (snd s) -> out (Forall pr) r) /\ (o = ODegLex -> nf_T (snd s) -> out nf_T r).
Proof.
  destruct s as [[js q] T]. intros (J & Ej & H & Q) E. cbn [fst snd] in *. subst js. cbn [block_round] in E.
  destruct q as [|u q0] eqn:Eq.
  { injection E as <-. split; [exact I|]. unfold out. cbn [jone jt]. auto. }
  rewrite <- Eq in *.
  assert (Hu : okq u) by (rewrite Eq in Q; exact (Forall_inv Q)). rewrite (lm_plm t o n G false u (proj1 Hu)) in E. cbn [bind] in E.
  assert (K1 := take_block_ok t o n G Hn Ho J T (deg (plm u)) fuel H q [] Q (Forall_nil _) (SSorted_nil _)).
  destruct (take_block _ _ _ _ _ _) as [r1| | | |] eqn:E1; cbn [bind] in E; try discriminate. cbn [safe] in K1.
  destruct r1 as [[q1 tmp]|].
  2:{ destruct Hu as ([(_ & (A1 & A2 & A3) & _) _] & _). rewrite A1, A2, A3 in E. destruct (set_one false t o n (-1)) as [J'| | | |] eqn:Es; cbn [bind] in E; try discriminate.
      injection E as <-. split; [exact I|]. apply unit_prim in Es. unfold out. auto. }
  destruct K1 as (Q1 & Tm & S1 & _). unfold assert_ in E. cbn [andb] in E.
  destruct tmp as [|x tmp'] eqn:Et.
  { injection E as <-. cbn [out snd]. split; [exists J; auto|auto]. }
  rewrite <- Et in *. assert (Ne : tmp <> []) by congruence.
  destruct (block_loop fuel false tmp q1) as [[[tmp2 q2] dg]| | | |] eqn:E2; cbn [bind] in E; try discriminate.
  destruct (block_loop_ends t o n G Hn Ho J tmp q1 Ne Tm S1) as [_ K2]. specialize (K2 fuel). rewrite E2 in K2. cbn [safe] in K2. destruct K2 as [_ Dg].
  assert (K3 := block_loop_ok t o n G Hn J fuel tmp q1 Ne Tm S1 Q1). rewrite E2 in K3. cbn [safe] in K3. destruct K3 as (O2 & S2 & Q2 & _).
  assert (Cl := block_loop_shape J fuel tmp q1 tmp2 q2 dg Ne Tm S1 E2).
  assert (Oq : Forall okq tmp2) by (eapply Forall_impl; [|exact O2]; intros v Hv; apply Hv).
  destruct (enter_ok t o n G Hn tmp2 J T H Oq S2) as (J2 & new & E3 & H2 & _).
  { intros v Iv X. rewrite Forall_forall in O2. destruct (O2 v Iv) as [[Gv _] Ir].
    apply (Ir (plm v) (hd_in _ _ (plm_hd t o n G v Gv)) (vars (plm v))). split; [exact X|]. split; [intros i _; lia|intros i _ Y; lia]. }
  assert (Sh := enter_shape tmp2 _ _ _ Oq E3). rewrite E3 in E. cbn [bind] in E.
  destruct (merge_loop _ _ _ _ _ _ _ _ _ _) as [[[js3 q3] T3]| | | |] eqn:E4; cbn [bind] in E; try discriminate.
  assert (K4 := merge_loop_ok t o n G Hn Ho fuel dg (length new + length T) J2 q2 [] new T H2 Q2). rewrite E4 in K4. cbn [safe] in K4.
  destruct K4 as (J3 & -> & H3 & Q3 & _). injection E as <-. cbn [out snd].
  destruct (merge_shape fuel dg _ J2 q2 [] new T _ _ _ H2 Q2 E4) as (A & B & C). apply merge_perm in E4. cbn [app] in *.
  split; [exists J3; auto|]. split; [|split].
  - intro Si. apply A; [constructor| |exact Si|intros a b []].
    clear -S2 Sh. revert new Sh. induction S2 as [|a l S IH F]; intros new Sh; inversion Sh as [|a' e l' new' R Sh']; subst; [constructor|].
    constructor; [apply IH; exact Sh'|]. apply Forall_forall. intros e2 I2. destruct (Forall2_in_r _ _ _ _ Sh' I2) as (b & Ib & Eb & _).
    rewrite Forall_forall in F. unfold elt. rewrite Eb, (proj1 R). exact (F b Ib).
  - intro Pi. apply B; [constructor| |exact Pi]. apply Forall_forall. intros e Ie. destruct (Forall2_in_r _ _ _ _ Sh Ie) as (b & _ & _ & _ & X). exact X.
  - intros Od _. assert (X := new_tred J T tmp2 new dg Od H O2 Dg Cl Sh). apply perm_keys in E4. apply C; [exact E4|constructor|].
    eapply Forall_impl; [|exact X]. intros e He. eapply tred_perm; [exact E4|exact He].
Qed.

Lemma tail_lt u x : gw u -> In x (tl (mons u)) -> cmp1 t o (plm u) x = 1.
Proof.
  intros Gu Ix. assert (Ix' : In x (mons u)) by (destruct (mons u); [exact Ix|right; exact Ix]). destruct (below_lead u x Gu Ix') as [->|Z]; [exfalso|exact Z].
  destruct (plm_hd t o n G u Gu) as (d & l & El). assert (Ca := goodz_canon _ _ _ _ _ (proj1 Gu)). apply canonical_iff in Ca as (So & _ & _).
  unfold mons in Ix. rewrite El in So, Ix. cbn [map tl fst] in Ix. apply (sorted_below t o) in So as [B _]. unfold below in B. rewrite Forall_forall in B.
  apply in_map_iff in Ix as (y & Ey & Iy). specialize (B y Iy). cbn [fst] in B. rewrite Ey, cmp1_refl in B. lia.
Qed.

Lemma tq_round_shape v fuel s r : rinv s -> tq_round v fuel false (-1) s = Ok r ->
  match r with inl s' => rinv s' | inr _ => True end /\ (incr_T (snd s) -> out incr_T r) /\ (nf_T (snd s) -> out nf_T r).
Proof.
  destruct s as [[js q] T]. intros (J & Ej & H & Q) E. cbn [fst snd] in *. subst js. cbn [tq_round] in E.
  destruct q as [|u q0] eqn:Eq.
  { injection E as <-. split; [exact I|]. unfold out. cbn [jone jt]. auto. }
  rewrite <- Eq in *.
  assert (Hu : okq u) by (rewrite Eq in Q; exact (Forall_inv Q)). rewrite (lm_plm t o n G false u (proj1 Hu)) in E. cbn [bind] in E.
  assert (K1 := take_tq_ok t o n G Hn Ho false J T (deg (plm u)) fuel H q [] Q (Forall_nil _)).
  destruct (take_tq _ _ _ _ _ _ _) as [r1| | | |]; cbn [bind] in E; try discriminate. cbn [safe] in K1.
  destruct r1 as [[q1 tmp]|].
  2:{ destruct Hu as ([(_ & (A1 & A2 & A3) & _) _] & _). rewrite A1, A2, A3 in E. destruct (set_one false t o n (-1)) as [J'| | | |] eqn:Es; cbn [bind] in E; try discriminate.
      injection E as <-. split; [exact I|]. apply unit_prim in Es. unfold out. auto. }
  destruct K1 as (Q1 & Tm & _). unfold assert_ in E. cbn [andb] in E.
  destruct tmp as [|w0 tmp0].
  { injection E as <-. cbn [out snd]. split; [exists J; auto|auto]. }
  assert (H0 := Forall_inv Tm). assert (G0 := proj1 (proj1 H0)).
  rewrite (lm_plm t o n G false w0 G0) in E. cbn [bind] in E. destruct (plm_mono t o n G w0 G0) as [M0 P0].
  destruct (same_lm_ok t o n G (plm w0) M0 P0 tmp0) as (eqs & rest & Es & Et & El0 & _); [eapply okh_gw; exact (Forall_inv_tail Tm)|].
  rewrite Es in E. cbn [bind] in E. subst tmp0. assert (Tm0 := Forall_inv_tail Tm). apply Forall_app in Tm0 as [Tm1 Tm2].
  destruct (if v then do p <- _; _ else _) as [w1| | | |] eqn:E1; cbn [bind] in E; try discriminate.
  assert (O1 : okh J w1 /\ plm w1 = plm w0).
  { destruct v; [|injection E1 as <-; auto].
    assert (Kp := tail_pp_ok t o n G Hn J T fuel (wpol w0) (plm w0) H G0 (plm_hd t o n G w0 G0)).
    destruct (tail_pp _ _ _ _) as [p| | | |]; cbn [bind] in E1; try discriminate. injection E1 as <-. destruct Kp as (Gp & Hp & _).
    assert (Epl : plm (WP (wwrap w0) p) = plm w0) by (apply plm_eq; exact Hp). split; [|exact Epl].
    split; [split; [exact Gp|apply H0]|]. unfold hirr. rewrite Epl. apply H0. }
  destruct O1 as [O1 Ew1].
  destruct (if v then tails _ _ _ _ else _) as [eqs1| | | |] eqn:E2; cbn [bind] in E; try discriminate.
  assert (O2 : Forall (okh J) eqs1 /\ Forall (fun u => plm u = plm w0) eqs1).
  { destruct v; [|injection E2 as <-; auto]. assert (Kl := tails_ok t o n G Hn J T fuel (plm w0) H eqs Tm1 El0). rewrite E2 in Kl. destruct Kl as (A & B & _). auto. }
  destruct O2 as [O2 Ee].
  assert (Ps := swap_min_perm eqs1 w1). destruct (swap_min w1 eqs1) as [w eqs2] eqn:Esw. cbn [fst snd] in Ps.
  assert (Ow : Forall (okh J) (w :: eqs2)) by (eapply Permutation_Forall; [exact Ps|constructor; assumption]).
  assert (El : Forall (fun u => plm u = plm w0) (w :: eqs2)) by (eapply Permutation_Forall; [exact Ps|constructor; assumption]).
  assert (Hw := Forall_inv Ow). assert (Hq := okh_okq t o n G _ _ (Forall_inv_tail Ow)). assert (Hr := okh_okq t o n G _ _ Tm2).
  assert (Ew := Forall_inv El). cbv beta in Ew.
  assert (Ealike : Forall (fun u => plm u = plm w) eqs2).
  { eapply Forall_impl; [|exact (Forall_inv_tail El)]. intros x Ex. cbv beta in *. congruence. }
  destruct (v && negb (length eqs2 =? 0)%nat) eqn:Ev.
  - destruct (red_eq_ok t o n G Hn w (proj1 Hw) eqs2 Hq Ealike) as (eqs3 & E4 & O3 & _). rewrite E4 in E. cbn [bind] in E.
    assert (Qr : Forall okq (rest ++ q1)) by (apply Forall_app; split; assumption).
    destruct (insert_w t o n G Hn false (rest ++ q1) w) as (q2 & E5 & P2 & _); [apply Hw|apply okq_gw; exact Qr|]. rewrite E5 in E. cbn [bind] in E.
    assert (Q2 : Forall okq q2) by (eapply Permutation_Forall; [apply Permutation_sym; exact P2|constructor; [apply Hw|exact Qr]]).
    destruct (insert_all_ok t o n G Hn eqs3 q2 O3 Q2) as (q3 & E6 & P3). rewrite E6 in E. cbn [bind] in E.
    assert (Q3 : Forall okq q3) by (eapply Permutation_Forall; [apply Permutation_sym; exact P3|apply Forall_app; split; assumption]).
    injection E as <-. cbn [out snd]. split; [exists J; auto|auto].
  - assert (Q2 : Forall okq ((eqs2 ++ rest) ++ q1)) by (rewrite !Forall_app; auto).
    destruct (enter_w_ok t o n G Hn J T w H Hw) as (J2 & w' & E4 & Ew' & H2). rewrite E4 in E. cbn [bind] in E. rewrite Ew' in E.
    destruct T as [|e0 T0].
    + injection E as <-. cbn [out snd]. split; [exists J2; auto|]. split; [intros _; constructor; constructor|]. intros _. constructor; [|constructor].
      intros x Ix v0 (Iv & D & _). cbn [keys map fst] in Iv. destruct Iv as [<-|[]]. cbn [snd] in Ix.
      assert (Gw : gw w) by apply Hw. assert (Z := tail_lt w x Gw Ix). destruct (plm_mono t o n G w Gw) as [Mw Pw].
      assert (Ix' : In x (mons w)) by (unfold mons; destruct (map fst (terms (wpol w))); [exact Ix|right; exact Ix]).
      destruct (goodz_mono t o n G (wpol w) x (proj1 Gw) Ix') as [Mx Px].
      apply (divisor_le t o n Hn Ho (plm w) x Mw Mx) in Z; auto. split; [left; exact Pw|]. split; [destruct Mw, Mx; congruence|]. intro i. destruct (le_lt_dec n i) as [L|L]; [|apply D; exact L].
      unfold expo. rewrite !nth_overflow; [lia| |]; destruct Mw, Mx; lia.
    + destruct (walk _ _ _ _ _ _ _ _ _ _) as [[[js3 q3] T3]| | | |] eqn:E5; cbn [bind] in E; try discriminate. injection E as <-.
      assert (K := walk_ok t o n G Hn Ho fuel (deg (plm u)) (Datatypes.S (length (e0 :: T0))) J2 _ [] (Some (plm w, wpol w)) (e0 :: T0) H2 Q2). rewrite E5 in K. cbn [safe] in K.
      destruct K as (J3 & -> & H3 & Q3 & _). cbn [out snd]. split; [exists J3; auto|].
      destruct (walk_shape fuel _ _ J2 _ [] (Some (plm w, wpol w)) (e0 :: T0) _ _ _ H2 Q2 E5) as (A & C). cbn [opt app] in *. split.
      * intro Si. apply A; [constructor|exact Si|intros a b []].
      * intros _. apply C; [|constructor]. apply walk_perm in E5. cbn [opt app] in E5. unfold keys. apply Permutation_map. symmetry. exact E5.
Qed.

(* ------------------------------------------------------------------------------------------ *)
(** * The loops *)

Definition keeps (R : nat -> rstate -> outcome (rstate + jpoly)) (Q : list entry -> Prop) : Prop :=
  forall fuel s r, rinv s -> R fuel s = Ok r -> match r with inl s' => rinv s' | inr _ => True end /\ (Q (snd s) -> out Q r).

Lemma run_keeps (Q : list entry -> Prop) (R : nat -> rstate -> outcome (rstate + jpoly)) (run : nat -> rstate -> outcome jpoly) :
  (forall fuel s, run (Datatypes.S fuel) s = do r <- R (Datatypes.S fuel) s; match r with inl s' => run fuel s' | inr J => Ok J end) ->
  (forall s J, run 0%nat s = Ok J -> R 0%nat s = Ok (inr J)) ->
  keeps R Q -> forall fuel s J, rinv s -> Q (snd s) -> run fuel s = Ok J -> out Q (inr J).
Proof.
  intros Er E0 K. induction fuel as [|fuel IH]; intros s J H Hq E.
  - apply E0 in E. destruct (K _ _ _ H E) as [_ X]. apply X. exact Hq.
  - rewrite Er in E. destruct (R (Datatypes.S fuel) s) as [r| | | |] eqn:Es; cbn [bind] in E; try discriminate.
    destruct (K _ _ _ H Es) as [X Y]. destruct r as [s'|J'].
    + apply (IH s' J X (Y Hq) E).
    + injection E as <-. apply Y. exact Hq.
Qed.

Lemma block_zero s J : block_run 0 s = Ok J -> block_round 0 false (-1) s = Ok (inr J).
Proof. destruct s as [[js q] T]. unfold block_run. cbn [block_tq block_round]. destruct q; [|discriminate]. congruence. Qed.
Lemma tq_zero v s J : tq_run v 0 s = Ok J -> tq_round v 0 false (-1) s = Ok (inr J).
Proof. destruct s as [[js q] T]. unfold tq_run. cbn [tq_loop tq_round]. destruct q; [|discriminate]. congruence. Qed.
End P.
