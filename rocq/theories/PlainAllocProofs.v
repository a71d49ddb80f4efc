From Coq Require Import ZArith List Bool Arith Lia Permutation.
From Verif Require Import Outcome RandPermModel RandPermProofs AllocModel AllocSpec AllocProofs PlainAllocModel PlainAllocSpec.
Import ListNotations.
Local Open Scope Z_scope.

Definition pat (w : pworld) (i : nat) (a : palloc) : Prop := nth_error (pallocs w) i = Some (Some a).
Lemma pget_at w i a : pget w i = Ok a <-> pat w i a.
Proof. unfold pget, pat, rd. destruct (nth_error (pallocs w) i) as [[b|]|]; cbn; split; congruence. Qed.

Definition ids (l : list obj) : list nat := map (fun o => p_id (o_ptr o)) l.

Section P.
Variable memory : Z.
Hypothesis memory_ok : 0 <= memory <= 2 ^ 62.

Record PInv (w : pworld) (c : pclient) : Prop := {
  q_pos : forall o, In o (plive c) -> 0 < bytes o /\ bytes o <= 2 ^ 62 + 8;
  q_len : forall o n, In o (plive c) -> o_len o = Some n -> 0 < n;
  q_off : forall o, In o (plive c) -> p_off (o_ptr o) = match o_len o with Some _ => if trivial (o_type o) then 0 else 8 | None => 0 end;
  q_at : forall o, In o (plive c) -> exists a, pat w (o_at o) a;
  q_alloc : forall i a, pat w i a -> pAlloc a = zsum cost (of_alloc i (plive c)) /\ pSize a = zsum cost (of_alloc i (plive c));
  q_curr : pCurr w = zsum cost (plive c);
  q_mem : pCurr w <= memory;
  q_max : pMax w = ppeak c;
  q_cm : pCurr w <= pMax w;
  q_heap : Permutation (heap w) (ids (plive c));
  q_nodup : NoDup (ids (plive c));
  q_fresh : forall k, In k (ids (plive c)) -> (k < pfresh w)%nat
}.

Lemma cost_nonneg l : (forall o, In o l -> 0 < bytes o /\ bytes o <= 2 ^ 62 + 8) -> 0 <= zsum cost l.
Proof. intro H. apply zsum_nonneg. intros o I. apply H in I. unfold cost. lia. Qed.
Lemma of_alloc_le i l : (forall o, In o l -> 0 < bytes o /\ bytes o <= 2 ^ 62 + 8) -> 0 <= zsum cost (of_alloc i l) <= zsum cost l.
Proof.
  induction l as [|o l IH]; intro H; [cbn; lia|]. specialize (IH (fun x I => H x (or_intror I))). assert (Ho := H o (or_introl eq_refl)).
  unfold of_alloc in *. cbn [filter]. destruct (Nat.eqb (o_at o) i); unfold zsum in *; cbn [fold_right]; unfold cost at 1 2; try unfold cost at 2; unfold cost in *; lia.
Qed.
Lemma of_alloc_app i l l' : of_alloc i (l ++ l') = of_alloc i l ++ of_alloc i l'.
Proof. apply filter_app. Qed.
Lemma zsum_cons {A} (f : A -> Z) x l : zsum f (x :: l) = f x + zsum f l.
Proof. reflexivity. Qed.

Lemma pat_upd c m li h f al i x j b : (i < length al)%nat -> pat (PWorld c m li h f (upd al i x)) j b <-> (j = i /\ x = Some b) \/ (j <> i /\ nth_error al j = Some (Some b)).
Proof.
  intro L. unfold pat. cbn [pallocs]. rewrite nth_upd. destruct (Nat.eqb_spec j i) as [->|N].
  - apply Nat.ltb_lt in L. rewrite L. cbn [andb]. split; [intro E; left; split; congruence|intros [[_ E]|[N _]]; congruence].
  - cbn [andb]. split; [auto|intros [[E _]|[_ E]]; [contradiction|exact E]].
Qed.
Lemma pat_lt w i a : pat w i a -> (i < length (pallocs w))%nat.
Proof. intro P. apply nth_error_Some. unfold pat in P. congruence. Qed.

Definition over (w : pworld) (k : Z) : Prop := 0 < pLimit w < Z.max (pMax w) (pCurr w + k).

Lemma alloc_step dbg w c i a n : PInv w c -> pat w i a -> 0 < n <= 2 ^ 62 + 8 ->
  match p_allocate memory dbg i n w with
  | Ok (w', p) => p = PPtr (pfresh w) 0 /\ pCurr w' = pCurr w + n + 16 /\ ~ over w (n + 16) /\ forall o, o_at o = i -> bytes o = n -> p_id (o_ptr o) = pfresh w ->
      (forall k, o_len o = Some k -> 0 < k) ->
      p_off (o_ptr o) = match o_len o with Some _ => if trivial (o_type o) then 0 else 8 | None => 0 end ->
      PInv w' (PClient (o :: plive c) (Z.max (ppeak c) (pCurr w')))
  | Undef => memory < pCurr w + n + 16 /\ ~ over w (n + 16)
  | Exit => over w (n + 16)
  | _ => False
  end.
Proof.
  intros I A Hn. assert (Cp := cost_nonneg _ (q_pos _ _ I)). assert (Cc := q_curr _ _ I). assert (Cm := q_mem _ _ I). assert (Mx := q_cm _ _ I).
  destruct (q_alloc _ _ I i a A) as [Ea Es]. assert (Le := of_alloc_le i _ (q_pos _ _ I)).
  unfold p_allocate. rewrite (proj2 (pget_at w i a) A). cbn [bind].
  replace (0 <? n) with true by (symmetry; apply Z.ltb_lt; lia). rewrite assert_true1. cbv zeta. unfold addSize.
  rewrite (wrap_id (n + 16)) by lia. rewrite (wrap_id (pAlloc a + _)), (wrap_id (pSize a + _)), (wrap_id (pCurr w + _)) by lia.
  set (mx := if pCurr w + (n + 16) <? pMax w then pMax w else pCurr w + (n + 16)).
  assert (Em : mx = Z.max (pMax w) (pCurr w + (n + 16))) by (unfold mx; destruct (Z.ltb_spec (pCurr w + (n + 16)) (pMax w)); lia).
  destruct (Z.ltb_spec 0 (pLimit w)) as [L0|L0]; cbn [andb]; [destruct (Z.ltb_spec (pLimit w) mx) as [L1|L1]; [unfold over; lia|]|].
  all: destruct (Z.leb_spec (pCurr w + (n + 16)) memory) as [L2|L2]; [|unfold over; lia].
  all: split; [reflexivity|]; split; [cbn [pCurr]; lia|]; split; [unfold over; lia|]; intros o Eo Eb Ei Ep Eoff.
  all: constructor; cbn [plive ppeak pCurr pMax heap pfresh].
  all: try (intros o' [<-|I']; [lia|exact (q_pos _ _ I _ I')]).
  all: try (intros o' k [<-|I'] E; [exact (Ep k E)|exact (q_len _ _ I o' k I' E)]).
  all: try (intros o' [<-|I']; [exact Eoff|exact (q_off _ _ I _ I')]).
  all: try (intros o' [<-|I']; [rewrite Eo; eexists; apply pat_upd; [exact (pat_lt _ _ _ A)|left; split; reflexivity]|];
            destruct (q_at _ _ I o' I') as [b B]; destruct (Nat.eq_dec (o_at o') i) as [->|N];
            [eexists; apply pat_upd; [exact (pat_lt _ _ _ A)|left; split; reflexivity]|exists b; apply pat_upd; [exact (pat_lt _ _ _ A)|right; split; [exact N|exact B]]]).
  all: try (intros j b B; apply pat_upd in B; [|exact (pat_lt _ _ _ A)]; unfold of_alloc; cbn [filter]; rewrite Eo; fold (of_alloc j (plive c)); destruct B as [[-> E]|[N B]];
            [injection E as <-; rewrite Nat.eqb_refl, zsum_cons; unfold cost at 1 3; cbn [pAlloc pSize]; lia
            |destruct (Nat.eqb_spec i j); [congruence|exact (q_alloc _ _ I j b B)]]).
  all: try (rewrite zsum_cons; unfold cost at 1; lia).
  all: try lia.
  all: try (rewrite <- (q_max _ _ I); lia).
  all: try (cbn [ids map]; rewrite Ei; apply perm_skip; exact (q_heap _ _ I)).
  all: try (cbn [ids map]; rewrite Ei; constructor; [intro X; apply (q_fresh _ _ I) in X; lia|exact (q_nodup _ _ I)]).
  all: try (cbn [ids map]; intros k [<-|X]; [lia|apply (q_fresh _ _ I) in X; lia]).
Qed.

Lemma filter_id k l : NoDup (k :: l) -> filter (fun x => negb (Nat.eqb k x)) l = l.
Proof.
  intro H. apply NoDup_cons_iff in H as [N _]. induction l as [|x l IH]; [reflexivity|]. cbn [filter]. destruct (Nat.eqb_spec k x) as [->|].
  - exfalso. apply N. left. reflexivity.
  - cbn [negb]. f_equal. apply IH. intro X. apply N. right. exact X.
Qed.
Lemma filter_perm' (f : nat -> bool) l l' : Permutation l l' -> Permutation (filter f l) (filter f l').
Proof.
  induction 1 as [|x l l' _ IH|x y l|l l' l'' _ IH1 _ IH2]; cbn [filter].
  - constructor.
  - destruct (f x); [now constructor|exact IH].
  - destruct (f x), (f y); solve [apply perm_swap|apply Permutation_refl].
  - eapply Permutation_trans; eassumption.
Qed.

Lemma dealloc_step dbg w c l1 o l2 : PInv w c -> plive c = l1 ++ o :: l2 -> p_off (o_ptr o) = 0 ->
  exists w', p_deallocate dbg (o_at o) (o_ptr o) (bytes o) w = Ok w' /\ PInv w' (PClient (l1 ++ l2) (ppeak c)) /\ pCurr w' = pCurr w - cost o.
Proof.
  intros I E0 Eoff. assert (Io : In o (plive c)) by (rewrite E0; apply in_or_app; right; left; reflexivity).
  assert (Sub : forall x, In x (l1 ++ l2) -> In x (plive c)) by (intros x X; rewrite E0; apply in_app_or in X as [X|X]; apply in_or_app; [left|right; right]; exact X).
  destruct (q_at _ _ I o Io) as [a A]. destruct (q_pos _ _ I o Io) as [B0 B1]. destruct (q_alloc _ _ I _ _ A) as [Ea Es].
  assert (P' : forall x, In x (l1 ++ l2) -> 0 < bytes x /\ bytes x <= 2 ^ 62 + 8) by (intros x X; apply (q_pos _ _ I); apply Sub, X).
  assert (S1 : zsum cost (plive c) = cost o + zsum cost (l1 ++ l2)) by (rewrite E0, !zsum_app, zsum_cons; lia).
  assert (S2 : forall j, zsum cost (of_alloc j (plive c)) = (if Nat.eqb (o_at o) j then cost o else 0) + zsum cost (of_alloc j (l1 ++ l2))).
  { intro j. rewrite E0, !of_alloc_app, !zsum_app. unfold of_alloc at 2. cbn [filter]. destruct (Nat.eqb (o_at o) j); rewrite ?zsum_cons; fold (of_alloc j l2); lia. }
  assert (Le := of_alloc_le (o_at o) _ P'). assert (Cn := cost_nonneg _ P'). assert (Cc := q_curr _ _ I). assert (Cm := q_mem _ _ I). assert (Mx := q_cm _ _ I).
  assert (Ec : cost o = bytes o + 16) by reflexivity. specialize (S2 (o_at o)) as S2o. rewrite Nat.eqb_refl in S2o.
  unfold p_deallocate. rewrite (proj2 (pget_at w _ a) A). cbn [bind]. replace (0 <? bytes o) with true by (symmetry; apply Z.ltb_lt; lia). rewrite assert_true1. cbv zeta.
  unfold addSize. rewrite (wrap_id (bytes o + 16)) by lia. rewrite (wrap_id (pAlloc a - _)), (wrap_id (pSize a - _)), (wrap_id (pCurr w - _)) by lia.
  unfold p_free. cbn [heap pCurr pMax pLimit pfresh pallocs]. rewrite Eoff, Z.eqb_refl. cbn [andb].
  assert (Pi : Permutation (heap w) (p_id (o_ptr o) :: ids (l1 ++ l2))).
  { rewrite (q_heap _ _ I), E0. unfold ids. rewrite !map_app. cbn [map]. apply Permutation_sym, Permutation_middle. }
  assert (Nd : NoDup (p_id (o_ptr o) :: ids (l1 ++ l2))) by (eapply Permutation_NoDup; [exact Pi|]; eapply Permutation_NoDup; [apply Permutation_sym; exact (q_heap _ _ I)|exact (q_nodup _ _ I)]).
  assert (X : existsb (Nat.eqb (p_id (o_ptr o))) (heap w) = true).
  { apply existsb_exists. exists (p_id (o_ptr o)). split; [|apply Nat.eqb_refl]. eapply Permutation_in; [apply Permutation_sym; exact Pi|left; reflexivity]. }
  rewrite X. eexists. split; [reflexivity|]. split; [|cbn [pCurr]; lia]. constructor; cbn [plive ppeak pCurr pMax heap pfresh]; try lia.
  - exact P'.
  - intros x n X1. exact (q_len _ _ I x n (Sub x X1)).
  - intros x X1. exact (q_off _ _ I x (Sub x X1)).
  - intros x X1. destruct (q_at _ _ I x (Sub x X1)) as [b B]. destruct (Nat.eq_dec (o_at x) (o_at o)) as [->|N].
    + eexists; apply pat_upd; [exact (pat_lt _ _ _ A)|left; split; reflexivity].
    + exists b; apply pat_upd; [exact (pat_lt _ _ _ A)|right; split; [exact N|exact B]].
  - intros j b B. apply pat_upd in B; [|exact (pat_lt _ _ _ A)]. destruct B as [[-> E]|[N B]].
    + injection E as <-. cbn [pAlloc pSize]. lia.
    + destruct (q_alloc _ _ I j b B) as [Y1 Y2]. rewrite S2 in Y1, Y2. destruct (Nat.eqb_spec (o_at o) j); [congruence|]. lia.
  - exact (q_max _ _ I).
  - assert (Y := filter_perm' (fun k => negb (Nat.eqb (p_id (o_ptr o)) k)) _ _ Pi). cbn [filter] in Y. rewrite Nat.eqb_refl in Y. cbn [negb] in Y. rewrite (filter_id _ _ Nd) in Y. exact Y.
  - apply NoDup_cons_iff in Nd as [_ Nd]. exact Nd.
  - intros k K. apply (q_fresh _ _ I). unfold ids in *. apply in_map_iff in K as (x & <- & X1). apply in_map_iff. exists x. split; [reflexivity|apply Sub, X1].
Qed.

Lemma of_alloc_nil i l : of_alloc i l = [] -> forall o, In o l -> o_at o <> i.
Proof. intros E o Io X. assert (Y : In o (of_alloc i l)) by (apply filter_In; split; [exact Io|now apply Nat.eqb_eq]). rewrite E in Y. destruct Y. Qed.

Lemma delete_step dbg w c i a : PInv w c -> pat w i a -> of_alloc i (plive c) = [] -> exists w', p_delete dbg i w = Ok w' /\ PInv w' c /\ pget w' i = Undef.
Proof.
  intros I A E. destruct (q_alloc _ _ I _ _ A) as [Ea Es]. rewrite E in Ea, Es. change (zsum cost []) with 0 in *.
  unfold p_delete. rewrite (proj2 (pget_at w _ a) A). cbn [bind]. rewrite Ea, Es. rewrite !assert_true1. eexists. split; [reflexivity|].
  assert (Cn := cost_nonneg _ (q_pos _ _ I)). assert (Cc := q_curr _ _ I). assert (Cm := q_mem _ _ I). rewrite Z.sub_0_r, wrap_id by lia.
  split; [|unfold pget, rd; cbn [pallocs]; rewrite nth_upd, Nat.eqb_refl; rewrite (proj2 (Nat.ltb_lt _ _) (pat_lt _ _ _ A)); reflexivity].
  destruct I. constructor; cbn [plive ppeak pCurr pMax heap pfresh]; try assumption.
  - intros o Io. destruct (q_at0 o Io) as [b B]. exists b. apply pat_upd; [exact (pat_lt _ _ _ A)|]. right. split; [exact (of_alloc_nil _ _ E o Io)|exact B].
  - intros j b B. apply pat_upd in B; [|exact (pat_lt _ _ _ A)]. destruct B as [[-> X]|[N B]]; [discriminate|]. exact (q_alloc0 j b B).
Qed.

Lemma moved_bytes i j o : bytes (moved i j o) = bytes o.
Proof. reflexivity. Qed.
Lemma moved_sum i j l : zsum cost (map (moved i j) l) = zsum cost l.
Proof. induction l as [|o l IH]; [reflexivity|]. cbn [map]. rewrite !zsum_cons, IH. reflexivity. Qed.
Lemma moved_ids i j l : ids (map (moved i j) l) = ids l.
Proof. unfold ids. rewrite map_map. reflexivity. Qed.
Lemma moved_of i j l k : i <> j -> of_alloc k (map (moved i j) l) = map (moved i j) (of_alloc (if Nat.eqb k i then j else if Nat.eqb k j then i else k) l).
Proof.
  intro N. induction l as [|o l IH]; [reflexivity|]. cbn [map]. unfold of_alloc in *. cbn [filter]. unfold moved at 1. cbn [o_at].
  destruct (Nat.eqb_spec k i) as [->|K1]; [|destruct (Nat.eqb_spec k j) as [->|K2]].
  all: destruct (Nat.eqb_spec (o_at o) i) as [Ei|Ei]; [|destruct (Nat.eqb_spec (o_at o) j) as [Ej|Ej]].
  all: rewrite ?Ei, ?Ej; repeat match goal with |- context [Nat.eqb ?x ?y] => destruct (Nat.eqb_spec x y); try congruence end; cbn [map]; try (rewrite IH; reflexivity).
Qed.
Lemma swap_step w c i j a b : PInv w c -> pat w i a -> pat w j b -> i <> j -> exists w', p_swap i j w = Ok w' /\ PInv w' (PClient (map (moved i j) (plive c)) (ppeak c)).
Proof.
  intros I A B N. unfold p_swap. rewrite (proj2 (pget_at w _ a) A), (proj2 (pget_at w _ b) B). cbn [bind]. eexists. split; [reflexivity|].
  assert (Li := pat_lt _ _ _ A). assert (Lj := pat_lt _ _ _ B).
  assert (PP : forall k x, nth_error (upd (upd (pallocs w) i (Some b)) j (Some a)) k = Some (Some x) <-> pat w (if Nat.eqb k i then j else if Nat.eqb k j then i else k) x).
  { intros k x. rewrite nth_upd, upd_len. apply Nat.ltb_lt in Li as Li', Lj as Lj'. rewrite Lj', nth_upd, Li'. unfold pat in *.
    destruct (Nat.eqb_spec k j) as [->|K1].
    - destruct (Nat.eqb_spec j i); [congruence|]. cbn [andb]. rewrite A. reflexivity.
    - cbn [andb]. destruct (Nat.eqb_spec k i) as [->|K2]; cbn [andb]; [rewrite B; reflexivity|reflexivity]. }
  destruct I. constructor; cbn [plive ppeak pCurr pMax heap pfresh]; rewrite ?moved_ids, ?moved_sum; try assumption.
  - intros o Io. apply in_map_iff in Io as (o' & <- & Io). exact (q_pos0 o' Io).
  - intros o n Io. apply in_map_iff in Io as (o' & <- & Io). exact (q_len0 o' n Io).
  - intros o Io. apply in_map_iff in Io as (o' & <- & Io). exact (q_off0 o' Io).
  - intros o Io. apply in_map_iff in Io as (o' & <- & Io). destruct (q_at0 o' Io) as [x X]. exists x. unfold pat at 1. cbn [pallocs]. apply PP. unfold moved. cbn [o_at].
    destruct (Nat.eqb_spec (o_at o') i) as [Ei|Ei]; [|destruct (Nat.eqb_spec (o_at o') j) as [Ej|Ej]].
    + rewrite Nat.eqb_refl. destruct (Nat.eqb_spec j i); congruence.
    + rewrite Nat.eqb_refl. congruence.
    + destruct (Nat.eqb_spec (o_at o') i); [congruence|]. destruct (Nat.eqb_spec (o_at o') j); [congruence|]. exact X.
  - intros k x X. unfold pat in X. cbn [pallocs] in X. apply PP in X. rewrite (moved_of i j) by exact N. rewrite moved_sum. exact (q_alloc0 _ _ X).
Qed.

Lemma pstep_ok dbg w c r : PInv w c -> pstep memory dbg (w, c) r ->
  (exists w' c', r = Ok (w', c') /\ PInv w' c') \/ (exists k, 0 < k /\ memory < pCurr w + k /\ r = Undef) \/ (exists k, 0 < k /\ over w k /\ r = Exit).
Proof.
  intros I S. inversion S; subst; clear S.
  - left. do 2 eexists. split; [reflexivity|]. destruct I. constructor; cbn [p_new pCurr pMax heap pfresh]; try assumption.
    + intros o Io. destruct (q_at0 o Io) as [b B]. exists b. unfold pat, p_new in *. cbn [pallocs]. rewrite nth_error_app1; [exact B|]. apply nth_error_Some. congruence.
    + intros j b B. unfold pat, p_new in B. cbn [pallocs] in B. destruct (Nat.lt_ge_cases j (length (pallocs w))) as [L|L].
      * rewrite nth_error_app1 in B by exact L. exact (q_alloc0 j b B).
      * rewrite nth_error_app2 in B by exact L. destruct (j - length (pallocs w))%nat as [|d] eqn:D; [|destruct d; discriminate B]. injection B as <-. cbn [pAlloc pSize].
        assert (E : of_alloc j (plive c) = []).
        { unfold of_alloc. destruct (filter (fun o => Nat.eqb (o_at o) j) (plive c)) as [|o l] eqn:F; [reflexivity|exfalso].
          assert (X : In o (filter (fun o => Nat.eqb (o_at o) j) (plive c))) by (rewrite F; left; reflexivity). apply filter_In in X as [X1 X2]. apply Nat.eqb_eq in X2.
          destruct (q_at0 o X1) as [b B]. apply pat_lt in B. lia. }
        rewrite E. split; reflexivity.
  - left. do 2 eexists. split; [reflexivity|]. destruct I. constructor; assumption.
  - match goal with H : sane _ _ |- _ => destruct H as (S0 & _ & S1) end. match goal with H : pget _ _ = Ok _ |- _ => apply pget_at in H as A end.
    assert (X := alloc_step dbg w c i a (sizeof t) I A ltac:(lia)). unfold new_one. destruct (p_allocate memory dbg i (sizeof t) w) as [[w' p]| | | |]; cbn [bind]; try contradiction.
    + left. destruct X as (-> & _ & _ & X). do 2 eexists. split; [reflexivity|]. apply X; try reflexivity. cbn. discriminate.
    + right. left. exists (sizeof t + 16). destruct X. repeat split; lia.
    + right. right. exists (sizeof t + 16). split; [lia|]. split; [exact X|reflexivity].
  - match goal with H : sane _ _ |- _ => destruct H as (S0 & S2 & S1) end. match goal with H : pget _ _ = Ok _ |- _ => apply pget_at in H as A end.
    assert (0 < sizeof t * n) by nia. unfold new_array. destruct (trivial t) eqn:T.
    + assert (X := alloc_step dbg w c i a (sizeof t * n) I A ltac:(lia)). destruct (p_allocate memory dbg i (sizeof t * n) w) as [[w' p]| | | |]; cbn [bind]; try contradiction.
      * left. destruct X as (-> & _ & _ & X). do 2 eexists. split; [reflexivity|]. apply X; try reflexivity; unfold bytes; cbn [o_len o_type o_ptr]; rewrite ?T; try lia; try reflexivity. congruence.
      * right. left. exists (sizeof t * n + 16). destruct X. repeat split; lia.
      * right. right. exists (sizeof t * n + 16). split; [lia|]. split; [exact X|reflexivity].
    + assert (X := alloc_step dbg w c i a (8 + sizeof t * n) I A ltac:(lia)). destruct (p_allocate memory dbg i (8 + sizeof t * n) w) as [[w' p]| | | |]; cbn [bind]; try contradiction.
      * left. destruct X as (-> & _ & _ & X). do 2 eexists. split; [reflexivity|]. apply X; try reflexivity; unfold bytes; cbn [o_len o_type o_ptr]; rewrite ?T; try lia; try reflexivity. congruence.
      * right. left. exists (8 + sizeof t * n + 16). destruct X. repeat split; lia.
      * right. right. exists (8 + sizeof t * n + 16). split; [lia|]. split; [exact X|reflexivity].
  - left. match goal with H : plive c = _ |- _ => rename H into E0 end.
    assert (Io : In (Obj i p t None) (plive c)) by (rewrite E0; apply in_or_app; right; left; reflexivity).
    destruct (dealloc_step dbg w c l1 _ l2 I E0 (q_off _ _ I _ Io)) as (w' & E & I' & _). unfold dealloc_one. cbn [o_at o_ptr] in E. unfold bytes in E. cbn [o_len o_type] in E. rewrite E. cbn [bind]. eauto.
  - left. match goal with H : plive c = _ |- _ => rename H into E0 end.
    assert (Io : In (Obj i p t None) (plive c)) by (rewrite E0; apply in_or_app; right; left; reflexivity).
    destruct (dealloc_step dbg w c l1 _ l2 I E0 (q_off _ _ I _ Io)) as (w' & E & I' & _). unfold destroy_one. cbn [o_at o_ptr] in E. unfold bytes in E. cbn [o_len o_type] in E. rewrite E. cbn [bind]. eauto.
  - left. match goal with H : plive c = _ |- _ => rename H into E0 end. match goal with H : trivial t = true |- _ => rename H into T end.
    assert (Io : In (Obj i p t (Some n)) (plive c)) by (rewrite E0; apply in_or_app; right; left; reflexivity).
    assert (Eo := q_off _ _ I _ Io). cbn [o_len o_type] in Eo. rewrite T in Eo. assert (Hn := q_len _ _ I _ n Io eq_refl).
    destruct (dealloc_step dbg w c l1 _ l2 I E0 Eo) as (w' & E & I' & _). unfold dealloc_array. replace (0 <? n) with true by (symmetry; apply Z.ltb_lt; lia). rewrite assert_true1.
    cbn [o_at o_ptr] in E. unfold bytes in E. cbn [o_len o_type] in E. rewrite T, Z.add_0_r in E. rewrite E. cbn [bind]. eauto.
  - left. match goal with H : pget _ _ = Ok _ |- _ => apply pget_at in H as A end. match goal with H : of_alloc _ _ = [] |- _ => rename H into E0 end.
    destruct (delete_step dbg w c i a I A E0) as (w' & E & I' & _). rewrite E. cbn [bind]. eauto.
  - left. match goal with H : pget _ i = Ok _ |- _ => apply pget_at in H as A end. match goal with H : pget _ j = Ok _ |- _ => apply pget_at in H as B end. match goal with H : i <> j |- _ => rename H into N end.
    destruct (swap_step w c i j a b I A B N) as (w' & E & I'). rewrite E. cbn [bind]. eauto.
Qed.

Lemma preach_inv dbg r : preach memory dbg r -> match r with Ok (w, c) => PInv w c | AssertFail | OutOfFuel => False | _ => True end.
Proof.
  induction 1 as [|[w c] r R IH S].
  - constructor; cbn; try lia; try constructor; try (intros; contradiction). all: unfold pat in *; cbn in *; destruct i; discriminate.
  - destruct (pstep_ok dbg w c r IH S) as [(w' & c' & -> & X)|[(k & _ & _ & ->)|(k & _ & _ & ->)]]; auto.
Qed.
Lemma preach_Inv dbg w c : preach memory dbg (Ok (w, c)) -> PInv w c.
Proof. intro R. exact (preach_inv dbg _ R). Qed.

Lemma accounting dbg w c : preach memory dbg (Ok (w, c)) ->
  (forall i a, pget w i = Ok a -> pAlloc a = zsum cost (of_alloc i (plive c)) /\ pSize a = zsum cost (of_alloc i (plive c))) /\
  pCurr w = zsum cost (plive c) /\ pMax w = ppeak c /\ 0 <= pCurr w <= pMax w.
Proof.
  intro R. assert (I := preach_Inv dbg w c R). split; [intros i a G; apply pget_at in G; exact (q_alloc _ _ I i a G)|].
  split; [exact (q_curr _ _ I)|]. split; [exact (q_max _ _ I)|]. rewrite (q_curr _ _ I) at 1. split; [apply cost_nonneg, (q_pos _ _ I)|exact (q_cm _ _ I)].
Qed.
Lemma blocks dbg w c : preach memory dbg (Ok (w, c)) ->
  NoDup (map (fun o => p_id (o_ptr o)) (plive c)) /\ Permutation (heap w) (map (fun o => p_id (o_ptr o)) (plive c)) /\
  (forall o, In o (plive c) -> exists a, pget w (o_at o) = Ok a).
Proof.
  intro R. assert (I := preach_Inv dbg w c R). split; [exact (q_nodup _ _ I)|]. split; [exact (q_heap _ _ I)|].
  intros o Io. destruct (q_at _ _ I o Io) as [a A]. exists a. now apply pget_at.
Qed.
Lemma outcomes dbg w c r : preach memory dbg (Ok (w, c)) -> pstep memory dbg (w, c) r ->
  (exists s, r = Ok s) \/ (exists k, 0 < k /\ memory < pCurr w + k /\ r = Undef) \/ (exists k, 0 < k /\ 0 < pLimit w < Z.max (pMax w) (pCurr w + k) /\ r = Exit).
Proof.
  intros R S. assert (I := preach_Inv dbg w c R). destruct (pstep_ok dbg w c r I S) as [(w' & c' & -> & _)|[X|(k & K & L & ->)]]; eauto 6.
Qed.
Lemma exact_exit dbg w c i a t : preach memory dbg (Ok (w, c)) -> pget w i = Ok a -> sane t 1 ->
  match new_one memory dbg i t w with
  | Ok (w', p) => pCurr w' = pCurr w + sizeof t + 16 /\ (0 < pLimit w -> Z.max (pMax w) (pCurr w') <= pLimit w)
  | Exit => 0 < pLimit w < Z.max (pMax w) (pCurr w + sizeof t + 16)
  | Undef => memory < pCurr w + sizeof t + 16
  | _ => False
  end.
Proof.
  intros R G (S0 & _ & S1). assert (I := preach_Inv dbg w c R). apply pget_at in G. assert (X := alloc_step dbg w c i a (sizeof t) I G ltac:(lia)).
  unfold new_one. destruct (p_allocate memory dbg i (sizeof t) w) as [[w' p]| | | |]; try contradiction; unfold over in X.
  - destruct X as (_ & E & N & _). split; [exact E|]. intro. lia.
  - lia.
  - lia.
Qed.
Lemma released dbg w c : preach memory dbg (Ok (w, c)) -> plive c = [] -> pCurr w = 0 /\ heap w = [].
Proof.
  intros R E. assert (I := preach_Inv dbg w c R). split; [rewrite (q_curr _ _ I), E; reflexivity|].
  assert (H := q_heap _ _ I). rewrite E in H. apply Permutation_sym, Permutation_nil in H. exact H.
Qed.
(** Every array of objects with destructors that is destroyed the way its class offers. *)
Lemma array_undef dbg w c i a t n w' p : preach memory dbg (Ok (w, c)) -> pget w i = Ok a -> sane t n -> trivial t = false ->
  new_array memory dbg i t n w = Ok (w', p) -> destroy_array dbg i t p n w' = Undef.
Proof.
  intros R G (S0 & S1 & S2) T E. assert (I := preach_Inv dbg w c R). apply pget_at in G. assert (0 < sizeof t * n) by nia.
  assert (X := alloc_step dbg w c i a (8 + sizeof t * n) I G ltac:(lia)). unfold new_array in E. rewrite T in E.
  destruct (p_allocate memory dbg i (8 + sizeof t * n) w) as [[w1 q]| | | |] eqn:E1; try discriminate E. cbn [bind] in E. injection E as <- <-. destruct X as (-> & _ & _ & X).
  assert (A1 : exists a1, pat w1 i a1).
  { specialize (X (Obj i (PPtr (pfresh w) 8) t (Some n)) eq_refl). unfold bytes in X. cbn [o_len o_type o_ptr p_id p_off] in X. rewrite T in X.
    destruct (q_at _ _ (X ltac:(lia) eq_refl ltac:(congruence) eq_refl) _ (or_introl eq_refl)) as [a1 A1]. exists a1. exact A1. }
  destruct A1 as [a1 A1]. unfold destroy_array. replace (0 <? n) with true by (symmetry; apply Z.ltb_lt; lia). rewrite assert_true1.
  unfold p_deallocate. rewrite (proj2 (pget_at w1 i a1) A1). cbn [bind]. replace (0 <? 8 + sizeof t * n) with true by (symmetry; apply Z.ltb_lt; lia). rewrite assert_true1. reflexivity.
Qed.
End P.

(** The array form of destroy on an array of two objects of 24 bytes with a destructor. *)
Lemma array_refuted : exists w1 w2 p, p_new pworld0 = w1 /\ new_array (2 ^ 40) false 0 (CType 24 false) 2 w1 = Ok (w2, p) /\ destroy_array false 0 (CType 24 false) p 2 w2 = Undef.
Proof. do 3 eexists. split; [reflexivity|]. split; [vm_compute; reflexivity|]. vm_compute. reflexivity. Qed.

Lemma plain_run : exists w c, preach (2 ^ 40) true (Ok (w, c)) /\ length (plive c) = 2%nat /\ pCurr w = 96 /\ pMax w = 216 /\ length (heap w) = 2%nat.
Proof.
  pose proof (r0 := pr_start (2 ^ 40) true). 
  assert (R0 := pr_step _ _ _ _ r0 (ps_new (2 ^ 40) true pworld0 (PClient [] 0))). vm_compute in R0.
  Ltac pone R t R' := match type of R with preach _ _ (Ok (?w, ?c)) =>
    pose proof (pr_step _ _ _ _ R (ps_one _ true w c 0 _ t eq_refl ltac:(unfold sane; cbn; lia))) as R'; vm_compute in R' end.
  Ltac parr R t n R' := match type of R with preach _ _ (Ok (?w, ?c)) =>
    pose proof (pr_step _ _ _ _ R (ps_array _ true w c 0 _ t n eq_refl ltac:(unfold sane; cbn; lia))) as R'; vm_compute in R' end.
  pone R0 (CType 24 false) R1. parr R1 (CType 4 true) 26 R2. parr R2 (CType 8 true) 5 R3.
  match type of R3 with preach _ _ (Ok (?w, PClient [?x; ?y; ?z] ?p)) =>
    pose proof (pr_step _ _ _ _ R3 (ps_dealloc_array _ true w (PClient [x; y; z] p) [x] _ _ _ _ [z] eq_refl eq_refl)) as R4 end.
  vm_compute in R4. do 2 eexists. split; [exact R4|]. repeat split.
Qed.
