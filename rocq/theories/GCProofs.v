(** Proofs for GCModel.v. *)
From Coq Require Import ZArith List Bool Arith Lia Permutation.
From Verif Require Import Outcome RandPermProofs AllocModel AllocSpec AllocProofs GCModel GCSpec.
Import ListNotations.
Local Open Scope Z_scope.

Lemma bindE {A B} (e : outcome A) (f : A -> outcome B) v : bind e f = Ok v -> exists a, e = Ok a /\ f a = Ok v.
Proof. destruct e; cbn; intro H; try discriminate. eauto. Qed.

Section P.
Variables page memory : Z.
Hypothesis page_ok : 0 < page <= 2 ^ 30.

Hypothesis memory_ok : 0 <= memory <= 2 ^ 62.
Let Iv := Inv memory.

Lemma reach_Inv dbg w c : reach page memory dbg (Ok (w, c)) -> Iv w c.
Proof. intro H. exact (reach_inv page memory page_ok (proj2 memory_ok) dbg _ (proj1 memory_ok) H). Qed.

(** What allocate does to its allocator and to the others. *)
Lemma alloc_exact dbg w c i a n w' p : Iv w c -> at_ w i a -> 0 < n < 2 ^ 62 -> allocate page memory dbg i n w = Ok (w', p) ->
  exists a', at_ w' i a' /\ (forall j, j <> i -> nth_error (allocs w') j = nth_error (allocs w) j) /\ length (allocs w') = length (allocs w) /\
    mAlloc a' = mAlloc a + need page a n /\ mSize a' = mSize a + rounded n /\ sCurr w' = sCurr w + need page a n /\
    (if mNodeAlloc a <? mNodeSize a + rounded n then mNodeAlloc a' = need page a n /\ mNodeSize a' = rounded n
     else mNodeAlloc a' = mNodeAlloc a /\ mNodeSize a' = mNodeSize a + rounded n) /\
    holds_chunk a' (Block p n) = true /\
    (forall b, (pchunk (where_ b) < fresh w)%nat -> holds_chunk a' b = holds_chunk a b) /\ sMax w' = Z.max (sMax w) (sCurr w') /\ sLimit w' = sLimit w.
Proof.
  intros V Aa Hn E. pose proof (v_good _ _ _ V i a Aa) as G. pose proof (g_node _ _ _ G) as GN. pose proof (good_pos _ _ _ G) as GP.
  assert (AL : forall j b, at_ w j b -> 0 <= mAlloc b) by (intros j b B; apply (good_pos _ _ _ (v_good _ _ _ V j b B))).
  pose proof (alloc_le w i a AL Aa) as LE. rewrite <- (v_curr _ _ _ V) in LE. pose proof (v_mem _ _ _ V) as VM.
  assert (LP : forall b, In b (live c) -> 0 < asked b).
  { intros b' Hb'. apply (v_live _ _ _ V) in Hb'. destruct Hb' as [Hb' _]. apply (v_handed _ _ _ V) in Hb'. lia. }
  pose proof (size_nonneg _ _ _ LP G) as SN. pose proof (g_le _ _ _ G) as GL.
  pose proof (rounded_bounds n ltac:(lia)) as [RB R16].
  assert (Li : (i < length (allocs w))%nat) by (apply nth_error_Some; unfold at_ in Aa; congruence).
  unfold allocate in E. rewrite (proj2 (get_at w i a) Aa) in E. cbn [bind] in E.
  rewrite (proj2 (Z.ltb_lt 0 n) (proj1 Hn)), assert_true1 in E. rewrite (round16_ok n Hn) in E.
  rewrite (wrap_id (mNodeSize a + rounded n)) in E by lia. unfold need.
  destruct (Z.ltb_spec (mNodeAlloc a) (mNodeSize a + rounded n)) as [HL|HL].
  - destruct (chunk_size page page_ok (rounded n) ltac:(lia)) as [S1 S2]. set (s := wrap (wrap (rounded n + page) / page * page)) in *.
    unfold aligned_alloc in E. destruct (Z.leb_spec (sCurr w + s) memory) as [M|M]; [|discriminate]. cbn [bind] in E.
    unfold account in E. rewrite (wrap_id (sCurr w + s)) in E by lia.
    destruct ((0 <? sLimit w) && _) eqn:EL in E; [discriminate|]. cbn [bind mNodeSize mNodeAlloc mRoot mAlloc mSize] in E.
    rewrite Z.add_0_l, (wrap_id (rounded n)) in E by lia. rewrite (proj2 (Z.leb_le (rounded n) s)) in E by lia. rewrite !assert_true1 in E.
    rewrite (wrap_id (mAlloc a + s)), (wrap_id (mSize a + rounded n)) in E by lia. injection E as <- <-.
    eexists. split; [apply at_set; [exact Li|left; split; reflexivity]|].
    cbn [mAlloc mSize mNodeAlloc mNodeSize sCurr sMax set_alloc allocs mRoot]. rewrite <- S2.
    split; [intros j Hj; rewrite nth_upd; destruct (Nat.eqb_spec j i); [contradiction|reflexivity]|].
    split; [apply RandPermProofs.upd_len|]. do 4 (split; [auto|]). split.
    { unfold holds_chunk. cbn [mRoot existsb cid where_ pchunk]. rewrite Nat.eqb_refl. reflexivity. }
    split.
    + intros b Hb. unfold holds_chunk. cbn [mRoot existsb cid]. destruct (Nat.eqb_spec (fresh w) (pchunk (where_ b))); [lia|reflexivity].
    + split; [destruct (Z.leb_spec (sCurr w + s) (sMax w)); lia|reflexivity].
  - cbn [bind] in E. rewrite (wrap_id (mNodeSize a + rounded n)) in E by lia. rewrite (proj2 (Z.leb_le (mNodeSize a + rounded n) (mNodeAlloc a))) in E by lia.
    rewrite assert_true1 in E. destruct (mRoot a) as [|ch rt] eqn:ER; [discriminate|]. cbn [mNodeSize mNodeAlloc] in E.
    rewrite (proj2 (Z.leb_le (mNodeSize a + rounded n) (mNodeAlloc a))) in E by lia. rewrite assert_true1 in E.
    assert (B2 : mSize a + rounded n < 2 ^ 64) by lia. rewrite (wrap_id (mSize a + rounded n)) in E by lia. injection E as <- <-.
    eexists. split; [apply at_set; [exact Li|left; split; reflexivity]|].
    cbn [mAlloc mSize mNodeAlloc mNodeSize sCurr sMax set_alloc allocs mRoot].
    split; [intros j Hj; rewrite nth_upd; destruct (Nat.eqb_spec j i); [contradiction|reflexivity]|].
    split; [apply RandPermProofs.upd_len|]. split; [lia|]. do 3 (split; [auto; lia|]). split.
    { unfold holds_chunk. cbn [mRoot existsb cid where_ pchunk]. rewrite Nat.eqb_refl. reflexivity. }
    split; [intros b _; unfold holds_chunk; cbn [mRoot]; now rewrite ER|]. pose proof (v_cm _ _ _ V). split; [lia|reflexivity].
Qed.

(** Filling an allocator from which nothing is given back. *)
Definition place (s : Z * Z * Z) (n : Z) : Z * Z * Z :=
  let '(al, ch, us) := s in
  if ch <? us + rounded n then (al + (rounded n + page) / page * page, (rounded n + page) / page * page, rounded n) else (al, ch, us + rounded n).
Definition counters (a : allocator) : Z * Z * Z := (mAlloc a, mNodeAlloc a, mNodeSize a).
Definition filled (a : allocator) : Prop := mAlloc a - mNodeAlloc a <= 2 * mSize a - mNodeSize a /\ mNodeAlloc a <= mNodeSize a + page.

Lemma rounded_pos n : 0 < n -> 0 < rounded n.
Proof. intro H. pose proof (rounded_bounds n ltac:(lia)). lia. Qed.
Lemma zsum_rounded_nonneg l : sizes_ok l -> 0 <= zsum rounded l.
Proof.
  intro H. apply zsum_nonneg. intros x I. unfold sizes_ok in H. rewrite Forall_forall in H. specialize (H x I). pose proof (rounded_pos x ltac:(lia)). lia.
Qed.
Lemma pages n : 0 < n -> n < (n + page) / page * page <= n + page.
Proof.
  intro H. pose proof (Z.div_mod (n + page) page ltac:(lia)). pose proof (Z.mod_pos_bound (n + page) page ltac:(lia)). lia.
Qed.

Lemma alloc_all_ok dbg l : forall w c i a, reach page memory dbg (Ok (w, c)) -> at_ w i a -> filled a -> sizes_ok l ->
  match alloc_all page memory dbg i l w with
  | Ok (w', bs) => exists a' c', reach page memory dbg (Ok (w', c')) /\ at_ w' i a' /\ filled a' /\
      (forall j, j <> i -> nth_error (allocs w') j = nth_error (allocs w) j) /\ length (allocs w') = length (allocs w) /\
      mSize a' = mSize a + zsum rounded l /\ counters a' = fold_left place l (counters a) /\ sCurr w' = sCurr w + mAlloc a' - mAlloc a /\
      live c' = rev (map block_of bs) ++ live c /\ blocks_of a' (live c') = rev (map block_of bs) ++ blocks_of a (live c) /\ map snd bs = l
  | Undef => memory < sCurr w - mAlloc a + 2 * (mSize a + zsum rounded l) + page
  | Exit => 0 < sLimit w < Z.max (sMax w) (sCurr w - mAlloc a + 2 * (mSize a + zsum rounded l) + page)
  | _ => False
  end.
Proof.
  induction l as [|n l IH]; intros w c i a R A Fi S; cbn [alloc_all].
  { exists a, c. do 5 (split; [auto|]). cbn. split; [lia|]. split; [reflexivity|]. split; [lia|]. auto. }
  assert (Sn := Forall_inv S). assert (Sl := Forall_inv_tail S). cbn beta in Sn. assert (V := reach_Inv dbg w c R).
  pose proof (alloc_step page memory page_ok (proj2 memory_ok) dbg w c i a n V A Sn) as X.
  pose proof (need_nonneg page page_ok a n (proj1 Sn)) as N0. pose proof (rounded_pos n (proj1 Sn)) as Rp. pose proof (zsum_rounded_nonneg l Sl) as Zp.
  assert (Bd : need page a n <> 0 -> mAlloc a + need page a n <= 2 * (mSize a + rounded n) + page).
  { intro N. unfold need in *. destruct (Z.ltb_spec (mNodeAlloc a) (mNodeSize a + rounded n)); [|congruence].
    pose proof (pages (rounded n) Rp). destruct Fi. lia. }
  cbn [zsum fold_right]. fold (zsum rounded l).
  destruct (Z.ltb_spec memory (sCurr w + need page a n)) as [M|M].
  { destruct X as [X1 ->]. cbn [bind]. specialize (Bd X1). lia. }
  destruct ((0 <? sLimit w) && (sLimit w <? Z.max (sMax w) (sCurr w + need page a n)) && negb (need page a n =? 0)) eqn:EL.
  { rewrite X. cbn [bind]. apply andb_true_iff in EL as [EL E3]. apply andb_true_iff in EL as [E1 E2]. apply Z.ltb_lt in E1, E2.
    apply negb_true_iff, Z.eqb_neq in E3. specialize (Bd E3). lia. }
  destruct X as (w1 & p & E & _ & _). rewrite E. cbn [bind].
  destruct (alloc_exact dbg w c i a n w1 p V A Sn E) as (a1 & A1 & Ot & Le & X1 & X2 & X3 & X4 & X5 & X6 & X7 & X8).
  set (c1 := Client (Block p n :: handed c) (Block p n :: live c) (Z.max (peak c) (sCurr w1))).
  assert (R1 : reach page memory dbg (Ok (w1, c1))).
  { eapply r_step; [exact R|]. assert (Y := s_alloc page memory dbg w c i a n (proj2 (get_at w i a) A) Sn). rewrite E in Y. exact Y. }
  assert (F1 : filled a1).
  { destruct Fi as [Q1 Q2]. unfold filled. rewrite X1, X2. unfold need in *. destruct (Z.ltb_spec (mNodeAlloc a) (mNodeSize a + rounded n)); destruct X4 as [-> ->]; [|lia].
    pose proof (pages (rounded n) Rp). lia. }
  specialize (IH w1 c1 i a1 R1 A1 F1 Sl).
  destruct (alloc_all page memory dbg i l w1) as [[w2 bs]| | | |]; cbn [bind]; try exact IH.
  - destruct IH as (a2 & c2 & R2 & A2 & F2 & O2 & L2 & S2 & C2 & U2 & Lv & Bl & Ms). exists a2, c2. split; [exact R2|]. split; [exact A2|]. split; [exact F2|].
    split; [intros j Hj; rewrite O2, Ot by exact Hj; reflexivity|]. split; [congruence|]. split; [lia|]. split.
    { rewrite C2. cbn [fold_left]. f_equal. unfold place, counters. rewrite X1. unfold need in *. destruct (mNodeAlloc a <? mNodeSize a + rounded n); destruct X4 as [-> ->]; [reflexivity|]. now rewrite Z.add_0_r. }
    split; [lia|]. cbn [map rev block_of fst snd]. rewrite <- !app_assoc. cbn [app]. split; [exact Lv|]. split; [|now rewrite Ms].
    rewrite Bl. f_equal. unfold c1, blocks_of. cbn [live filter]. rewrite X5. f_equal. apply filter_ext_in. intros b Ib. apply X6.
    apply (v_handed _ _ _ V). apply (v_live _ _ _ V). exact Ib.
  - rewrite X1, X2, X3 in IH. lia.
  - rewrite X1, X2, X3, X7, X8, X3 in IH. pose proof (v_cm _ _ _ V). unfold need in *. destruct (Z.ltb_spec (mNodeAlloc a) (mNodeSize a + rounded n)); [|lia].
    assert (mAlloc a + (rounded n + page) / page * page <= 2 * (mSize a + rounded n) + page) by (apply Bd; pose proof (pages (rounded n) Rp); lia). lia.
Qed.

Lemma dealloc_exact dbg w c i a l1 b l2 : Iv w c -> at_ w i a -> live c = l1 ++ b :: l2 -> holds_chunk a b = true ->
  exists w' a', deallocate dbg i (asked b) w = Ok w' /\ at_ w' i a' /\ (forall j, j <> i -> nth_error (allocs w') j = nth_error (allocs w) j) /\
    length (allocs w') = length (allocs w) /\ mRoot a' = mRoot a /\ mAlloc a' = mAlloc a /\ sCurr w' = sCurr w.
Proof.
  intros V A L H. destruct (dealloc_step memory (proj2 memory_ok) dbg w c i a l1 b l2 V A L H) as (w' & E & Cu & _).
  assert (Li : (i < length (allocs w))%nat) by (apply nth_error_Some; unfold at_ in A; congruence).
  unfold deallocate in E. rewrite (proj2 (get_at w i a) A) in E. cbn [bind] in E. unfold assert_ in E.
  destruct (dbg && negb (0 <? asked b)) eqn:E1; [discriminate|]. destruct (dbg && negb (round16 (asked b) <=? mSize a)) eqn:E2; [discriminate|].
  injection E as <-. eexists. eexists. split.
  { unfold deallocate. rewrite (proj2 (get_at w i a) A). cbn [bind]. unfold assert_. rewrite E1, E2. reflexivity. }
  split; [apply at_set; [exact Li|left; split; reflexivity]|]. cbn [set_alloc allocs mRoot mAlloc sCurr].
  split; [intros j Hj; rewrite nth_upd; destruct (Nat.eqb_spec j i); [contradiction|reflexivity]|]. split; [apply upd_len|]. auto.
Qed.

Lemma free_all_ok dbg l : forall w c i a rest, reach page memory dbg (Ok (w, c)) -> at_ w i a -> Permutation (live c) (map block_of l ++ rest) ->
  Forall (fun x => holds_chunk a (block_of x) = true) l ->
  exists w' c' a', free_all dbg i l w = Ok w' /\ reach page memory dbg (Ok (w', c')) /\ at_ w' i a' /\ Permutation (live c') rest /\
    (forall j, j <> i -> nth_error (allocs w') j = nth_error (allocs w) j) /\ length (allocs w') = length (allocs w) /\
    mRoot a' = mRoot a /\ mAlloc a' = mAlloc a /\ sCurr w' = sCurr w.
Proof.
  induction l as [|x l IH]; intros w c i a rest R A P H; cbn [free_all].
  { exists w, c, a. split; [reflexivity|]. split; [exact R|]. split; [exact A|]. split; [exact P|]. auto. }
  assert (I : In (block_of x) (live c)) by (eapply Permutation_in; [apply Permutation_sym; exact P|left; reflexivity]).
  apply in_split in I as (l1 & l2 & L). assert (Hx := Forall_inv H). assert (Hl := Forall_inv_tail H). cbn beta in Hx.
  assert (V := reach_Inv dbg w c R). destruct (dealloc_exact dbg w c i a l1 (block_of x) l2 V A L Hx) as (w1 & a1 & E & A1 & O1 & L1 & R1 & M1 & C1).
  cbn [block_of asked snd] in E. rewrite E. cbn [bind].
  set (c1 := Client (handed c) (l1 ++ l2) (peak c)).
  assert (Rc : reach page memory dbg (Ok (w1, c1))).
  { eapply r_step; [exact R|]. assert (Y := s_dealloc page memory dbg w c i a l1 (block_of x) l2 (proj2 (get_at w i a) A) L Hx). cbn [block_of asked snd] in Y. rewrite E in Y. exact Y. }
  destruct (IH w1 c1 i a1 rest) as (w2 & c2 & a2 & E2 & R2 & A2 & P2 & O2 & L2 & Rt2 & M2 & C2); try assumption.
  - cbn [c1 live]. apply (Permutation_cons_inv (a := block_of x)). rewrite L in P. cbn [map app] in P. rewrite <- P. apply Permutation_middle.
  - eapply Forall_impl; [|exact Hl]. intros y Hy. rewrite (holds_root a1 a _ R1). exact Hy.
  - exists w2, c2, a2. split; [exact E2|]. split; [exact R2|]. split; [exact A2|]. split; [exact P2|].
    split; [intros j Hj; rewrite O2, O1 by exact Hj; reflexivity|]. split; [congruence|]. split; [congruence|]. split; congruence.
Qed.

Section G.
Variable V : Type.
Variable parts : V -> list Z.

Lemma copy_ok dbg v w c : reach page memory dbg (Ok (w, c)) -> sizes_ok (parts v) ->
  match gc_copy page memory V parts dbg v w with
  | Ok (w', h) => exists a' c', reach page memory dbg (Ok (w', c')) /\ owns w' c' h a' /\ g_val h = v /\ g_at h = length (allocs w) /\
      live c' = rev (map block_of (g_blocks h)) ++ live c /\ map snd (g_blocks h) = parts v /\
      mSize a' = copied_size (parts v) /\ counters a' = fold_left place (parts v) (0, 0, 0) /\ mAlloc a' <= 2 * copied_size (parts v) + page /\
      sCurr w' = sCurr w + mAlloc a' /\ (forall j, (j < length (allocs w))%nat -> nth_error (allocs w') j = nth_error (allocs w) j) /\
      length (allocs w') = Datatypes.S (length (allocs w))
  | Undef => memory < sCurr w + 2 * copied_size (parts v) + page
  | Exit => 0 < sLimit w < Z.max (sMax w) (sCurr w + 2 * copied_size (parts v) + page)
  | _ => False
  end.
Proof.
  intros R S. unfold gc_copy, copied_size. set (i := length (allocs w)).
  assert (R1 : reach page memory dbg (Ok (new_allocator w, c))) by (eapply r_step; [exact R|apply s_new]).
  assert (A1 : at_ (new_allocator w) i empty_allocator).
  { unfold at_, new_allocator, i. cbn [allocs]. rewrite nth_error_app2, Nat.sub_diag by lia. reflexivity. }
  assert (F0 : filled empty_allocator) by (unfold filled; cbn; lia).
  assert (X := alloc_all_ok dbg (parts v) (new_allocator w) c i empty_allocator R1 A1 F0 S).
  destruct (alloc_all page memory dbg i (parts v) (new_allocator w)) as [[w' bs]| | | |]; cbn [bind]; try exact X.
  - destruct X as (a' & c' & R2 & A2 & F2 & O2 & L2 & S2 & C2 & U2 & Lv & Bl & Ms). exists a', c'. split; [exact R2|]. cbn [g_at g_blocks g_val].
    split. { split; [apply get_at; exact A2|]. cbn [g_blocks]. rewrite Bl. unfold blocks_of at 1. cbn [empty_allocator]. 
      assert (E : filter (holds_chunk empty_allocator) (live c) = []) by (clear; induction (live c); [reflexivity|exact IHl]).
      unfold blocks_of. rewrite E, app_nil_r. apply Permutation_sym, Permutation_rev. }
    split; [reflexivity|]. split; [reflexivity|]. split; [exact Lv|]. split; [exact Ms|]. split; [cbn [mAlloc mSize empty_allocator] in S2; lia|]. split; [exact C2|].
    split; [destruct F2; cbn [mAlloc mSize empty_allocator] in S2; lia|]. split; [cbn [mAlloc mSize empty_allocator sCurr new_allocator] in U2; lia|]. split.
    + intros j Hj. rewrite O2 by (unfold i; lia). unfold new_allocator. cbn [allocs]. apply nth_error_app1. exact Hj.
    + rewrite L2. unfold new_allocator. cbn [allocs]. rewrite app_length. cbn. lia.
  - cbn [mAlloc mSize empty_allocator sCurr new_allocator sLimit sMax] in X. lia.
  - cbn [mAlloc mSize empty_allocator sCurr new_allocator sLimit sMax] in X. lia.
Qed.

Lemma filter_perm {A} (f : A -> bool) l l' : Permutation l l' -> Permutation (filter f l) (filter f l').
Proof.
  induction 1; cbn; [constructor|destruct (f x); [now constructor|assumption]|destruct (f x), (f y); solve [apply perm_swap|apply Permutation_refl]|etransitivity; eassumption].
Qed.
Lemma holds_in a l x : In x (blocks_of a l) -> holds_chunk a x = true.
Proof. intro I. apply filter_In in I. apply I. Qed.

Lemma destroy_ok dbg (g : gc V) w c a rest : reach page memory dbg (Ok (w, c)) -> owns w c g a -> Permutation (live c) (map block_of (g_blocks g) ++ rest) ->
  exists w' c', gc_destroy dbg g w = Ok w' /\ reach page memory dbg (Ok (w', c')) /\ Permutation (live c') rest /\
    get_alloc w' (g_at g) = Undef /\ (forall j, j <> g_at g -> nth_error (allocs w') j = nth_error (allocs w) j) /\
    length (allocs w') = length (allocs w) /\ sCurr w' = sCurr w - mAlloc a.
Proof.
  intros R [Ga Pb] P. apply get_at in Ga.
  assert (H : Forall (fun x => holds_chunk a (block_of x) = true) (g_blocks g)).
  { apply Forall_forall. intros x I. apply (holds_in a (live c)). eapply Permutation_in; [apply Permutation_sym; exact Pb|]. now apply in_map. }
  destruct (free_all_ok dbg (g_blocks g) w c (g_at g) a rest R Ga P H) as (w1 & c1 & a1 & E1 & R1 & A1 & P1 & O1 & L1 & Rt & M1 & C1).
  assert (Em : blocks_of a1 (live c1) = []).
  { assert (X : Permutation (blocks_of a (live c)) (blocks_of a (map block_of (g_blocks g)) ++ blocks_of a rest)).
    { unfold blocks_of. rewrite <- filter_app. apply filter_perm. exact P. }
    assert (Y : blocks_of a (map block_of (g_blocks g)) = map block_of (g_blocks g)).
    { clear -H. unfold blocks_of. induction H as [|x l Hx _ IH]; [reflexivity|]. cbn [map filter]. rewrite Hx, IH. reflexivity. }
    rewrite Y, Pb in X. apply Permutation_length in X. rewrite app_length in X. assert (Z : length (blocks_of a rest) = 0%nat) by lia.
    assert (W : Permutation (blocks_of a1 (live c1)) (blocks_of a rest)).
    { rewrite <- (filter_perm (holds_chunk a) _ _ P1). unfold blocks_of. rewrite (filter_ext _ _ (fun b => holds_root a1 a b Rt)). apply Permutation_refl. }
    apply Permutation_length in W. destruct (blocks_of a1 (live c1)); [reflexivity|cbn in W; lia]. }
  destruct (destroy_step memory (proj2 memory_ok) dbg w1 c1 (g_at g) a1 (reach_Inv dbg w1 c1 R1) A1 Em) as (w2 & E2 & Cu & _).
  assert (Li : (g_at g < length (allocs w1))%nat) by (apply nth_error_Some; unfold at_ in A1; congruence).
  exists w2, c1. unfold gc_destroy. rewrite E1. cbn [bind]. split; [exact E2|]. split.
  { eapply r_step; [exact R1|]. assert (Y := s_destroy page memory dbg w1 c1 (g_at g) a1 (proj2 (get_at _ _ _) A1) Em). rewrite E2 in Y. exact Y. }
  split; [exact P1|]. unfold destroy_allocator in E2. rewrite (proj2 (get_at _ _ _) A1) in E2. cbn [bind] in E2. unfold assert_ in E2.
  destruct (dbg && negb (mSize a1 =? 0)); [discriminate|]. injection E2 as <-. cbn [set_alloc allocs sCurr] in *.
  split; [|split; [|split]].
  - unfold get_alloc, RandPermModel.rd. cbn [allocs]. rewrite nth_upd, Nat.eqb_refl. destruct (Nat.ltb_spec (g_at g) (length (allocs w1))); [reflexivity|lia].
  - intros j Hj. rewrite nth_upd. destruct (Nat.eqb_spec j (g_at g)); [contradiction|]. cbn [andb]. apply O1. exact Hj.
  - rewrite upd_len. exact L1.
  - rewrite Cu. lia.
Qed.

Lemma partition_perm {A} (f : A -> bool) l : Permutation l (filter f l ++ filter (fun x => negb (f x)) l).
Proof.
  induction l as [|x l IH]; [constructor|]. cbn [filter]. destruct (f x); cbn [negb app]; [now constructor|].
  etransitivity; [apply perm_skip; exact IH|]. apply Permutation_middle.
Qed.

Lemma realloc_ok dbg (g : gc V) w c a : reach page memory dbg (Ok (w, c)) -> owns w c g a -> sizes_ok (parts (g_val g)) -> isGC a = true ->
  match gc_reallocate page memory V parts dbg g w with
  | Ok (w', h) => exists a' c' rest, reach page memory dbg (Ok (w', c')) /\ owns w' c' h a' /\ g_val h = g_val g /\
      Permutation (live c) (map block_of (g_blocks g) ++ rest) /\ Permutation (live c') (map block_of (g_blocks h) ++ rest) /\
      map snd (g_blocks h) = parts (g_val g) /\ mSize a' = copied_size (parts (g_val g)) /\ counters a' = fold_left place (parts (g_val g)) (0, 0, 0) /\
      mAlloc a' <= 2 * copied_size (parts (g_val g)) + page /\ sCurr w' = sCurr w - mAlloc a + mAlloc a' /\
      get_alloc w' (g_at g) = Undef /\ (forall j, (j < length (allocs w))%nat -> j <> g_at g -> get_alloc w' j = get_alloc w j)
  | Undef => memory < sCurr w + 2 * copied_size (parts (g_val g)) + page
  | Exit => 0 < sLimit w < Z.max (sMax w) (sCurr w + 2 * copied_size (parts (g_val g)) + page)
  | _ => False
  end.
Proof.
  intros R O S I. unfold gc_reallocate. rewrite (proj1 O). cbn [bind]. rewrite I.
  assert (X := copy_ok dbg (g_val g) w c R S). destruct (gc_copy page memory V parts dbg (g_val g) w) as [[w1 h]| | | |]; cbn [bind]; try exact X.
  destruct X as (a' & c1 & R1 & O1 & Ev & Eh & Lv & Ms & S1 & C1 & B1 & U1 & Ot & Le).
  destruct O as [Ga Pb]. assert (Gi : (g_at g < length (allocs w))%nat) by (apply get_at in Ga; apply nth_error_Some; unfold at_ in Ga; congruence).
  set (new := map block_of (g_blocks h)) in *. set (old := map block_of (g_blocks g)) in *. set (rest := filter (fun b => negb (holds_chunk a b)) (live c)).
  assert (PL : Permutation (live c) (old ++ rest)).
  { etransitivity; [apply (partition_perm (holds_chunk a))|]. apply Permutation_app_tail. exact Pb. }
  assert (PL1 : Permutation (live c1) (old ++ new ++ rest)).
  { rewrite Lv, PL. etransitivity; [apply Permutation_app_tail; apply Permutation_sym, Permutation_rev|]. rewrite !app_assoc. apply Permutation_app_tail. apply Permutation_app_comm. }
  assert (Ga1 : get_alloc w1 (g_at g) = Ok a).
  { unfold get_alloc, RandPermModel.rd in *. rewrite Ot by exact Gi. exact Ga. }
  assert (V1 := reach_Inv dbg w1 c1 R1). destruct O1 as [Gh Ph]. fold new in Ph.
  assert (Nn : forall b, In b new -> holds_chunk a b = false).
  { intros b Ib. destruct (holds_chunk a b) eqn:E; [|reflexivity]. exfalso.
    assert (Hb : holds_chunk a' b = true) by (apply (holds_in a' (live c1)); eapply Permutation_in; [apply Permutation_sym; exact Ph|exact Ib]).
    apply holds_held in E as (ch & I1 & E1). apply holds_held in Hb as (ch' & I2 & E2). apply get_at in Ga1, Gh.
    destruct (v_unique _ _ _ V1 _ _ _ _ _ _ Ga1 Gh I1 I2) as [X _]; [congruence|]. lia. }
  assert (Og : owns w1 c1 g a).
  { split; [exact Ga1|]. rewrite Lv. unfold blocks_of. rewrite filter_app.
    assert (E : filter (holds_chunk a) (rev new) = []).
    { clear -Nn. assert (H : forall b, In b (rev new) -> holds_chunk a b = false) by (intros b Ib; apply Nn; now apply in_rev). induction (rev new) as [|x l IH]; [reflexivity|].
      cbn [filter]. rewrite (H x (or_introl eq_refl)). apply IH. intros b Ib. apply H. right. exact Ib. }
    rewrite E. exact Pb. }
  destruct (destroy_ok dbg g w1 c1 a (new ++ rest) R1 Og PL1) as (w2 & c2 & E2 & R2 & P2 & G2 & O2 & L2 & U2).
  rewrite E2. cbn [bind]. exists a', c2, rest. split; [exact R2|].
  assert (Hr : blocks_of a' rest = []).
  { assert (X : Permutation (blocks_of a' (live c1)) (blocks_of a' old ++ blocks_of a' new ++ blocks_of a' rest)).
    { unfold blocks_of. rewrite <- !filter_app. apply filter_perm. exact PL1. }
    assert (Y : blocks_of a' new = new).
    { assert (H : forall b, In b new -> holds_chunk a' b = true) by (intros b Ib; apply (holds_in a' (live c1)); eapply Permutation_in; [apply Permutation_sym; exact Ph|exact Ib]).
      clear -H. unfold blocks_of. induction new as [|x l IH]; [reflexivity|]. cbn [filter]. rewrite (H x (or_introl eq_refl)). f_equal. apply IH. intros b Ib. apply H. right. exact Ib. }
    rewrite Y, Ph in X. apply Permutation_length in X. rewrite !app_length in X. destruct (blocks_of a' rest); [reflexivity|cbn in X; lia]. }
  split.
  { split.
    - unfold get_alloc, RandPermModel.rd in *. rewrite O2 by lia. exact Gh.
    - assert (X := filter_perm (holds_chunk a') _ _ P2). rewrite filter_app in X. fold (blocks_of a' (live c2)) (blocks_of a' new) (blocks_of a' rest) in X. rewrite Hr, app_nil_r in X.
      rewrite X. assert (H : forall b, In b new -> holds_chunk a' b = true) by (intros b Ib; apply (holds_in a' (live c1)); eapply Permutation_in; [apply Permutation_sym; exact Ph|exact Ib]).
      assert (Y : blocks_of a' new = new).
      { clear -H. unfold blocks_of. induction new as [|x l IH]; [reflexivity|]. cbn [filter]. rewrite (H x (or_introl eq_refl)). f_equal. apply IH. intros b Ib. apply H. right. exact Ib. }
      rewrite Y. apply Permutation_refl. }
  split; [exact Ev|]. split; [exact PL|]. split; [exact P2|]. split; [exact Ms|]. split; [exact S1|]. split; [exact C1|]. split; [exact B1|].
  split; [lia|]. split; [exact G2|]. intros j Hj Nj. unfold get_alloc, RandPermModel.rd. rewrite O2, Ot by assumption. reflexivity.
Qed.

Lemma realloc_no dbg (g : gc V) w c a : owns w c g a -> isGC a = false -> gc_reallocate page memory V parts dbg g w = Ok (w, g).
Proof. intros [Ga _] I. unfold gc_reallocate. rewrite Ga. cbn [bind]. rewrite I. reflexivity. Qed.

(** A second call finds the same counters. *)
Lemma again dbg (g h h2 : gc V) w c a w1 w2 a1 a2 : reach page memory dbg (Ok (w, c)) -> owns w c g a -> sizes_ok (parts (g_val g)) -> isGC a = true ->
  gc_reallocate page memory V parts dbg g w = Ok (w1, h) -> gc_reallocate page memory V parts dbg h w1 = Ok (w2, h2) ->
  get_alloc w1 (g_at h) = Ok a1 -> get_alloc w2 (g_at h2) = Ok a2 -> mAlloc a2 = mAlloc a1 /\ mSize a2 = mSize a1 /\ isGC a2 = isGC a1.
Proof.
  intros R O S I E1 E2 G1 G2. assert (X := realloc_ok dbg g w c a R O S I). rewrite E1 in X.
  destruct X as (a' & c' & rest & R1 & O1 & Ev & _ & _ & _ & S1 & C1 & _). assert (a' = a1) by (destruct O1 as [Y _]; congruence). subst a'.
  destruct (isGC a1) eqn:I1.
  - rewrite <- Ev in S. assert (X := realloc_ok dbg h w1 c' a1 R1 O1 S I1). rewrite E2 in X.
    destruct X as (a3 & c3 & rest3 & R3 & O3 & Ev3 & _ & _ & _ & S3 & C3 & _). assert (a3 = a2) by (destruct O3 as [Y _]; congruence). subst a3.
    rewrite Ev in S3, C3. rewrite <- C1 in C3. unfold counters in C3. injection C3 as E _ _. split; [exact E|]. split; [congruence|].
    unfold isGC in *. rewrite E, S3, <- S1. exact I1.
  - rewrite (realloc_no dbg h w1 c' a1 O1 I1) in E2. injection E2 as <- <-. assert (a2 = a1) by congruence. subst a2. auto.
Qed.

Lemma place_mono l : sizes_ok l -> forall s, fst (fst s) <= fst (fst (fold_left place l s)).
Proof.
  induction 1 as [|n l Hn _ IH]; intro s; [cbn; lia|]. cbn [fold_left]. etransitivity; [|apply IH]. destruct s as [[al ch] us]. unfold place. cbn beta in Hn.
  pose proof (pages (rounded n) (rounded_pos n ltac:(lia))). destruct (ch <? us + rounded n); cbn [fst]; [|lia]. pose proof (rounded_pos n ltac:(lia)). lia.
Qed.
Lemma at_least_a_page l : sizes_ok l -> l <> [] -> page <= fst (fst (fold_left place l (0, 0, 0))).
Proof.
  intros S N. destruct l as [|n l]; [congruence|]. cbn [fold_left]. etransitivity; [|apply place_mono; exact (Forall_inv_tail S)].
  assert (Hn := Forall_inv S). cbn beta in Hn. pose proof (rounded_pos n ltac:(lia)). unfold place. destruct (Z.ltb_spec 0 (0 + rounded n)); [|lia]. cbn [fst].
  assert (1 <= (rounded n + page) / page) by (apply Z.div_le_lower_bound; lia). nia.
Qed.
(** With the pages of this program every small object is a candidate, also directly after it was copied. *)
Lemma small_again dbg v w c w1 h a1 : 4096 < page -> reach page memory dbg (Ok (w, c)) -> sizes_ok (parts v) -> parts v <> [] -> 3 * copied_size (parts v) < 2 * page ->
  gc_copy page memory V parts dbg v w = Ok (w1, h) -> get_alloc w1 (g_at h) = Ok a1 -> isGC a1 = true.
Proof.
  intros Hp R S N L E G. assert (X := copy_ok dbg v w c R S). rewrite E in X. destruct X as (a' & c' & R1 & O1 & _ & _ & _ & _ & S1 & C1 & _ & U1 & _).
  assert (a' = a1) by (destruct O1 as [Y _]; congruence). subst a'. assert (M := at_least_a_page (parts v) S N). rewrite <- C1 in M. cbn [counters fst] in M.
  assert (Z0 := zsum_rounded_nonneg (parts v) S). fold (copied_size (parts v)) in Z0.
  assert (V0 := v_mem _ _ _ (reach_Inv dbg w c R)). assert (V1 := v_mem _ _ _ (reach_Inv dbg w1 c' R1)).
  unfold isGC. rewrite S1. rewrite !wrap_id by lia. apply andb_true_iff. split; apply Z.ltb_lt; lia.
Qed.

Lemma isGC_thm dbg w c i a : reach page memory dbg (Ok (w, c)) -> get_alloc w i = Ok a -> (isGC a = true <-> 4096 < mAlloc a /\ mAlloc a < 3 * (mAlloc a - mSize a)).
Proof.
  intros R G. apply get_at in G. assert (I := reach_Inv dbg w c R). assert (Gd := v_good _ _ _ I i a G).
  assert (LP : forall b, In b (live c) -> 0 < asked b).
  { intros b Ib. destruct (v_live _ _ _ I b Ib) as [Ih _]. destruct (v_handed _ _ _ I b Ih) as (_ & _ & _ & ?). lia. }
  assert (SN := size_nonneg _ c a LP Gd). assert (GL := g_le _ _ _ Gd). assert (GN := g_node _ _ _ Gd).
  assert (AL : forall j b, at_ w j b -> 0 <= mAlloc b).
  { intros j b B. assert (Gb := v_good _ _ _ I j b B). assert (SB := size_nonneg _ c b LP Gb). pose proof (g_le _ _ _ Gb). pose proof (g_node _ _ _ Gb). lia. }
  assert (AT := alloc_le w i a AL G). rewrite <- (v_curr _ _ _ I) in AT. assert (VM := v_mem _ _ _ I).
  unfold isGC. rewrite andb_true_iff, !Z.ltb_lt, !wrap_id by lia. lia.
Qed.

Lemma get_same w w' j : nth_error (allocs w') j = nth_error (allocs w) j -> get_alloc w' j = get_alloc w j.
Proof. unfold get_alloc, RandPermModel.rd. intros ->. reflexivity. Qed.
Lemma get_lt w j b : get_alloc w j = Ok b -> (j < length (allocs w))%nat.
Proof. intro G. apply get_at in G. apply nth_error_Some. unfold at_ in G. congruence. Qed.

Lemma copy_thm dbg v w c : reach page memory dbg (Ok (w, c)) -> sizes_ok (parts v) ->
  match gc_copy page memory V parts dbg v w with
  | Ok (w', h) => exists a' c', reach page memory dbg (Ok (w', c')) /\ owns w' c' h a' /\ g_val h = v /\
      Permutation (live c') (map block_of (g_blocks h) ++ live c) /\ map snd (g_blocks h) = parts v /\
      mSize a' = copied_size (parts v) /\ mAlloc a' <= 2 * copied_size (parts v) + page /\ sCurr w' = sCurr w + mAlloc a' /\
      (forall j b, get_alloc w j = Ok b -> g_at h <> j /\ get_alloc w' j = Ok b)
  | Undef => memory < sCurr w + 2 * copied_size (parts v) + page
  | Exit => 0 < sLimit w < Z.max (sMax w) (sCurr w + 2 * copied_size (parts v) + page)
  | _ => False
  end.
Proof.
  intros R S. assert (X := copy_ok dbg v w c R S). destruct (gc_copy page memory V parts dbg v w) as [[w1 h]| | | |]; try exact X.
  destruct X as (a' & c1 & R1 & O1 & Ev & Eh & Lv & Ms & S1 & C1 & B1 & U1 & Ot & Le). exists a', c1. do 3 (split; [assumption|]).
  split; [rewrite Lv; apply Permutation_app_tail; apply Permutation_sym, Permutation_rev|]. do 4 (split; [assumption|]).
  intros j b G. assert (L := get_lt w j b G). split; [lia|]. rewrite (get_same w) by now apply Ot. exact G.
Qed.

Lemma destroy_thm dbg (g : gc V) w c a rest : reach page memory dbg (Ok (w, c)) -> owns w c g a -> Permutation (live c) (map block_of (g_blocks g) ++ rest) ->
  exists w' c', gc_destroy dbg g w = Ok w' /\ reach page memory dbg (Ok (w', c')) /\ Permutation (live c') rest /\
    get_alloc w' (g_at g) = Undef /\ (forall j, j <> g_at g -> get_alloc w' j = get_alloc w j) /\ sCurr w' = sCurr w - mAlloc a.
Proof.
  intros R O P. destruct (destroy_ok dbg g w c a rest R O P) as (w' & c' & E & R' & P' & G & Ot & L & U). exists w', c'. do 4 (split; [assumption|]).
  split; [|assumption]. intros j N. apply get_same. now apply Ot.
Qed.

Lemma realloc_thm dbg (g : gc V) w c a : reach page memory dbg (Ok (w, c)) -> owns w c g a -> sizes_ok (parts (g_val g)) -> isGC a = true ->
  match gc_reallocate page memory V parts dbg g w with
  | Ok (w', h) => exists a' c' rest, reach page memory dbg (Ok (w', c')) /\ owns w' c' h a' /\ g_val h = g_val g /\
      Permutation (live c) (map block_of (g_blocks g) ++ rest) /\ Permutation (live c') (map block_of (g_blocks h) ++ rest) /\
      map snd (g_blocks h) = parts (g_val g) /\
      mSize a' = copied_size (parts (g_val g)) /\ mAlloc a' <= 2 * copied_size (parts (g_val g)) + page /\
      sCurr w' = sCurr w - mAlloc a + mAlloc a' /\
      get_alloc w' (g_at g) = Undef /\ (forall j b, get_alloc w j = Ok b -> j <> g_at g -> get_alloc w' j = Ok b)
  | Undef => memory < sCurr w + 2 * copied_size (parts (g_val g)) + page
  | Exit => 0 < sLimit w < Z.max (sMax w) (sCurr w + 2 * copied_size (parts (g_val g)) + page)
  | _ => False
  end.
Proof.
  intros R O S I. assert (X := realloc_ok dbg g w c a R O S I). destruct (gc_reallocate page memory V parts dbg g w) as [[w1 h]| | | |]; try exact X.
  destruct X as (a' & c' & rest & R1 & O1 & Ev & P & P' & Ms & S1 & _ & B1 & U1 & G1 & Ot). exists a', c', rest. do 10 (split; [assumption|]).
  intros j b G N. rewrite Ot by (try assumption; eapply get_lt; exact G). exact G.
Qed.
End G.
End P.

Lemma settled_refuted : exists (l : list Z) (w w1 : world) (g h : gc (list Z)) (a a1 : allocator),
  gc_copy 4128 (2 ^ 40) (list Z) (fun l => l) true l world0 = Ok (w, g) /\ get_alloc w (g_at g) = Ok a /\ isGC a = true /\
  gc_reallocate 4128 (2 ^ 40) (list Z) (fun l => l) true g w = Ok (w1, h) /\ get_alloc w1 (g_at h) = Ok a1 /\
  isGC a1 = true /\ mAlloc a1 = mAlloc a /\ mSize a1 = mSize a.
Proof.
  exists [2500; 2500]. do 6 eexists. split; [vm_compute; reflexivity|]. split; [vm_compute; reflexivity|]. split; [vm_compute; reflexivity|].
  split; [vm_compute; reflexivity|]. split; [vm_compute; reflexivity|]. split; [vm_compute; reflexivity|]. split; vm_compute; reflexivity.
Qed.

Lemma gc_run : exists (w w' : world) (c : client) (g h : gc (list Z)) (a a' : allocator),
  reach 4128 (2 ^ 40) true (Ok (w, c)) /\ owns w c g a /\ isGC a = true /\ sizes_ok (g_val g) /\
  gc_reallocate 4128 (2 ^ 40) (list Z) (fun l => l) true g w = Ok (w', h) /\ get_alloc w' (g_at h) = Ok a' /\
  g_val h = [3000; 100] /\ mAlloc a = 12384 /\ mAlloc a' = 4128 /\ isGC a' = false.
Proof.
  set (w0 := new_allocator world0). set (c0 := Client [] [] 0).
  assert (R0 : reach 4128 (2 ^ 40) true (Ok (w0, c0))) by (eapply r_step; [apply r_start|apply s_new]).
  more R0 3000 R1. more R1 100 R2. more R2 3000 R3. more R3 3000 R4.
  match type of R4 with reach _ _ _ (Ok (?w, Client ?h [?x; ?y; ?z; ?t] ?p)) =>
    pose proof (r_step _ _ _ _ _ R4 (s_dealloc _ _ true w (Client h [x; y; z; t] p) 0 _ [] x [y; z; t] eq_refl eq_refl eq_refl)) as R5 end.
  vm_compute in R5.
  match type of R5 with reach _ _ _ (Ok (?w, Client ?h [?x; ?y; ?z] ?p)) =>
    pose proof (r_step _ _ _ _ _ R5 (s_dealloc _ _ true w (Client h [x; y; z] p) 0 _ [] x [y; z] eq_refl eq_refl eq_refl)) as R6 end.
  vm_compute in R6.
  match type of R6 with reach _ _ _ (Ok (?w, Client ?h [?x; ?y] ?p)) =>
    exists w; eexists; exists (Client h [x; y] p), (GC 0%nat [(where_ y, asked y); (where_ x, asked x)] [3000; 100]); do 3 eexists end.
  split; [exact R6|]. split; [split; [vm_compute; reflexivity|]|]. { vm_compute. apply perm_swap. }
  split; [vm_compute; reflexivity|]. split; [repeat constructor; lia|]. split; [vm_compute; reflexivity|]. split; [vm_compute; reflexivity|].
  split; [reflexivity|]. split; [vm_compute; reflexivity|]. split; vm_compute; reflexivity.
Qed.
