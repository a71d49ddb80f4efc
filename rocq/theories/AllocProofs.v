From Coq Require Import ZArith List Bool Arith Lia.
From Verif Require Import Outcome RandPermModel RandPermProofs AllocModel AllocSpec.
Import ListNotations.
Local Open Scope Z_scope.

Lemma wrap_id z : 0 <= z < 2 ^ 64 -> wrap z = z.
Proof. intros H. apply Z.mod_small. exact H. Qed.

Lemma round16_ok n : 0 < n < 2 ^ 62 -> round16 n = rounded n.
Proof.
  intros H. unfold round16, rounded. rewrite Z.shiftr_div_pow2 by lia. change (2 ^ 4) with 16.
  assert (0 <= n / 16 < 2 ^ 62) by (split; [apply Z.div_pos; lia|apply Z.div_lt_upper_bound; lia]).
  rewrite (wrap_id (n / 16 + 1)) by lia. rewrite Z.shiftl_mul_pow2 by lia. change (2 ^ 4) with 16.
  apply wrap_id. pose proof (Z.div_mod n 16 ltac:(lia)). pose proof (Z.mod_pos_bound n 16 ltac:(lia)). lia.
Qed.
Lemma rounded_bounds n : 0 <= n -> n < rounded n <= n + 16 /\ (rounded n) mod 16 = 0.
Proof.
  intros H. unfold rounded. pose proof (Z.div_mod n 16 ltac:(lia)). pose proof (Z.mod_pos_bound n 16 ltac:(lia)).
  split; [lia|]. apply Z.mod_mul. lia.
Qed.

Lemma nth_upd {A} (l : list A) j y i : nth_error (upd l j y) i = if ((i =? j) && (j <? length l))%nat then Some y else nth_error l i.
Proof.
  revert j i; induction l as [|z a IHa]; intros [|j] [|i]; cbn [upd nth_error length]; try reflexivity.
  - rewrite andb_false_r. reflexivity.
  - rewrite IHa. cbn. destruct (Nat.eqb_spec i j), (Nat.ltb_spec j (length a)), (Nat.ltb_spec (S j) (S (length a))); cbn; try lia; reflexivity.
Qed.
Lemma zsum_app {A} (f : A -> Z) a b : zsum f (a ++ b) = zsum f a + zsum f b.
Proof. unfold zsum. induction a; cbn; lia. Qed.
Lemma zsum_upd {A} (f : A -> Z) l i x y : nth_error l i = Some x -> zsum f (upd l i y) = zsum f l - f x + f y.
Proof.
  intros H. apply nth_error_split in H. destruct H as (a & b & -> & L). rewrite upd_appn by auto.
  rewrite !zsum_app. unfold zsum. cbn. lia.
Qed.
Lemma zsum_nonneg {A} (f : A -> Z) l : (forall x, In x l -> 0 <= f x) -> 0 <= zsum f l.
Proof. unfold zsum. induction l as [|x l IH]; intros H; cbn; [lia|]. pose proof (H x (or_introl eq_refl)). specialize (IH (fun y Hy => H y (or_intror Hy))). lia. Qed.
Lemma zsum_in {A} (f : A -> Z) l x : (forall x, In x l -> 0 <= f x) -> In x l -> f x <= zsum f l.
Proof.
  intros H I. apply in_split in I. destruct I as (a & b & ->). rewrite zsum_app. change (zsum f (x :: b)) with (f x + zsum f b).
  pose proof (zsum_nonneg f a ltac:(intros; apply H; apply in_or_app; auto)).
  pose proof (zsum_nonneg f b ltac:(intros; apply H; apply in_or_app; right; right; auto)). lia.
Qed.

Definition size_of (b : block) : Z := rounded (asked b).
Definition held (a : allocator) (k : nat) : Prop := exists ch, In ch (mRoot a) /\ cid ch = k.
Lemma holds_held a b : holds_chunk a b = true <-> held a (pchunk (where_ b)).
Proof.
  unfold holds_chunk, held. rewrite existsb_exists. split; intros (ch & I & E); exists ch; split; auto; [apply Nat.eqb_eq|apply Nat.eqb_eq]; exact E.
Qed.

Definition top_ok (hd : list block) (a : allocator) : Prop :=
  match mRoot a with
  | [] => mNodeAlloc a = 0 /\ mNodeSize a = 0
  | ch :: _ => cbytes ch = mNodeAlloc a /\ forall b, In b hd -> pchunk (where_ b) = cid ch -> poffset (where_ b) + size_of b <= mNodeSize a
  end.

Record good (f : nat) (c : client) (a : allocator) : Prop := Good {
  g_alloc : mAlloc a = zsum cbytes (mRoot a);
  g_size : mSize a = zsum size_of (blocks_of a (live c));
  g_le : mSize a <= mAlloc a - mNodeAlloc a + mNodeSize a;
  g_node : 0 <= mNodeSize a <= mNodeAlloc a;
  g_node16 : mNodeSize a mod 16 = 0;
  g_top : top_ok (handed c) a;
  g_chunks : forall ch, In ch (mRoot a) -> 0 < cbytes ch /\ (cid ch < f)%nat
}.

Definition at_ (w : world) (i : nat) (a : allocator) : Prop := nth_error (allocs w) i = Some (Some a).

Record Inv (memory : Z) (w : world) (c : client) : Prop := {
  v_good : forall i a, at_ w i a -> good (fresh w) c a;
  v_unique : forall i j a b ch ch', at_ w i a -> at_ w j b -> In ch (mRoot a) -> In ch' (mRoot b) -> cid ch = cid ch' -> i = j /\ ch = ch';
  v_curr : sCurr w = total_alloc w;
  v_mem : 0 <= sCurr w <= memory;
  v_max : sMax w = peak c;
  v_cm : sCurr w <= sMax w;
  v_handed : forall b, In b (handed c) -> 0 <= poffset (where_ b) /\ poffset (where_ b) mod 16 = 0 /\ (pchunk (where_ b) < fresh w)%nat /\ 0 < asked b < 2 ^ 62;
  v_disj : ForallOrdPairs disjoint (handed c);
  v_live : forall b, In b (live c) -> In b (handed c) /\ exists i a ch, at_ w i a /\ In ch (mRoot a) /\ cid ch = pchunk (where_ b) /\ poffset (where_ b) + size_of b <= cbytes ch
}.

Lemma get_at w i a : get_alloc w i = Ok a <-> at_ w i a.
Proof.
  unfold get_alloc, at_, rd. destruct (nth_error (allocs w) i) as [[x|]|]; cbn; split; intros H; try discriminate; injection H as ->; reflexivity.
Qed.

Lemma alloc_le w i a : (forall j b, at_ w j b -> 0 <= mAlloc b) -> at_ w i a -> mAlloc a <= total_alloc w.
Proof.
  intros H I. unfold total_alloc. unfold at_ in I. apply nth_error_In in I as I'.
  apply (zsum_in (fun o => match o with Some a => mAlloc a | None => 0 end) (allocs w) (Some a)); [|exact I'].
  intros [b|] Hb; [|lia]. apply In_nth_error in Hb. destruct Hb as [j Hj]. apply (H j). exact Hj.
Qed.
Lemma good_pos f c a : good f c a -> 0 <= mAlloc a /\ 0 <= mNodeAlloc a <= mAlloc a.
Proof.
  intros G. pose proof (g_chunks _ _ _ G) as C. assert (0 <= mAlloc a).
  { rewrite (g_alloc _ _ _ G). apply zsum_nonneg. intros ch H. apply C in H. lia. }
  split; [exact H|]. pose proof (g_node _ _ _ G). split; [lia|].
  pose proof (g_top _ _ _ G) as T. unfold top_ok in T. rewrite (g_alloc _ _ _ G). destruct (mRoot a) as [|ch l].
  - destruct T as [-> _]. cbn. lia.
  - destruct T as [<- _]. apply zsum_in; [|left; reflexivity]. intros x Hx. apply C in Hx. lia.
Qed.

Lemma size_nonneg f c a : (forall b, In b (live c) -> 0 < asked b) -> good f c a -> 0 <= mSize a.
Proof.
  intros H G. rewrite (g_size _ _ _ G). apply zsum_nonneg. intros b Hb. apply filter_In in Hb. destruct Hb as [Hb _].
  apply H in Hb. unfold size_of. pose proof (rounded_bounds (asked b)). lia.
Qed.

Lemma filter_ext_in' (f g : block -> bool) l : (forall b, In b l -> f b = g b) -> filter f l = filter g l.
Proof. apply filter_ext_in. Qed.

Lemma assert_true1 {A} dbg (k : outcome A) : assert_ dbg true k = k.
Proof. unfold assert_. rewrite andb_false_r. reflexivity. Qed.

Section Params.
Variables page memory : Z.
Hypothesis page_ok : 0 < page <= 2 ^ 30.
Hypothesis page16 : page mod 16 = 0.
Hypothesis memory_ok : memory <= 2 ^ 62.

Lemma chunk_size n : 0 < n < 2 ^ 62 + 32 -> let s := wrap (wrap (n + page) / page * page) in n < s <= n + page /\ s = (n + page) / page * page.
Proof.
  intros H. rewrite (wrap_id (n + page)) by lia.
  pose proof (Z.div_mod (n + page) page ltac:(lia)). pose proof (Z.mod_pos_bound (n + page) page ltac:(lia)).
  cbv zeta. rewrite wrap_id by nia. split; [nia|reflexivity].
Qed.

(** the bytes that a call of allocate(n) takes from the system: none if they fit the current chunk *)
Definition need (a : allocator) (n : Z) : Z :=
  if mNodeAlloc a <? mNodeSize a + rounded n then (rounded n + page) / page * page else 0.

Lemma need_nonneg a n : 0 < n -> 0 <= need a n.
Proof.
  intros H. unfold need. destruct (Z.ltb_spec (mNodeAlloc a) (mNodeSize a + rounded n)); [|apply Z.le_refl].
  pose proof (rounded_bounds n ltac:(lia)). apply Z.mul_nonneg_nonneg; [|lia]. apply Z.div_pos; lia.
Qed.

Lemma holds_root a a' b : mRoot a = mRoot a' -> holds_chunk a b = holds_chunk a' b.
Proof. intros H. unfold holds_chunk. rewrite H. reflexivity. Qed.

Lemma at_set w i x j a : (i < length (allocs w))%nat -> at_ (set_alloc w i x) j a <-> (j = i /\ x = Some a) \/ (j <> i /\ at_ w j a).
Proof.
  intros L. unfold at_, set_alloc. cbn [allocs]. rewrite nth_upd. destruct (Nat.ltb_spec i (length (allocs w))); [|lia].
  rewrite andb_true_r. destruct (Nat.eqb_spec j i); split.
  - intros E. injection E as ->. left. auto.
  - intros [[_ ->]|[? _]]; [reflexivity|contradiction].
  - intros E. right. auto.
  - intros [[? _]|[_ E]]; [contradiction|exact E].
Qed.

(** a world that only differs in allocator i *)
Lemma alloc_step dbg w c i a n : Inv memory w c -> at_ w i a -> 0 < n < 2 ^ 62 ->
  if memory <? sCurr w + need a n then need a n <> 0 /\ allocate page memory dbg i n w = Undef
  else if (0 <? sLimit w) && (sLimit w <? Z.max (sMax w) (sCurr w + need a n)) && negb (need a n =? 0) then allocate page memory dbg i n w = Exit
  else exists w' p, allocate page memory dbg i n w = Ok (w', p) /\
    sCurr w' = sCurr w + need a n /\
    Inv memory w' (Client (Block p n :: handed c) (Block p n :: live c) (Z.max (peak c) (sCurr w'))).
Proof.
  intros V A Hn.
  pose proof (v_good _ _ _ V i a A) as G. pose proof (g_node _ _ _ G) as GN. pose proof (good_pos _ _ _ G) as GP.
  assert (AL : forall j b, at_ w j b -> 0 <= mAlloc b) by (intros j b B; apply (good_pos _ _ _ (v_good _ _ _ V j b B))).
  pose proof (alloc_le w i a AL A) as AT. rewrite <- (v_curr _ _ _ V) in AT. pose proof (v_mem _ _ _ V) as VM.
  assert (LP : forall b, In b (live c) -> 0 < asked b).
  { intros b Hb. apply (v_live _ _ _ V) in Hb. destruct Hb as [Hb _]. apply (v_handed _ _ _ V) in Hb. lia. }
  pose proof (size_nonneg _ _ _ LP G) as SN. pose proof (g_le _ _ _ G) as GL.
  pose proof (rounded_bounds n ltac:(lia)) as [RB R16].
  assert (Li : (i < length (allocs w))%nat) by (apply nth_error_Some; unfold at_ in A; congruence).
  (* the part after a chunk with room is at the head *)
  assert (FIN : forall w1 a1 ch rest, Inv memory w1 (Client (handed c) (live c) (Z.max (peak c) (sCurr w1))) -> at_ w1 i a1 -> mRoot a1 = ch :: rest ->
     mNodeSize a1 + rounded n <= mNodeAlloc a1 ->
     exists w' p, (assert_ dbg (wrap (mNodeSize a1 + rounded n) <=? mNodeAlloc a1)
       (match mRoot a1 with
        | [] => Undef
        | c :: _ =>
          let a2 := Alloc (mAlloc a1) (wrap (mSize a1 + rounded n)) (mRoot a1) (mNodeAlloc a1) (wrap (mNodeSize a1 + rounded n)) in
          assert_ dbg (mNodeSize a2 <=? mNodeAlloc a2) (Ok (set_alloc w1 i (Some a2), Ptr (cid c) (mNodeSize a1)))
        end)) = Ok (w', p) /\ sCurr w' = sCurr w1 /\
     Inv memory w' (Client (Block p n :: handed c) (Block p n :: live c) (Z.max (peak c) (sCurr w')))).
  { clear G GN GP AT SN GL. intros w1 a1 ch rest V1 A1 Rt Room.
    pose proof (v_good _ _ _ V1 i a1 A1) as G. pose proof (g_node _ _ _ G) as GN. pose proof (good_pos _ _ _ G) as GP.
    assert (AL1 : forall j b, at_ w1 j b -> 0 <= mAlloc b) by (intros j b B; apply (good_pos _ _ _ (v_good _ _ _ V1 j b B))).
    pose proof (alloc_le w1 i a1 AL1 A1) as AT. rewrite <- (v_curr _ _ _ V1) in AT. pose proof (v_mem _ _ _ V1) as VM1.
    pose proof (size_nonneg _ (Client (handed c) (live c) (Z.max (peak c) (sCurr w1))) _ LP G) as SN. pose proof (g_le _ _ _ G) as GL.
    pose proof (g_top _ _ _ G) as GT. unfold top_ok in GT. rewrite Rt in GT. destruct GT as [Gch Gtop]. cbn [handed] in Gtop.
    assert (Li1 : (i < length (allocs w1))%nat) by (apply nth_error_Some; unfold at_ in A1; congruence).
    rewrite (wrap_id (mNodeSize a1 + rounded n)) by lia. rewrite (wrap_id (mSize a1 + rounded n)) by lia.
    rewrite Rt. unfold assert_. cbn [mNodeSize mNodeAlloc].
    destruct (Z.leb_spec (mNodeSize a1 + rounded n) (mNodeAlloc a1)); [|lia]. cbn [negb]. rewrite andb_false_r.
    eexists _, _. split; [reflexivity|]. split; [reflexivity|]. set (p := Ptr (cid ch) (mNodeSize a1)).
    set (a2 := Alloc (mAlloc a1) (mSize a1 + rounded n) (ch :: rest) (mNodeAlloc a1) (mNodeSize a1 + rounded n)).
    assert (Hch : In ch (mRoot a1)) by (rewrite Rt; left; reflexivity).
    pose proof (g_chunks _ _ _ G ch Hch) as [Cpos Cid].
    assert (NewDisj : forall b, In b (handed c) -> disjoint (Block p n) b).
    { intros b Hb. unfold disjoint. cbn [where_ asked p pchunk poffset].
      destruct (Nat.eq_dec (pchunk (where_ b)) (cid ch)) as [E|E]; [|left; congruence].
      specialize (Gtop b Hb E). right. right. unfold size_of in Gtop.
      pose proof (v_handed _ _ _ V1 b Hb) as (_ & _ & _ & Hab). pose proof (rounded_bounds (asked b) ltac:(lia)). lia. }
    assert (Held2 : forall j b, j <> i -> at_ w1 j b -> holds_chunk b (Block p n) = false).
    { intros j b Hj B. destruct (holds_chunk b (Block p n)) eqn:E; [|reflexivity]. apply holds_held in E. destruct E as (ch' & I & Ec). cbn in Ec.
      destruct (v_unique _ _ _ V1 j i b a1 ch' ch B A1 I Hch Ec). contradiction. }
    constructor; cbn [handed live peak].
    - intros j b B. apply at_set in B; [|exact Li1]. destruct B as [[-> B]|[Nj B]].
      + injection B as <-. constructor; cbn [mAlloc mSize mRoot mNodeAlloc mNodeSize a2].
        * rewrite <- Rt. apply (g_alloc _ _ _ G).
        * cbn [live]. unfold blocks_of. cbn [filter]. 
          assert (HH : holds_chunk a2 (Block p n) = true) by (apply holds_held; exists ch; split; [left; reflexivity|reflexivity]).
          match goal with |- context [holds_chunk ?x (Block ?y ?z)] => replace (holds_chunk x (Block y z)) with true by (symmetry; exact HH) end.
          rewrite (g_size _ _ _ G). unfold blocks_of. cbn [live].
          change (mSize a1 + rounded n) with (mSize a1 + rounded n).
          rewrite (filter_ext_in (holds_chunk a2) (holds_chunk a1)) by (intros; apply holds_root; cbn; congruence). apply Z.add_comm.
        * lia.
        * lia.
        * rewrite Z.add_mod, (g_node16 _ _ _ G), R16 by lia. reflexivity.
        * unfold top_ok. cbn [mRoot mNodeAlloc mNodeSize handed]. split; [exact Gch|]. intros b [<-|Hb] E.
          -- change (mNodeSize a1 + rounded n <= mNodeSize a1 + rounded n). lia.
          -- specialize (Gtop b Hb E). change (poffset (where_ b) + size_of b <= mNodeSize a1 + rounded n). lia.
        * intros x Hx. cbn [set_alloc fresh]. apply (g_chunks _ _ _ G). rewrite Rt. exact Hx.
      + pose proof (v_good _ _ _ V1 j b B) as Gb. destruct Gb as [B1 B2 B3 B4 B5 B6 B7]. constructor; auto.
        * rewrite B2. unfold blocks_of. cbn [live filter]. rewrite (Held2 j b Nj B). reflexivity.
        * unfold top_ok in *. destruct (mRoot b) as [|ch' l] eqn:Rb; [exact B6|]. destruct B6 as [B6 B6']. split; [exact B6|].
          intros x [<-|Hx] E; [|apply B6'; assumption]. exfalso.
          cbn in E. destruct (v_unique _ _ _ V1 j i b a1 ch' ch B A1 ltac:(rewrite Rb; left; reflexivity) Hch (eq_sym E)). contradiction.
    - intros j k b b' ch1 ch2 B B' I I' E. apply at_set in B; [|exact Li1]. apply at_set in B'; [|exact Li1].
      assert (X : exists b1, at_ w1 j b1 /\ In ch1 (mRoot b1)).
      { destruct B as [[-> B]|[_ B]]; [|eauto]. injection B as <-. exists a1. split; [exact A1|]. rewrite Rt. exact I. }
      assert (X' : exists b1, at_ w1 k b1 /\ In ch2 (mRoot b1)).
      { destruct B' as [[-> B']|[_ B']]; [|eauto]. injection B' as <-. exists a1. split; [exact A1|]. rewrite Rt. exact I'. }
      destruct X as (b1 & B1 & I1), X' as (b2 & B2 & I2). exact (v_unique _ _ _ V1 j k b1 b2 ch1 ch2 B1 B2 I1 I2 E).
    - unfold total_alloc. cbn [set_alloc sCurr allocs]. rewrite (zsum_upd _ (allocs w1) i (Some a1)) by exact A1.
      change (sCurr w1 = total_alloc w1 - mAlloc a1 + mAlloc a1). rewrite (v_curr _ _ _ V1). lia.
    - exact (v_mem _ _ _ V1).
    - cbn [set_alloc sMax sCurr]. rewrite (v_max _ _ _ V1). reflexivity.
    - exact (v_cm _ _ _ V1).
    - intros b [<-|Hb]; cbn [where_ p pchunk poffset asked set_alloc fresh].
      + split; [lia|]. split; [exact (g_node16 _ _ _ G)|]. split; [exact Cid|lia].
      + exact (v_handed _ _ _ V1 b Hb).
    - constructor; [|exact (v_disj _ _ _ V1)]. apply Forall_forall. exact NewDisj.
    - intros b [<-|Hb].
      + split; [left; reflexivity|]. exists i, a2, ch. split; [apply at_set; auto|]. split; [left; reflexivity|]. split; [reflexivity|].
        cbn [where_ p poffset]. unfold size_of. cbn [asked]. lia.
      + destruct (v_live _ _ _ V1 b Hb) as (H1 & j & b' & ch' & B & I & E & L). split; [right; exact H1|].
        destruct (Nat.eq_dec j i) as [->|Nj].
        * assert (b' = a1) by (unfold at_ in *; congruence). subst b'. exists i, a2, ch'. split; [apply at_set; auto|].
          cbn [mRoot a2]. rewrite <- Rt. auto.
        * exists j, b', ch'. split; [apply at_set; auto|]. auto. }
  unfold allocate. rewrite (proj2 (get_at w i a) A). cbn [bind]. replace (0 <? n) with true by (symmetry; apply Z.ltb_lt; lia). rewrite assert_true1.
  rewrite (round16_ok n Hn). cbv zeta. unfold need. rewrite (wrap_id (mNodeSize a + rounded n)) by lia.
  destruct (Z.ltb_spec (mNodeAlloc a) (mNodeSize a + rounded n)) as [Full|Room].
  - destruct (chunk_size (rounded n) ltac:(lia)) as [CS CE]. cbv zeta in CS. rewrite CE in *. set (s := (rounded n + page) / page * page) in *.
    unfold aligned_alloc. destruct (Z.ltb_spec memory (sCurr w + s)) as [M|M].
    + split; [lia|]. destruct (Z.leb_spec (sCurr w + s) memory); [lia|]. reflexivity.
    + destruct (Z.leb_spec (sCurr w + s) memory); [|lia]. cbn [bind]. unfold account. rewrite (wrap_id (sCurr w + s)) by lia.
      replace (if sCurr w + s <=? sMax w then sMax w else sCurr w + s) with (Z.max (sMax w) (sCurr w + s))
        by (destruct (Z.leb_spec (sCurr w + s) (sMax w)); lia).
      destruct (Z.eqb_spec s 0); [lia|]. cbn [negb]. rewrite andb_true_r.
      destruct ((0 <? sLimit w) && (sLimit w <? Z.max (sMax w) (sCurr w + s))); [reflexivity|]. cbn [bind].
      rewrite (wrap_id (mAlloc a + s)) by lia.
      set (ch := Chunk (fresh w) s). set (a1 := Alloc (mAlloc a + s) (mSize a) (ch :: mRoot a) s 0).
      set (w0 := World (sCurr w + s) (Z.max (sMax w) (sCurr w + s)) (sLimit w) (S (fresh w)) (allocs w)).
      assert (Li0 : (i < length (allocs w0))%nat) by exact Li.
      assert (V1 : Inv memory (set_alloc w0 i (Some a1)) (Client (handed c) (live c) (Z.max (peak c) (sCurr (set_alloc w0 i (Some a1)))))).
      { assert (Old : forall b, In b (handed c) -> holds_chunk a1 b = holds_chunk a b).
        { intros b Hb. unfold holds_chunk. cbn [a1 mRoot existsb ch cid]. pose proof (v_handed _ _ _ V b Hb) as (_ & _ & F & _).
          destruct (Nat.eqb_spec (fresh w) (pchunk (where_ b))); [lia|]. reflexivity. }
        constructor; cbn [handed live peak].
        - intros j b B. apply at_set in B; [|exact Li0]. destruct B as [[-> B]|[Nj B]].
          + injection B as <-. constructor; cbn [a1 mAlloc mSize mRoot mNodeAlloc mNodeSize live handed].
            * cbn [zsum fold_right ch cbytes]. rewrite (g_alloc _ _ _ G). unfold zsum. lia.
            * rewrite (g_size _ _ _ G). f_equal. unfold blocks_of. apply filter_ext_in. intros b Hb. symmetry. apply Old. apply (v_live _ _ _ V b Hb).
            * lia.
            * lia.
            * reflexivity.
            * unfold top_ok. cbn [mRoot mNodeAlloc mNodeSize ch cbytes cid]. split; [reflexivity|]. intros b Hb E. change (pchunk (where_ b) = fresh w) in E. pose proof (v_handed _ _ _ V b Hb) as (_ & _ & F & _). lia.
            * intros x [<-|Hx]; [change (0 < s /\ (fresh w < S (fresh w))%nat); lia|]. change (0 < cbytes x /\ (cid x < S (fresh w))%nat). pose proof (g_chunks _ _ _ G x Hx). lia.
          + pose proof (v_good _ _ _ V j b B) as [B1 B2 B3 B4 B5 B6 B7]. constructor; auto. intros x Hx. cbn. apply B7 in Hx. lia.
        - intros j k b b' ch1 ch2 B B' I I' E. apply at_set in B; [|exact Li0]. apply at_set in B'; [|exact Li0].
          assert (Fr : forall m z x, at_ w m z -> In x (mRoot z) -> (cid x < fresh w)%nat) by (intros m z x Hm Hx; apply (g_chunks _ _ _ (v_good _ _ _ V m z Hm) x Hx)).
          assert (X : (j = i /\ ch1 = ch) \/ exists b1, at_ w j b1 /\ In ch1 (mRoot b1)).
          { destruct B as [[-> B]|[_ B]]; [|eauto]. injection B as <-. destruct I as [<-|I]; [auto|]. right. exists a. auto. }
          assert (X' : (k = i /\ ch2 = ch) \/ exists b1, at_ w k b1 /\ In ch2 (mRoot b1)).
          { destruct B' as [[-> B']|[_ B']]; [|eauto]. injection B' as <-. destruct I' as [<-|I']; [auto|]. right. exists a. auto. }
          destruct X as [[-> ->]|(b1 & B1 & I1)], X' as [[-> ->]|(b2 & B2 & I2)].
          + auto.
          + pose proof (Fr _ _ _ B2 I2). cbn in E. lia.
          + pose proof (Fr _ _ _ B1 I1). cbn in E. lia.
          + exact (v_unique _ _ _ V j k b1 b2 ch1 ch2 B1 B2 I1 I2 E).
        - unfold total_alloc. cbn [set_alloc sCurr allocs w0]. rewrite (zsum_upd _ (allocs w) i (Some a)) by exact A.
          change (sCurr w + s = total_alloc w - mAlloc a + (mAlloc a + s)). rewrite (v_curr _ _ _ V). lia.
        - cbn. lia.
        - cbn. rewrite (v_max _ _ _ V). reflexivity.
        - cbn. lia.
        - intros b Hb. pose proof (v_handed _ _ _ V b Hb) as (P1 & P2 & P3 & P4). cbn. split; [exact P1|]. split; [exact P2|]. split; [lia|exact P4].
        - exact (v_disj _ _ _ V).
        - intros b Hb. destruct (v_live _ _ _ V b Hb) as (H1 & j & b' & ch' & B & I & E & L). split; [exact H1|].
          destruct (Nat.eq_dec j i) as [->|Nj].
          + assert (b' = a) by (unfold at_ in *; congruence). subst b'. exists i, a1, ch'. split; [apply at_set; auto|]. split; [right; exact I|]. auto.
          + exists j, b', ch'. split; [apply at_set; auto|]. auto. }
      destruct (FIN (set_alloc w0 i (Some a1)) a1 ch (mRoot a) V1) as (w' & p & E & Cw & V2).
      { apply at_set; auto. } { reflexivity. } { cbn. lia. }
      assert (SS : forall x, set_alloc (set_alloc w0 i (Some a1)) i (Some x) = set_alloc w0 i (Some x)).
      { intros x. unfold set_alloc. cbn [allocs sCurr sMax sLimit fresh]. f_equal. clear. generalize (allocs w0). intros l. revert i.
        induction l as [|y l IH]; intros [|i]; cbn; auto. f_equal. apply IH. }
      exists w', p. split; [|split; [rewrite Cw; reflexivity|exact V2]].
      rewrite <- E. rewrite <- (SS (Alloc (mAlloc a1) (wrap (mSize a1 + rounded n)) (mRoot a1) (mNodeAlloc a1) (wrap (mNodeSize a1 + rounded n)))).
      reflexivity.
  - destruct (Z.ltb_spec memory (sCurr w + 0)); [lia|]. cbn [Z.eqb negb]. rewrite andb_false_r. cbn [bind].
    destruct (mRoot a) as [|ch rest] eqn:Rt.
    + pose proof (g_top _ _ _ G) as T. unfold top_ok in T. rewrite Rt in T. lia.
    + assert (V1 : Inv memory w (Client (handed c) (live c) (Z.max (peak c) (sCurr w)))).
      { destruct V as [U1 U2 U3 U4 U5 Ucm U6 U7 U8]. constructor; auto; [|cbn; lia].
        intros j b B. destruct (U1 j b B). constructor; auto. }
      rewrite Z.add_0_r. destruct (FIN w a ch rest V1 A Rt Room) as (w' & p & E & Cw & V2). rewrite Rt in E.
      exists w', p. split; [exact E|]. split; [exact Cw|exact V2].
Qed.

Lemma dealloc_step dbg w c i a l1 b l2 : Inv memory w c -> at_ w i a -> live c = l1 ++ b :: l2 -> holds_chunk a b = true ->
  exists w', deallocate dbg i (asked b) w = Ok w' /\ sCurr w' = sCurr w /\ Inv memory w' (Client (handed c) (l1 ++ l2) (peak c)).
Proof.
  intros V A Lv Hb.
  pose proof (v_good _ _ _ V i a A) as G.
  assert (Lb : In b (live c)) by (rewrite Lv; apply in_or_app; right; left; reflexivity).
  assert (LP : forall b, In b (live c) -> 0 < asked b).
  { intros b' Hb'. apply (v_live _ _ _ V) in Hb'. destruct Hb' as [Hb' _]. apply (v_handed _ _ _ V) in Hb'. lia. }
  pose proof (v_handed _ _ _ V b (proj1 (v_live _ _ _ V b Lb))) as (_ & _ & _ & Hn).
  assert (Li : (i < length (allocs w))%nat) by (apply nth_error_Some; unfold at_ in A; congruence).
  pose proof (rounded_bounds (asked b) ltac:(lia)) as [RB R16].
  assert (SZ : mSize a = size_of b + zsum size_of (blocks_of a (l1 ++ l2))).
  { rewrite (g_size _ _ _ G), Lv. unfold blocks_of. rewrite !filter_app. cbn [filter]. rewrite Hb, !zsum_app.
    change (zsum size_of (b :: filter (holds_chunk a) l2)) with (size_of b + zsum size_of (filter (holds_chunk a) l2)). lia. }
  assert (SN : 0 <= zsum size_of (blocks_of a (l1 ++ l2))).
  { apply zsum_nonneg. intros x Hx. apply filter_In in Hx. destruct Hx as [Hx _].
    assert (In x (live c)) by (rewrite Lv; apply in_app_or in Hx; apply in_or_app; destruct Hx; [left|right; right]; assumption).
    apply LP in H. unfold size_of. pose proof (rounded_bounds (asked x)). lia. }
  pose proof (good_pos _ _ _ G) as GP. pose proof (g_node _ _ _ G) as GN. pose proof (g_le _ _ _ G) as GL.
  assert (AL : forall j b, at_ w j b -> 0 <= mAlloc b) by (intros j x B; apply (good_pos _ _ _ (v_good _ _ _ V j x B))).
  pose proof (alloc_le w i a AL A) as AT. rewrite <- (v_curr _ _ _ V) in AT. pose proof (v_mem _ _ _ V) as VM.
  unfold deallocate. rewrite (proj2 (get_at w i a) A). cbn [bind]. rewrite round16_ok by exact Hn. cbv zeta.
  replace (0 <? asked b) with true by (symmetry; apply Z.ltb_lt; lia). rewrite assert_true1.
  unfold size_of in SZ at 1.
  replace (rounded (asked b) <=? mSize a) with true by (symmetry; apply Z.leb_le; lia). rewrite assert_true1.
  rewrite wrap_id by lia. eexists. split; [reflexivity|]. split; [reflexivity|].
  set (a2 := Alloc (mAlloc a) (mSize a - rounded (asked b)) (mRoot a) (mNodeAlloc a) (mNodeSize a)).
  assert (Rd : forall j x, at_ (set_alloc w i (Some a2)) j x -> exists y, at_ w j y /\ mRoot x = mRoot y).
  { intros j x X. apply at_set in X; [|exact Li]. destruct X as [[-> X]|[_ X]]; [injection X as <-; exists a; auto|eauto]. }
  constructor; cbn [handed live peak].
  - intros j x X. apply at_set in X; [|exact Li]. destruct X as [[-> X]|[Nj X]].
    + injection X as <-. destruct G as [B1 B2 B3 B4 B5 B6 B7]. constructor; auto.
      * change (mSize a - rounded (asked b) = zsum size_of (blocks_of a2 (l1 ++ l2))). rewrite SZ.
        replace (blocks_of a2 (l1 ++ l2)) with (blocks_of a (l1 ++ l2)) by (apply filter_ext_in; intros; apply holds_root; reflexivity). lia.
      * change (mSize a - rounded (asked b) <= mAlloc a - mNodeAlloc a + mNodeSize a). lia.
    + destruct (v_good _ _ _ V j x X) as [B1 B2 B3 B4 B5 B6 B7]. constructor; auto.
      rewrite B2, Lv. unfold blocks_of. cbn [live]. rewrite !filter_app. cbn [filter].
      destruct (holds_chunk x b) eqn:E; [|reflexivity]. exfalso. apply holds_held in E. apply holds_held in Hb.
      destruct E as (ch & I & E), Hb as (ch' & I' & E'). destruct (v_unique _ _ _ V j i x a ch ch' X A I I'); congruence.
  - intros j k x y ch ch' X Y I I' E. apply Rd in X. destruct X as (x' & X & EX). apply Rd in Y. destruct Y as (y' & Y & EY).
    rewrite EX in I. rewrite EY in I'. exact (v_unique _ _ _ V j k x' y' ch ch' X Y I I' E).
  - unfold total_alloc. cbn [set_alloc sCurr allocs]. rewrite (zsum_upd _ (allocs w) i (Some a)) by exact A.
    change (sCurr w = total_alloc w - mAlloc a + mAlloc a). rewrite (v_curr _ _ _ V). lia.
  - exact VM.
  - exact (v_max _ _ _ V).
  - exact (v_cm _ _ _ V).
  - exact (v_handed _ _ _ V).
  - exact (v_disj _ _ _ V).
  - intros x Hx. assert (Hx' : In x (live c)) by (rewrite Lv; apply in_app_or in Hx; apply in_or_app; destruct Hx; [left|right; right]; assumption).
    destruct (v_live _ _ _ V x Hx') as (H1 & j & b' & ch' & B & I & E & L). split; [exact H1|].
    destruct (Nat.eq_dec j i) as [->|Nj].
    + assert (b' = a) by (unfold at_ in *; congruence). subst b'. exists i, a2, ch'. split; [apply at_set; auto|]. auto.
    + exists j, b', ch'. split; [apply at_set; auto|]. auto.
Qed.

Lemma destroy_step dbg w c i a : Inv memory w c -> at_ w i a -> blocks_of a (live c) = [] ->
  exists w', destroy_allocator dbg i w = Ok w' /\ sCurr w' = sCurr w - mAlloc a /\ Inv memory w' c.
Proof.
  intros V A Em. pose proof (v_good _ _ _ V i a A) as G. pose proof (good_pos _ _ _ G) as GP.
  assert (Li : (i < length (allocs w))%nat) by (apply nth_error_Some; unfold at_ in A; congruence).
  assert (S0 : mSize a = 0) by (rewrite (g_size _ _ _ G), Em; reflexivity).
  assert (AL : forall j b, at_ w j b -> 0 <= mAlloc b) by (intros j x B; apply (good_pos _ _ _ (v_good _ _ _ V j x B))).
  pose proof (alloc_le w i a AL A) as AT. rewrite <- (v_curr _ _ _ V) in AT. pose proof (v_mem _ _ _ V) as VM.
  unfold destroy_allocator. rewrite (proj2 (get_at w i a) A). cbn [bind]. rewrite S0, Z.eqb_refl, assert_true1. cbv zeta.
  rewrite wrap_id by lia. eexists. split; [reflexivity|]. split; [reflexivity|].
  assert (Rd : forall j x, at_ (World (sCurr w - mAlloc a) (sMax w) (sLimit w) (fresh w) (upd (allocs w) i None)) j x -> j <> i /\ at_ w j x).
  { intros j x X. change (at_ (set_alloc w i None) j x) in X. apply at_set in X; [|exact Li]. destruct X as [[_ X]|X]; [discriminate|exact X]. }
  assert (Wr : forall j x, j <> i -> at_ w j x -> at_ (World (sCurr w - mAlloc a) (sMax w) (sLimit w) (fresh w) (upd (allocs w) i None)) j x).
  { intros j x N X. change (at_ (set_alloc w i None) j x). apply at_set; auto. }
  constructor.
  - intros j x X. apply Rd in X. exact (v_good _ _ _ V j x (proj2 X)).
  - intros j k x y ch ch' X Y. apply Rd in X. apply Rd in Y. exact (v_unique _ _ _ V j k x y ch ch' (proj2 X) (proj2 Y)).
  - unfold total_alloc. cbn [sCurr allocs set_alloc]. rewrite (zsum_upd _ (allocs w) i (Some a)) by exact A.
    change (sCurr w - mAlloc a = total_alloc w - mAlloc a + 0). rewrite (v_curr _ _ _ V). lia.
  - change (0 <= sCurr w - mAlloc a <= memory). lia.
  - exact (v_max _ _ _ V).
  - change (sCurr w - mAlloc a <= sMax w). pose proof (v_cm _ _ _ V). lia.
  - exact (v_handed _ _ _ V).
  - exact (v_disj _ _ _ V).
  - intros b Hb. destruct (v_live _ _ _ V b Hb) as (H1 & j & b' & ch' & B & I & E & L). split; [exact H1|].
    exists j, b', ch'. split; [|auto]. apply Wr; [|exact B]. intros ->. assert (b' = a) by (unfold at_ in *; congruence). subst b'.
    assert (X : In b (blocks_of a (live c))) by (apply filter_In; split; [exact Hb|]; apply holds_held; exists ch'; auto).
    rewrite Em in X. exact X.
Qed.

Lemma swap_step w c i j a b : Inv memory w c -> at_ w i a -> at_ w j b ->
  exists w', swap_allocators i j w = Ok w' /\ sCurr w' = sCurr w /\ Inv memory w' c.
Proof.
  intros V A B. unfold swap_allocators. rewrite (proj2 (get_at w i a) A), (proj2 (get_at w j b) B). cbn [bind].
  eexists. split; [reflexivity|]. split; [reflexivity|].
  assert (Li : (i < length (allocs w))%nat) by (apply nth_error_Some; unfold at_ in A; congruence).
  assert (Lj : (j < length (allocs (set_alloc w i (Some b))))%nat) by (cbn; rewrite upd_len; apply nth_error_Some; unfold at_ in B; congruence).
  set (pi := fun k => if Nat.eqb k j then i else if Nat.eqb k i then j else k).
  assert (At : forall k x, at_ (set_alloc (set_alloc w i (Some b)) j (Some a)) k x <-> at_ w (pi k) x).
  { intros k x. rewrite at_set by exact Lj. rewrite at_set by exact Li. unfold pi.
    destruct (Nat.eqb_spec k j) as [->|Nj]; [|destruct (Nat.eqb_spec k i) as [->|Ni]].
    - split; [intros [[_ E]|[E _]]; [injection E as <-; exact A|contradiction]|intros X; left; split; [reflexivity|unfold at_ in *; congruence]].
    - split; [intros [[E _]|[_ [[_ E]|[E _]]]]; [contradiction|injection E as <-; exact B|contradiction]|].
      intros X; right; split; [exact Nj|left; split; [reflexivity|unfold at_ in *; congruence]].
    - split; [intros [[E _]|[_ [[E _]|[_ E]]]]; [contradiction|contradiction|exact E]|intros X; right; split; [exact Nj|right; auto]]. }
  assert (Inj : forall k l, pi k = pi l -> k = l).
  { intros k l. unfold pi. destruct (Nat.eqb_spec k j), (Nat.eqb_spec l j), (Nat.eqb_spec k i), (Nat.eqb_spec l i); congruence. }
  assert (Surj : forall k, exists l, pi l = k).
  { intros k. exists (pi k). unfold pi. destruct (Nat.eqb_spec k j), (Nat.eqb_spec k i);
      repeat match goal with |- context [Nat.eqb ?x ?y] => destruct (Nat.eqb_spec x y) end; congruence. }
  constructor.
  - intros k x X. apply At in X. exact (v_good _ _ _ V _ x X).
  - intros k l x y ch ch' X Y I I' E. apply At in X. apply At in Y. destruct (v_unique _ _ _ V _ _ x y ch ch' X Y I I' E) as [P Q]. auto.
  - unfold total_alloc. cbn [sCurr allocs set_alloc].
    destruct (Nat.eq_dec j i) as [->|Nji].
    + assert (a = b) by (unfold at_ in *; congruence). subst b.
      rewrite (zsum_upd _ (upd (allocs w) i (Some a)) i (Some a)).
      * rewrite (zsum_upd _ (allocs w) i (Some a)) by exact A.
        change (sCurr w = total_alloc w - mAlloc a + mAlloc a - mAlloc a + mAlloc a). rewrite (v_curr _ _ _ V). lia.
      * rewrite nth_upd, Nat.eqb_refl. destruct (Nat.ltb_spec i (length (allocs w))); [reflexivity|lia].
    + rewrite (zsum_upd _ (upd (allocs w) i (Some b)) j (Some b)).
      * rewrite (zsum_upd _ (allocs w) i (Some a)) by exact A.
        change (sCurr w = total_alloc w - mAlloc a + mAlloc b - mAlloc b + mAlloc a). rewrite (v_curr _ _ _ V). lia.
      * rewrite nth_upd. destruct (Nat.eqb_spec j i); [contradiction|]. exact B.
  - exact (v_mem _ _ _ V).
  - exact (v_max _ _ _ V).
  - exact (v_cm _ _ _ V).
  - exact (v_handed _ _ _ V).
  - exact (v_disj _ _ _ V).
  - intros x Hx. destruct (v_live _ _ _ V x Hx) as (H1 & k & b' & ch' & X & I & E & L). split; [exact H1|].
    destruct (Surj k) as [l <-]. exists l, b', ch'. split; [apply At; exact X|auto].
Qed.

Lemma at_app w cu mx li f (n : allocator) k x : at_ (World cu mx li f (allocs w ++ [Some n])) k x <-> at_ w k x \/ (k = length (allocs w) /\ x = n).
Proof.
  unfold at_. cbn [allocs]. destruct (Nat.lt_ge_cases k (length (allocs w))) as [L|L].
  - rewrite nth_error_app1 by exact L. split; [auto|]. intros [H|[-> _]]; [exact H|lia].
  - rewrite nth_error_app2 by exact L. split.
    + intros H. right. destruct (k - length (allocs w))%nat as [|m] eqn:E; [split; [lia|cbn in H; congruence]|]. destruct m; discriminate.
    + intros [H|[-> ->]]; [apply nth_error_None in L; congruence|]. rewrite Nat.sub_diag. reflexivity.
Qed.

Lemma new_step w c : Inv memory w c -> Inv memory (new_allocator w) c.
Proof.
  intros V. unfold new_allocator. constructor.
  - intros k x X. apply at_app in X. destruct X as [X|[_ ->]]; [exact (v_good _ _ _ V k x X)|].
    constructor; cbn; try lia; try reflexivity; try tauto.
    replace (blocks_of empty_allocator (live c)) with (@nil block); [reflexivity|].
    unfold blocks_of. induction (live c); cbn; auto.
  - intros k l x y ch ch' X Y I I' E. apply at_app in X. apply at_app in Y.
    destruct X as [X|[_ ->]]; [|contradiction I]. destruct Y as [Y|[_ ->]]; [|contradiction I']. exact (v_unique _ _ _ V k l x y ch ch' X Y I I' E).
  - unfold total_alloc. cbn [sCurr allocs]. rewrite zsum_app. change (sCurr w = total_alloc w + 0). rewrite (v_curr _ _ _ V). lia.
  - exact (v_mem _ _ _ V).
  - exact (v_max _ _ _ V).
  - exact (v_cm _ _ _ V).
  - exact (v_handed _ _ _ V).
  - exact (v_disj _ _ _ V).
  - intros x Hx. destruct (v_live _ _ _ V x Hx) as (H1 & k & b' & ch' & X & I & E & L). split; [exact H1|].
    exists k, b', ch'. split; [apply at_app; auto|auto].
Qed.

Lemma copy_step w c : Inv memory w c ->
  if memory <? sCurr w + page then copy_allocator page memory w = Undef
  else if (0 <? sLimit w) && (sLimit w <? Z.max (sMax w) (sCurr w + page)) then copy_allocator page memory w = Exit
  else exists w', copy_allocator page memory w = Ok w' /\ sCurr w' = sCurr w + page /\ Inv memory w' (Client (handed c) (live c) (Z.max (peak c) (sCurr w'))).
Proof.
  intros V. pose proof (v_mem _ _ _ V) as VM. unfold copy_allocator, aligned_alloc.
  destruct (Z.ltb_spec memory (sCurr w + page)), (Z.leb_spec (sCurr w + page) memory); try lia; [reflexivity|]. cbn [bind].
  unfold account. rewrite wrap_id by lia.
  replace (if sCurr w + page <=? sMax w then sMax w else sCurr w + page) with (Z.max (sMax w) (sCurr w + page))
    by (destruct (Z.leb_spec (sCurr w + page) (sMax w)); lia).
  destruct ((0 <? sLimit w) && (sLimit w <? Z.max (sMax w) (sCurr w + page))); [reflexivity|]. cbn [bind sCurr sMax sLimit fresh allocs].
  eexists. split; [reflexivity|]. split; [reflexivity|]. set (ch := Chunk (fresh w) page). set (n := Alloc page 0 [ch] page 0).
  assert (Fr : forall m z x, at_ w m z -> In x (mRoot z) -> (cid x < fresh w)%nat) by (intros m z x Hm Hx; apply (g_chunks _ _ _ (v_good _ _ _ V m z Hm) x Hx)).
  assert (Old : forall b, In b (handed c) -> holds_chunk n b = false).
  { intros b Hb. unfold holds_chunk. cbn [n mRoot existsb ch cid]. pose proof (v_handed _ _ _ V b Hb) as (_ & _ & F & _).
    destruct (Nat.eqb_spec (fresh w) (pchunk (where_ b))); [lia|]. reflexivity. }
  constructor; cbn [handed live peak].
  - intros k x X. apply at_app in X. destruct X as [X|[_ ->]].
    + destruct (v_good _ _ _ V k x X) as [B1 B2 B3 B4 B5 B6 B7]. constructor; auto. intros y Hy. cbn. apply B7 in Hy. lia.
    + constructor; cbn [n mAlloc mSize mRoot mNodeAlloc mNodeSize live handed fresh]; try lia; try reflexivity.
      * cbn. lia.
      * unfold blocks_of. replace (filter (holds_chunk n) (live c)) with (@nil block); [reflexivity|].
        assert (Q : forall l, incl l (handed c) -> filter (holds_chunk n) l = []).
        { induction l as [|b l IH]; intros Hl; [reflexivity|]. cbn [filter]. rewrite (Old b) by (apply Hl; left; reflexivity). apply IH. intros z Hz. apply Hl. right. exact Hz. }
        symmetry. apply Q. intros z Hz. apply (v_live _ _ _ V z Hz).
      * unfold top_ok. cbn [mRoot mNodeAlloc mNodeSize]. split; [reflexivity|]. intros b Hb E. change (pchunk (where_ b) = fresh w) in E. pose proof (v_handed _ _ _ V b Hb) as (_ & _ & F & _). lia.
      * intros x [<-|[]]. cbn. lia.
  - intros k l x y ch1 ch2 X Y I I' E. apply at_app in X. apply at_app in Y.
    destruct X as [X|[-> ->]], Y as [Y|[-> ->]].
    + exact (v_unique _ _ _ V k l x y ch1 ch2 X Y I I' E).
    + destruct I' as [<-|[]]. pose proof (Fr _ _ _ X I). cbn in E. lia.
    + destruct I as [<-|[]]. pose proof (Fr _ _ _ Y I'). cbn in E. lia.
    + destruct I as [<-|[]], I' as [<-|[]]. auto.
  - unfold total_alloc. cbn [sCurr allocs]. rewrite zsum_app. change (sCurr w + page = total_alloc w + (page + 0)). rewrite (v_curr _ _ _ V). lia.
  - cbn. lia.
  - cbn [sMax sCurr]. rewrite (v_max _ _ _ V). reflexivity.
  - cbn [sMax sCurr]. lia.
  - intros b Hb. pose proof (v_handed _ _ _ V b Hb) as (P1 & P2 & P3 & P4). cbn [fresh]. split; [exact P1|]. split; [exact P2|]. split; [lia|exact P4].
  - exact (v_disj _ _ _ V).
  - intros x Hx. destruct (v_live _ _ _ V x Hx) as (H1 & k & b' & ch' & X & I & E & L). split; [exact H1|].
    exists k, b', ch'. split; [apply at_app; auto|auto].
Qed.

Lemma limit_step w c l : Inv memory w c -> Inv memory (set_limit l w) c.
Proof. intros [U1 U2 U3 U4 U5 Ucm U6 U7 U8]. constructor; auto. Qed.

Lemma step_ok dbg w c r : Inv memory w c -> step page memory dbg (w, c) r ->
  (exists w' c', r = Ok (w', c') /\ Inv memory w' c') \/
  (exists s, 0 < s /\ memory < sCurr w + s /\ r = Undef) \/
  (exists s, 0 < s /\ 0 < sLimit w < Z.max (sMax w) (sCurr w + s) /\ r = Exit).
Proof.
  intros V S. remember (w, c) as wc eqn:Ewc. destruct S as [w0 c0|w0 c0|w0 c0 l|w0 c0 i a n H1 H2|w0 c0 i a l1 b l2 H1 H2 H4|w0 c0 i a H1 H2|w0 c0 i j a b H1 H2];
    injection Ewc as -> ->.
  - left. eexists _, _. split; [reflexivity|]. apply new_step. exact V.
  - pose proof (copy_step w c V) as H. destruct (Z.ltb_spec memory (sCurr w + page)).
    + right. left. exists page. rewrite H. split; [lia|auto].
    + destruct ((0 <? sLimit w) && (sLimit w <? Z.max (sMax w) (sCurr w + page))) eqn:E.
      * right. right. apply andb_true_iff in E. destruct E as [E1 E2]. apply Z.ltb_lt in E1, E2. exists page. rewrite H. split; [lia|auto].
      * left. destruct H as (w' & -> & _ & V'). cbn [bind]. eauto.
  - left. eexists _, _. split; [reflexivity|]. apply limit_step. exact V.
  - apply get_at in H1. pose proof (alloc_step dbg w c i a n V H1 H2) as H.
    pose proof (need_nonneg a n ltac:(lia)) as N0.
    destruct (Z.ltb_spec memory (sCurr w + need a n)).
    + right. left. destruct H as [H ->]. exists (need a n). split; [lia|auto].
    + destruct ((0 <? sLimit w) && (sLimit w <? Z.max (sMax w) (sCurr w + need a n)) && negb (need a n =? 0)) eqn:E.
      * right. right. rewrite H. apply andb_true_iff in E. destruct E as [E E3]. apply andb_true_iff in E. destruct E as [E1 E2].
        apply Z.ltb_lt in E1, E2. apply negb_true_iff, Z.eqb_neq in E3. exists (need a n). split; [lia|auto].
      * left. destruct H as (w' & p & -> & _ & V'). cbn [bind]. eauto.
  - apply get_at in H1. left. destruct (dealloc_step dbg w c i a l1 b l2 V H1 H2 H4) as (w' & -> & _ & V'). cbn [bind]. eauto.
  - apply get_at in H1. left. destruct (destroy_step dbg w c i a V H1 H2) as (w' & -> & _ & V'). cbn [bind]. eauto.
  - apply get_at in H1, H2. left. destruct (swap_step w c i j a b V H1 H2) as (w' & -> & _ & V'). cbn [bind]. eauto.
Qed.

Lemma start_ok : 0 <= memory -> Inv memory world0 (Client [] [] 0).
Proof.
  intros M. constructor; cbn; try lia; try tauto.
  - intros i a H. unfold at_ in H. destruct i; discriminate.
  - intros i j a b ch ch' H. unfold at_ in H. destruct i; discriminate.
  - constructor.
Qed.

Lemma reach_inv dbg r : 0 <= memory -> reach page memory dbg r -> match r with Ok (w, c) => Inv memory w c | AssertFail => False | OutOfFuel => False | _ => True end.
Proof.
  intros M H. induction H as [|[w c] r H IH S].
  - apply start_ok. exact M.
  - destruct (step_ok dbg w c r IH S) as [(w' & c' & -> & V)|[(s & _ & _ & ->)|(s & _ & _ & ->)]]; auto.
Qed.

Lemma c27 dbg w c : 0 <= memory -> reach page memory dbg (Ok (w, c)) ->
  ForallOrdPairs disjoint (handed c) /\
  (forall b, In b (handed c) -> poffset (where_ b) mod 16 = 0) /\
  (forall b, In b (live c) -> exists i a ch, get_alloc w i = Ok a /\ In ch (mRoot a) /\ cid ch = pchunk (where_ b) /\
     0 <= poffset (where_ b) /\ poffset (where_ b) + asked b <= cbytes ch).
Proof.
  intros M H. pose proof (reach_inv dbg _ M H) as V. split; [exact (v_disj _ _ _ V)|]. split.
  - intros b Hb. apply (v_handed _ _ _ V b Hb).
  - intros b Hb. destruct (v_live _ _ _ V b Hb) as (H1 & j & b' & ch' & B & I & E & L). exists j, b', ch'. split; [apply get_at; exact B|].
    split; [exact I|]. split; [exact E|]. pose proof (v_handed _ _ _ V b H1) as (P & _ & _ & Q). split; [exact P|].
    pose proof (rounded_bounds (asked b) ltac:(lia)). unfold size_of in L. lia.
Qed.

Lemma c28 dbg w c : 0 <= memory -> reach page memory dbg (Ok (w, c)) ->
  (forall i a, get_alloc w i = Ok a ->
     mSize a = zsum (fun b => rounded (asked b)) (blocks_of a (live c)) /\ mAlloc a = zsum cbytes (mRoot a) /\ 0 <= mSize a <= mAlloc a) /\
  sCurr w = total_alloc w /\ sMax w = peak c /\ sCurr w <= sMax w.
Proof.
  intros M H. pose proof (reach_inv dbg _ M H) as V. split; [|split; [exact (v_curr _ _ _ V)|split; [exact (v_max _ _ _ V)|exact (v_cm _ _ _ V)]]].
  intros i a A. apply get_at in A. pose proof (v_good _ _ _ V i a A) as G. split; [exact (g_size _ _ _ G)|]. split; [exact (g_alloc _ _ _ G)|].
  pose proof (g_le _ _ _ G). pose proof (g_node _ _ _ G). split; [|lia]. apply (size_nonneg (fresh w) c); [|exact G].
  intros b Hb. apply (v_live _ _ _ V) in Hb. destruct Hb as [Hb _]. apply (v_handed _ _ _ V) in Hb. lia.
Qed.

Lemma c28_released dbg w c i a : 0 <= memory -> reach page memory dbg (Ok (w, c)) -> get_alloc w i = Ok a ->
  blocks_of a (live c) = [] -> mSize a = 0.
Proof. intros M H A E. destruct (c28 dbg w c M H) as (X & _). destruct (X i a A) as (Y & _). rewrite Y, E. reflexivity. Qed.

Lemma c28_outcomes dbg w c r : 0 <= memory -> reach page memory dbg (Ok (w, c)) -> step page memory dbg (w, c) r ->
  (exists s, r = Ok s) \/
  (exists k, 0 < k /\ memory < sCurr w + k /\ r = Undef) \/
  (exists k, 0 < k /\ 0 < sLimit w < Z.max (sMax w) (sCurr w + k) /\ r = Exit).
Proof.
  intros M H S. pose proof (reach_inv dbg _ M H) as V. destruct (step_ok dbg w c r V S) as [(w' & c' & -> & _)|H']; eauto.
Qed.

(** the limit works: memory in use never exceeds it unless it was lowered later *)
Lemma c28_limit dbg i n w c a w' p : 0 <= memory -> reach page memory dbg (Ok (w, c)) -> get_alloc w i = Ok a -> 0 < n < 2 ^ 62 ->
  allocate page memory dbg i n w = Ok (w', p) -> 0 < sLimit w -> sCurr w' = sCurr w \/ (sCurr w <= sCurr w' /\ sMax w' <= sLimit w).
Proof.
  intros M H A Hn E L. pose proof (reach_inv dbg _ M H) as V. apply get_at in A. pose proof (alloc_step dbg w c i a n V A Hn) as X.
  pose proof (need_nonneg a n ltac:(lia)) as N0.
  destruct (memory <? sCurr w + need a n); [destruct X; congruence|].
  destruct (Z.eqb_spec (need a n) 0) as [Z0|Z0].
  - rewrite andb_false_r in X. destruct X as (w2 & p2 & E2 & C & _). rewrite E in E2. injection E2 as <- <-. left. lia.
  - cbn [negb] in X. rewrite andb_true_r in X. destruct (Z.ltb_spec 0 (sLimit w)); [|lia]. cbn [andb] in X.
    destruct (Z.ltb_spec (sLimit w) (Z.max (sMax w) (sCurr w + need a n))) as [Y|Y]; [congruence|].
    destruct X as (w2 & p2 & E2 & C & V2). rewrite E in E2. injection E2 as <- <-. right. split; [lia|].
    rewrite (v_max _ _ _ V2). cbn [peak]. rewrite C. rewrite <- (v_max _ _ _ V). lia.
Qed.
End Params.

(** A request of 2^64 - 1 bytes is rounded to 0 bytes: it succeeds, and the next block starts at the same place. *)
Lemma c27_huge : exists w1 w2 w3 p1 p2 p3,
  allocate 4096 (2 ^ 40) true 0 1 (new_allocator world0) = Ok (w1, p1) /\
  allocate 4096 (2 ^ 40) true 0 (2 ^ 64 - 1) w1 = Ok (w2, p2) /\
  allocate 4096 (2 ^ 40) true 0 1 w2 = Ok (w3, p3) /\ p2 = p3.
Proof. do 6 eexists. split; [vm_compute; reflexivity|]. split; [vm_compute; reflexivity|]. split; [vm_compute; reflexivity|reflexivity]. Qed.

(** a run with two blocks in one chunk, a third in a new chunk, and one given back *)
Lemma alloc_run : exists w c, reach 4096 (2 ^ 40) true (Ok (w, c)) /\ length (handed c) = 3%nat /\ length (live c) = 2%nat /\ sCurr w = 12288.
Proof.
  set (w0 := new_allocator world0). set (c0 := Client [] [] 0).
  assert (R0 : reach 4096 (2 ^ 40) true (Ok (w0, c0))) by (eapply r_step; [apply r_start|apply s_new]).
  Ltac more R n R' := match type of R with reach _ _ _ (Ok (?w, ?c)) =>
    pose proof (r_step _ _ _ _ _ R (s_alloc _ _ true w c 0 _ n eq_refl ltac:(lia))) as R'; vm_compute in R' end.
  more R0 100 R1. more R1 24 R2. more R2 5000 R3.
  match type of R3 with reach _ _ _ (Ok (?w, Client ?h [?x; ?y; ?z] ?p)) =>
    pose proof (r_step _ _ _ _ _ R3 (s_dealloc _ _ true w (Client h [x; y; z] p) 0 _ [x] y [z] eq_refl eq_refl eq_refl)) as R4 end.
  vm_compute in R4. do 2 eexists. split; [exact R4|]. repeat split.
Qed.
