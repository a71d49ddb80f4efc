(** Properties C27, C28 of /repo/util/allocator.h.  [page] is the page size, [memory] what the system can provide;
    [reach page memory dbg (Ok (w, c))]: a sequence of calls by a client that gives every block back at most once,
    to the allocator holding it, and destroys only allocators without live blocks, ended in state w. *)
From Coq Require Import ZArith List Bool.
From Verif Require Import Outcome AllocModel AllocSpec AllocProofs.
Import ListNotations.
Local Open Scope Z_scope.

Theorem C27_blocks : forall page memory : Z, 0 < page <= 2 ^ 30 -> page mod 16 = 0 -> memory <= 2 ^ 62 ->
  forall (dbg : bool) (w : world) (c : client), 0 <= memory -> reach page memory dbg (Ok (w, c)) ->
  ForallOrdPairs disjoint (handed c) /\
  (forall b, In b (handed c) -> poffset (where_ b) mod 16 = 0) /\
  (forall b, In b (live c) -> exists i a ch, get_alloc w i = Ok a /\ In ch (mRoot a) /\ cid ch = pchunk (where_ b) /\
     0 <= poffset (where_ b) /\ poffset (where_ b) + asked b <= cbytes ch).
Proof. intros; eapply c27; eassumption. Qed.
Print Assumptions C27_blocks.

(** The sizes in [reach] are below 2^62.  A request of 2^64 - 1 bytes is rounded to no bytes at all. *)
Theorem C27_huge_request_refuted : exists w1 w2 w3 p1 p2 p3,
  allocate 4096 (2 ^ 40) true 0 1 (new_allocator world0) = Ok (w1, p1) /\
  allocate 4096 (2 ^ 40) true 0 (2 ^ 64 - 1) w1 = Ok (w2, p2) /\
  allocate 4096 (2 ^ 40) true 0 1 w2 = Ok (w3, p3) /\ p2 = p3.
Proof. exact c27_huge. Qed.
Print Assumptions C27_huge_request_refuted.

Theorem C28_accounting : forall page memory : Z, 0 < page <= 2 ^ 30 -> page mod 16 = 0 -> memory <= 2 ^ 62 ->
  forall (dbg : bool) (w : world) (c : client), 0 <= memory -> reach page memory dbg (Ok (w, c)) ->
  (forall i a, get_alloc w i = Ok a ->
     mSize a = zsum (fun b => rounded (asked b)) (blocks_of a (live c)) /\ mAlloc a = zsum cbytes (mRoot a) /\ 0 <= mSize a <= mAlloc a) /\
  sCurr w = total_alloc w /\ sMax w = peak c /\ sCurr w <= sMax w.
Proof. intros; eapply c28; eassumption. Qed.
Print Assumptions C28_accounting.

Theorem C28_released : forall page memory : Z, 0 < page <= 2 ^ 30 -> page mod 16 = 0 -> memory <= 2 ^ 62 ->
  forall (dbg : bool) (w : world) (c : client) (i : nat) (a : allocator), 0 <= memory -> reach page memory dbg (Ok (w, c)) ->
  get_alloc w i = Ok a -> blocks_of a (live c) = [] -> mSize a = 0.
Proof. intros; eapply c28_released; eassumption. Qed.
Print Assumptions C28_released.

(** A call returns normally unless the system is out of memory or the limit is exceeded; then the process ends. *)
Theorem C28_outcomes : forall page memory : Z, 0 < page <= 2 ^ 30 -> page mod 16 = 0 -> memory <= 2 ^ 62 ->
  forall (dbg : bool) (w : world) (c : client) (r : outcome (world * client)), 0 <= memory ->
  reach page memory dbg (Ok (w, c)) -> step page memory dbg (w, c) r ->
  (exists s, r = Ok s) \/
  (exists k, 0 < k /\ memory < sCurr w + k /\ r = Undef) \/
  (exists k, 0 < k /\ 0 < sLimit w < Z.max (sMax w) (sCurr w + k) /\ r = Exit).
Proof. intros; eapply c28_outcomes; eassumption. Qed.
Print Assumptions C28_outcomes.

Theorem C28_limit : forall page memory : Z, 0 < page <= 2 ^ 30 -> page mod 16 = 0 -> memory <= 2 ^ 62 ->
  forall (dbg : bool) (i : nat) (n : Z) (w : world) (c : client) (a : allocator) (w' : world) (p : pointer), 0 <= memory ->
  reach page memory dbg (Ok (w, c)) -> get_alloc w i = Ok a -> 0 < n < 2 ^ 62 ->
  allocate page memory dbg i n w = Ok (w', p) -> 0 < sLimit w ->
  sCurr w' = sCurr w \/ (sCurr w <= sCurr w' /\ sMax w' <= sLimit w).
Proof. intros; eapply c28_limit; eassumption. Qed.
Print Assumptions C28_limit.

Example C28_ex : exists w c, reach 4096 (2 ^ 40) true (Ok (w, c)) /\
  length (handed c) = 3%nat /\ length (live c) = 2%nat /\ sCurr w = 12288.
Proof. exact alloc_run. Qed.
