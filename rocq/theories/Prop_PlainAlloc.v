(** C79: the allocator built without GINV_UTIL_ALLOCATOR.  [preach memory dbg (Ok (w, c))]: a sequence of calls by a client
    that frees every object once, by the function for its kind, ended in state w. *)
From Coq Require Import ZArith List Bool Permutation.
From Verif Require Import Outcome AllocSpec PlainAllocModel PlainAllocSpec PlainAllocProofs.
Import ListNotations.
Local Open Scope Z_scope.

(** alloc(), size(), currMemory() and maxMemory() *)
Theorem C79_accounting : forall memory : Z, 0 <= memory <= 2 ^ 62 -> forall (dbg : bool) (w : pworld) (c : pclient),
  preach memory dbg (Ok (w, c)) ->
  (forall i a, pget w i = Ok a -> pAlloc a = zsum cost (of_alloc i (plive c)) /\ pSize a = zsum cost (of_alloc i (plive c))) /\
  pCurr w = zsum cost (plive c) /\ pMax w = ppeak c /\ 0 <= pCurr w <= pMax w.
Proof. exact accounting. Qed.
Print Assumptions C79_accounting.

(** The blocks of malloc not yet freed are those of the objects in use, one for each. *)
Theorem C79_blocks : forall memory : Z, 0 <= memory <= 2 ^ 62 -> forall (dbg : bool) (w : pworld) (c : pclient),
  preach memory dbg (Ok (w, c)) ->
  NoDup (map (fun o => p_id (o_ptr o)) (plive c)) /\ Permutation (heap w) (map (fun o => p_id (o_ptr o)) (plive c)) /\
  (forall o, In o (plive c) -> exists a, pget w (o_at o) = Ok a).
Proof. exact blocks. Qed.
Print Assumptions C79_blocks.

Theorem C79_released : forall memory : Z, 0 <= memory <= 2 ^ 62 -> forall (dbg : bool) (w : pworld) (c : pclient),
  preach memory dbg (Ok (w, c)) -> plive c = [] -> pCurr w = 0 /\ heap w = [].
Proof. exact released. Qed.
Print Assumptions C79_released.

(** A call returns normally unless the system is out of memory or the limit is exceeded; then the process ends. *)
Theorem C79_outcomes : forall memory : Z, 0 <= memory <= 2 ^ 62 -> forall (dbg : bool) (w : pworld) (c : pclient) (r : outcome (pworld * pclient)),
  preach memory dbg (Ok (w, c)) -> pstep memory dbg (w, c) r ->
  (exists s, r = Ok s) \/ (exists k, 0 < k /\ memory < pCurr w + k /\ r = Undef) \/
  (exists k, 0 < k /\ 0 < pLimit w < Z.max (pMax w) (pCurr w + k) /\ r = Exit).
Proof. exact outcomes. Qed.
Print Assumptions C79_outcomes.

(** The limit to the byte. *)
Theorem C79_limit : forall memory : Z, 0 <= memory <= 2 ^ 62 -> forall (dbg : bool) (w : pworld) (c : pclient) (i : nat) (a : palloc) (t : ctype),
  preach memory dbg (Ok (w, c)) -> pget w i = Ok a -> sane t 1 ->
  match new_one memory dbg i t w with
  | Ok (w', p) => pCurr w' = pCurr w + sizeof t + 16 /\ (0 < pLimit w -> Z.max (pMax w) (pCurr w') <= pLimit w)
  | Exit => 0 < pLimit w < Z.max (pMax w) (pCurr w + sizeof t + 16)
  | Undef => memory < pCurr w + sizeof t + 16
  | _ => False
  end.
Proof. exact exact_exit. Qed.
Print Assumptions C79_limit.

(** Arrays of objects with destructors: destroy(ptr, n) hands free a pointer that malloc did not give, always. *)
Theorem C79_array_undef : forall memory : Z, 0 <= memory <= 2 ^ 62 ->
  forall (dbg : bool) (w : pworld) (c : pclient) (i : nat) (a : palloc) (t : ctype) (n : Z) (w' : pworld) (p : ptr),
  preach memory dbg (Ok (w, c)) -> pget w i = Ok a -> sane t n -> trivial t = false ->
  new_array memory dbg i t n w = Ok (w', p) -> destroy_array dbg i t p n w' = Undef.
Proof. exact array_undef. Qed.
Print Assumptions C79_array_undef.

Theorem C79_array_refuted : exists w1 w2 p, p_new pworld0 = w1 /\
  new_array (2 ^ 40) false 0 (CType 24 false) 2 w1 = Ok (w2, p) /\ destroy_array false 0 (CType 24 false) p 2 w2 = Undef.
Proof. exact array_refuted. Qed.
Print Assumptions C79_array_refuted.

(** An object of 24 bytes, an array of 26 int, an array of 5 double; the middle one is freed. *)
Example C79_ex : exists w c, preach (2 ^ 40) true (Ok (w, c)) /\
  length (plive c) = 2%nat /\ pCurr w = 96 /\ pMax w = 216 /\ length (heap w) = 2%nat.
Proof. exact plain_run. Qed.
