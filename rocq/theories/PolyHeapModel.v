(** PolyInt::add and PolyInt::sub on the heap: terms are objects, the list holds pointers to them, and the
    two operands may be the same object. *)
From Coq Require Import ZArith List Bool Arith.
From Verif Require Import Outcome MonomModel PolyModel RandPermModel ListModel.
Import ListNotations.
Local Open Scope Z_scope.

(** Term objects (None: destroyed) and the lists of pointers. *)
Record pmem := PMem { objs : list (option term); lsts : mem nat }.

Definition get_term (h : pmem) (n : nat) : outcome term :=
  do x <- rd (objs h) n; match x with Some t => Ok t | None => Undef end.
Definition set_term (h : pmem) (n : nat) (x : option term) : pmem := PMem (upd (objs h) n x) (lsts h).
(** new(mAllocator) Term(mAllocator, t) *)
Definition new_term (h : pmem) (t : term) : pmem * nat := (PMem (objs h ++ [Some t]) (lsts h), length (objs h)).
(** mAllocator->destroy(term) *)
Definition free_term (h : pmem) (n : nat) : outcome pmem := do _ <- get_term h n; Ok (set_term h n None).

Section Merge.
Variables (t : pos_order) (o : base_order).
(** false: add; true: sub *)
Variable minus : bool.

(** poly_int.cpp:162-164, 178-180 (add); 220-223, 237-240 (sub): insert a copy of *ia, advance both *)
Definition h_copy_term (h : pmem) (i : iter) (ia : option nat) : outcome (pmem * iter * option nat) :=
  do n <- ci_data (lsts h) ia;
  do x <- get_term h n;
  let (h1, m) := new_term h x in
  do l1 <- it_insert (lsts h1) i m;
  let h2 := PMem (objs h1) l1 in
  do h3 <- (if minus
            then do k <- it_data (lsts h2) i; do y <- get_term h2 k; Ok (set_term h2 k (Some (fst y, - snd y)))
            else Ok h2);
  do i' <- it_next (lsts h3) i;
  do ia' <- ci_next (lsts h3) ia;
  Ok (h3, i', ia').

(** poly_int.cpp:177-181, 236-241 *)
Fixpoint h_tail (fuel : nat) (h : pmem) (i : iter) (ia : option nat) : outcome pmem :=
  match ia with
  | None => Ok h
  | Some _ =>
    match fuel with
    | O => OutOfFuel
    | S f => do (h', i', ia') <- h_copy_term h i ia; h_tail f h' i' ia'
    end
  end.

(** poly_int.cpp:156-175, 214-234 *)
Fixpoint h_merge (fuel : nat) (h : pmem) (i : iter) (ia : option nat) : outcome pmem :=
  match fuel with
  | O => OutOfFuel
  | S f =>
    do more <- it_bool (lsts h) i;
    match more, ia with
    | true, Some _ =>
        do ni <- it_data (lsts h) i; do x <- get_term h ni;
        do na <- ci_data (lsts h) ia; do y <- get_term h na;
        let c := cmp1 t o (fst x) (fst y) in
        if c =? 1 then do i' <- it_next (lsts h) i; h_merge f h i' ia
        else if c =? -1 then do (h', i', ia') <- h_copy_term h i ia; h_merge f h' i' ia'
        else
          let z := if minus then snd x - snd y else snd x + snd y in
          let h1 := set_term h ni (Some (fst x, z)) in
          do (h2, i') <-
            (if negb (z =? 0) then do i' <- it_next (lsts h1) i; Ok (h1, i')
             else do h2 <- free_term h1 ni; do l2 <- it_del (lsts h2) i; Ok (PMem (objs h2) l2, i));
          do ia' <- ci_next (lsts h2) ia;
          h_merge f h2 i' ia'
    | _, _ => h_tail f h i ia
    end
  end.
End Merge.

(** poly_int.cpp:152-182 add, 210-242 sub, on the polynomials whose terms are lists l and a *)
Definition h_arith (minus : bool) (t : pos_order) (o : base_order) (h : pmem) (l a : nat) : outcome pmem :=
  do x <- get_list (lsts h) l;
  do y <- get_list (lsts h) a;
  h_merge t o minus (S (mLength x + mLength y)) h (it_begin l) (mHead y).
Definition h_add := h_arith false.
Definition h_sub := h_arith true.
