(** Model of Boolean monomials and polynomials (ginv/bmonom.h, bmonom.cpp, bpoly.h, bpoly.cpp).  Definitions only. *)
From Coq Require Import ZArith List Bool Arith.
From Verif Require Import Outcome.
Import ListNotations.

(* ------------------------------------------------------------------ BMonom *)
(** bmonom.h:31-38.  [bsize] is mSize, the length of the array; [bcells] are the cells written so far, from the
    front; the cells after them are uninitialised.  Degrees are natural numbers: overflow of int would need an array
    of 2^31 variables.  The allocator is not part of the value. *)
Record BM := mkBM { bsize : nat; bdeg : nat; bcells : list Z }.

(** *i++ = v where i is behind [out] in an array of [cap] cells *)
Definition bput (cap : nat) (out : list Z) (v : Z) : outcome (list Z) :=
  if (length out <? cap)%nat then Ok (out ++ [v]) else Undef.
(** The cells [mVariables, mVariables + mDegree) in the order a loop reads them; all are read by every loop below,
    so an uninitialised one among them makes the whole loop undefined. *)
Definition bread (m : BM) : outcome (list Z) :=
  if (bdeg m <=? length (bcells m))%nat then Ok (firstn (bdeg m) (bcells m)) else Undef.

(** bmonom.cpp:227-242 assertValid *)
Fixpoint bdecr (prev : Z) (l : list Z) : bool :=
  match l with [] => true | x :: t => if (prev <=? x)%Z then false else bdecr x t end.
Definition bm_valid (m : BM) : outcome bool :=
  if (bdeg m <=? bsize m)%nat then
    do l <- bread m; Ok (match l with [] => true | x :: t => bdecr x t end)
  else Ok false.
(** assert(assertValid()): evaluated only in debug builds *)
Definition bm_check (dbg : bool) (m : BM) : outcome BM :=
  if dbg then do v <- bm_valid m; assert_ true v (Ok m) else Ok m.

(** bmonom.h:43-47 BMonom(allocator): the monomial 1 *)
Definition bm_one : BM := mkBM 0 0 [].
(** bmonom.h:48-54 BMonom(v, allocator) *)
Definition bm_var (v : Z) : BM := mkBM 1 1 [v].
(** while(ia < iaend) *i++ = *ia++ *)
Fixpoint bcopy (cap : nat) (ia out : list Z) : outcome (list Z) :=
  match ia with [] => Ok out | x :: t => do out' <- bput cap out x; bcopy cap t out' end.
(** bmonom.cpp:25-40 copy constructor *)
Definition bm_copy (dbg : bool) (a : BM) : outcome BM :=
  do la <- bread a;
  do out <- bcopy (bdeg a) la [];
  bm_check dbg (mkBM (bdeg a) (bdeg a) out).
(** bmonom.cpp:52-53 *)
Fixpoint btake_above (cap : nat) (v : Z) (ia out : list Z) : outcome (list Z * list Z) :=
  match ia with
  | x :: t => if (v <? x)%Z then do out' <- bput cap out x; btake_above cap v t out' else Ok (ia, out)
  | [] => Ok ([], out)
  end.
(** bmonom.cpp:42-64 BMonom(a, v): the product with a variable *)
Definition bm_mulvar (dbg : bool) (a : BM) (v : Z) : outcome BM :=
  let size := (bdeg a + 1)%nat in
  if (size =? 1)%nat then do out <- bput size [] v; bm_check dbg (mkBM size size out)
  else
    do la <- bread a;
    do (ia, out) <- btake_above size v la [];
    do out1 <- bput size out v;
    match ia with
    | x :: t => if (x =? v)%Z then do out2 <- bcopy size t out1; bm_check dbg (mkBM size (size - 1) out2)
                else do out2 <- bcopy size ia out1; bm_check dbg (mkBM size size out2)
    | [] => bm_check dbg (mkBM size size out1)
    end.
(** bmonom.cpp:79-94 *)
Fixpoint bmerge (cap : nat) (ia : list Z) : list Z -> list Z -> nat -> outcome (list Z * nat) :=
  fix go (ib out : list Z) (deg : nat) {struct ib} :=
    match ia with
    | [] => do out' <- bcopy cap ib out; Ok (out', deg)
    | x :: ta =>
      match ib with
      | [] => do out' <- bcopy cap ia out; Ok (out', deg)
      | y :: tb =>
        if (y <? x)%Z then do out' <- bput cap out x; bmerge cap ta ib out' deg
        else if (x <? y)%Z then do out' <- bput cap out y; go tb out' deg
        else do out' <- bput cap out x; bmerge cap ta tb out' (deg - 1)
      end
    end.
(** bmonom.cpp:66-98 BMonom(a, b): the product *)
Definition bm_mul (dbg : bool) (a b : BM) : outcome BM :=
  let size := (bdeg a + bdeg b)%nat in
  if (size =? 0)%nat then bm_check dbg (mkBM size size [])
  else
    do la <- bread a; do lb <- bread b;
    do (out, deg) <- bmerge size la lb [] size;
    bm_check dbg (mkBM size deg out).
(** bmonom.cpp:118-134 operator= ; the two objects are distinct *)
Fixpoint bover (l cells : list Z) : list Z :=
  match l, cells with x :: t, _ :: c => x :: bover t c | x :: t, [] => x :: bover t [] | [], c => c end.
Definition bm_assign (dbg : bool) (self a : BM) : outcome BM :=
  let deg := bdeg a in
  let grown := if (bsize self <? deg)%nat then mkBM deg deg [] else mkBM (bsize self) deg (bcells self) in
  if (deg =? 0)%nat then bm_check dbg grown
  else do la <- bread a; bm_check dbg (mkBM (bsize grown) deg (bover la (bcells grown))).
(** bmonom.h:66-72 *)
Definition bm_isOne (m : BM) : bool := (bdeg m =? 0)%nat.
Definition bm_degree (m : BM) : nat := bdeg m.
(** bmonom.h:70-73 operator[] *)
Definition bm_get (dbg : bool) (m : BM) (i : nat) : outcome Z :=
  assert_ dbg (i <? bdeg m)%nat (match nth_error (bcells m) i with Some x => Ok x | None => Undef end).
(** bmonom.cpp:146-157 *)
Fixpoint bincl (i ia : list Z) : bool :=
  match ia with
  | [] => true
  | y :: ta =>
    match i with
    | [] => false
    | x :: t => if (y <? x)%Z then bincl t ia else if (x <? y)%Z then false else bincl t ta
    end
  end.
(** bmonom.cpp:136-157 divisible *)
Definition bm_divisible (m a : BM) : outcome bool :=
  if (bdeg a =? 0)%nat then Ok true
  else if (bdeg m <? bdeg a)%nat then Ok false
  else do l <- bread m; do la <- bread a; Ok (bincl l la).
(** bmonom.cpp:170-181; reading *ia behind the array is undefined *)
Fixpoint bquot (dbg : bool) (cap : nat) (ia ib out : list Z) : outcome (list Z) :=
  match ib with
  | [] => bcopy cap ia out
  | y :: tb =>
    match ia with
    | [] => if dbg then AssertFail else Undef
    | x :: ta =>
      if (y <? x)%Z then do out' <- bput cap out x; bquot dbg cap ta ib out'
      else assert_ dbg (x =? y)%Z (bquot dbg cap ta tb out)
    end
  end.
(** bmonom.cpp:159-190 div: the object gets a / b.  [i - degree] is the start of the new array only if [degree] cells
    were written. *)
Definition bm_div (dbg : bool) (a b : BM) : outcome BM :=
  do d <- (if dbg then bm_divisible a b else Ok true);
  assert_ dbg d
    (let size := (Z.of_nat (bdeg a) - Z.of_nat (bdeg b))%Z in
     if (size =? 0)%Z then bm_check dbg (mkBM 0 0 [])
     else if (size <? 0)%Z then Undef
     else
       let n := Z.to_nat size in
       do la <- bread a; do lb <- bread b;
       do out <- bquot dbg n la lb [];
       if (length out =? n)%nat then bm_check dbg (mkBM n n out) else Undef).
(** bmonom.cpp:200-211; from the last cell to the first *)
Fixpoint bback (i ia : list Z) : Z :=
  match i, ia with
  | x :: t, y :: ta => if (x =? y)%Z then bback t ta else if (y <? x)%Z then 1%Z else (-1)%Z
  | _, _ => 0%Z
  end.
(** bmonom.cpp:192-214 compare *)
Definition bm_compare (m a : BM) : outcome Z :=
  if (bdeg a <? bdeg m)%nat then Ok 1%Z
  else if (bdeg m <? bdeg a)%nat then Ok (-1)%Z
  else if (bdeg m =? 0)%nat then Ok 0%Z
  else do l <- bread m; do la <- bread a; Ok (bback (rev l) (rev la)).

(* ------------------------------------------------------------------ BPoly *)
(** bpoly.h:31-35.  The list of owned monomials, front first; a position of an iterator is the split of the list
    at that position (util/list.h is modelled on a heap in ListModel.v).  destroy() of a monomial is its removal. *)
Definition BP := list BM.

(** bpoly.cpp:226-240 assertValid *)
Fixpoint bp_valid_loop (prev : BM) (l : BP) : outcome bool :=
  match l with
  | [] => Ok true
  | m :: t => do c <- bm_compare prev m; if (c <=? 0)%Z then Ok false else bp_valid_loop m t
  end.
Definition bp_valid (p : BP) : outcome bool := match p with [] => Ok true | m :: t => bp_valid_loop m t end.
Definition bp_check (dbg : bool) (p : BP) : outcome BP :=
  if dbg then do v <- bp_valid p; assert_ true v (Ok p) else Ok p.

(** bpoly.cpp:28-49; [a] gives its monomials away *)
Fixpoint bp_add1_loop (i : BP) : BP -> outcome BP :=
  fix go (ia : BP) {struct ia} :=
    match i with
    | [] => Ok ia
    | x :: t =>
      match ia with
      | [] => Ok i
      | y :: ta =>
        do c <- bm_compare x y;
        if (0 <? c)%Z then do r <- bp_add1_loop t ia; Ok (x :: r)
        else if (c <? 0)%Z then do r <- go ta; Ok (y :: r)
        else bp_add1_loop t ta
      end
    end.
(** bpoly.cpp:25-50 *)
Definition bp_add1 (dbg : bool) (p a : BP) : outcome BP := do r <- bp_add1_loop p a; bp_check dbg r.

(** new BMonom for each monomial of a list *)
Fixpoint bp_map (f : BM -> outcome BM) (p : BP) : outcome BP :=
  match p with [] => Ok [] | m :: t => do m' <- f m; do t' <- bp_map f t; Ok (m' :: t') end.
(** bpoly.cpp:163-185; [a] is copied.  The last [else if] of the loop is always taken. *)
Fixpoint bp_add_loop (dbg : bool) (i : BP) : BP -> outcome BP :=
  fix go (ia : BP) {struct ia} :=
    match i with
    | [] => bp_map (bm_copy dbg) ia
    | x :: t =>
      match ia with
      | [] => Ok i
      | y :: ta =>
        do c <- bm_compare x y;
        if (0 <? c)%Z then do r <- bp_add_loop dbg t ia; Ok (x :: r)
        else if (c =? 0)%Z then bp_add_loop dbg t ta
        else do y' <- bm_copy dbg y; do r <- go ta; Ok (y' :: r)
      end
    end.
(** bpoly.cpp:161-186 add; the two objects are distinct *)
Definition bp_add (dbg : bool) (p a : BP) : outcome BP := do r <- bp_add_loop dbg p a; bp_check dbg r.

(** bpoly.cpp:68-85: one round of the selection.  The list is [pre ++ j :: mid ++ rest], the iterator i is at the head
    of [rest].  The result is the monomial taken out to the front of tmp, if any, and the list that remains. *)
Fixpoint bp_scan (pre : BP) (j : BM) (mid rest : BP) : outcome (option BM * BP) :=
  match rest with
  | [] => Ok (Some j, pre ++ mid)
  | i :: rest' =>
    do c <- bm_compare j i;
    if (0 <? c)%Z then bp_scan (pre ++ j :: mid) i [] rest'
    else if (c =? 0)%Z then Ok (None, pre ++ mid ++ rest')
    else bp_scan pre j (mid ++ [i]) rest'
  end.
(** bpoly.cpp:65-90 *)
Fixpoint bp_select (fuel : nat) (p tmp : BP) : outcome BP :=
  match p with
  | [] => Ok tmp
  | x :: t =>
    match fuel with
    | O => OutOfFuel
    | S fuel' =>
      do (m, p') <- bp_scan [] x [] t;
      bp_select fuel' p' (match m with Some j => j :: tmp | None => tmp end)
    end
  end.
(** bpoly.cpp:62-106 canonicalize *)
Fixpoint bp_canon (dbg : bool) (fuel : nat) (p : BP) : outcome BP :=
  match fuel with
  | O => OutOfFuel
  | S fuel' =>
    let l := length p in
    if (l <=? 8)%nat then do r <- bp_select l p []; bp_check dbg r
    else
      let l2 := (l / 2)%nat in
      assert_ dbg (1 <? l2)%nat
        (do p1 <- bp_canon dbg fuel' (skipn l2 p);
         do tmp <- bp_canon dbg fuel' (firstn l2 p);
         bp_add1 dbg p1 tmp)
  end.
Definition bp_canonicalize (dbg : bool) (p : BP) : outcome BP := bp_canon dbg (S (length p)) p.

(** bpoly.h:89-95 *)
Definition bp_isZero (p : BP) : bool := match p with [] => true | _ => false end.
Definition bp_isOne (p : BP) : bool := match p with [] => false | m :: _ => bm_isOne m end.
(** bpoly.cpp:108-116 tailOne *)
Fixpoint bp_tailOne (p : BP) : bool :=
  match p with [] => false | [m] => (bdeg m =? 0)%nat | _ :: t => bp_tailOne t end.
(** bpoly.h:100-113 *)
Definition bp_setOne : BP := [bm_one].
Definition bp_setVar (v : Z) (negation : bool) : BP := bm_var v :: (if negation then [bm_one] else []).
Definition bp_setMonom (dbg : bool) (m : BM) : outcome BP := do c <- bm_copy dbg m; Ok [c].

(** bpoly.cpp:118-130 mult(a, var); the two objects are distinct *)
Definition bp_mulvar (dbg : bool) (a : BP) (v : Z) : outcome BP :=
  do p <- bp_map (fun m => bm_mulvar dbg m v) a;
  do r <- bp_canonicalize dbg p; bp_check dbg r.
(** bpoly.cpp:132-144 mult(a, m) *)
Definition bp_mulmon (dbg : bool) (a : BP) (m : BM) : outcome BP :=
  do p <- bp_map (fun x => bm_mul dbg x m) a;
  do r <- bp_canonicalize dbg p; bp_check dbg r.
(** bpoly.cpp:146-159 addOne *)
Fixpoint bp_addOne (p : BP) : BP :=
  match p with
  | [] => [bm_one]
  | m :: t => if (bdeg m =? 0)%nat then t else m :: bp_addOne t
  end.
(** bpoly.h:124-133 addmult *)
Definition bp_addmulvar (dbg : bool) (p a : BP) (v : Z) : outcome BP :=
  do tmp <- bp_mulvar dbg a v; bp_add1 dbg p tmp.
Definition bp_addmulmon (dbg : bool) (p a : BP) (m : BM) : outcome BP :=
  do tmp <- bp_mulmon dbg a m; bp_add1 dbg p tmp.
(** bpoly.cpp:204-220 *)
Fixpoint bp_or_loop (dbg : bool) (v : Z) (p : BP) : outcome BP :=
  match p with
  | [] => Ok []
  | m1 :: t =>
    do m2 <- bm_mulvar dbg m1 v;
    do r <- bp_or_loop dbg v t;
    if (bdeg m1 =? bdeg m2)%nat then Ok r else Ok (m1 :: m2 :: r)
  end.
(** bpoly.cpp:188-224 OR.  Line 193 assigns through i.data() of a ConstIterator, which does not compile; the model
    does what the line says. *)
Definition bp_or (dbg : bool) (p : BP) (v : Z) (negation : bool) : outcome BP :=
  if negation then
    do q <- bp_map (fun m => bm_mulvar dbg m v) p;
    bp_canonicalize dbg (bm_one :: bm_var v :: q)
  else
    do q <- bp_or_loop dbg v p;
    bp_canonicalize dbg (bm_var v :: q).

(** A set of polynomials to reduce by: find returns one, or null (the template parameter D of bpoly.h:139-184). *)
Definition finder := BM -> option BP.
(** one step of bpoly.h:146-152 and 173-179: add the multiple of [f] that cancels the monomial [m] *)
Definition bp_cancel (dbg : bool) (p : BP) (m : BM) (f : BP) : outcome BP :=
  match f with
  | [] => Undef   (* f->mList.head() of an empty list *)
  | h :: _ =>
    do q <- bm_div dbg m h;
    if (bdeg q =? 0)%nat then bp_add dbg p f
    else if (bdeg q =? 1)%nat then do v <- bm_get dbg q 0; bp_addmulvar dbg p f v
    else bp_addmulmon dbg p f q
  end.
(** bpoly.h:139-160 nf *)
Fixpoint bp_nf_loop (dbg : bool) (fuel : nat) (a : finder) (p : BP) : outcome BP :=
  match p with
  | [] => Ok []
  | m :: _ =>
    match a m with
    | None => Ok p
    | Some f => match fuel with O => OutOfFuel | S fuel' => do p' <- bp_cancel dbg p m f; bp_nf_loop dbg fuel' a p' end
    end
  end.
Definition bp_nf (dbg : bool) (fuel : nat) (a : finder) (p : BP) : outcome BP :=
  match p with [] => if dbg then AssertFail else Undef | _ => bp_nf_loop dbg fuel a p end.
(** bpoly.h:161-168 isNfTail *)
Definition bp_isNfTail (dbg : bool) (a : finder) (p : BP) : outcome bool :=
  match p with
  | [] => if dbg then AssertFail else Undef
  | _ :: t => Ok (forallb (fun m => match a m with None => true | Some _ => false end) t)
  end.
(** bpoly.h:169-184 nfTail.  [done] are the monomials in front of the iterator i.  The iterator is a position in the
    list; add and addmult change the list from its first monomial on, and i stays behind the same number of monomials:
    the model says Undef if these were changed. *)
Definition bm_same (a b : BM) : bool := (bsize a =? bsize b)%nat && (bdeg a =? bdeg b)%nat && (if list_eq_dec Z.eq_dec (bcells a) (bcells b) then true else false).
Fixpoint bp_drop (done p : BP) : option BP :=
  match done, p with
  | [], _ => Some p
  | x :: t, y :: u => if bm_same x y then bp_drop t u else None
  | _ :: _, [] => None
  end.
Fixpoint bp_tail_loop (dbg : bool) (fuel : nat) (a : finder) (done rest : BP) : outcome BP :=
  match rest with
  | [] => Ok done
  | m :: t =>
    match fuel with
    | O => OutOfFuel
    | S fuel' =>
      match a m with
      | None => bp_tail_loop dbg fuel' a (done ++ [m]) t
      | Some f =>
        do p <- bp_cancel dbg (done ++ rest) m f;
        match bp_drop done p with Some rest' => bp_tail_loop dbg fuel' a done rest' | None => Undef end
      end
    end
  end.
Definition bp_nfTail (dbg : bool) (fuel : nat) (a : finder) (p : BP) : outcome BP :=
  match p with
  | [] => if dbg then AssertFail else Undef
  | m :: t =>
    do r <- bp_tail_loop dbg fuel a [m] t;
    do v <- (if dbg then bp_isNfTail dbg a r else Ok true);
    assert_ dbg v (Ok r)
  end.
