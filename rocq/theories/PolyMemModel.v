(** Allocation of Term objects by the operations of PolyInt (ginv/poly_int.cpp).  Each function returns
    the new term list of the object together with the number of terms it took from the allocator
    (new(mAllocator) Term) and gave back (mAllocator->destroy). *)
From Coq Require Import ZArith List Bool Arith.
From Verif Require Import Outcome MonomModel PolyModel.
Import ListNotations.
Local Open Scope Z_scope.

Record counted : Type := Cnt { res : list term; taken : nat; given : nat }.
Definition push_res (x : term) (c : counted) : counted := Cnt (x :: res c) (taken c) (given c).
Definition take1 (c : counted) : counted := Cnt (res c) (S (taken c)) (given c).
Definition give1 (c : counted) : counted := Cnt (res c) (taken c) (S (given c)).

(** poly_int.cpp:24-30 clear, also the destructor poly_int.h:147-150 *)
Definition clear_mem (p : list term) : counted := Cnt [] 0 (length p).

(** poly_int.cpp:152-182 add: a new term for every insertion, destroy for every cancelled term *)
Fixpoint add_mem (t : pos_order) (o : base_order) (p : list term) : list term -> counted :=
  fix go (a : list term) : counted :=
    match p, a with
    | [], _ => Cnt a (length a) 0
    | _, [] => Cnt p 0 0
    | (m, c) :: p', (n, d) :: a' =>
        if cmp1 t o m n =? 1 then push_res (m, c) (add_mem t o p' a)
        else if cmp1 t o m n =? -1 then take1 (push_res (n, d) (go a'))
        else if c + d =? 0 then give1 (add_mem t o p' a')
        else push_res (m, c + d) (add_mem t o p' a')
    end.

(** poly_int.cpp:319-345: merging tmp into sum moves the terms of tmp; equal terms give one term back,
    cancelling ones two. *)
Fixpoint merge_mem (t : pos_order) (o : base_order) (p : list term) : list term -> counted :=
  fix go (a : list term) : counted :=
    match p, a with
    | [], _ => Cnt a 0 0
    | _, [] => Cnt p 0 0
    | (m, c) :: p', (n, d) :: a' =>
        if cmp1 t o m n =? 1 then push_res (m, c) (merge_mem t o p' a)
        else if cmp1 t o m n =? -1 then push_res (n, d) (go a')
        else if c + d =? 0 then give1 (give1 (merge_mem t o p' a'))
        else give1 (push_res (m, c + d) (merge_mem t o p' a'))
    end.

Fixpoint mult_loop_mem (t : pos_order) (o : base_order) (acc : counted) (p a : list term) : counted :=
  match p with
  | [] => acc
  | (m, c) :: p' =>
      let tmp := map (fun x => (mul (fst x) m, snd x * c)) a in
      let s := merge_mem t o (res acc) tmp in
      mult_loop_mem t o (Cnt (res s) (taken acc + length tmp + taken s) (given acc + given s)) p' a
  end.

(** poly_int.cpp:263-355 mult.  In the branch for one-term factors the terms of *this are swapped into
    tmp and only its head is destroyed (300-301); tmp's destructor frees list nodes, not terms. *)
Definition mult_mem (t : pos_order) (o : base_order) (p a : list term) : counted :=
  match p, a with
  | [], _ => Cnt [] 0 0
  | _, [] => clear_mem p
  | [(m, c)], _ => let r := map (fun x => (mul (fst x) m, snd x * c)) a in Cnt r (length r) 1
  | _, [(m, c)] => let r := map (fun x => (mul (fst x) m, snd x * c)) p in Cnt r (length r) 1
  | _, _ =>
      let s := mult_loop_mem t o (Cnt [] 0 0) p a in
      Cnt (res s) (taken s) (given s + length p)
  end.

(** poly_int.cpp:393-427 (and 458-492): the loop of reduction and redTail; a new term where one of a is
    inserted, destroy where two cancel. *)
Fixpoint red_mem (dbg : bool) (t : pos_order) (o : base_order) (k1 k2 : Z) (m2 : monom) (p : list term) :
    list term -> outcome counted :=
  fix go (a : list term) : outcome counted :=
    match p, a with
    | _, [] => Ok (Cnt (scale k1 p) 0 0)
    | [], _ => do l <- mulmon dbg m2 k2 a; Ok (Cnt l (length a) 0)
    | (m, c) :: p', (n, d) :: a' =>
        do r <- cmp2_ dbg t o m n m2;
        if r =? 1 then do l <- red_mem dbg t o k1 k2 m2 p' a; Ok (push_res (m, c * k1) l)
        else if r =? -1 then do w <- mul_ dbg n m2; do l <- go a'; Ok (take1 (push_res (w, d * k2) l))
        else do l <- red_mem dbg t o k1 k2 m2 p' a';
             if c * k1 + d * k2 =? 0 then Ok (give1 l) else Ok (push_res (m, c * k1 + d * k2) l)
    end.

(** poly_int.cpp:431-494 redTail(i1, a) with the terms [pre] before i1 and [rest] from i1 on: the term at
    i1 is destroyed (454).  372-429 reduction(a) is the case without [pre] (389). *)
Definition red_tail_mem (dbg : bool) (p : poly) (pre rest : list term) (a : poly) : outcome counted :=
  match rest, terms a with
  | (m, c) :: p', (n, d) :: a' =>
      do f <- red_factors dbg m c n d;
      let '(m2, k1, k2) := f in
      do l <- red_mem dbg (pto p) (pbo p) k1 k2 m2 p' a';
      Ok (Cnt (scale k1 pre ++ res l) (taken l) (S (given l)))
  | _, _ => null_head dbg
  end.
Definition reduction_mem (dbg : bool) (p a : poly) : outcome counted := red_tail_mem dbg p [] (terms p) a.

(** poly_int.cpp:496-503 redMaybe(a) *)
Definition redMaybe_mem (dbg : bool) (p a : poly) : outcome counted :=
  match terms a with
  | [] => null_head dbg
  | (n, _) :: _ =>
      let (pre, rest) := skip_gt (pto p) (pbo p) n [] (terms p) in
      match rest with
      | [] => Ok (Cnt (terms p) 0 0)
      | (m, _) :: _ => if eqm m n then red_tail_mem dbg p pre rest a else Ok (Cnt (terms p) 0 0)
      end
  end.

(** poly_int.cpp:82-96 operator=: clear, then a new term for each of a *)
Definition assign_mem (p a : list term) : counted :=
  let c := clear_mem p in Cnt a (taken c + length a) (given c).

(** poly_int.cpp:245-260 mult("c") *)
Definition mult_const_mem (p : list term) (c : Z) : counted :=
  match p with
  | [] => Cnt [] 0 0
  | _ => if c =? 0 then clear_mem p else Cnt (scale c p) 0 0
  end.

(** poly_int.cpp:210-242 sub(a) *)
Fixpoint sub_mem (t : pos_order) (o : base_order) (p : list term) : list term -> counted :=
  fix go (a : list term) : counted :=
    match p, a with
    | [], [] => Cnt [] 0 0
    | [], (n, d) :: a' => take1 (push_res (n, - d) (go a'))
    | _ :: _, [] => Cnt p 0 0
    | (m, c) :: p', (n, d) :: a' =>
        if cmp1 t o m n =? 1 then push_res (m, c) (sub_mem t o p' a)
        else if cmp1 t o m n =? -1 then take1 (push_res (n, - d) (go a'))
        else if c - d =? 0 then give1 (sub_mem t o p' a')
        else push_res (m, c - d) (sub_mem t o p' a')
    end.

(** poly_int.cpp:129-150 add("c") *)
Fixpoint add_const_mem (n : nat) (l : list term) (c : Z) : counted :=
  match l with
  | [] => Cnt [(unit_monom n (-1), c)] 1 0
  | (m, d) :: l' =>
      if Nat.ltb 0 (deg m) || (0 <=? pos m) then push_res (m, d) (add_const_mem n l' c)
      else if d + c =? 0 then Cnt l' 0 1 else Cnt ((m, d + c) :: l') 0 0
  end.

(** poly_int.cpp:185-208 sub("c") *)
Fixpoint sub_const_mem (n : nat) (l : list term) (c : Z) : counted :=
  match l with
  | [] => Cnt [(unit_monom n (-1), - c)] 1 0
  | (m, d) :: l' =>
      if Nat.ltb 0 (deg m) || (0 <=? pos m) then push_res (m, d) (sub_const_mem n l' c)
      else if d - c =? 0 then Cnt l' 0 1 else Cnt ((m, d - c) :: l') 0 0
  end.
