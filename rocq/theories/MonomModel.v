(** Model of ginv/monom.h and ginv/monom.cpp.
    Two layers:
    - [monom]: the mathematical value of a Monom object (position and exponent vector); the higher
      layers (wrap, janet, mcompletion, poly_int) are modelled on top of it;
    - [cmonom]: the C++ object with its stored degree, C ints, asserts and undefined behaviour.
    [MonomProofs.v] proves that the second refines the first. *)
From Coq Require Import ZArith List Bool Arith.
From Verif Require Import Outcome.
Import ListNotations.
Local Open Scope Z_scope.

(* ------------------------------------------------------------------------------------------ *)
(** * Abstract monomials *)

(** monom.h:33-42 (members mPos, mVariables; mSize is the length; mDegree is derived, see cmonom). *)
Record monom : Type := Mon { pos : Z; vars : list nat }.

(** monom.h:99 degree(): the stored mDegree, here the sum it is kept equal to (cmonom below). *)
Definition degv (v : list nat) : nat := fold_right Nat.add 0%nat v.
Definition deg (m : monom) : nat := degv (vars m).

(** monom.h:97 size() *)
Definition size (m : monom) : nat := length (vars m).

(** monom.h:106 operator[]; index in range is the caller's duty (assert), see [c_get]. *)
Definition ex (m : monom) (i : nat) : nat := nth i (vars m) 0%nat.

(** monom.cpp:68-82 Monom(allocator, size, pos): the unit monomial. *)
Definition unit_monom (n : nat) (p : Z) : monom := Mon p (repeat 0%nat n).

Fixpoint incr (k : nat) (v : list nat) : list nat :=
  match v, k with
  | [], _ => []
  | x :: v', O => S x :: v'
  | x :: v', S k' => x :: incr k' v'
  end.

(** monom.cpp:84-100 Monom(allocator, v, size, pos) *)
Definition var_monom (k n : nat) (p : Z) : monom := Mon p (incr k (repeat 0%nat n)).

(** monom.cpp:117-132 Monom(allocator, v, a): a times variable v; also monom.cpp:261-274 mult(v, a). *)
Definition mul_var (k : nat) (a : monom) : monom := Mon (pos a) (incr k (vars a)).

Fixpoint addv (a b : list nat) : list nat :=
  match a, b with
  | x :: a', y :: b' => (x + y)%nat :: addv a' b'
  | _, _ => []
  end.

(** monom.cpp:134-154 Monom(allocator, a, b), including the two assignments of mPos. *)
Definition mul_pos (pa pb : Z) : Z :=
  let p := if pa =? -1 then pb else pa in
  if 0 <=? pb then pb else p.
Definition mul (a b : monom) : monom := Mon (mul_pos (pos a) (pos b)) (addv (vars a) (vars b)).

(** monom.cpp:246-259 mult(a): same exponents, but the position test differs. *)
Definition mult_pos (p pa : Z) : Z := if p =? -1 then pa else p.
Definition mult (m a : monom) : monom := Mon (mult_pos (pos m) (pos a)) (addv (vars m) (vars a)).

(** monom.cpp:156-170 Monom(allocator, a, n): power. *)
Definition powm (a : monom) (n : nat) : monom := Mon (pos a) (map (fun x => (x * n)%nat) (vars a)).

(** monom.cpp:218-230 operator==: degrees and exponents; the position is NOT compared. *)
Fixpoint eqv (a b : list nat) : bool :=
  match a, b with
  | x :: a', y :: b' => if Nat.eqb x y then eqv a' b' else false
  | _, _ => true
  end.
Definition eqm (a b : monom) : bool := Nat.eqb (deg a) (deg b) && eqv (vars a) (vars b).

(** monom.cpp:232-244 m.divisiable(a): is m a multiple of a? *)
Fixpoint gev (a b : list nat) : bool :=
  match a, b with
  | x :: a', y :: b' => if Nat.leb y x then gev a' b' else false
  | _, _ => true
  end.
Definition divisiable (m a : monom) : bool :=
  ((pos a =? -1) || (pos m =? pos a)) && gev (vars m) (vars a).

Fixpoint subv (a b : list nat) : list nat :=
  match a, b with
  | x :: a', y :: b' => (x - y)%nat :: subv a' b'
  | _, _ => []
  end.

(** monom.cpp:276-286 div(a): exponents subtracted, position of the dividend kept.
    Only meaningful when [divisiable m a] (asserted); see [c_div] for the other case. *)
Definition div (m a : monom) : monom := Mon (pos m) (subv (vars m) (vars a)).

(** monom.cpp:288-295 gcd, 297-305 lcm: degrees of the componentwise min / max. *)
Fixpoint minv (a b : list nat) : list nat :=
  match a, b with x :: a', y :: b' => Nat.min x y :: minv a' b' | _, _ => [] end.
Fixpoint maxv (a b : list nat) : list nat :=
  match a, b with x :: a', y :: b' => Nat.max x y :: maxv a' b' | _, _ => [] end.
Definition gcd_deg (a b : monom) : nat := degv (minv (vars a) (vars b)).
Definition lcm_deg (a b : monom) : nat := degv (maxv (vars a) (vars b)).

(** monom.cpp:307-322 lex: first difference decides. *)
Fixpoint lexv (a b : list nat) : Z :=
  match a, b with
  | x :: a', y :: b' => if Nat.eqb x y then lexv a' b' else if Nat.ltb y x then 1 else -1
  | _, _ => 0
  end.
Definition lex (a b : monom) : Z := lexv (vars a) (vars b).

(** monom.cpp:324-345 deglex: degree, then from the LAST variable, larger exponent is smaller. *)
Definition deglexv (a b : list nat) : Z :=
  if Nat.ltb (degv b) (degv a) then 1
  else if Nat.ltb (degv a) (degv b) then -1
  else if Nat.eqb (degv a) 0 then 0
  else - lexv (rev a) (rev b).
Definition deglex (a b : monom) : Z := deglexv (vars a) (vars b).

(** monom.cpp:347-369 alex: LARGER degree is smaller, then lex. *)
Definition alexv (a b : list nat) : Z :=
  if Nat.ltb (degv b) (degv a) then -1
  else if Nat.ltb (degv a) (degv b) then 1
  else if Nat.eqb (degv a) 0 then 0
  else lexv a b.
Definition alex (a b : monom) : Z := alexv (vars a) (vars b).

(** monom.cpp:372-390 lex(a, b): compare with the product without building it. *)
Fixpoint lex3v (m a b : list nat) : Z :=
  match m, a, b with
  | x :: m', y :: a', z :: b' =>
      if Nat.eqb x (y + z) then lex3v m' a' b' else if Nat.ltb (y + z) x then 1 else -1
  | _, _, _ => 0
  end.
Definition lex3 (m a b : monom) : Z := lex3v (vars m) (vars a) (vars b).

(** monom.cpp:392-416 deglex(a, b) *)
Definition deglex3 (m a b : monom) : Z :=
  if Nat.ltb (deg a + deg b) (deg m) then 1
  else if Nat.ltb (deg m) (deg a + deg b) then -1
  else if Nat.eqb (deg m) 0 then 0
  else - lex3v (rev (vars m)) (rev (vars a)) (rev (vars b)).

(** monom.cpp:418-443 alex(a, b) *)
Definition alex3 (m a b : monom) : Z :=
  if Nat.ltb (deg a + deg b) (deg m) then -1
  else if Nat.ltb (deg m) (deg a + deg b) then 1
  else if Nat.eqb (deg m) 0 then 0
  else lex3v (vars m) (vars a) (vars b).

(** poly.cpp:25-119.  The six comparison functions and their three-argument versions.
    [b] is the factor whose position is looked at (poly.cpp:48, 55, 62, 93 ...). *)
Inductive base_order := OLex | ODegLex | OAlex.
Inductive pos_order := TOP | POT.

Definition bcmp (o : base_order) (a b : monom) : Z :=
  match o with OLex => lex a b | ODegLex => deglex a b | OAlex => alex a b end.
Definition bcmp3 (o : base_order) (a b c : monom) : Z :=
  match o with OLex => lex3 a b c | ODegLex => deglex3 a b c | OAlex => alex3 a b c end.

Definition poscmp (p q : Z) : Z := if p =? q then 0 else if q <? p then 1 else -1.

Definition cmp1 (t : pos_order) (o : base_order) (a b : monom) : Z :=
  match t with
  | TOP => let r := bcmp o a b in if r =? 0 then poscmp (pos a) (pos b) else r
  | POT => if pos a =? pos b then bcmp o a b else poscmp (pos a) (pos b)
  end.
Definition cmp2 (t : pos_order) (o : base_order) (a b c : monom) : Z :=
  match t with
  | TOP => let r := bcmp3 o a b c in if r =? 0 then poscmp (pos a) (pos b) else r
  | POT => if pos a =? pos b then bcmp3 o a b c else poscmp (pos a) (pos b)
  end.

(** poly.h:31-38 and poly.cpp:121-149 setOrder: order codes; other codes fail an assert and leave the
    function pointers uninitialised. *)
Definition decode_order (code : Z) : outcome (pos_order * base_order) :=
  if code =? 0x11 then Ok (TOP, OLex)
  else if code =? 0x12 then Ok (TOP, ODegLex)
  else if code =? 0x14 then Ok (TOP, OAlex)
  else if code =? 0x21 then Ok (POT, OLex)
  else if code =? 0x22 then Ok (POT, ODegLex)
  else if code =? 0x24 then Ok (POT, OAlex)
  else AssertFail.

(* ------------------------------------------------------------------------------------------ *)
(** * Class level: the C++ object *)

(** monom.h:37-42.  A moved-from object has [csize = 0] (monom.h:61, 85). *)
Record cmonom : Type := CMon { csize : Z; cpos : Z; cdegree : Z; cvars : list Z }.

(** All the do { } while (i < iend) loops: one iteration is always executed, so an object of size 0
    (moved-from) makes the loop read outside its array; a second array that is too short does, too. *)
Fixpoint zip_loop (f : Z -> Z -> outcome Z) (a b : list Z) : outcome (list Z) :=
  match a with
  | [] => Ok []
  | x :: a' =>
      match b with
      | [] => Undef
      | y :: b' => do r <- f x y; do rs <- zip_loop f a' b'; Ok (r :: rs)
      end
  end.
Definition do_zip (f : Z -> Z -> outcome Z) (a b : list Z) : outcome (list Z) :=
  match a with [] => Undef | _ => zip_loop f a b end.

(** Comparison loops (monom.cpp:307-443): stop at the first pair on which [f] decides. *)
Fixpoint scan_loop (f : Z -> Z -> option Z) (a b : list Z) : outcome Z :=
  match a with
  | [] => Ok 0
  | x :: a' =>
      match b with
      | [] => Undef
      | y :: b' => match f x y with Some r => Ok r | None => scan_loop f a' b' end
      end
  end.
Definition do_scan (f : Z -> Z -> option Z) (a b : list Z) : outcome Z :=
  match a with [] => Undef | _ => scan_loop f a b end.

Fixpoint sum_loop (acc : Z) (a : list Z) : outcome Z :=
  match a with
  | [] => Ok acc
  | x :: a' => do s <- int_ (acc + x); sum_loop s a'
  end.

(** monom.cpp:457-470 assertValid: note that the summation itself is done in int. *)
Definition c_assertValid (m : cmonom) : outcome bool :=
  if (0 <? csize m) && (-1 <=? cpos m) then
    do s <- sum_loop 0 (cvars m); Ok (s =? cdegree m)
  else Ok false.

Definition assert_valid (dbg : bool) (m : cmonom) : outcome cmonom :=
  if dbg then do v <- c_assertValid m; if v then Ok m else AssertFail
  else Ok m.

(** monom.cpp:68-82.  A negative size makes new[] ill-formed; size 0 makes the loop write outside. *)
Definition c_unit (dbg : bool) (sz p : Z) : outcome cmonom :=
  assert_ dbg (0 <? sz) (assert_ dbg (-1 <=? p)
    (if sz <=? 0 then Undef
     else assert_valid dbg (CMon sz p 0 (repeat 0 (Z.to_nat sz))))).

(** ++mVariables[v] *)
Fixpoint c_incr_at (k : nat) (v : list Z) : outcome (list Z) :=
  match v, k with
  | [], _ => Undef
  | x :: v', O => do y <- int_ (x + 1); Ok (y :: v')
  | x :: v', S k' => do r <- c_incr_at k' v'; Ok (x :: r)
  end.
Definition c_incr (v : Z) (l : list Z) : outcome (list Z) :=
  if v <? 0 then Undef else c_incr_at (Z.to_nat v) l.

(** monom.cpp:84-100 *)
Definition c_var (dbg : bool) (v sz p : Z) : outcome cmonom :=
  assert_ dbg (0 <? sz) (assert_ dbg (-1 <=? p) (assert_ dbg ((0 <=? v) && (v <? sz))
    (if sz <=? 0 then Undef
     else do l <- c_incr v (repeat 0 (Z.to_nat sz)); assert_valid dbg (CMon sz p 1 l)))).

(** monom.cpp:103-115 copy constructor *)
Definition c_copy (dbg : bool) (a : cmonom) : outcome cmonom :=
  do l <- do_zip (fun _ y => Ok y) (cvars a) (cvars a);
  assert_valid dbg (CMon (csize a) (cpos a) (cdegree a) l).

(** monom.cpp:117-132 Monom(allocator, v, a) *)
Definition c_mulvar (dbg : bool) (v : Z) (a : cmonom) : outcome cmonom :=
  do d <- int_ (cdegree a + 1);
  assert_ dbg ((0 <=? v) && (v <? csize a))
    (do l <- do_zip (fun _ y => Ok y) (cvars a) (cvars a);
     do l' <- c_incr v l;
     assert_valid dbg (CMon (csize a) (cpos a) d l')).

(** monom.cpp:134-154 Monom(allocator, a, b) *)
Definition c_mul (dbg : bool) (a b : cmonom) : outcome cmonom :=
  do d <- int_ (cdegree a + cdegree b);
  assert_ dbg (csize a =? csize b)
    (assert_ dbg ((cpos a =? -1) || (cpos b =? -1))
      (do l <- do_zip (fun x y => int_ (x + y)) (cvars a) (cvars b);
       assert_valid dbg (CMon (csize a) (mul_pos (cpos a) (cpos b)) d l))).

(** monom.cpp:156-170 Monom(allocator, a, n) *)
Definition c_pow (dbg : bool) (a : cmonom) (n : Z) : outcome cmonom :=
  do d <- int_ (cdegree a * n);
  assert_ dbg (0 <=? n)
    (do l <- do_zip (fun x _ => int_ (x * n)) (cvars a) (cvars a);
     assert_valid dbg (CMon (csize a) (cpos a) d l)).

(** monom.cpp:246-259 this->mult(a) *)
Definition c_mult (dbg : bool) (m a : cmonom) : outcome cmonom :=
  assert_ dbg (csize m =? csize a)
    (assert_ dbg ((cpos m =? -1) || (cpos a =? -1))
      (do d <- int_ (cdegree m + cdegree a);
       do l <- do_zip (fun x y => int_ (x + y)) (cvars m) (cvars a);
       assert_valid dbg (CMon (csize m) (mult_pos (cpos m) (cpos a)) d l))).

(** monom.cpp:261-274 this->mult(v, a): overwrites this. *)
Definition c_multv (dbg : bool) (m : cmonom) (v : Z) (a : cmonom) : outcome cmonom :=
  assert_ dbg (csize m =? csize a)
    (assert_ dbg ((0 <=? v) && (v <? csize m))
      (do d <- int_ (cdegree a + 1);
       do l <- do_zip (fun _ y => Ok y) (cvars m) (cvars a);
       do l' <- c_incr v l;
       assert_valid dbg (CMon (csize m) (cpos a) d l'))).

(** monom.cpp:232-244 this->divisiable(a) *)
Definition c_divisiable (dbg : bool) (m a : cmonom) : outcome bool :=
  assert_ dbg (csize m =? csize a)
    (if (cpos a =? -1) || (cpos m =? cpos a)
     then do r <- do_scan (fun x y => if y <=? x then None else Some 1) (cvars m) (cvars a);
          Ok (r =? 0)
     else Ok false).

(** monom.cpp:276-286 this->div(a) *)
Definition c_div (dbg : bool) (m a : cmonom) : outcome cmonom :=
  do ok <- (if dbg then c_divisiable dbg m a else Ok true);
  assert_ dbg ok
    (do d <- int_ (cdegree m - cdegree a);
     do l <- do_zip (fun x y => int_ (x - y)) (cvars m) (cvars a);
     assert_valid dbg (CMon (csize m) (cpos m) d l)).

(** monom.cpp:288-305 gcd and lcm *)
Fixpoint fold_loop (f : Z -> Z -> Z) (acc : Z) (a b : list Z) : outcome Z :=
  match a with
  | [] => Ok acc
  | x :: a' =>
      match b with
      | [] => Undef
      | y :: b' => do s <- int_ (acc + f x y); fold_loop f s a' b'
      end
  end.
Definition c_gcd (dbg : bool) (m a : cmonom) : outcome Z :=
  assert_ dbg (csize m =? csize a) (assert_ dbg ((cpos m =? -1) || (cpos a =? -1))
    (fold_loop (fun x y => if x <=? y then x else y) 0 (cvars m) (cvars a))).
Definition c_lcm (dbg : bool) (m a : cmonom) : outcome Z :=
  assert_ dbg (csize m =? csize a) (assert_ dbg ((cpos m =? -1) || (cpos a =? -1))
    (fold_loop (fun x y => if y <=? x then x else y) 0 (cvars m) (cvars a))).

(** monom.cpp:218-230 operator== *)
Definition c_eq (dbg : bool) (a b : cmonom) : outcome bool :=
  assert_ dbg (csize a =? csize b)
    (if cdegree a =? cdegree b
     then do r <- do_scan (fun x y => if x =? y then None else Some 1) (cvars a) (cvars b);
          Ok (r =? 0)
     else Ok false).

Definition cmp_step (x y : Z) : option Z := if x =? y then None else Some (if y <? x then 1 else -1).

(** monom.cpp:307-369 *)
Definition c_lex (dbg : bool) (m a : cmonom) : outcome Z :=
  assert_ dbg (csize m =? csize a) (do_scan cmp_step (cvars m) (cvars a)).
Definition c_deglex (dbg : bool) (m a : cmonom) : outcome Z :=
  assert_ dbg (csize m =? csize a)
    (if cdegree a <? cdegree m then Ok 1
     else if cdegree m <? cdegree a then Ok (-1)
     else if cdegree m =? 0 then Ok 0
     else do_scan (fun x y => cmp_step y x) (rev (cvars m)) (rev (cvars a))).
Definition c_alex (dbg : bool) (m a : cmonom) : outcome Z :=
  assert_ dbg (csize m =? csize a)
    (if cdegree a <? cdegree m then Ok (-1)
     else if cdegree m <? cdegree a then Ok 1
     else if cdegree m =? 0 then Ok 0
     else do_scan cmp_step (cvars m) (cvars a)).

(** monom.cpp:372-443: three-argument comparison loops; *ia + *ib is an int addition. *)
Fixpoint scan3_loop (f : Z -> Z -> option Z) (m a b : list Z) : outcome Z :=
  match m with
  | [] => Ok 0
  | x :: m' =>
      match a, b with
      | y :: a', z :: b' =>
          do s <- int_ (y + z);
          match f x s with Some r => Ok r | None => scan3_loop f m' a' b' end
      | _, _ => Undef
      end
  end.
Definition do_scan3 (f : Z -> Z -> option Z) (m a b : list Z) : outcome Z :=
  match m with [] => Undef | _ => scan3_loop f m a b end.
Definition c_lex3 (dbg : bool) (m a b : cmonom) : outcome Z :=
  assert_ dbg ((csize m =? csize a) && (csize m =? csize b))
    (assert_ dbg ((cpos a =? -1) || (cpos b =? -1))
      (do_scan3 cmp_step (cvars m) (cvars a) (cvars b))).
Definition c_deglex3 (dbg : bool) (m a b : cmonom) : outcome Z :=
  assert_ dbg ((csize m =? csize a) && (csize m =? csize b))
    (assert_ dbg ((cpos a =? -1) || (cpos b =? -1))
      (do d <- int_ (cdegree a + cdegree b);
       if d <? cdegree m then Ok 1
       else if cdegree m <? d then Ok (-1)
       else if cdegree m =? 0 then Ok 0
       else do_scan3 (fun x y => cmp_step y x) (rev (cvars m)) (rev (cvars a)) (rev (cvars b)))).
Definition c_alex3 (dbg : bool) (m a b : cmonom) : outcome Z :=
  assert_ dbg ((csize m =? csize a) && (csize m =? csize b))
    (assert_ dbg ((cpos a =? -1) || (cpos b =? -1))
      (do d <- int_ (cdegree a + cdegree b);
       if d <? cdegree m then Ok (-1)
       else if cdegree m <? d then Ok 1
       else if cdegree m =? 0 then Ok 0
       else do_scan3 cmp_step (cvars m) (cvars a) (cvars b))).

(** monom.h:106-109 operator[] *)
Definition c_get (dbg : bool) (m : cmonom) (i : Z) : outcome Z :=
  assert_ dbg ((0 <=? i) && (i <? csize m))
    (if i <? 0 then Undef
     else match nth_error (cvars m) (Z.to_nat i) with Some x => Ok x | None => Undef end).

(** monom.cpp:39-60 rand_next(a): [d] is the drawn degree, [draws] the drawn variables (at least one:
    do-while; the loop ends when deg reaches 0). *)
Fixpoint rand_loop (l : list Z) (draws : list Z) : outcome (list Z) :=
  match draws with
  | [] => Ok l
  | v :: ds => do l' <- c_incr v l; rand_loop l' ds
  end.
Definition c_rand_next (dbg : bool) (a : cmonom) (d : Z) (draws : list Z) : outcome cmonom :=
  do l0 <- do_zip (fun _ _ => Ok 0) (cvars a) (cvars a);
  do l <- rand_loop l0 draws;
  assert_valid dbg (CMon (csize a) (cpos a) d l).

(** The comparisons selected by an order (monom.cpp:307-443). *)
Definition c_bcmp (dbg : bool) (o : base_order) : cmonom -> cmonom -> outcome Z :=
  match o with OLex => c_lex dbg | ODegLex => c_deglex dbg | OAlex => c_alex dbg end.
Definition c_bcmp3 (dbg : bool) (o : base_order) : cmonom -> cmonom -> cmonom -> outcome Z :=
  match o with OLex => c_lex3 dbg | ODegLex => c_deglex3 dbg | OAlex => c_alex3 dbg end.
