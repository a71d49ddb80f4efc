(** Model of class PolyInt (ginv/poly_int.h, ginv/poly_int.cpp 20-582) and of its base class Poly
    (ginv/poly.h).  A polynomial object is its order, its number of variables and its list of terms;
    List<Term*> edits through iterators are edits of that list (see ListModel.v for List itself).
    Simplifications: coefficients are mathematical integers (util/integer wraps GMP, see
    IntegerModel.v for its storage), exponents are unbounded (MonomModel.v [cmonom] has the C ints),
    allocation of terms is counted in PolyMemModel.v only.  Calls on monomials of different sizes,
    excluded by assert(comparable(a)), are not given a meaning. *)
From Coq Require Import ZArith List Bool Arith.
From Verif Require Import Outcome MonomModel.
Import ListNotations.
Local Open Scope Z_scope.

(** poly_int.h:36-72 Term *)
Notation term := (monom * Z)%type.

(** poly.h:63-66, poly_int.h:75-76: mOrder (decoded by setOrder, see [decode_order]), mSize, mHead *)
Record poly : Type := Poly { pto : pos_order; pbo : base_order; psize : nat; terms : list term }.
Definition with_terms (p : poly) (l : list term) : poly := Poly (pto p) (pbo p) (psize p) l.

(** Access through a null head: an assert in debug builds, a null dereference otherwise. *)
Definition null_head {A} (dbg : bool) : outcome A := if dbg then AssertFail else Undef.

Definition pos_order_eqb (a b : pos_order) : bool :=
  match a, b with TOP, TOP | POT, POT => true | _, _ => false end.
Definition base_order_eqb (a b : base_order) : bool :=
  match a, b with OLex, OLex | ODegLex, ODegLex | OAlex, OAlex => true | _, _ => false end.
(** poly.h:101-103 comparable *)
Definition comparable (p a : poly) : bool :=
  Nat.eqb (psize p) (psize a) && (pos_order_eqb (pto p) (pto a) && base_order_eqb (pbo p) (pbo a)).

(** poly_int.cpp:565-582 assertValid *)
Fixpoint valid_from (t : pos_order) (o : base_order) (prev : monom) (l : list term) : bool :=
  match l with
  | [] => true
  | (m, c) :: l' => (cmp1 t o m prev <? 0) && negb (c =? 0) && valid_from t o m l'
  end.
Definition valid_terms (t : pos_order) (o : base_order) (l : list term) : bool :=
  match l with
  | [] => true
  | (m, c) :: l' => negb (c =? 0) && valid_from t o m l'
  end.
Definition assertValid (p : poly) : bool := valid_terms (pto p) (pbo p) (terms p).
Definition checked (dbg : bool) (p : poly) : outcome poly := assert_ dbg (assertValid p) (Ok p).

(** monom.cpp:134-154 with the assert on the positions *)
Definition mul_ (dbg : bool) (a b : monom) : outcome monom :=
  assert_ dbg ((pos a =? -1) || (pos b =? -1)) (Ok (mul a b)).
(** poly.cpp:46-65, 91-119 with the assert of the three-argument comparison *)
Definition cmp2_ (dbg : bool) (t : pos_order) (o : base_order) (m a b : monom) : outcome Z :=
  let called := match t with TOP => true | POT => pos m =? pos a end in
  assert_ dbg (negb called || ((pos a =? -1) || (pos b =? -1))) (Ok (cmp2 t o m a b)).

(* ------------------------------------------------------------------------------------------ *)
(** * Constructors and simple operations *)

(** poly_int.h:132-138; the string is the integer it denotes *)
Definition p_const (dbg : bool) (t : pos_order) (o : base_order) (n : nat) (c : Z) : outcome poly :=
  checked dbg (Poly t o n [(unit_monom n (-1), c)]).
(** poly_int.h:139-145 *)
Definition p_monom (dbg : bool) (t : pos_order) (o : base_order) (m : monom) : outcome poly :=
  checked dbg (Poly t o (size m) [(m, 1)]).
(** poly_int.cpp:33-45 *)
Definition p_mul_var (dbg : bool) (k : nat) (a : poly) : outcome poly :=
  checked dbg (with_terms a (map (fun x => (mul_var k (fst x), snd x)) (terms a))).
(** poly_int.cpp:47-59 copy *)
Definition p_copy (dbg : bool) (a : poly) : outcome poly := checked dbg (with_terms a (map (fun x => x) (terms a))).
(** poly_int.cpp:99-107 maxPos *)
Definition p_maxPos (p : poly) : Z :=
  fold_left (fun r x => if r <? pos (fst x) then pos (fst x) else r) (terms p) (-1).

(** poly_int.h:160-175 degree, lm, lc *)
Definition p_lm (dbg : bool) (p : poly) : outcome monom :=
  match terms p with (m, _) :: _ => Ok m | [] => null_head dbg end.

(** poly_int.cpp:120-127 minus *)
Definition neg_terms (l : list term) : list term := map (fun x => (fst x, - snd x)) l.
Definition p_minus (dbg : bool) (p : poly) : outcome poly := checked dbg (with_terms p (neg_terms (terms p))).

(* ------------------------------------------------------------------------------------------ *)
(** * Addition and subtraction *)

(** poly_int.cpp:152-182 add(a) *)
Fixpoint add_terms (t : pos_order) (o : base_order) (p : list term) : list term -> list term :=
  fix go (a : list term) : list term :=
    match p, a with
    | [], _ => a
    | _, [] => p
    | (m, c) :: p', (n, d) :: a' =>
        if cmp1 t o m n =? 1 then (m, c) :: add_terms t o p' a
        else if cmp1 t o m n =? -1 then (n, d) :: go a'
        else if c + d =? 0 then add_terms t o p' a'
        else (m, c + d) :: add_terms t o p' a'
    end.
Definition p_add (dbg : bool) (p a : poly) : outcome poly :=
  assert_ dbg (comparable p a)
    (checked dbg (with_terms p (add_terms (pto p) (pbo p) (terms p) (terms a)))).

(** poly_int.cpp:210-242 sub(a) *)
Fixpoint sub_terms (t : pos_order) (o : base_order) (p : list term) : list term -> list term :=
  fix go (a : list term) : list term :=
    match p, a with
    | [], [] => []
    | [], (n, d) :: a' => (n, - d) :: go a'
    | _ :: _, [] => p
    | (m, c) :: p', (n, d) :: a' =>
        if cmp1 t o m n =? 1 then (m, c) :: sub_terms t o p' a
        else if cmp1 t o m n =? -1 then (n, - d) :: go a'
        else if c - d =? 0 then sub_terms t o p' a'
        else (m, c - d) :: sub_terms t o p' a'
    end.
Definition p_sub (dbg : bool) (p a : poly) : outcome poly :=
  assert_ dbg (comparable p a)
    (checked dbg (with_terms p (sub_terms (pto p) (pbo p) (terms p) (terms a)))).

(** poly_int.cpp:129-150 add("c"), 185-208 sub("c"): c with its sign turned by [sub]. *)
Fixpoint add_const_terms (n : nat) (l : list term) (c : Z) : list term :=
  match l with
  | [] => [(unit_monom n (-1), c)]
  | (m, d) :: l' =>
      if Nat.ltb 0 (deg m) || (0 <=? pos m) then (m, d) :: add_const_terms n l' c
      else if d + c =? 0 then l' else (m, d + c) :: l'
  end.
Definition p_add_const (dbg : bool) (p : poly) (c : Z) : outcome poly :=
  match terms p with
  | [] => null_head dbg
  | (m, _) :: _ => checked dbg (with_terms p (add_const_terms (size m) (terms p) c))
  end.
Fixpoint sub_const_terms (n : nat) (l : list term) (c : Z) : list term :=
  match l with
  | [] => [(unit_monom n (-1), - c)]
  | (m, d) :: l' =>
      if Nat.ltb 0 (deg m) || (0 <=? pos m) then (m, d) :: sub_const_terms n l' c
      else if d - c =? 0 then l' else (m, d - c) :: l'
  end.
Definition p_sub_const (dbg : bool) (p : poly) (c : Z) : outcome poly :=
  match terms p with
  | [] => null_head dbg
  | (m, _) :: _ => checked dbg (with_terms p (sub_const_terms (size m) (terms p) c))
  end.

(* ------------------------------------------------------------------------------------------ *)
(** * Multiplication *)

Definition scale (k : Z) (l : list term) : list term := map (fun x => (fst x, snd x * k)) l.

(** poly_int.cpp:245-260 mult("c") *)
Definition p_mult_const (dbg : bool) (p : poly) (c : Z) : outcome poly :=
  match terms p with
  | [] => checked dbg p
  | _ => if c =? 0 then checked dbg (with_terms p [])
         else checked dbg (with_terms p (scale c (terms p)))
  end.

(** poly_int.cpp:276-282, 290-295, 311-316: all terms of l times (m, c); the factor m is the second
    argument of the product constructor. *)
Fixpoint mulmon (dbg : bool) (m : monom) (c : Z) (l : list term) : outcome (list term) :=
  match l with
  | [] => Ok []
  | (u, d) :: l' =>
      do w <- mul_ dbg u m;
      do r <- mulmon dbg m c l';
      Ok ((w, d * c) :: r)
  end.

(** poly_int.cpp:319-345, the merge of tmp into sum: the same merge as in add(). *)
Definition merge_terms := add_terms.

(** poly_int.cpp:304-346 the loop over the terms of *this *)
Fixpoint mult_loop (dbg : bool) (t : pos_order) (o : base_order) (sum p a : list term) : outcome (list term) :=
  match p with
  | [] => Ok sum
  | (m, c) :: p' =>
      do tmp <- mulmon dbg m c a;
      mult_loop dbg t o (merge_terms t o sum tmp) p' a
  end.

(** poly_int.cpp:263-355 mult(a) *)
Definition mult_terms (dbg : bool) (t : pos_order) (o : base_order) (p a : list term) : outcome (list term) :=
  match p, a with
  | [], _ => Ok []
  | _, [] => Ok []
  | [(m, c)], _ => mulmon dbg m c a
  | _, [(m, c)] => mulmon dbg m c p
  | _, _ => mult_loop dbg t o [] p a
  end.
Definition p_mult (dbg : bool) (p a : poly) : outcome poly :=
  assert_ dbg (comparable p a)
    (do l <- mult_terms dbg (pto p) (pbo p) (terms p) (terms a); checked dbg (with_terms p l)).

(** poly_int.cpp:357-370 pow(deg): deg = 0 clears the polynomial. *)
Fixpoint pow_loop (dbg : bool) (k : nat) (tmp p : poly) : outcome poly :=
  match k with
  | O => Ok tmp
  | S k' => do tmp' <- p_mult dbg tmp p; pow_loop dbg k' tmp' p
  end.
Definition p_pow (dbg : bool) (p : poly) (deg : nat) : outcome poly :=
  match deg with
  | O => Ok (with_terms p [])
  | S O => Ok p
  | S k => do tmp <- p_copy dbg p; pow_loop dbg k tmp p
  end.

(* ------------------------------------------------------------------------------------------ *)
(** * Reduction *)

(** integer.h:238-247 / integer.cpp gcd: non-zero arguments are asserted. *)
Definition int_gcd (dbg : bool) (a b : Z) : outcome Z :=
  assert_ dbg (negb (a =? 0) && negb (b =? 0)) (Ok (Z.gcd a b)).
(** integer.h div: exact division; a divisor that does not divide is undefined for mpz_divexact. *)
Definition int_div (dbg : bool) (a b : Z) : outcome Z :=
  if b =? 0 then Undef
  else if a mod b =? 0 then Ok (a / b) else if dbg then AssertFail else Undef.

(** poly_int.cpp:393-427 (and 458-492): the merge of k1 * rest and k2 * m2 * a. *)
Fixpoint red_terms (dbg : bool) (t : pos_order) (o : base_order) (k1 k2 : Z) (m2 : monom) (p : list term) :
    list term -> outcome (list term) :=
  fix go (a : list term) : outcome (list term) :=
    match p, a with
    | _, [] => Ok (scale k1 p)
    | [], _ => mulmon dbg m2 k2 a
    | (m, c) :: p', (n, d) :: a' =>
        do r <- cmp2_ dbg t o m n m2;
        if r =? 1 then do l <- red_terms dbg t o k1 k2 m2 p' a; Ok ((m, c * k1) :: l)
        else if r =? -1 then do w <- mul_ dbg n m2; do l <- go a'; Ok ((w, d * k2) :: l)
        else do l <- red_terms dbg t o k1 k2 m2 p' a';
             if c * k1 + d * k2 =? 0 then Ok l else Ok ((m, c * k1 + d * k2) :: l)
    end.

(** poly_int.cpp:375-386 and 434-444: m2, k1 and k2 for reducing the term (m, c) by a with leading
    term (n, d).  Without asserts only the exponents matter; when one of them would become negative the
    C++ code goes on with a monomial outside the model (here: undefined). *)
Definition red_factors (dbg : bool) (m : monom) (c : Z) (n : monom) (d : Z) : outcome (monom * Z * Z) :=
  if dbg && negb (divisiable m n) then AssertFail
  else if negb (gev (vars m) (vars n)) then Undef
  else
    do g <- int_gcd dbg c d;
    do k1 <- int_div dbg d g;
    do k <- int_div dbg c g;
    Ok (div m n, k1, - k).

(** poly_int.cpp:372-429 reduction(a) *)
Definition p_reduction (dbg : bool) (p a : poly) : outcome poly :=
  assert_ dbg (comparable p a)
    match terms p, terms a with
    | (m, c) :: p', (n, d) :: a' =>
        do f <- red_factors dbg m c n d;
        let '(m2, k1, k2) := f in
        do l <- red_terms dbg (pto p) (pbo p) k1 k2 m2 p' a';
        checked dbg (with_terms p l)
    | _, _ => null_head dbg
    end.

(** poly_int.cpp:431-494 redTail(i1, a): [pre] are the terms before i1, [rest] starts at i1.  The
    iterator i1 afterwards refers to what follows [pre]. *)
Definition red_tail (dbg : bool) (p : poly) (pre rest : list term) (a : poly) : outcome (list term * list term) :=
  assert_ dbg (comparable p a)
    match rest, terms a with
    | (m, c) :: p', (n, d) :: a' =>
        do f <- red_factors dbg m c n d;
        let '(m2, k1, k2) := f in
        do l <- red_terms dbg (pto p) (pbo p) k1 k2 m2 p' a';
        do q <- checked dbg (with_terms p (scale k1 pre ++ l));
        Ok (scale k1 pre, l)
    | _, _ => null_head dbg
    end.

(** poly_int.cpp:496-503 redMaybe(a); the equality test ignores the position *)
Fixpoint skip_gt (t : pos_order) (o : base_order) (m : monom) (pre rest : list term) : list term * list term :=
  match rest with
  | [] => (pre, [])
  | x :: rest' => if 0 <? cmp1 t o (fst x) m then skip_gt t o m (pre ++ [x]) rest' else (pre, rest)
  end.
Definition p_redMaybe (dbg : bool) (p a : poly) : outcome poly :=
  match terms p, terms a with
  | [], _ => if dbg then AssertFail else Ok p
  | _, [] => null_head dbg
  | _, (n, _) :: _ =>
      let (pre, rest) := skip_gt (pto p) (pbo p) n [] (terms p) in
      match rest with
      | [] => Ok p
      | (m, _) :: _ =>
          if eqm m n
          then do r <- red_tail dbg p pre rest a; let (pre', rest') := r in Ok (with_terms p (pre' ++ rest'))
          else Ok p
      end
  end.

(* ------------------------------------------------------------------------------------------ *)
(** * Primitive part *)

Fixpoint gcd_loop (dbg : bool) (g : Z) (l : list term) : outcome (option Z) :=
  match l with
  | [] => Ok (Some g)
  | (_, c) :: l' =>
      do g' <- int_gcd dbg g c;
      if Z.abs g' =? 1 then Ok None else gcd_loop dbg g' l'
  end.
(** poly_int.cpp:505-523 isPp *)
Definition p_isPp (dbg : bool) (p : poly) : outcome bool :=
  match terms p with
  | [] => Ok true
  | (_, c) :: l =>
      if Z.abs c =? 1 then Ok true
      else do r <- gcd_loop dbg c l;
           match r with None => Ok true | Some _ => Ok false end
  end.
Fixpoint div_terms (dbg : bool) (g : Z) (l : list term) : outcome (list term) :=
  match l with
  | [] => Ok []
  | (m, c) :: l' => do k <- int_div dbg c g; do r <- div_terms dbg g l'; Ok ((m, k) :: r)
  end.
(** poly_int.cpp:525-547 pp *)
Definition p_pp (dbg : bool) (p : poly) : outcome poly :=
  match terms p with
  | [] => Ok p
  | (_, c) :: l =>
      if Z.abs c =? 1 then Ok p
      else do r <- gcd_loop dbg c l;
           match r with
           | None => Ok p
           | Some g =>
               do l' <- div_terms dbg g (terms p);
               do b <- p_isPp dbg (with_terms p l');
               assert_ dbg b (Ok (with_terms p l'))
           end
  end.

(* ------------------------------------------------------------------------------------------ *)
(** * Normal forms.  D::find is a parameter: a function from monomials to an optional reducer. *)

(** poly_int.h:291-304 nf; the result includes the number of reductions it returns. *)
Fixpoint nf_loop (fuel : nat) (dbg : bool) (find : monom -> outcome (option poly)) (r : nat) (p : poly) : outcome (poly * nat) :=
  match terms p with
  | [] => Ok (p, r)
  | (m, _) :: _ =>
      do w <- find m;
      match w with
      | None => Ok (p, r)
      | Some a =>
          match fuel with
          | O => OutOfFuel
          | S fuel' => do p' <- p_reduction dbg p a; nf_loop fuel' dbg find (S r) p'
          end
      end
  end.
Definition p_nf (fuel : nat) (dbg : bool) (find : monom -> outcome (option poly)) (p : poly) : outcome (poly * nat) :=
  nf_loop fuel dbg find 0 p.

(** poly_int.h:306-337 nfTail.  Both loops of the C++ code advance over terms without reducer and reduce
    the others; they differ only in the way they are left. *)
Fixpoint nft_loop (fuel : nat) (dbg : bool) (find : monom -> outcome (option poly)) (r : nat) (p : poly)
    (pre rest : list term) : outcome (poly * nat) :=
  match rest with
  | [] => Ok (with_terms p pre, r)
  | (m, c) :: rest' =>
      match fuel with
      | O => OutOfFuel
      | S fuel' =>
          do w <- find m;
          match w with
          | None => nft_loop fuel' dbg find r p (pre ++ [(m, c)]) rest'
          | Some a =>
              do q <- red_tail dbg p pre rest a;
              let (pre', rest'') := q in
              nft_loop fuel' dbg find (S r) p pre' rest''
          end
      end
  end.
Definition p_nfTail (fuel : nat) (dbg : bool) (find : monom -> outcome (option poly)) (p : poly) : outcome (poly * nat) :=
  match terms p with
  | [] => Ok (p, 0%nat)
  | x :: rest => nft_loop fuel dbg find 0 p [x] rest
  end.

(** poly_int.h:339-350 isNf: only the tail is looked at *)
Fixpoint isnf_loop (find : monom -> outcome (option poly)) (l : list term) : outcome bool :=
  match l with
  | [] => Ok true
  | (m, _) :: l' => do w <- find m; match w with Some _ => Ok false | None => isnf_loop find l' end
  end.
Definition p_isNf (find : monom -> outcome (option poly)) (p : poly) : outcome bool :=
  match terms p with [] => Ok true | _ :: l => isnf_loop find l end.
