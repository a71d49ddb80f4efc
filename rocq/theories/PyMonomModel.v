(** Model of pyginv/monomial.py.  A Monom (a tuple of non-negative ints with a private field __pos) is the
    record [monom] of MonomModel.v: Python ints are unbounded, so the exponents are exact.  Asserts are always
    on in Python (without -O): a failed one is [AssertFail].  Every Monom has as many entries as there are
    variables (assert in __init__, monomial.py:45), so zip and indexing by range(len(self)) never run short. *)
From Coq Require Import ZArith List Bool Arith.
From Verif Require Import Outcome MonomModel.
Import ListNotations.
Local Open Scope Z_scope.

(** What the four values of Monom.cmp compare (monomial.py:268-304) *)
Inductive py_order := POTlex | TOPlex | POTdeglex | TOPdeglex.

(** monomial.py:246-252 lex *)
Fixpoint py_lex (a b : list nat) : Z :=
  match a, b with
  | x :: a', y :: b' => if Nat.ltb y x then 1 else if Nat.ltb x y then -1 else py_lex a' b'
  | _, _ => 0
  end.

(** monomial.py:261-266: the loop of deglex on the reversed lists *)
Fixpoint py_last (a b : list nat) : Z :=
  match a, b with
  | x :: a', y :: b' => if Nat.ltb x y then 1 else if Nat.ltb y x then -1 else py_last a' b'
  | _, _ => 0
  end.

(** monomial.py:162-163 degree *)
Definition py_degree (m : monom) : nat := fold_right Nat.add 0%nat (vars m).

(** monomial.py:254-266 deglex *)
Definition py_deglex (a b : monom) : Z :=
  if Nat.ltb (py_degree b) (py_degree a) then 1
  else if Nat.ltb (py_degree a) (py_degree b) then -1
  else py_last (rev (vars a)) (rev (vars b)).

(** monomial.py:271, 282, 290, 301: the test on positions that are different *)
Definition py_pos (p q : Z) : Z := if (q =? -1) || (negb (p =? -1) && (p <? q)) then 1 else -1.

(** monomial.py:268-304 *)
Definition py_cmp (o : py_order) (a b : monom) : Z :=
  match o with
  | POTlex => if pos a =? pos b then py_lex (vars a) (vars b) else py_pos (pos a) (pos b)
  | TOPlex => let r := py_lex (vars a) (vars b) in
      if negb (r =? 0) then r else if pos a =? pos b then 0 else py_pos (pos a) (pos b)
  | POTdeglex => if pos a =? pos b then py_deglex a b else py_pos (pos a) (pos b)
  | TOPdeglex => let r := py_deglex a b in
      if negb (r =? 0) then r else if pos a =? pos b then 0 else py_pos (pos a) (pos b)
  end.

(** monomial.py:222-238 __lt__ .. __ne__ *)
Definition py_lt o a b : bool := py_cmp o a b <? 0.
Definition py_le o a b : bool := py_cmp o a b <=? 0.
Definition py_gt o a b : bool := 0 <? py_cmp o a b.
Definition py_ge o a b : bool := 0 <=? py_cmp o a b.
Definition py_eq o a b : bool := py_cmp o a b =? 0.

(** monomial.py:16-25, 29-41: Monom(), Monom(i), Monom(pos=p) of n variables *)
Definition py_unit (n : nat) : monom := Mon (-1) (repeat 0%nat n).
Definition py_var (n i : nat) : monom := Mon (-1) (map (fun j => if Nat.eqb i j then 1%nat else 0%nat) (seq 0 n)).
Definition py_fun (n : nat) (p : Z) : monom := Mon p (repeat 0%nat n).

(** zip of two tuples *)
Definition py_zip (f : nat -> nat -> nat) (a b : list nat) : list nat :=
  map (fun p => f (fst p) (snd p)) (combine a b).

(** monomial.py:165-171 lcm, gcd: the result is built without pos *)
Definition py_lcm (a b : monom) : outcome monom :=
  assert_ true ((pos a =? -1) || (pos b =? -1) || (pos a =? pos b)) (Ok (Mon (-1) (py_zip Nat.max (vars a) (vars b)))).
Definition py_gcd (a b : monom) : outcome monom :=
  assert_ true ((pos a =? -1) || (pos b =? -1) || (pos a =? pos b)) (Ok (Mon (-1) (py_zip Nat.min (vars a) (vars b)))).

(** monomial.py:176-177 __bool__ *)
Definition py_bool (m : monom) : bool := (0 <=? pos m) || Nat.ltb 0 (py_degree m).

(** monomial.py:179-183 prolong *)
Definition py_prolong (m : monom) (v : nat) : outcome monom :=
  assert_ true (Nat.ltb v (length (vars m)))
    (Ok (Mon (pos m) (map (fun x => (snd x + (if Nat.eqb (fst x) v then 1 else 0))%nat) (combine (seq 0 (length (vars m))) (vars m))))).

(** monomial.py:185-189 __mul__ *)
Definition py_mul (a b : monom) : outcome monom :=
  assert_ true ((pos a =? -1) || (pos b =? -1)) (Ok (Mon (Z.max (pos a) (pos b)) (py_zip Nat.add (vars a) (vars b)))).

(** monomial.py:191-197 divisible: m is a multiple of a *)
Definition py_divisible (m a : monom) : bool :=
  if negb (pos m =? pos a) && negb (pos a =? -1) then false
  else forallb (fun p => negb (Nat.ltb (fst p) (snd p))) (combine (vars m) (vars a)).

(** monomial.py:199-200 divisibleTrue *)
Definition py_divisible_true (m a : monom) : bool := py_divisible m a && Nat.ltb (py_degree a) (py_degree m).

(** monomial.py:202-207 __truediv__ *)
Definition py_div (m a : monom) : outcome monom :=
  assert_ true (py_divisible m a)
    (Ok (Mon (if pos a =? -1 then pos m else -1) (py_zip Nat.sub (vars m) (vars a)))).

(** monomial.py:209-213 __pow__ *)
Definition py_pow (m : monom) (k : Z) : outcome monom :=
  assert_ true (pos m =? -1) (assert_ true (0 <=? k) (Ok (Mon (-1) (map (fun x => (x * Z.to_nat k)%nat) (vars m))))).

(** monomial.py:215-220 expand *)
Definition py_expand (m : monom) : list nat :=
  flat_map (fun x => repeat (fst x) (snd x)) (combine (seq 0 (length (vars m))) (vars m)).

(** monomial.py:306-311 nonmult: the first variable in which self is smaller *)
Fixpoint py_nonmult_from (i : nat) (a b : list nat) : outcome nat :=
  match a, b with
  | x :: a', y :: b' => if Nat.ltb x y then Ok i else py_nonmult_from (S i) a' b'
  | _, _ => AssertFail
  end.
Definition py_nonmult (a b : monom) : outcome nat :=
  assert_ true (pos a =? pos b) (py_nonmult_from 0 (vars a) (vars b)).

(** itertools.combinations_with_replacement, in the order in which it yields *)
Fixpoint py_comb (l : list nat) : nat -> list (list nat) :=
  match l with
  | [] => fun d => match d with O => [[]] | S _ => [] end
  | x :: l' =>
      fix go (d : nat) : list (list nat) :=
        match d with
        | O => [[]]
        | S d' => map (cons x) (go d') ++ py_comb l' (S d')
        end
  end.

(** monomial.py:313-322 gradus(deg, pos) *)
Definition py_gradus (n d : nat) (p : Z) : list monom :=
  map (fun c => Mon p (fold_left (fun r k => incr k r) c (repeat 0%nat n))) (py_comb (seq 0 n) d).

(** monomial.py:240-241 __hash__: the hash of the tuple of exponents and position *)
Definition py_hash (h : list Z -> Z) (m : monom) : Z := h (map Z.of_nat (vars m) ++ [pos m]).
