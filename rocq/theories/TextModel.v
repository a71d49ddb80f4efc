(** Model of text output: operator<< of Monom, PolyInt, BMonom, BPoly and HilbertPoly, and __str__, __repr__ of
    cython/ginv.pyx.  An int is written by operator<< and by Python's str as its decimal numeral, a GMP integer by
    mpz_get_str likewise (standard library: DecimalString; base 16: HexadecimalString).  The stream is the string
    written to it.  Definitions only. *)
From Coq Require Import ZArith List Bool Arith String Ascii DecimalString HexadecimalString QArith.
From Verif Require Import Outcome MonomModel PolyModel BoolModel HilbertModel.
Import ListNotations.
Local Open Scope string_scope.
Local Open Scope Z_scope.

Definition z_text (z : Z) : string := DecimalString.NilZero.string_of_int (Z.to_int z).
Definition n_text (n : nat) : string := z_text (Z.of_nat n).

(** ginv/monom.cpp:446-455.  (A monomial has at least one variable: a[0] exists.) *)
Definition monom_text (m : monom) : string :=
  "[" ++ (if 0 <=? pos m then z_text (pos m) ++ ":" else "") ++ String.concat " " (map n_text (vars m)) ++ "]".

(** ginv/poly_int.cpp:549-563 *)
Definition term_text (t : term) : string := monom_text (fst t) ++ "*" ++ z_text (snd t).
Definition poly_text (l : list term) : string :=
  match l with [] => "0" | _ => String.concat " + " (map term_text l) end.

(** ginv/bmonom.cpp:253-263 *)
Definition bm_text (m : BM) : outcome string :=
  if Nat.eqb (bdeg m) 0 then Ok "1"
  else do l <- bread m; Ok ("[" ++ String.concat " " (map z_text l) ++ "]").
(** ginv/bpoly.cpp:242-255 *)
Fixpoint bp_text_loop (p : BP) : outcome string :=
  match p with [] => Ok "" | m :: p' => do s <- bm_text m; do r <- bp_text_loop p'; Ok (" + " ++ s ++ r) end.
Definition bp_text (p : BP) : outcome string :=
  match p with [] => Ok "0" | m :: p' => do s <- bm_text m; do r <- bp_text_loop p'; Ok (s ++ r) end.

(** mpq_get_str: numerator, and / and the denominator if that is not 1 *)
Definition q_text (q : Q) : string :=
  z_text (Qnum q) ++ (if Pos.eqb (Qden q) 1 then "" else "/" ++ z_text (Zpos (Qden q))).
(** util/hilbertpoly.cpp:116-132; i is the exponent, s the text of the coefficient.  GMP keeps fractions in lowest terms. *)
Definition hp_item (sep : bool) (i : nat) (s : string) : string :=
  (if sep then match s with String "-" s' => " - " ++ s' | _ => " + " ++ s end else s) ++
  (if Nat.eqb i 0 then "" else "s^" ++ n_text i).
Fixpoint hp_text_loop (sep : bool) (l : list (nat * Q)) : string :=
  match l with
  | [] => ""
  | (i, q) :: l' => if Qnum q =? 0 then hp_text_loop sep l' else hp_item sep i (q_text q) ++ hp_text_loop true l'
  end.
Definition hp_text (h : hp) : string := hp_text_loop false (rev (combine (seq 0 (List.length h)) (map Qred h))).

(** cython/ginv.pyx:205-210 const_integer.__repr__; get_str(16) writes - and lower case digits, no 0x *)
Definition hex_text (z : Z) : string := HexadecimalString.NilZero.string_of_int (Z.to_hex_int z).
Definition cy_int_repr (z : Z) : string :=
  if Z.sgn z =? -1 then "-0x" ++ match hex_text z with String _ s => s | EmptyString => "" end else "0x" ++ hex_text z.
(** cython/ginv.pyx:272-277 const_monom.__str__, 278-280 __repr__ *)
Definition cy_monom_str (m : monom) : string :=
  if pos m <? 0 then "[" ++ String.concat " " (map n_text (vars m)) ++ "]"
  else "[" ++ z_text (pos m) ++ ":" ++ String.concat " " (map n_text (vars m)) ++ "]".
Definition cy_monom_repr (m : monom) : string :=
  "[" ++ z_text (pos m) ++ " " ++ n_text (deg m) ++ ":" ++ String.concat " " (map n_text (vars m)) ++ "]".
(** cython/ginv.pyx:420-431 const_poly_int.__str__, __repr__ *)
Definition cy_poly_str (l : list term) : string :=
  match l with [] => "0" | (m, c) :: _ => cy_monom_str m ++ "*" ++ z_text c ++ " + ..." end.
Definition cy_poly_repr (l : list term) : string :=
  match l with [] => "0" | (m, c) :: _ => cy_monom_repr m ++ "*" ++ cy_int_repr c ++ " + ..." end.
