(** The arithmetic of the Python class poly_int, cython/ginv.pyx:399-550.

    A Python operand is an int or a polynomial object (const_poly_int or poly_int; the two share these
    methods).  Other operand types give NotImplemented and are not modelled; neither are objects whose
    pointer is still NULL (they fail `assert self.ptr`).  Python's assert statements are always active;
    they raise AssertionError, which is kept apart from the C++ asserts ([AssertFail], process abort). *)
From Coq Require Import ZArith String HexString List Bool.
From Verif Require Import Outcome MonomModel PolyModel.
Import ListNotations.
Local Open Scope Z_scope.

Inductive pyval := PInt (c : Z) | PPoly (p : poly).

(** Result of a Python call that the C++ code did not abort. *)
Inductive pyres := Returns (p : poly) | AssertionError.

(** Python's hex(int), and Integer(const char* ) reading it with mpz_set_str base 0
    (util/integer.h:41-44).  Both are the standard library's conversion between Z and "0x..", "-0x..". *)
Definition py_hex (c : Z) : string := HexString.of_Z c.
Definition integer_of_str (s : string) : Z := HexString.to_Z s.

(** ginv.pyx:404-406 __nonzero__ *)
Definition py_bool (p : poly) : bool := negb (Nat.eqb (length (terms p)) 0).

(** ginv.pyx:474-479 __neg__ *)
Definition py_neg (dbg : bool) (p : poly) : outcome pyres :=
  do r <- p_copy dbg p; do r' <- p_minus dbg r; Ok (Returns r').

(** ginv.pyx:481-494 add *)
Definition py_add_m (dbg : bool) (self : poly) (other : pyval) : outcome pyres :=
  do r <- p_copy dbg self;
  match other with
  | PInt c => if py_bool self then do r' <- p_add_const dbg r (integer_of_str (py_hex c)); Ok (Returns r')
              else Ok AssertionError
  | PPoly q => if comparable self q then do r' <- p_add dbg r q; Ok (Returns r') else Ok AssertionError
  end.
(** ginv.pyx:502-515 sub *)
Definition py_sub_m (dbg : bool) (self : poly) (other : pyval) : outcome pyres :=
  do r <- p_copy dbg self;
  match other with
  | PInt c => if py_bool self then do r' <- p_sub_const dbg r (integer_of_str (py_hex c)); Ok (Returns r')
              else Ok AssertionError
  | PPoly q => if comparable self q then do r' <- p_sub dbg r q; Ok (Returns r') else Ok AssertionError
  end.
(** ginv.pyx:522-535 mul *)
Definition py_mul_m (dbg : bool) (self : poly) (other : pyval) : outcome pyres :=
  do r <- p_copy dbg self;
  match other with
  | PInt c => if py_bool self then do r' <- p_mult_const dbg r (integer_of_str (py_hex c)); Ok (Returns r')
              else Ok AssertionError
  | PPoly q => if comparable self q then do r' <- p_mult dbg r q; Ok (Returns r') else Ok AssertionError
  end.

(** The operators.  Python calls the slot with the operands in source order, so [self] may be the int
    (Cython before 3; setup.py does not set c_api_binop_methods).  int op int never gets here. *)
(** ginv.pyx:496-500 __add__ *)
Definition py_add (dbg : bool) (self other : pyval) : outcome pyres :=
  match self, other with
  | _, PPoly q => py_add_m dbg q self
  | PPoly p, _ => py_add_m dbg p other
  | PInt _, PInt _ => Undef
  end.
(** ginv.pyx:517-521 __sub__ *)
Definition py_sub (dbg : bool) (self other : pyval) : outcome pyres :=
  match self, other with
  | _, PPoly q =>
      do r <- py_sub_m dbg q self;
      match r with Returns d => py_neg dbg d | AssertionError => Ok AssertionError end
  | PPoly p, _ => py_add_m dbg p other
  | PInt _, PInt _ => Undef
  end.
(** ginv.pyx:537-541 __mul__ *)
Definition py_mul (dbg : bool) (self other : pyval) : outcome pyres :=
  match self, other with
  | _, PPoly q => py_mul_m dbg q self
  | PPoly p, _ => py_mul_m dbg p other
  | PInt _, PInt _ => Undef
  end.
(** ginv.pyx:543-548 __pow__ (the Python int is passed to C as an int; assumed to fit) *)
Definition py_pow (dbg : bool) (p : poly) (k : Z) : outcome pyres :=
  if k <? 0 then Ok AssertionError
  else do r <- p_copy dbg p; do r' <- p_pow dbg r (Z.to_nat k); Ok (Returns r').
