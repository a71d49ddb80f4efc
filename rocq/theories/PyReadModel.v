(** Model of PolyDiff.diff2poly (pyginv/polynomial.py 391-414), which reads a sympy expression as a linear differential
    polynomial, and of Poly.__mul__ with coefficients from any domain. *)
From Coq Require Import ZArith List Bool Arith.
From Verif Require Import Outcome MonomModel PyMonomModel PyDiffModel.
Import ListNotations.
Local Open Scope Z_scope.

Section Read.
Variable C : coefs.
Notation term := (monom * ck C)%type.
Notation dpoly := (list term).

(** polynomial.py:154-161: t[m] += k or t[m] = k; the dictionary as the list of its items *)
Fixpoint dp_dict_add (o : py_order) (m : monom) (k : ck C) (t : dpoly) : dpoly :=
  match t with
  | [] => [(m, k)]
  | (u, d) :: t' => if py_eq o u m then (u, c_add C d k) :: t' else (u, d) :: dp_dict_add o m k t'
  end.
Fixpoint dp_dict_row (o : py_order) (m1 : monom) (k1 : ck C) (q t : dpoly) : outcome dpoly :=
  match q with
  | [] => Ok t
  | (m2, k2) :: q' => do m <- py_mul m1 m2; dp_dict_row o m1 k1 q' (dp_dict_add o m (c_mul C k1 k2) t)
  end.
Fixpoint dp_dict (o : py_order) (p q t : dpoly) : outcome dpoly :=
  match p with
  | [] => Ok t
  | (m1, k1) :: p' => do t' <- dp_dict_row o m1 k1 q t; dp_dict o p' q t'
  end.
(** polynomial.py:163 sorted(t.items(), reverse=True): the keys are different, so the monomials decide *)
Fixpoint dp_insert (o : py_order) (x : term) (l : dpoly) : dpoly :=
  match l with
  | [] => [x]
  | y :: l' => if py_lt o (fst x) (fst y) then y :: dp_insert o x l' else x :: l
  end.
Definition dp_sorted (o : py_order) (t : dpoly) : dpoly := fold_right (dp_insert o) [] t.
(** polynomial.py:147-167 __mul__ *)
Definition dp_times (o : py_order) (p q : dpoly) : outcome dpoly :=
  do t <- dp_dict o p q [];
  dp_checked C o (filter (fun x => negb (c_is0 C (snd x))) (dp_sorted o t)).

(** A sympy expression as diff2poly sees it.  Sums and products with more than two arguments are nested to the left:
    the calls are the same.  The arguments of an unknown function are not looked at.
    - EAtom c: no arguments: a number, a symbol;
    - EPow b c: a power with base b; c is the power itself, taken as a coefficient;
    - EFun i: the unknown function number i;
    - EDer i l: Derivative(f, (v1, d1), (v2, d2), ...) of the unknown function i;
    - EOther: any other expression (sin(x), exp(x), the derivative of something else). *)
Inductive dexpr : Type :=
| EAtom (c : ck C)
| EAdd (a b : dexpr)
| EMul (a b : dexpr)
| EPow (b : dexpr) (c : ck C)
| EFun (i : Z)
| EDer (i : Z) (l : list (nat * nat))
| EOther.

(** polynomial.py:408-410: m[v] = d; a variable that is not among those of Monom raises ValueError *)
Fixpoint set_at (v d : nat) (e : list nat) : list nat :=
  match e, v with
  | [], _ => []
  | _ :: e', O => d :: e'
  | x :: e', S v' => x :: set_at v' d e'
  end.
Fixpoint read_der (l : list (nat * nat)) (e : list nat) : outcome (list nat) :=
  match l with
  | [] => Ok e
  | (v, d) :: l' => if Nat.ltb v (length e) then read_der l' (set_at v d e) else Undef
  end.

(** polynomial.py:391-414 diff2poly; k unknown functions, n variables.  (EFun i with i outside of 0..k-1 is an unknown
    function whose name is not in the list: it falls through to the assert in line 405.) *)
Fixpoint diff2poly (o : py_order) (n : nat) (k : Z) (a : dexpr) : outcome dpoly :=
  match a with
  | EAtom c => dp_checked C o (dp_of_coef C n c)
  | EAdd a b => do r <- diff2poly o n k a; do s <- diff2poly o n k b; dp_add C o r s
  | EMul a b => do r <- diff2poly o n k a; do s <- diff2poly o n k b; dp_times o r s
  | EPow _ c => dp_times o (dp_of_monom C (py_unit n)) (dp_of_coef C n c)
  | EFun i => assert_ true ((0 <=? i) && (i <? k)) (Ok (dp_of_monom C (Mon i (repeat 0%nat n))))
  | EDer i l => assert_ true ((0 <=? i) && (i <? k)) (do m <- read_der l (repeat 0%nat n); Ok (dp_of_monom C (Mon i m)))
  | EOther => AssertFail
  end.
End Read.
Arguments EAtom {C}. Arguments EAdd {C}. Arguments EMul {C}. Arguments EPow {C}. Arguments EFun {C}. Arguments EDer {C}. Arguments EOther {C}.
