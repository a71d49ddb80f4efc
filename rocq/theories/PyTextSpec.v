(** What a text means as a Python expression. *)
From Coq Require Import ZArith List Bool Arith String Ascii DecimalString.
From Verif Require Import MonomModel.
Import ListNotations.
Local Open Scope string_scope.
Local Open Scope Z_scope.

(** Names as Python has them *)
Definition letter (c : ascii) : bool :=
  let n := nat_of_ascii c in (Nat.leb 65 n && Nat.leb n 90) || (Nat.leb 97 n && Nat.leb n 122) || Nat.eqb n 95.
Definition name_char (c : ascii) : bool := letter c || (let n := nat_of_ascii c in Nat.leb 48 n && Nat.leb n 57).
Fixpoint name_chars (s : string) : bool := match s with EmptyString => true | String c s' => name_char c && name_chars s' end.
Definition identifier (s : string) : Prop := exists c s', s = String c s' /\ letter c = true /\ name_chars s' = true.

(** The part of Python's grammar needed here, with values: sums of products of signed powers of names and numbers.
    [env] gives the values of the names. *)
Definition decimal (n : nat) : string := NilZero.string_of_int (Z.to_int (Z.of_nat n)).
Inductive level := Sum | Prod | Signed | Power | Atom.
Inductive denotes (env : string -> Z) : level -> string -> Z -> Prop :=
| de_name x : identifier x -> denotes env Atom x (env x)
| de_num n : denotes env Atom (decimal n) (Z.of_nat n)
| de_pow a v n : denotes env Atom a v -> denotes env Power (a ++ "**" ++ decimal n) (v ^ Z.of_nat n)
| de_atom a v : denotes env Atom a v -> denotes env Power a v
| de_neg a v : denotes env Signed a v -> denotes env Signed ("-" ++ a) (- v)
| de_power a v : denotes env Power a v -> denotes env Signed a v
| de_mul a v b w : denotes env Prod a v -> denotes env Signed b w -> denotes env Prod (a ++ "*" ++ b) (v * w)
| de_signed a v : denotes env Signed a v -> denotes env Prod a v
| de_add a v b w : denotes env Sum a v -> denotes env Prod b w -> denotes env Sum (a ++ " + " ++ b) (v + w)
| de_prod a v : denotes env Prod a v -> denotes env Sum a v.

(** A monomial over the variables vs and the functions fs, and its value *)
Definition named (vs fs : list string) (m : monom) : Prop :=
  List.length (vars m) = List.length vs /\ -1 <= pos m < Z.of_nat (List.length fs).
Definition monom_val (env : string -> Z) (vs fs : list string) (m : monom) : Z :=
  (if pos m =? -1 then 1 else env (nth (Z.to_nat (pos m)) fs "")) *
  fold_right (fun x r => env (fst x) ^ Z.of_nat (snd x) * r) 1 (combine vs (vars m)).
Definition poly_val (env : string -> Z) (vs fs : list string) (p : list (monom * Z)) : Z :=
  fold_right (fun t r => monom_val env vs fs (fst t) * snd t + r) 0 p.

(** Names that can be told apart *)
Definition good_names (vs fs : list string) : Prop := Forall identifier (vs ++ fs) /\ NoDup (vs ++ fs).
(** Monomials of differential and difference polynomials: an operator applied to a function, or 1 *)
Definition operator_monom (vs fs : list string) (m : monom) : Prop :=
  named vs fs m /\ (pos m = -1 -> Forall (fun d => d = 0%nat) (vars m)).

(** Symbolic coefficients: names and sums, with the texts sympy gives them, and their values *)
Inductive sx := SName (a : string) | SAdd (a b : sx).
Fixpoint sx_text (a : sx) : string := match a with SName x => x | SAdd a b => sx_text a ++ " + " ++ sx_text b end.
Definition sx_is_one (a : sx) : bool := false.
Fixpoint sx_val (env : string -> Z) (a : sx) : Z := match a with SName x => env x | SAdd a b => sx_val env a + sx_val env b end.
Definition sx_poly_val (env : string -> Z) (vs fs : list string) (p : list (monom * sx)) : Z :=
  fold_right (fun t r => monom_val env vs fs (fst t) * sx_val env (snd t) + r) 0 p.
