(** Model of the texts of the Python package pyginv: Monom.__repr__, __str__, df, df_sympy, T (monomial.py 56-143) and
    Poly.__str__, PolyDiff.__str__, df_sympy, PolySchem.__str__ (polynomial.py 36-48, 419-445, 525-537).  Names are those
    given to Monom.init.  latex, df_latex and T_latex are in TexModel.v.  Definitions only. *)
From Coq Require Import ZArith List Bool Arith String Ascii.
From Verif Require Import Outcome MonomModel TextModel.
Import ListNotations.
Local Open Scope string_scope.
Local Open Scope Z_scope.

(** monomial.py:12-27 init: what it checks of the names.  (Line 22 computes whether the two lists are disjoint and does
    nothing with it.) *)
Fixpoint no_repeats (l : list string) : bool :=
  match l with [] => true | x :: l' => negb (existsb (String.eqb x) l') && no_repeats l' end.
Definition py_names_ok (vs fs : list string) : bool := no_repeats vs && no_repeats fs.

(** Monom.__fun[pos], for a position that exists *)
Definition fun_name (fs : list string) (m : monom) : string := nth (Z.to_nat (pos m)) fs "".

(** monomial.py:56-61 __repr__ *)
Definition py_monom_repr (m : monom) : string :=
  if pos m =? -1 then "[" ++ String.concat " " (map n_text (vars m)) ++ "]"
  else "[" ++ z_text (pos m) ++ ";" ++ String.concat " " (map n_text (vars m)) ++ "]".
(** monomial.py:63-76 __str__ *)
Definition power_text (x : string * nat) : string := if Nat.ltb 1 (snd x) then fst x ++ "**" ++ n_text (snd x) else fst x.
Definition powers (vs : list string) (e : list nat) : list (string * nat) := filter (fun x => Nat.leb 1 (snd x)) (combine vs e).
Definition py_monom_str (vs fs : list string) (m : monom) : string :=
  let t := String.concat "*" (map power_text (powers vs (vars m))) in
  if pos m =? -1 then (if String.eqb t "" then "1" else t)
  else if String.eqb t "" then fun_name fs m else fun_name fs m ++ "*" ++ t.
(** monomial.py:91-102 df, 132-143 T: the list r behind the function *)
Definition order_texts (x : string * nat) : list string := if Nat.ltb 1 (snd x) then [fst x; n_text (snd x)] else [fst x].
Definition py_call (f : string) (vs fs : list string) (m : monom) : outcome string :=
  if pos m =? -1 then assert_ true (Nat.eqb (deg m) 0) (Ok "1")
  else Ok (f ++ "(" ++ String.concat ", " (fun_name fs m :: flat_map order_texts (powers vs (vars m))) ++ ")").
Definition py_df_text := py_call "df".
Definition py_T_text := py_call "T".
(** monomial.py:104-118 df_sympy *)
Definition py_df_sympy (vs fs : list string) (m : monom) : outcome string :=
  if pos m =? -1 then assert_ true (Nat.eqb (deg m) 0) (Ok "1")
  else
    let u := fun_name fs m ++ "(" ++ String.concat ", " vs ++ ")" in
    match flat_map order_texts (powers vs (vars m)) with
    | [] => Ok u
    | r => Ok (u ++ ".diff(" ++ String.concat ", " r ++ ")")
    end.

Section Poly.
(** Coefficients with the test c == S.One and the text of c *)
Context {K : Type} (is_one : K -> bool) (c_text : K -> string).
(** polynomial.py:36-48 Poly.__str__, one term *)
Definition py_term_str (vs fs : list string) (t : monom * K) : string :=
  let (m, c) := t in
  if Nat.eqb (deg m) 0 && (pos m <? 0) then c_text c
  else if is_one c then py_monom_str vs fs m else py_monom_str vs fs m ++ "*" ++ c_text c.
Definition py_poly_str (vs fs : list string) (p : list (monom * K)) : string :=
  match p with [] => "0" | _ => String.concat " + " (map (py_term_str vs fs) p) end.
(** polynomial.py:419-431 PolyDiff.__str__ (mt = df), 433-445 df_sympy, 525-537 PolySchem.__str__ (mt = T) *)
Definition py_op_term (mt : monom -> outcome string) (t : monom * K) : outcome string :=
  let (m, c) := t in
  if Nat.eqb (deg m) 0 && (pos m <? 0) then Ok (c_text c)
  else do s <- mt m; Ok (if is_one c then s else s ++ "*" ++ c_text c).
Fixpoint py_op_terms (mt : monom -> outcome string) (p : list (monom * K)) : outcome (list string) :=
  match p with [] => Ok [] | t :: p' => do s <- py_op_term mt t; do r <- py_op_terms mt p'; Ok (s :: r) end.
Definition py_op_str (mt : monom -> outcome string) (p : list (monom * K)) : outcome string :=
  match p with [] => Ok "0" | _ => do r <- py_op_terms mt p; Ok (String.concat " + " r) end.
End Poly.
