(** The LaTeX texts of pyginv: Monom.latex (monomial.py 77-90), df_latex (120-131), T_latex (145-157).  Names are those
    given to Monom.init.  Definitions only. *)
From Coq Require Import ZArith List Bool Arith String Ascii.
From Verif Require Import Outcome MonomModel TextModel PyMonomModel PyTextModel.
Import ListNotations.
Local Open Scope string_scope.
Local Open Scope Z_scope.

(** f"{{{v}}}" *)
Definition braced (s : string) : string := "{" ++ s ++ "}".
(** monomial.py:78-79 *)
Definition tex_power (x : string * nat) : string :=
  if Nat.ltb 1 (snd x) then braced (fst x) ++ "^" ++ n_text (snd x) else braced (fst x).
(** monomial.py:77-90 latex *)
Definition py_latex (vs fs : list string) (m : monom) : string :=
  let t := String.concat " " (map tex_power (powers vs (vars m))) in
  if pos m =? -1 then (if String.eqb t "" then "1" else t)
  else if String.eqb t "" then fun_name fs m else fun_name fs m ++ " " ++ t.
(** monomial.py:120-131 df_latex *)
Definition py_df_latex (vs fs : list string) (m : monom) : outcome string :=
  if pos m =? -1 then assert_ true (Nat.eqb (deg m) 0) (Ok "1")
  else
    let r := String.concat " " (map (fun i => braced (nth i vs "")) (py_expand m)) in
    Ok (if String.eqb r "" then braced (fun_name fs m) else braced (fun_name fs m) ++ "_" ++ braced r).
(** monomial.py:145-157 T_latex *)
Definition shift_text (x : string * nat) : string :=
  if Nat.eqb (snd x) 0 then braced (fst x) else braced (fst x) ++ " + " ++ n_text (snd x).
Definition py_T_latex (vs fs : list string) (m : monom) : outcome string :=
  if pos m =? -1 then assert_ true (Nat.eqb (deg m) 0) (Ok "1")
  else Ok (braced (fun_name fs m) ++ "_" ++ braced (String.concat "\, " (map shift_text (combine vs (vars m))))).
