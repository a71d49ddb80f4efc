(** Property C70: the texts of monomials and polynomials in the Python package pyginv. *)
From Coq Require Import ZArith List Bool Arith Lia String Ascii.
From Verif Require Import Outcome MonomModel TextModel TextSpec TextProofs PyTextModel PyTextSpec PyTextProofs PyTextProofs2 PyTextProofs3 PyTextTop.
Import ListNotations.
Local Open Scope string_scope.
Local Open Scope Z_scope.

(** Read as a Python expression, the text of a polynomial with integer coefficients has the value of the polynomial. *)
Theorem C70_value : forall vs fs, Forall identifier (vs ++ fs)%list -> forall env p, Forall (fun t => named vs fs (fst t)) p ->
  denotes env Sum (py_poly_str (Z.eqb 1) z_text vs fs p) (poly_val env vs fs p).
Proof. exact poly_value. Qed.
Print Assumptions C70_value.

(** With distinct names no two monomials have the same text ... *)
Theorem C70_monom : forall vs fs, good_names vs fs -> forall m m', named vs fs m -> named vs fs m' ->
  py_monom_str vs fs m = py_monom_str vs fs m' -> m = m'.
Proof. exact monom_str_inj. Qed.
Print Assumptions C70_monom.
Theorem C70_monom_repr : forall m m', good_monom m -> good_monom m' -> py_monom_repr m = py_monom_repr m' -> m = m'.
Proof. exact monom_repr_inj. Qed.
Print Assumptions C70_monom_repr.

(** ... and no two polynomials with integer coefficients, in the plain form ... *)
Theorem C70_poly : forall vs fs, good_names vs fs -> forall p p',
  Forall (fun t => named vs fs (fst t) /\ snd t <> 0) p -> Forall (fun t => named vs fs (fst t) /\ snd t <> 0) p' ->
  py_poly_str (Z.eqb 1) z_text vs fs p = py_poly_str (Z.eqb 1) z_text vs fs p' -> p = p'.
Proof. exact poly_str_inj. Qed.
Print Assumptions C70_poly.

(** ... and with operators df(u, x, 2, y), T(u, x, 2, y) or u(x, y).diff(x, 2, y). *)
Theorem C70_operators : forall vs fs, good_names vs fs -> forall mt, In mt [py_df_text vs fs; py_T_text vs fs; py_df_sympy vs fs] -> forall p p',
  Forall (fun t => operator_monom vs fs (fst t) /\ snd t <> 0) p -> Forall (fun t => operator_monom vs fs (fst t) /\ snd t <> 0) p' ->
  exists s s', py_op_str (Z.eqb 1) z_text mt p = Ok s /\ py_op_str (Z.eqb 1) z_text mt p' = Ok s' /\ (s = s' -> p = p').
Proof. exact op_forms_inj. Qed.
Print Assumptions C70_operators.

(** A power of a variable without function has no such text. *)
Theorem C70_operators_reject : forall vs fs m mt, In mt [py_df_text vs fs; py_T_text vs fs; py_df_sympy vs fs] ->
  pos m = -1 -> Exists (fun d => d <> 0%nat) (vars m) -> mt m = AssertFail.
Proof. exact op_rejects. Qed.
Print Assumptions C70_operators_reject.

(** Symbolic coefficients are written without parentheses: x*(a + b) and x*a + b have the same text. *)
Theorem C70_symbolic_refuted : exists p p' : list (monom * sx),
  py_poly_str sx_is_one sx_text ["x"] [] p = py_poly_str sx_is_one sx_text ["x"] [] p' /\
  exists env, sx_poly_val env ["x"] [] p <> sx_poly_val env ["x"] [] p'.
Proof. exact symbolic_clash. Qed.
Print Assumptions C70_symbolic_refuted.

(** Monom.init accepts a function with the name of a variable; then two monomials have the same text. *)
Theorem C70_names_refuted : exists vs fs m m', py_names_ok vs fs = true /\ Forall identifier (vs ++ fs)%list /\ named vs fs m /\ named vs fs m' /\
  m <> m' /\ py_monom_str vs fs m = py_monom_str vs fs m'.
Proof. exact name_clash. Qed.
Print Assumptions C70_names_refuted.

(** What Monom.init does check: no name is repeated among the variables, and none among the functions. *)
Theorem C70_names_checked : forall vs fs, py_names_ok vs fs = true <-> NoDup vs /\ NoDup fs.
Proof. exact names_checked. Qed.
Print Assumptions C70_names_checked.

(** Together with a check that no variable is called like a function this would make the names ones that can be told apart. *)
Theorem C70_names_good : forall vs fs, Forall identifier (vs ++ fs)%list ->
  (good_names vs fs <-> py_names_ok vs fs = true /\ forall s, In s vs -> ~ In s fs).
Proof. exact names_good. Qed.
Print Assumptions C70_names_good.

(** Variables x, y and functions u, v. *)
Example C70_example : good_names ["x"; "y"] ["u"; "v"] /\ py_names_ok ["x"; "y"] ["u"; "v"] = true /\ py_names_ok ["x"; "y"] ["u"; "u"] = false /\
  py_poly_str (Z.eqb 1) z_text ["x"; "y"] ["u"; "v"] [(Mon 1 [2; 1]%nat, 1); (Mon (-1) [0; 12]%nat, -7); (Mon (-1) [0; 0]%nat, 5)] = "v*x**2*y + y**12*-7 + 5" /\
  (let p := [(Mon 0 [2; 1]%nat, 1); (Mon 1 [0; 0]%nat, -4); (Mon (-1) [0; 0]%nat, 3)] in
   Forall (fun t => operator_monom ["x"; "y"] ["u"; "v"] (fst t) /\ snd t <> 0) p /\
   py_op_str (Z.eqb 1) z_text (py_df_text ["x"; "y"] ["u"; "v"]) p = Ok "df(u, x, 2, y) + df(v)*-4 + 3" /\
   py_op_str (Z.eqb 1) z_text (py_df_sympy ["x"; "y"] ["u"; "v"]) p = Ok "u(x, y).diff(x, 2, y) + v(x, y)*-4 + 3") /\
  py_monom_repr (Mon 1 [2; 1]%nat) = "[1;2 1]".
Proof.
  split; [exact ex_names|]. split; [reflexivity|]. split; [reflexivity|].
  split; [reflexivity|]. split; [|reflexivity]. cbv zeta. split; [|split; reflexivity].
  repeat constructor; cbn; try lia; discriminate.
Qed.
