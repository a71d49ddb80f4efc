(** Property C99: the LaTeX texts of monomials in the Python package pyginv, as TeX reads them. *)
From Coq Require Import ZArith List Bool Arith Lia String Ascii.
From Verif Require Import Outcome MonomModel TextModel PyMonomModel PyTextModel PyTextSpec TexModel TexSpec TexProofs TexTop TexTop2 TexExamples.
Import ListNotations.
Local Open Scope string_scope.
Local Open Scope list_scope.
Local Open Scope Z_scope.

(** latex: TeX accepts the text and shows the letters of the function and then the powers of the variables, 1 if there
    is nothing to show.  Only the first digit of an exponent is raised.  (Function names of letters and digits.) *)
Theorem C99_latex : forall vs fs m, Forall identifier (vs ++ fs) -> named vs fs m -> (pos m <> -1 -> word (fun_name fs m) = true) ->
  tex (py_latex vs fs m) =
    Some (or_one ((if pos m =? -1 then [] else map plain (chars (fun_name fs m))) ++ flat_map first_digit_raised (combine vs (vars m)))).
Proof. exact latex_reads. Qed.
Print Assumptions C99_latex.

(** The monomial is shown as it is exactly if no exponent is larger than 9. *)
Theorem C99_latex_whole : forall vs fs m, Forall identifier (vs ++ fs) -> named vs fs m -> (pos m <> -1 -> word (fun_name fs m) = true) ->
  (tex (py_latex vs fs m) =
    Some (or_one ((if pos m =? -1 then [] else map plain (chars (fun_name fs m))) ++ flat_map power_symbols (combine vs (vars m)))) <->
   Forall (fun d => (d <= 9)%nat) (vars m)).
Proof. exact latex_whole. Qed.
Print Assumptions C99_latex_whole.

(** x to the 12 is shown as x to the 1 followed by 2. *)
Theorem C99_exponent_refuted : exists vs fs m, good_names vs fs /\ named vs fs m /\ pos m = -1 /\
  tex (py_latex vs fs m) = Some [Sym "x" None (Some "1"); plain "2"] /\
  flat_map power_symbols (combine vs (vars m)) = [Sym "x" None (Some "12")].
Proof. exact tex_exponent. Qed.
Print Assumptions C99_exponent_refuted.

(** Without functions TeX shows no two monomials alike ... *)
Theorem C99_latex_inj : forall vs fs m m', good_names vs fs -> named vs fs m -> named vs fs m' -> pos m = -1 -> pos m' = -1 ->
  tex (py_latex vs fs m) = tex (py_latex vs fs m') -> m = m'.
Proof. exact latex_inj. Qed.
Print Assumptions C99_latex_inj.

(** ... with functions it may, as their names are not in braces: y times the function u, and the function uy. *)
Theorem C99_function_refuted : exists vs fs m m', good_names vs fs /\ named vs fs m /\ named vs fs m' /\ m <> m' /\
  tex (py_latex vs fs m) = tex (py_latex vs fs m').
Proof. exact tex_clash. Qed.
Print Assumptions C99_function_refuted.

(** A function name that begins with _ makes a text that TeX does not accept. *)
Theorem C99_underscore_refuted : exists vs fs m, good_names vs fs /\ named vs fs m /\ tex (py_latex vs fs m) = None.
Proof. exact tex_underscore. Qed.
Print Assumptions C99_underscore_refuted.

(** df_latex: the function with the variables of the derivative as its subscript, each as often as its order. *)
Theorem C99_df : forall vs fs m, Forall identifier (vs ++ fs) -> named vs fs m -> pos m <> -1 ->
  exists s h, py_df_latex vs fs m = Ok s /\ tex h = Some (by_variables (combine vs (vars m))) /\
    tex s = Some [Sym (fun_name fs m) (if String.eqb h "" then None else Some h) None].
Proof. exact df_reads. Qed.
Print Assumptions C99_df.

(** T_latex: the function with all variables as its subscript, each with its shift. *)
Theorem C99_T : forall vs fs m, Forall identifier (vs ++ fs) -> named vs fs m -> pos m <> -1 ->
  exists s h, py_T_latex vs fs m = Ok s /\ tex h = Some (separated (map shifted (combine vs (vars m)))) /\
    tex s = Some [Sym (fun_name fs m) (Some h) None].
Proof. exact T_reads. Qed.
Print Assumptions C99_T.

(** Without function both give 1, or an assertion fails. *)
Theorem C99_unit : forall vs fs m mt, In mt [py_df_latex vs fs; py_T_latex vs fs] -> pos m = -1 ->
  mt m = (if forallb (Nat.eqb 0) (vars m) then Ok "1" else AssertFail).
Proof. exact tex_rejects. Qed.
Print Assumptions C99_unit.

(** No two monomials have the same text df_latex, and none the same text T_latex. *)
Theorem C99_op_inj : forall vs fs mt, good_names vs fs -> In mt [py_df_latex vs fs; py_T_latex vs fs] -> forall m m',
  operator_monom vs fs m -> operator_monom vs fs m' -> exists s s', mt m = Ok s /\ mt m' = Ok s' /\ (s = s' -> m = m').
Proof. exact op_latex_inj. Qed.
Print Assumptions C99_op_inj.

(** Variables x, y and functions u, uy. *)
Example C99_example : good_names ["x"; "y"] ["u"; "uy"] /\ word (fun_name ["u"; "uy"] (Mon 1 [2; 1]%nat)) = true /\
  py_latex ["x"; "y"] ["u"; "uy"] (Mon 1 [2; 1]%nat) = "uy {x}^2 {y}" /\
  tex "uy {x}^2 {y}" = Some [plain "u"; plain "y"; Sym "x" None (Some "2"); plain "y"] /\
  py_latex ["x"; "y"] ["u"; "uy"] (Mon (-1) [0; 0]%nat) = "1" /\
  py_df_latex ["x"; "y"] ["u"; "uy"] (Mon 1 [2; 1]%nat) = Ok "{uy}_{{x} {x} {y}}" /\
  tex "{uy}_{{x} {x} {y}}" = Some [Sym "uy" (Some "{x} {x} {y}") None] /\ tex "{x} {x} {y}" = Some [plain "x"; plain "x"; plain "y"] /\
  py_T_latex ["x"; "y"] ["u"; "uy"] (Mon 0 [12; 0]%nat) = Ok "{u}_{{x} + 12\, {y}}" /\
  tex "{x} + 12\, {y}" = Some [plain "x"; plain "+"; plain "1"; plain "2"; plain "\,"; plain "y"] /\
  tex "x^" = None /\ tex "a_1^23" = Some [Sym "a" (Some "1") (Some "2"); plain "3"].
Proof. split; [exact tex_names|]. repeat split. Qed.
