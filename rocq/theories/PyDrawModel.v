(** Pictures of Janet trees in pyginv: Janet.saveImage (janet.py:320-381).  The nested lists are those of PyJanetModel.v with
    the identities id(n) of the lists and Wraps.  The text of the Hilbert polynomial is a parameter.  Font attributes are left
    out.  Definitions only. *)
From Coq Require Import ZArith List Bool Arith String.
From Verif Require Import Outcome MonomModel PyMonomModel PyJanetModel TextModel PyTextModel DrawModel.
Import ListNotations.
Local Open Scope string_scope.

(** A list of Wraps and lists, from left to right *)
Inductive arow : Type :=
| ANone
| AWrap (id : nat) (w : pwrap) (rest : arow)
| AList (id : nat) (inner rest : arow).
Fixpoint erase_row (r : arow) : list ptree :=
  match r with ANone => [] | AWrap _ w r' => PWrap w :: erase_row r' | AList _ i r' => PList (erase_row i) :: erase_row r' end.

(** janet.py:337-353 the label of a Wrap *)
Definition spaces (n : nat) : string := String.concat "" (repeat " " n).
Definition flag_text (l : list bool) : string := String.concat " " (map (fun b : bool => if b then "*" else "_") l).
Definition py_label (o : py_order) (level : nat) (w : pwrap) : string :=
  let indent := if (pos (pw_lm w) <? 0)%Z then " " else spaces (2 + String.length (z_text (pos (pw_lm w)))) in
  let add :=
    (if Nat.leb 1 level then "<BR/>" ++ indent ++ flag_text (pw_nonmult w) else "") ++
    (if Nat.leb 2 level then "<BR/>" ++ indent ++ flag_text (pw_prolong w) else "") ++
    (if Nat.leb 3 level then "<BR/>" ++ py_monom_repr (pw_anc w) else "") in
  if w_isGB o w then "<<B>" ++ py_monom_repr (pw_lm w) ++ "</B>" ++ add ++ ">" else "<" ++ py_monom_repr (pw_lm w) ++ add ++ ">".

(** janet.py:331-373 draw(r, n1, s) from index i on *)
Definition py_edge (n1 : option string) (n2 s : string) : list call * string :=
  match n1 with Some p => ([CNew p n2 s], "solid") | None => ([], s) end.
Fixpoint py_draw_row (o : py_order) (level : nat) (r : arow) (i : nat) (n1 : option string) (s : string) : list call :=
  match r with
  | ANone => []
  | AWrap id w r' =>
      let n2 := n_text id in
      let (e, s') := py_edge n1 n2 s in
      (CNode n2 (Look (Some (py_label o level w)) (Some "plaintext") None) :: e ++ py_draw_row o level r' (S i) (Some n2) s')%list
  | AList id inner r' =>
      match inner with
      | ANone => py_draw_row o level r' (S i) n1 s
      | _ =>
          let n2 := n_text id in
          let (e, s') := py_edge n1 n2 s in
          (CNode n2 (Look (Some (n_text i)) (Some "plaintext") None) :: e ++
           py_draw_row o level inner 0 (Some n2) "dotted" ++ py_draw_row o level r' (S i) (Some n2) s')%list
      end
  end.
(** deg: the largest degree of a Wrap that was drawn *)
Fixpoint py_row_deg (r : arow) (d : nat) : nat :=
  match r with ANone => d | AWrap _ w r' => py_row_deg r' (Nat.max d (w_degree w)) | AList _ inner r' => py_row_deg r' (py_row_deg inner d) end.
(** janet.py:374-380 *)
Definition py_save_image (o : py_order) (level : nat) (count : Z) (hp_str : string) (r : arow) : graph :=
  do_calls (py_draw_row o level r 0 None "solid" ++
            [CNode "mark" (Look (Some ("<<B>#Janet = " ++ z_text count ++ "<BR/>HP_{" ++ n_text (py_row_deg r 0) ++ "} = " ++ hp_str ++ "</B>>")) (Some "plaintext") None)])
           no_graph.
