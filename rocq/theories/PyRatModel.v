(** Model of Poly.cancel and Poly.pp of pyginv/polynomial.py 212-233 for rational coefficients (sympy.Rational).
    Rational numbers are in lowest terms (Qc of the standard library), as in sympy.  Definitions only. *)
From Coq Require Import ZArith QArith Qcanon List Bool Arith.
From Verif Require Import Outcome MonomModel PyMonomModel.
Import ListNotations.
Local Open Scope Z_scope.

Definition rpoly : Type := list (monom * Qc).
Definition zc (z : Z) : Qc := Q2Qc (inject_Z z).
Definition r_num (c : Qc) : Z := Qnum (this c).
(** sympy.fraction(c)[1] *)
Definition r_den (c : Qc) : Z := Zpos (Qden (this c)).
(** sympy.gcd of rational numbers: the gcd of the numerators over the lcm of the denominators (Field.gcd of
    sympy.polys.domains), never negative. *)
Definition r_gcd (a b : Qc) : Qc := Q2Qc (Qmake (Z.gcd (r_num a) (r_num b)) (Z.to_pos (Z.lcm (r_den a) (r_den b)))).

(** polynomial.py:356-361 assertValid *)
Fixpoint rp_valid (o : py_order) (p : rpoly) : bool :=
  match p with
  | [] => true
  | (m, k) :: p' =>
      negb (Qc_eq_bool k 0%Qc) && match p' with [] => true | (m', _) :: _ => negb (py_cmp o m m' <=? 0) end && rp_valid o p'
  end.
Definition rp_checked (o : py_order) (p : rpoly) : outcome rpoly := assert_ true (rp_valid o p) (Ok p).

(** polynomial.py:214-216 *)
Definition rp_lcm (l : Z) (p : rpoly) : Z := fold_left (fun l x => Z.lcm l (r_den (snd x))) p l.
(** polynomial.py:212-219 cancel; cancel(c) of sympy does nothing to numbers. *)
Definition rp_cancel (o : py_order) (p : rpoly) : outcome rpoly :=
  match p with
  | [] => AssertFail
  | (_, k) :: p' => let l := rp_lcm (r_den k) p' in rp_checked o (map (fun x => (fst x, (snd x * zc l)%Qc)) p)
  end.

(** polynomial.py:223-227: None when the loop returns *)
Fixpoint rp_content (g : Qc) (p : rpoly) : option Qc :=
  match p with
  | [] => Some g
  | (_, k) :: p' => if Qc_eq_bool g 1%Qc then None else rp_content (r_gcd g k) p'
  end.
(** polynomial.py:221-233 pp *)
Definition rp_pp (o : py_order) (p : rpoly) : outcome rpoly :=
  match p with
  | [] => AssertFail
  | (_, k) :: p' =>
      match rp_content k p' with
      | None => Ok p
      | Some g => rp_checked o (map (fun x => (fst x, (snd x / g)%Qc)) p)
      end
  end.
