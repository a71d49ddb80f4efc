(** Model of class Poly of pyginv/polynomial.py 5-361 with coefficients from any domain (rational numbers, sympy
    expressions), and of class PolySchem (495-537; linear difference schemes), which inherits everything from Poly but
    its texts.  The coefficients are the record [coefs] of PyDiffModel.v; __add__, __neg__, reduction and redRat are
    modelled there, __mul__ in PyReadModel.v.  Values of objects only. *)
From Coq Require Import ZArith List Bool Arith.
From Verif Require Import Outcome MonomModel PyMonomModel PyDiffModel PyReadModel.
Import ListNotations.
Local Open Scope Z_scope.

Section Gen.
Variable C : coefs.
Notation term := (monom * ck C)%type.
Notation dpoly := (list term).

(** polynomial.py:119-140: the loops of __sub__ *)
Fixpoint sp_sub_merge (o : py_order) (p : dpoly) : dpoly -> dpoly :=
  match p with
  | [] => fun q => dp_neg C q
  | (m, k) :: p' =>
      fix go (q : dpoly) : dpoly :=
        match q with
        | [] => (m, k) :: p'
        | (u, d) :: q' =>
            let c := py_cmp o m u in
            if 0 <? c then (m, k) :: sp_sub_merge o p' q
            else if c <? 0 then (u, c_neg C d) :: go q'
            else let s := c_add C k (c_neg C d) in
                 if c_is0 C s then sp_sub_merge o p' q' else (m, s) :: sp_sub_merge o p' q'
        end
  end.
(** polynomial.py:112-142 __sub__ *)
Definition sp_sub (o : py_order) (p q : dpoly) : outcome dpoly := dp_checked C o (sp_sub_merge o p q).

(** polynomial.py:188-193 prolong *)
Fixpoint sp_prolong_loop (p : dpoly) (v : nat) : outcome dpoly :=
  match p with
  | [] => Ok []
  | (m, k) :: p' => do m' <- py_prolong m v; do r <- sp_prolong_loop p' v; Ok ((m', k) :: r)
  end.
Definition sp_prolong (o : py_order) (p : dpoly) (v : nat) : outcome dpoly := do r <- sp_prolong_loop p v; dp_checked C o r.

(** polynomial.py:195-202 diff: the coefficients are differentiated *)
Fixpoint sp_diff_loop (p : dpoly) (v : nat) : dpoly :=
  match p with
  | [] => []
  | (m, k) :: p' => if c_is0 C (c_der C v k) then sp_diff_loop p' v else (m, c_der C v k) :: sp_diff_loop p' v
  end.
Definition sp_diff (o : py_order) (p : dpoly) (v : nat) : outcome dpoly := dp_checked C o (sp_diff_loop p v).

(** polynomial.py:204-210 mult *)
Fixpoint sp_mult_loop (m1 : monom) (k1 : ck C) (p : dpoly) : outcome dpoly :=
  match p with
  | [] => Ok []
  | (m2, k2) :: p' => do m <- py_mul m1 m2; do r <- sp_mult_loop m1 k1 p'; Ok ((m, c_mul C k1 k2) :: r)
  end.
Definition sp_mult (o : py_order) (p : dpoly) (m1 : monom) (k1 : ck C) : outcome dpoly :=
  assert_ true (negb (c_is0 C k1)) (do r <- sp_mult_loop m1 k1 p; dp_checked C o r).

(** polynomial.py:172-176 __truediv__ by a coefficient *)
Definition sp_truediv (p : dpoly) (c : ck C) : dpoly := map (fun x => (fst x, c_quo C (snd x) c)) p.
(** polynomial.py:169-170 __rtruediv__: what Python calls for c / p *)
Definition sp_rtruediv (p : dpoly) (c : ck C) : dpoly := sp_truediv p c.

(** polynomial.py:178-186 __pow__ *)
Fixpoint sp_power_loop (o : py_order) (p : dpoly) (j : nat) (r : dpoly) : outcome dpoly :=
  match j with
  | O => Ok r
  | S j' => do r' <- dp_times C o r p; sp_power_loop o p j' r'
  end.
Definition sp_power (o : py_order) (n : nat) (p : dpoly) (j : Z) : outcome dpoly :=
  assert_ true (0 <=? j)
    (if j =? 0 then Ok (dp_of_coef C n (c_one C)) else sp_power_loop o p (Z.to_nat j - 1) p).

(** polynomial.py:310-318 reduce *)
Fixpoint sp_seek (o : py_order) (lm : monom) (p : dpoly) : nat :=
  match p with
  | [] => 0%nat
  | (m, _) :: p' => if 0 <? py_cmp o m lm then S (sp_seek o lm p') else 0%nat
  end.
Definition sp_reduce (o : py_order) (p q : dpoly) : outcome dpoly :=
  match p, q with
  | _ :: _, (lm, _) :: _ =>
      let i := sp_seek o lm p in
      match nth_error p i with
      | Some (m, _) => if py_cmp o m lm =? 0 then dp_reduction C o p i q else Ok p
      | None => Ok p
      end
  | _, _ => AssertFail
  end.

(** polynomial.py:320-326 NFhead *)
Fixpoint sp_nfhead (fuel : nat) (o : py_order) (find : monom -> outcome (option dpoly)) (p : dpoly) : outcome dpoly :=
  match fuel with
  | O => OutOfFuel
  | S fuel =>
      match p with
      | [] => Ok []
      | (m, _) :: _ =>
          do w <- find m;
          match dp_truthy C w with
          | Some q => do p' <- dp_reduction C o p 0 q; sp_nfhead fuel o find p'
          | None => Ok p
          end
      end
  end.
(** The loop of NFtail (330-336, from position 1, reduction) and of NF (339-346, from position 0, redRat) *)
Fixpoint sp_loop (fuel : nat) (red : dpoly -> nat -> dpoly -> outcome dpoly)
    (find : monom -> outcome (option dpoly)) (i : nat) (p : dpoly) : outcome dpoly :=
  match fuel with
  | O => OutOfFuel
  | S fuel =>
      match nth_error p i with
      | None => Ok p
      | Some (m, _) =>
          do w <- find m;
          match dp_truthy C w with
          | Some q => do p' <- red p i q; sp_loop fuel red find i p'
          | None => sp_loop fuel red find (S i) p
          end
      end
  end.
(** polynomial.py:328-336 NFtail *)
Definition sp_nftail (fuel : nat) (o : py_order) (find : monom -> outcome (option dpoly)) (p : dpoly) : outcome dpoly :=
  match p with [] => AssertFail | _ => sp_loop fuel (dp_reduction C o) find 1 p end.
(** polynomial.py:338-347 NF *)
Definition sp_nf (fuel : nat) (o : py_order) (find : monom -> outcome (option dpoly)) (p : dpoly) : outcome dpoly :=
  sp_loop fuel (dp_redrat C o) find 0 p.

(** polynomial.py:349-354 S *)
Definition sp_S (o : py_order) (p q : dpoly) : outcome dpoly :=
  match p, q with
  | (u, c) :: _, (v, d) :: _ =>
      assert_ true (pos u =? pos v)
        (do m <- py_lcm u v;
         let (a, b) := c_split C c d in
         do mu <- py_div m u; do p' <- sp_mult o p mu b;
         do mv <- py_div m v; do q' <- sp_mult o q mv a;
         sp_sub o p' q')
  | _, _ => AssertFail
  end.

(** polynomial.py:507-520 PolySchem.T(f, v1, d1, v2, ...): line by line the code of PolyDiff.df *)
Definition sp_T := dp_df C.
End Gen.
