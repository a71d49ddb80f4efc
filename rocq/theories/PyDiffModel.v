(** Model of class PolyDiff of pyginv/polynomial.py 363-493 (linear differential polynomials) and of the methods
    of Poly it inherits, with symbolic coefficients.  The coefficients are sympy expressions; the model takes
    the operations on them as a record.  A term [m, k] is k times the derivative m of an unknown function
    (position >= 0), or the function k itself (the unit monomial).  Values of objects only; sharing is the
    subject of PyHeapModel.v. *)
From Coq Require Import ZArith List Bool Arith.
From Verif Require Import Outcome MonomModel PyMonomModel.
Import ListNotations.
Local Open Scope Z_scope.

(** sympy's operations: +, *, -, the test for zero (truth value, == S.Zero, after expand/cancel), a/gcd(a, b) and
    b/gcd(a, b), a/b and the derivative with respect to the variable number v. *)
Record coefs : Type := Coefs {
  ck : Type;
  c_zero : ck;
  c_one : ck;
  c_add : ck -> ck -> ck;
  c_mul : ck -> ck -> ck;
  c_neg : ck -> ck;
  c_is0 : ck -> bool;
  c_split : ck -> ck -> ck * ck;
  c_quo : ck -> ck -> ck;
  c_der : nat -> ck -> ck
}.

Section Diff.
Variable C : coefs.
Notation term := (monom * ck C)%type.
Notation dpoly := (list term).

(** polynomial.py:356-361 assertValid *)
Fixpoint dp_valid (o : py_order) (p : dpoly) : bool :=
  match p with
  | [] => true
  | (m, k) :: p' =>
      match p' with
      | [] => negb (c_is0 C k)
      | (m', _) :: _ => negb (c_is0 C k) && negb (py_cmp o m m' <=? 0) && dp_valid o p'
      end
  end.
Definition dp_checked (o : py_order) (p : dpoly) : outcome dpoly := assert_ true (dp_valid o p) (Ok p).

(** polynomial.py:20-34: PolyDiff(m), PolyDiff(c) *)
Definition dp_of_monom (m : monom) : dpoly := [(m, c_one C)].
Definition dp_of_coef (n : nat) (c : ck C) : dpoly := if c_is0 C c then [] else [(py_unit n, c)].

(** polynomial.py:68-72 __neg__ *)
Definition dp_neg (p : dpoly) : dpoly := map (fun x => (fst x, c_neg C (snd x))) p.

(** polynomial.py:84-105: the loops of __add__ *)
Fixpoint dp_merge (o : py_order) (p : dpoly) : dpoly -> dpoly :=
  match p with
  | [] => fun q => q
  | (m, k) :: p' =>
      fix go (q : dpoly) : dpoly :=
        match q with
        | [] => (m, k) :: p'
        | (u, d) :: q' =>
            let c := py_cmp o m u in
            if 0 <? c then (m, k) :: dp_merge o p' q
            else if c <? 0 then (u, d) :: go q'
            else if c_is0 C (c_add C k d) then dp_merge o p' q' else (m, c_add C k d) :: dp_merge o p' q'
        end
  end.
(** polynomial.py:77-107 __add__ *)
Definition dp_add (o : py_order) (p q : dpoly) : outcome dpoly := dp_checked o (dp_merge o p q).

(** polynomial.py:449-451: the first loop of prolong *)
Fixpoint dp_shift (p : dpoly) (v : nat) : outcome dpoly :=
  match p with
  | [] => Ok []
  | (m, k) :: p' =>
      if py_bool m then do m' <- py_prolong m v; do r <- dp_shift p' v; Ok ((m', k) :: r)
      else dp_shift p' v
  end.
(** polynomial.py:452-455: the second loop; PolyDiff.__var[var] raises IndexError if there is no such variable *)
Fixpoint dp_coefs (p : dpoly) (v : nat) : outcome dpoly :=
  match p with
  | [] => Ok []
  | (m, k) :: p' =>
      if Nat.ltb v (length (vars m)) then
        do r <- dp_coefs p' v;
        Ok (if c_is0 C (c_der C v k) then r else (m, c_der C v k) :: r)
      else Undef
  end.
(** polynomial.py:447-456 prolong *)
Definition dp_prolong (o : py_order) (p : dpoly) (v : nat) : outcome dpoly :=
  do p1 <- dp_shift p v; do p2 <- dp_coefs p v; dp_add o p1 p2.

(** polynomial.py:463-464, 475-476, 488-489: for df in m2.expand(): p = p.prolong(df) *)
Fixpoint dp_prolongs (o : py_order) (l : list nat) (p : dpoly) : outcome dpoly :=
  match l with
  | [] => Ok p
  | v :: l' => do p' <- dp_prolong o p v; dp_prolongs o l' p'
  end.

(** polynomial.py:250-275: the loops of reduction after position i; polynomial.py:286-307: those of redRat, where
    k1 is not there *)
Definition opt_mul (k1 : option (ck C)) (k : ck C) : ck C := match k1 with Some c => c_mul C k c | None => k end.
Fixpoint dp_tail (m2 : monom) (k2 : ck C) (q : dpoly) : outcome dpoly :=
  match q with
  | [] => Ok []
  | (u, d) :: q' => do m <- py_mul u m2; do r <- dp_tail m2 k2 q'; Ok ((m, c_mul C d k2) :: r)
  end.
Fixpoint dp_red_merge (o : py_order) (k1 : option (ck C)) (k2 : ck C) (m2 : monom) (p : dpoly) : dpoly -> outcome dpoly :=
  match p with
  | [] => fun q => dp_tail m2 k2 q
  | (m, k) :: p' =>
      fix go (q : dpoly) : outcome dpoly :=
        match q with
        | [] => Ok ((m, opt_mul k1 k) :: map (fun x => (fst x, opt_mul k1 (snd x))) p')
        | (u, d) :: q' =>
            do um <- py_mul u m2;
            let c := py_cmp o m um in
            if 0 <? c then do r <- dp_red_merge o k1 k2 m2 p' q; Ok ((m, opt_mul k1 k) :: r)
            else if c <? 0 then do r <- go q'; Ok ((um, c_mul C d k2) :: r)
            else do r <- dp_red_merge o k1 k2 m2 p' q';
                 let s := c_add C (opt_mul k1 k) (c_mul C d k2) in
                 Ok (if c_is0 C s then r else (m, s) :: r)
        end
  end.
(** polynomial.py:235-276 reduction(i, other) *)
Definition dp_reduction (o : py_order) (p : dpoly) (i : nat) (q : dpoly) : outcome dpoly :=
  match nth_error p i with
  | None => AssertFail
  | Some (m, k) =>
      match q with
      | [] => Undef
      | (u, d) :: q' =>
          assert_ true (py_divisible m u)
            (let (a, b) := c_split C k d in
             do m2 <- py_div m u;
             do r <- dp_red_merge o (Some b) (c_neg C a) m2 (skipn (S i) p) q';
             dp_checked o (map (fun x => (fst x, c_mul C (snd x) b)) (firstn i p) ++ r))
      end
  end.
(** polynomial.py:278-308 redRat(i, other) *)
Definition dp_redrat (o : py_order) (p : dpoly) (i : nat) (q : dpoly) : outcome dpoly :=
  match nth_error p i with
  | None => AssertFail
  | Some (m, k) =>
      match q with
      | [] => Undef
      | (u, d) :: q' =>
          assert_ true (py_divisible m u)
            (do m2 <- py_div m u;
             do r <- dp_red_merge o None (c_neg C (c_quo C k d)) m2 (skipn (S i) p) q';
             dp_checked o (firstn i p ++ r))
      end
  end.

(** polynomial.py:462-465, 474-477, 487-490: the reducer p brought to the monomial m; p[0] exists *)
Definition dp_raise (o : py_order) (m : monom) (q : dpoly) : outcome dpoly :=
  match q with
  | [] => Undef
  | (u, _) :: _ => do m2 <- py_div m u; dp_prolongs o (py_expand m2) q
  end.

(** polynomial.py:458-467 NFhead; [find] is pset.find; the test is on the truth of a list *)
Definition dp_truthy (q : option dpoly) : option dpoly := match q with Some [] => None | _ => q end.
Fixpoint dp_nfhead (fuel : nat) (o : py_order) (find : monom -> outcome (option dpoly)) (p : dpoly) : outcome dpoly :=
  match fuel with
  | O => OutOfFuel
  | S fuel =>
      match p with
      | [] => Ok []
      | (m, _) :: _ =>
          do w <- find m;
          match dp_truthy w with
          | Some q => do q' <- dp_raise o m q; do p' <- dp_reduction o p 0 q'; dp_nfhead fuel o find p'
          | None => Ok p
          end
      end
  end.

(** The loop of NFtail (polynomial.py:471-480, from position 1) and of NF (482-493, from position 0); [red] is
    reduction or redRat. *)
Fixpoint dp_loop (fuel : nat) (o : py_order) (red : dpoly -> nat -> dpoly -> outcome dpoly)
    (find : monom -> outcome (option dpoly)) (i : nat) (p : dpoly) : outcome dpoly :=
  match fuel with
  | O => OutOfFuel
  | S fuel =>
      match nth_error p i with
      | None => Ok p
      | Some (m, _) =>
          do w <- find m;
          match dp_truthy w with
          | Some q => do q' <- dp_raise o m q; do p' <- red p i q'; dp_loop fuel o red find i p'
          | None => dp_loop fuel o red find (S i) p
          end
      end
  end.
(** polynomial.py:469-480 NFtail *)
Definition dp_nftail (fuel : nat) (o : py_order) (find : monom -> outcome (option dpoly)) (p : dpoly) : outcome dpoly :=
  match p with [] => AssertFail | _ => dp_loop fuel o (dp_reduction o) find 1 p end.
(** polynomial.py:482-493 NF *)
Definition dp_nf (fuel : nat) (o : py_order) (find : monom -> outcome (option dpoly)) (p : dpoly) : outcome dpoly :=
  dp_loop fuel o (dp_redrat o) find 0 p.

(** polynomial.py:57-59 find: a polynomial as a set of one *)
Definition dp_find (p : dpoly) (m : monom) : outcome (option dpoly) :=
  match p with
  | [] => AssertFail
  | (u, _) :: _ => Ok (if py_divisible m u then Some p else None)
  end.

(** polynomial.py:376-388 df(f, v1, d1, v2, ...): after the function come variables, each one with or without a
    number.  An argument that is not a variable where one is expected fails the assert in line 380; a negative
    exponent fails the one in Monom.__init__ (monomial.py:45). *)
Inductive df_arg := AVar (v : nat) | AInt (d : Z).
Fixpoint add_at (v : nat) (d : Z) (l : list Z) : list Z :=
  match l, v with
  | [], _ => []
  | x :: l', O => (x + d) :: l'
  | x :: l', S v' => x :: add_at v' d l'
  end.
Fixpoint dp_df_loop (n : nat) (args : list df_arg) (m : list Z) : outcome (list Z) :=
  match args with
  | [] => Ok m
  | AInt _ :: _ => AssertFail
  | AVar v :: args' =>
      assert_ true (Nat.ltb v n)
        match args' with
        | AInt d :: args'' => dp_df_loop n args'' (add_at v d m)
        | _ => dp_df_loop n args' (add_at v 1 m)
        end
  end.
Definition dp_df (n : nat) (k p : Z) (args : list df_arg) : outcome dpoly :=
  assert_ true ((0 <=? p) && (p <? k))
    (do m <- dp_df_loop n args (repeat 0 n);
     assert_ true (forallb (fun x => 0 <=? x) m) (Ok (dp_of_monom (Mon p (map Z.to_nat m))))).
End Diff.
