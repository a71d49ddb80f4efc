(** Model of class JanetCache of pyginv: a Janet tree whose method find prolongs the polynomial it finds, brings its tail
    to normal form and remembers the result. *)
From Coq Require Import ZArith List Bool Arith.
From Verif Require Import Outcome MonomModel PyMonomModel PyPolyModel PyJanetModel PyDiffModel.
Import ListNotations.
Local Open Scope Z_scope.

(** janet.py:386: the dictionary.  Keys are compared with Monom.__eq__ (monomial.py:234-235); Monom.__hash__ agrees with it
    (property C56), so a dictionary is a list of pairs here. *)
Definition pcache := list (monom * ppoly).
(** janet.py:397-398: m in self.cache, self.cache[m] *)
Fixpoint c_get (o : py_order) (m : monom) (c : pcache) : option ppoly :=
  match c with
  | [] => None
  | (u, r) :: c' => if py_eq o u m then Some r else c_get o m c'
  end.
(** janet.py:403: self.cache[m] = r *)
Fixpoint c_set (o : py_order) (m : monom) (r : ppoly) (c : pcache) : pcache :=
  match c with
  | [] => [(m, r)]
  | (u, s) :: c' => if py_eq o u m then (u, r) :: c' else (u, s) :: c_set o m r c'
  end.

(** A method find that also changes the dictionary *)
Definition cfind := pcache -> monom -> outcome (option ppoly * pcache).

(** polynomial.py:320-326 NFhead and 328-336 NFtail, with such a find *)
Fixpoint c_nfhead (fuel : nat) (o : py_order) (find : cfind) (c : pcache) (p : ppoly) : outcome (ppoly * pcache) :=
  match fuel with
  | O => OutOfFuel
  | S fuel =>
      match p with
      | [] => Ok ([], c)
      | (m, _) :: _ =>
          do x <- find c m;
          match truthy (fst x) with
          | Some q => do p' <- py_reduction o p 0 q; c_nfhead fuel o find (snd x) p'
          | None => Ok (p, snd x)
          end
      end
  end.
Fixpoint c_nftail_loop (fuel : nat) (o : py_order) (find : cfind) (i : nat) (c : pcache) (p : ppoly) : outcome (ppoly * pcache) :=
  match fuel with
  | O => OutOfFuel
  | S fuel =>
      match nth_error p i with
      | None => Ok (p, c)
      | Some (m, _) =>
          do x <- find c m;
          match truthy (fst x) with
          | Some q => do p' <- py_reduction o p i q; c_nftail_loop fuel o find i (snd x) p'
          | None => c_nftail_loop fuel o find (S i) (snd x) p
          end
      end
  end.
Definition c_nftail (fuel : nat) (o : py_order) (find : cfind) (c : pcache) (p : ppoly) : outcome (ppoly * pcache) :=
  match p with [] => AssertFail | _ => c_nftail_loop fuel o find 1 c p end.

(** janet.py:388-405 JanetCache.find.  The tree J is only read.  The polynomial taken from the dictionary (line 398) is
    changed in place by NFtail and pp before it is stored again; the nested calls of find ask for monomials smaller than m
    and so do not meet it: it is treated as a value here.  (A Wrap has no __bool__ or __len__, so it counts as true.) *)
Fixpoint jc_find (fuel : nat) (o : py_order) (J : pjanet) (c : pcache) (m : monom) : outcome (option ppoly * pcache) :=
  match fuel with
  | O => OutOfFuel
  | S fuel =>
      do w <- pj_findWrap J m;
      match w with
      | None => Ok (None, c)
      | Some w =>
          do m1 <- py_div m (pw_lm w);
          if py_bool m1
          then
            do r <- match c_get o m c with Some r => Ok r | None => py_mult o (pw_poly w) m1 1 end;
            do x <- c_nftail fuel o (jc_find fuel o J) c r;
            do r' <- py_pp o (fst x);
            Ok (Some r', c_set o m r' (snd x))
          else Ok (Some (pw_poly w), c)
      end
  end.

(** NFhead and NFtail of a Poly called with a JanetCache *)
Definition jc_nfhead (fuel : nat) (o : py_order) (J : pjanet) (c : pcache) (p : ppoly) : outcome (ppoly * pcache) :=
  c_nfhead fuel o (jc_find fuel o J) c p.
Definition jc_nftail (fuel : nat) (o : py_order) (J : pjanet) (c : pcache) (p : ppoly) : outcome (ppoly * pcache) :=
  c_nftail fuel o (jc_find fuel o J) c p.

(** A tree of differential polynomials: polynomial.py:204-210 mult, which PolyDiff inherits, and the polynomial that
    janet.py:393-400 makes from the polynomial p of the Wrap found, for a monomial m not yet in the dictionary. *)
Definition dp_mult (C : coefs) (o : py_order) (p : list (monom * ck C)) (m1 : monom) (k1 : ck C) : outcome (list (monom * ck C)) :=
  assert_ true (negb (c_is0 C k1))
    (do r <- (fix go (q : list (monom * ck C)) : outcome (list (monom * ck C)) :=
                match q with
                | [] => Ok []
                | (m2, k2) :: q' => do m <- py_mul m1 m2; do r <- go q'; Ok ((m, c_mul C k1 k2) :: r)
                end) p;
     dp_checked C o r).
Definition dc_new (C : coefs) (o : py_order) (p : list (monom * ck C)) (m : monom) : outcome (list (monom * ck C)) :=
  match p with
  | [] => Undef
  | (lm, _) :: _ => do m1 <- py_div m lm; dp_mult C o p m1 (c_one C)
  end.
