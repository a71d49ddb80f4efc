(** Model of util/hilbertpoly.h, util/hilbertpoly.cpp and of Janet::buildHP (ginv/janet.cpp:114-132, ginv/janet.h:145-150).
    Definitions only.

    A GMP rational is a pair numerator / denominator, here Q of the standard library.  mpq_add, mpq_sub and mpq_mul
    return the canonical form for canonical operands; [binomial] passes them operands that are not canonical, such as
    (a-(p-1))/p from mpq_set_si, for which GMP promises the value but not the form.  So inside [binomial] the form is left
    as it comes ([Qmult], [Qplus]) up to the final mpq_canonicalize, and only there. *)
From Coq Require Import ZArith List Bool Arith QArith.
From Verif Require Import Outcome MonomModel JanetModel.
Import ListNotations.
Local Open Scope nat_scope.

(** mCoeff[0..mDim-1]; no array (mDim = 0) is [] *)
Definition hp : Type := list Q.
(** hilbertpoly.h:38-41 HilbertPoly() *)
Definition hp_none : hp := [].
(** hilbertpoly.h:43-48 HilbertPoly(dim), 55-61 setDim; mpq_init makes 0/1.  setDim on an object that has an array leaks it. *)
Definition hp_new (dim : nat) : hp := repeat 0%Q (S dim).
Definition hp_setDim (dbg : bool) (h : hp) (dim : nat) : outcome hp :=
  assert_ dbg (match h with [] => true | _ => false end) (Ok (hp_new dim)).
(** hilbertpoly.h:63 dim *)
Definition hp_dim (h : hp) : Z := (Z.of_nat (length h) - 1)%Z.
(** hilbertpoly.h:64-67 isZero; the assert lets k = mDim pass *)
Definition hp_isZero (dbg : bool) (h : hp) (k : nat) : outcome bool :=
  assert_ dbg (Nat.leb k (length h))
    (match nth_error h k with Some q => Ok (Z.eqb (Qnum q) 0) | None => Undef end).

(** hilbertpoly.cpp:52-60 add, sub: one loop over mDim; a.mCoeff must be as long *)
Fixpoint hp_zip (f : Q -> Q -> Q) (a b : hp) : outcome hp :=
  match a, b with
  | [], _ => Ok []
  | _ :: _, [] => Undef
  | x :: a', y :: b' => do r <- hp_zip f a' b'; Ok (f x y :: r)
  end.
Definition hp_add (a b : hp) : outcome hp := hp_zip (fun x y => Qred (x + y)) a b.
Definition hp_sub (a b : hp) : outcome hp := hp_zip (fun x y => Qred (x - y)) a b.
(** hilbertpoly.cpp:62-70 mult *)
Definition hp_mult (h : hp) (a : Z) : hp := map (fun x => Qred (x * inject_Z a)) h.

(** hilbertpoly.cpp:92-106, one step p of the loop on the coefficients c[0..p-1]; c[p] is still 0:
    tmp[i] = c[i]/p, then c[i] *= (a-(p-1))/p, then c[i] += tmp[i-1] for 1 <= i <= p. *)
Definition bin_tmp (c : list Q) (p : nat) : list Q := map (fun x => (x * (1 # Pos.of_nat p))%Q) c.
Definition bin_scale (c : list Q) (a : Z) (p : nat) : list Q :=
  map (fun x => (x * ((a - (Z.of_nat p - 1)) # Pos.of_nat p))%Q) c.
Fixpoint add_lists (a b : list Q) : list Q :=
  match a, b with
  | x :: a', y :: b' => (x + y)%Q :: add_lists a' b'
  | a, [] => a
  | [], b => b
  end.
Definition bin_step (c : list Q) (a : Z) (p : nat) : list Q :=
  add_lists (bin_scale c a p ++ [0%Q]) (0%Q :: bin_tmp c p).
(** p runs from 2 to b, [k] steps are left *)
Fixpoint bin_loop (k p : nat) (a : Z) (c : list Q) : list Q :=
  match k with O => c | S k' => bin_loop k' (S p) a (bin_step c a p) end.
(** hilbertpoly.cpp:72-114 binomial(a, b).  The coefficients 0..b are written, so b must be below mDim. *)
Definition hp_binomial (h : hp) (a : Z) (b : nat) : outcome hp :=
  if Nat.ltb b (length h) then
    Ok (map Qred
      (match b with
       | O => [1%Q]
       | S b' => bin_loop b' 2 a [inject_Z a; 1%Q]
       end ++ repeat 0%Q (length h - S b)))
  else Undef.

(** janet.cpp:114-132 *)
Definition build_one (dbg : bool) (w : wrap) (s : hp * hp) : outcome (hp * hp) :=
  let (h, t) := s in
  do s1 <- (match h with
            | [] => let d := size (wlm w) in
                    do h0 <- hp_setDim dbg h d; do h1 <- hp_binomial h0 (Z.of_nat d) d;
                    do t1 <- hp_setDim dbg t d; Ok (h1, t1)
            | _ => Ok (h, t)
            end);
  let (h1, t1) := s1 in
  let m := multi w in
  do t2 <- hp_binomial t1 (Z.of_nat m - Z.of_nat (deg (wlm w))) m;
  do h2 <- hp_sub h1 t2;
  Ok (h2, t2).
Fixpoint build_hp_tree (dbg : bool) (t : tree) (s : hp * hp) : outcome (hp * hp) :=
  match t with
  | Nil => Ok s
  | Node _ ow nd nv =>
      do s1 <- (match ow with Some w => build_one dbg w s | None => Ok s end);
      do s2 <- build_hp_tree dbg nv s1;
      build_hp_tree dbg nd s2
  end.
(** janet.h:145-150; without asserts an empty tree leaves hp without coefficients *)
Definition build_hp (dbg : bool) (J : janet) (h : hp) : outcome hp :=
  assert_ dbg (match h with [] => true | _ => false end && negb (is_nil (jroot J)))
    (do s <- build_hp_tree dbg (jroot J) (h, hp_none); Ok (fst s)).
