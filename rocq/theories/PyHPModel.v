(** Model of CombRepet, HilbertPoly and Janet.HP of pyginv/janet.py.  Rational numbers of sympy are exact: Q, up to [==].
    The class-level dictionary of CombRepet is left out: __new__ returns a fresh list in every case and __init__ fills it. *)
From Coq Require Import ZArith List Bool Arith QArith.
From Verif Require Import Outcome MonomModel PyJanetModel.
Import ListNotations.

(** janet.py:122-127: the body of the loop: [a0; a1 + b0; ...; am + b(m-1); bm] *)
Fixpoint add_shifted (a b : list Q) (carry : Q) : list Q :=
  match a, b with
  | x :: a', y :: b' => (x + carry)%Q :: add_shifted a' b' y
  | _, _ => [carry]
  end.
Definition comb_step (n : nat) (d : Z) (l : list Q) (i : nat) : list Q :=
  let k := ((Z.of_nat n - Z.of_nat i - d) # Pos.of_nat i)%Q in
  match map (fun p => (p * k)%Q) l, map (fun p => (p / inject_Z (Z.of_nat i))%Q) l with
  | x :: a', y :: b' => x :: add_shifted a' b' y
  | _, _ => []
  end.
(** janet.py:117-127 CombRepet(n, d) *)
Definition comb_repet (n d : Z) : outcome (list Q) :=
  assert_ true (0 <=? n)%Z (Ok (fold_left (comb_step (Z.to_nat n) d) (seq 1 (Z.to_nat n - 1)) [1%Q])).
(** janet.py:130-131, 160-161 subs *)
Fixpoint qpow (s : Q) (i : nat) : Q := match i with O => 1%Q | S i' => (s * qpow s i')%Q end.
Definition py_subs (l : list Q) (s : Q) : Q :=
  fold_left (fun a x => (a + snd x * qpow s (fst x))%Q) (combine (seq 0 (length l)) l) 0%Q.
(** janet.py:134-140 HilbertPoly(n, init) *)
Definition hilbert_poly (n : Z) (init : bool) : outcome (list Q) :=
  assert_ true (0 <? n)%Z (if init then comb_repet (n + 1) 0 else Ok (repeat 0%Q (Z.to_nat (n + 1)))).
(** janet.py:142-147 __isub__, 149-154 __iadd__ *)
Fixpoint sub_prefix (a b : list Q) : list Q :=
  match a, b with
  | x :: a', y :: b' => (x - y)%Q :: sub_prefix a' b'
  | _, _ => a
  end.
Definition hilbert_sub (a b : list Q) : outcome (list Q) := assert_ true (Nat.leb (length b) (length a)) (Ok (sub_prefix a b)).
Definition hilbert_add (a b : list Q) : outcome (list Q) :=
  assert_ true (Nat.eqb (length a) (length b)) (Ok (map (fun p => (fst p + snd p)%Q) (combine a b))).

(** janet.py:315-319 HP; [n]: the number of variables *)
Fixpoint hp_loop (ws : list pwrap) (h : list Q) : outcome (list Q) :=
  match ws with
  | [] => Ok h
  | w :: ws' =>
      do c <- comb_repet (Z.of_nat (w_multi w) + 1) (Z.of_nat (w_degree w));
      do h' <- hilbert_sub h c;
      hp_loop ws' h'
  end.
Definition pj_HP (n : nat) (J : pjanet) : outcome (list Q) :=
  do h <- hilbert_poly (Z.of_nat n) true; hp_loop (relems (pj_root J)) h.
