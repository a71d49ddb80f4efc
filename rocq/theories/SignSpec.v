(** What it means that the result of completion does not depend on how the equations are written: their
    signs, the signs of the variables, their order. *)
From Coq Require Import ZArith List Bool Arith Permutation.
From Verif Require Import Outcome MonomModel MonomSpec PolyModel PolySpec JanetPolyModel TQModel JanetPolySpec.
Import ListNotations.
Local Open Scope Z_scope.

(** The factor of the monomial with exponents v when x_i is replaced by -x_i for every i with [s i]; the
    variables of v are numbered from i on. *)
Fixpoint sign_from (s : nat -> bool) (i : nat) (v : list nat) : Z :=
  match v with
  | [] => 1
  | e :: v' => (if s i && Nat.odd e then -1 else 1) * sign_from s (S i) v'
  end.
Definition sign_of (s : nat -> bool) (v : list nat) : Z := sign_from s 0 v.

(** q is p or -p after that replacement. *)
Definition flips (s : nat -> bool) (p q : poly) : Prop :=
  pto q = pto p /\ pbo q = pbo p /\ psize q = psize p /\
  exists e, (e = 1 \/ e = -1) /\
    terms q = map (fun x => (fst x, e * sign_of s (vars (fst x)) * snd x)) (terms p).

(** An element of a free module over Z[x1..xn]: every monomial has n exponents. *)
Definition sized (n : nat) (p : poly) : Prop := psize p = n /\ Forall (fun x => length (vars (fst x)) = n) (terms p).

(** Two executions end in the same way, with results in relation R if they return. *)
Definition alike {A B} (R : A -> B -> Prop) (x : outcome A) (y : outcome B) : Prop :=
  match x, y with
  | Ok a, Ok b => R a b
  | AssertFail, AssertFail | Undef, Undef | Exit, Exit | OutOfFuel, OutOfFuel => True
  | _, _ => False
  end.

(** Programs on one JanetPolyInt. *)
Inductive jcmd : Type := CPush (a : poly) | CBuild (fuel : nat) | CTQ (one : bool) (fuel : nat).
Definition jstep (dbg : bool) (J : jpoly) (c : jcmd) : outcome jpoly :=
  match c with
  | CPush a => jp_push dbg J a
  | CBuild fuel => jp_build fuel dbg J
  | CTQ one fuel => jp_tq one fuel dbg J
  end.
Fixpoint jrun (dbg : bool) (J : jpoly) (cs : list jcmd) : outcome jpoly :=
  match cs with
  | [] => Ok J
  | c :: cs' => do J' <- jstep dbg J c; jrun dbg J' cs'
  end.

(** The same call, with a polynomial up to signs. *)
Definition cmd_flips (n : nat) (s : nat -> bool) (c d : jcmd) : Prop :=
  match c, d with
  | CPush a, CPush b => sized n a /\ flips s a b
  | CBuild f, CBuild g => f = g
  | CTQ one f, CTQ one' g => one = one' /\ f = g
  | _, _ => False
  end.

(** isOne() *)
Definition is_one (J : jpoly) : bool := match jone J with Some _ => true | None => false end.

(** The leading monomials of the polynomials of a list that are not 0 *)
Definition lead_monomials (l : list poly) : list monom :=
  flat_map (fun p => match terms p with (m, _) :: _ => [m] | [] => [] end) l.
