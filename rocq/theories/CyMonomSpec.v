(** What a Python monomial object is supposed to be: a position (-1 for a monomial of the ring) and a list of
    exponents.  Only the record of the C++ object and the notion of a valid one (MonomSpec.v) are used. *)
From Coq Require Import ZArith List Bool.
From Verif Require Import Outcome MonomModel MonomSpec CyMonomModel.
Import ListNotations.
Local Open Scope Z_scope.

(** x holds a valid C++ object with position p and exponents e. *)
Definition shows (x : mobj) (p : Z) (e : list Z) : Prop :=
  exists c, ptr x = Some c /\ cvalid (length e) c /\ cpos c = p /\ cvars c = e.
(** r returns a new monom object with position p and exponents e. *)
Definition makes (r : pyo mobj) (p : Z) (e : list Z) : Prop := exists x, r = Ok (Ret x) /\ owner x = true /\ shows x p e.
Definition raises {A} (r : pyo A) (e : exn) : Prop := r = Ok (Raises e).

Definition sum (e : list Z) : Z := fold_right Z.add 0 e.
Definition pairwise (f : Z -> Z -> Z) (a b : list Z) : list Z := map (fun xy => f (fst xy) (snd xy)) (combine a b).
(** The exponents of the variable number v among n. *)
Definition unit_at (v n : nat) : list Z := map (fun i => if Nat.eqb i v then 1 else 0) (seq 0 n).
(** As exponent vectors of MonomSpec. *)
Definition nats (e : list Z) : list nat := map Z.to_nat e.
(** The monomial (q, f) divides the monomial (p, e). *)
Definition divides (q : Z) (f : list Z) (p : Z) (e : list Z) : Prop := (q = -1 \/ q = p) /\ Forall2 Z.le f e.
