(** What Boolean monomials and polynomials mean, for the statements about bmonom and bpoly. *)
From Coq Require Import ZArith List Bool Arith Sorted.
From Verif Require Import Outcome BoolModel.
Import ListNotations.
Local Open Scope Z_scope.

(** A monomial is a finite set of variables, written as a strictly decreasing list. *)
Definition decreasing (l : list Z) : Prop := StronglySorted Z.gt l.
(** The object [m] shows the set [l]: degree() and operator[] say so, and the array is large enough. *)
Definition shows (m : BM) (l : list Z) : Prop :=
  decreasing l /\ bm_degree m = length l /\ (bm_degree m <= bsize m)%nat /\
  forall (i : nat) (x : Z), nth_error l i = Some x -> bm_get true m i = Ok x.

(** The order of monomials: first the number of variables; then that monomial is smaller which has the least variable
    the two do not share. *)
Definition larger (a b : list Z) : Prop :=
  (length b < length a)%nat \/
  length a = length b /\ exists v, In v b /\ ~ In v a /\ forall u, u < v -> (In u a <-> In u b).

(** A polynomial is a sum over GF(2); canonical if its monomials are strictly decreasing. *)
Definition canon (ls : list (list Z)) : Prop := StronglySorted larger ls.
Definition polys (p : BP) (ls : list (list Z)) : Prop := Forall2 shows p ls.

(** Values under an assignment of 0/1 to the variables. *)
Definition mval (s : Z -> bool) (l : list Z) : bool := forallb s l.
Fixpoint pval (s : Z -> bool) (ls : list (list Z)) : bool :=
  match ls with [] => false | l :: t => xorb (mval s l) (pval s t) end.

(** [p] is the polynomial whose value under every assignment is [f]; its monomials are strictly decreasing. *)
Definition means (p : BP) (f : (Z -> bool) -> bool) : Prop :=
  exists ls, polys p ls /\ canon ls /\ forall s, pval s ls = f s.

(** A set [G] of polynomials as seen by find: what it returns is in [G], not zero, and its first monomial divides. *)
Definition finds (a : finder) (G : BP -> Prop) : Prop :=
  (forall f, G f -> exists ls, polys f ls /\ canon ls) /\
  forall m l f, shows m l -> a m = Some f ->
    G f /\ exists h t lh, f = h :: t /\ shows h lh /\ incl lh l.
(** an assignment under which all of [G] vanish *)
Definition zero_of (s : Z -> bool) (G : BP -> Prop) : Prop :=
  forall f ls, G f -> polys f ls -> pval s ls = false.
(** all variables are at least [lo] *)
Definition bounded (lo : Z) (ls : list (list Z)) : Prop := forall l, In l ls -> forall x, In x l -> lo <= x.
