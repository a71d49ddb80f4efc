(** One variable: the greatest common divisor. *)
From Coq Require Import ZArith List.
From Verif Require Import MonomModel MonomSpec JanetModel JanetSpec PolyModel PolySpec JanetPolyModel JanetPolySpec.
Import ListNotations.

(** f = h * g for some polynomial h with rational coefficients, in one variable. *)
Definition multiple_of (g f : poly) : Prop := rational_member 1 (among [g]) (terms f).

(** g divides all of F, and every common divisor of F divides g. *)
Definition is_gcd (t : pos_order) (o : base_order) (F : list poly) (g : poly) : Prop :=
  (forall f, In f F -> multiple_of g f) /\
  forall d, ring_input t o 1 d -> (forall f, In f F -> multiple_of d f) -> multiple_of d g.

(** g is the element of least degree of B, which is its first. *)
Definition first_of (B : list poly) (g : poly) : Prop :=
  exists B', B = g :: B' /\ forall b, In b B' -> expo (lead g) 0 < expo (lead b) 0.

(** The completion is finished: either nothing but 0 was pushed and the basis is empty, or the first
    element of the basis is a greatest common divisor of what was pushed. *)
Definition gcd_done (t : pos_order) (o : base_order) (F : list poly) (J : jpoly) : Prop :=
  jq J = [] /\ ((basis J = [] /\ forall f, In f F -> terms f = []) \/ exists g, first_of (basis J) g /\ is_gcd t o F g).
