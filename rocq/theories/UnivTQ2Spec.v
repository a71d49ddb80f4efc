(** An element of least degree, in one variable. *)
From Coq Require Import List Arith.
From Verif Require Import MonomModel MonomSpec PolyModel PolySpec JanetModel JanetSpec JanetPolySpec.

Definition least_of (B : list poly) (g : poly) : Prop := In g B /\ forall b, In b B -> expo (lead g) 0 <= expo (lead b) 0.
