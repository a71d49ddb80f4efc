(** Homogeneous polynomials. *)
From Coq Require Import ZArith List.
From Verif Require Import MonomModel MonomSpec PolyModel.
Import ListNotations.

(** All terms of p have the same total degree. *)
Definition homogeneous (p : poly) : Prop := exists d, forall m c, In (m, c) (terms p) -> total (vars m) = d.
