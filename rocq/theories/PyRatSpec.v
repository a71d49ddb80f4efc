(** Contents and primitive polynomials over the rational numbers. *)
From Coq Require Import ZArith QArith Qcanon List Bool Arith Sorted.
From Verif Require Import Outcome MonomModel MonomSpec PyMonomModel PyMonomSpec PyRatModel.
Import ListNotations.
Local Open Scope Z_scope.

(** A valid polynomial over n variables and k unknown functions *)
Definition rp_canonical (o : py_order) (n : nat) (k : Z) (p : rpoly) : Prop :=
  StronglySorted (fun x y => py_greater o (fst x) (fst y)) p /\ Forall (fun x => pmono n k (fst x)) p /\ Forall (fun x => snd x <> 0%Qc) p.
Definition coefficients (p : rpoly) : list Qc := map snd p.
Definition integer (c : Qc) : Prop := exists z, c = zc z.
(** c is an integer times g. *)
Definition multiple (g c : Qc) : Prop := exists z, c = (g * zc z)%Qc.
(** g is a greatest common divisor of the rational numbers cs: they are multiples of g, and g is a multiple of every number
    of which they are multiples. *)
Definition content (g : Qc) (cs : list Qc) : Prop :=
  (forall c, In c cs -> multiple g c) /\ forall h, (forall c, In c cs -> multiple h c) -> multiple h g.
(** Integer coefficients without common divisor *)
Definition primitive_q (p : rpoly) : Prop := content 1%Qc (coefficients p).
(** r is p with all coefficients multiplied by c. *)
Definition times (c : Qc) (p r : rpoly) : Prop := r = map (fun x => (fst x, (snd x * c)%Qc)) p.
(** Coefficients without common divisor (the first one, if it is 1, or the first two or more) are followed by a fraction. *)
Definition too_early (cs : list Qc) : Prop := exists a b, cs = a ++ b /\ content 1%Qc a /\ (a = [1%Qc] \/ (2 <= length a)%nat) /\ exists c, In c b /\ ~ integer c.
