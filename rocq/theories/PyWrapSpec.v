(** Vocabulary for the properties of the Wraps of pyginv. *)
From Coq Require Import ZArith List.
From Verif Require Import Outcome MonomModel MonomSpec PyMonomModel PyMonomSpec PyPolyModel PyPolySpec PyJanetModel PyJanetSpec PyQueueModel.
Import ListNotations.

(** Wraps over n variables and k unknown functions obtained from valid polynomials by the operations of class Wrap, by the
    marks set in a Janet tree, and by changing the polynomial followed by update() or keeping the leading monomial. *)
Inductive wrap_made (o : py_order) (n : nat) (k : Z) : pwrap -> Prop :=
| made_poly : forall id p w, py_canonical o n k p -> w_of_poly id p = Ok w -> wrap_made o n k w
| made_prolong : forall id w v x w', wrap_made o n k w -> w_of_prolong o id w v = Ok (x, w') -> wrap_made o n k x
| made_marked : forall id w v x w', wrap_made o n k w -> w_of_prolong o id w v = Ok (x, w') -> wrap_made o n k w'
| made_nonmult : forall w v b, wrap_made o n k w -> wrap_made o n k (set_nonmult v b w)
| made_update : forall w p w', wrap_made o n k w -> py_canonical o n k p -> w_update o (set_poly w p) = Ok w' -> wrap_made o n k w'
| made_tail : forall w c p, wrap_made o n k w -> py_canonical o n k ((pw_lm w, c) :: p) -> wrap_made o n k (set_poly w ((pw_lm w, c) :: p))
| made_refresh : forall w v v', wrap_made o n k w -> wrap_made o n k v -> w_refresh o w v = Ok v' -> wrap_made o n k v'.
