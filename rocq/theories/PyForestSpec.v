(** Vocabulary for class Forest of pyginv. *)
From Coq Require Import ZArith List Bool.
From Verif Require Import Outcome MonomModel PyMonomModel PyPolyModel PyJanetModel PyJanetSpec PyForestModel.
Import ListNotations.

(** exponents of the leading monomials with unknown function p *)
Definition component (F : pforest) (p : Z) : list (list nat) :=
  map exps (filter (fun w => Z.eqb (pos (pw_lm w)) p) (pf_elems F)).

(** Forests of k unknown functions obtained by calls of insert (with fresh Wraps whose leading monomial has an
    unknown function) and of the methods prolong* *)
Inductive fbuilt (n k : nat) : pforest -> Prop :=
| fbuilt_new : forall F, pf_new k = Ok F -> fbuilt n k F
| fbuilt_insert : forall F q F' lst, fbuilt n k F -> Forall (fun w => clean n w /\ (0 <= pos (pw_lm w))%Z) q -> pf_insert F q = Ok (F', lst) -> fbuilt n k F'
| fbuilt_prolong : forall o take F id F' new id', fbuilt n k F -> pf_prolongs (pj_prolongs o take) F id = Ok (F', new, id') -> fbuilt n k F'.

(** The result of a prolong method of the forest F when id is the next free number *)
Definition fprolongation (o : py_order) (n k : nat) (kz : Z) (F : pforest) (id : nat) (sel : pwrap -> nat -> Prop) (r : outcome (pforest * list pwrap * nat)) : Prop :=
  exists F' new, r = Ok (F', new, (id + length new)%nat) /\ fbuilt n k F' /\ prolong_step o n kz id sel (pf_elems F) (pf_elems F') new.

(** the number of trees HP(verge) takes into account *)
Definition upto (k : nat) (verge : Z) : nat := if ((0 <=? verge) && (verge <? Z.of_nat k))%Z then Z.to_nat verge else k.
