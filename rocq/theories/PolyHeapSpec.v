(** Pointers to term objects and their values. *)
From Coq Require Import ZArith List.
From Verif Require Import PolyModel PolyHeapModel.
Import ListNotations.

(** the pointers ps point at live objects with values ts *)
Definition values (h : pmem) (ps : list nat) (ts : list term) : Prop :=
  Forall2 (fun n t => nth_error (objs h) n = Some (Some t)) ps ts.

(** The objects o' after an operation on the polynomial with term objects pl, which then has pl': all others are as
    before, and every live object is one of pl' or of the others (none is lost). *)
Definition kept (o o' : list (option term)) (pl pl' : list nat) : Prop :=
  (forall n x, ~ In n pl -> nth_error o n = Some (Some x) -> nth_error o' n = Some (Some x)) /\
  (forall n x, nth_error o' n = Some (Some x) -> In n pl' \/ ~ In n pl /\ nth_error o n = Some (Some x)).

