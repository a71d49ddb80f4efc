(** What the Hilbert polynomial printed by algorithmTQ2 is about. *)
From Coq Require Import List.
Import ListNotations.
From Verif Require Import Outcome MonomModel MonomSpec PolyModel PolySpec JanetModel JanetSpec JanetPolyModel TQModel JanetPolySpec.

(** Every element of the basis is in the tree (algorithmTQ2 can leave some outside, C54). *)
Definition all_in_trees (J : jpoly2) : Prop := forall x, In x (j2t J) -> exists e, x = Att e.

(** The elements that are in the tree; the polynomial 1 when isOne() is true. *)
Definition tree_part (J : jpoly2) : list poly :=
  match j2one J with
  | Some w => [wpol w]
  | None => flat_map (fun x => match x with Att e => [snd e] | Det _ => [] end) (j2t J)
  end.

(** The local test of C46 for the object algorithmTQ2 leaves. *)
Definition passes_local_test2 (t : pos_order) (o : base_order) (n : nat) (J : jpoly2) : Prop :=
  forall g i u x, In g (basis2 J) -> (i < n)%nat -> janet_nm (map lead (basis2 J)) (lead g) i ->
    is_variable n i u -> ring_input t o n x -> (forall m, coef (terms x) m = coef (shift u (terms g)) m) ->
    exists fuel r, jp2_nf fuel false J x = Ok r /\ terms r = [].
