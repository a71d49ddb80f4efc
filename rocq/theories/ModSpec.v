(** Submodules of free modules: what a user expects of JanetPolyInt for polynomials with module positions. *)
From Coq Require Import ZArith List Bool Arith.
From Verif Require Import Outcome MonomModel MonomSpec PolyModel PolySpec JanetPolyModel JanetPolySpec TQModel.
Import ListNotations.
Local Open Scope Z_scope.

(** A polynomial object with the given order and number of variables; its terms may have any position. *)
Definition any_input (t : pos_order) (o : base_order) (n : nat) (p : poly) : Prop :=
  valid_poly p /\ psize p = n /\ pto p = t /\ pbo p = o.
(** An element of the free module with k generators. *)
Definition module_input (t : pos_order) (o : base_order) (n : nat) (k : Z) (p : poly) : Prop :=
  any_input t o n p /\ Forall (fun x => 0 <= pos (fst x) < k) (terms p).

(** All histories of one object; F are the polynomials pushed so far, all with the property P. *)
Inductive any_history (dbg : bool) (P : poly -> Prop) : list poly -> jpoly -> Prop :=
| ah_new : any_history dbg P [] jp_empty
| ah_push F J a J' : any_history dbg P F J -> P a -> jp_push dbg J a = Ok J' -> any_history dbg P (a :: F) J'
| ah_build F J fuel J' : any_history dbg P F J -> jp_build fuel dbg J = Ok J' -> any_history dbg P F J'
| ah_tq F J one fuel J' : any_history dbg P F J -> jp_tq one fuel dbg J = Ok J' -> any_history dbg P F J'.

(** m is the largest position of a term of a polynomial of F, or -1 if there is no module term. *)
Definition largest_position (F : list poly) (m : Z) : Prop :=
  -1 <= m /\ (forall f x, In f F -> In x (terms f) -> pos (fst x) <= m) /\
  (m = -1 \/ exists f x, In f F /\ In x (terms f) /\ pos (fst x) = m).
