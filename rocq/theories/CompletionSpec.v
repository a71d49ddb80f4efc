(** Specification of the divisions induced by the comparison functions of MCompletion. *)
From Coq Require Import List Arith.
From Verif Require Import MonomSpec CompletionModel.

(** Which monomial is the larger one, for each comparison function, when every element is its own
    ancestor (as it is for elements that were pushed). *)
Definition mc_gt (o : mc_order) (a b : list nat) : Prop :=
  match o with
  | MLex | MLexGB => lex_gt a b
  | MDegLex | MDegLexGB => degrevlex_gt a b
  | MAlex | MAlexGB | MGB => alex_gt a b
  end.

(** Variable i is non-multiplicative for u in U with respect to the division induced by [gt]: for some
    larger element w, i is the first variable in which w has the larger exponent. *)
Definition induced_nm (gt : list nat -> list nat -> Prop) (U : list (list nat)) (u : list nat) (i : nat) : Prop :=
  exists w, In w U /\ gt w u /\ expo u i < expo w i /\ (forall j, j < i -> expo w j <= expo u j).

(** u is a divisor of m with respect to that division. *)
Definition induced_divides (gt : list nat -> list nat -> Prop) (n : nat) (U : list (list nat)) (u m : list nat) : Prop :=
  In u U /\ (forall i, i < n -> expo u i <= expo m i) /\
  (forall i, i < n -> expo u i < expo m i -> ~ induced_nm gt U u i).
