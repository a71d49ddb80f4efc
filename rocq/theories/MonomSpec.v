(** What the monomial operations are supposed to mean; no model function is used here except the
    record of a monomial value (position, exponent vector). *)
From Coq Require Import ZArith List Bool Arith.
From Verif Require Import Outcome MonomModel.
Import ListNotations.

(** Exponent of variable i. *)
Definition expo (v : list nat) (i : nat) : nat := nth i v 0.

(** Total degree: sum of the exponents. *)
Fixpoint total (v : list nat) : nat := match v with [] => 0 | x :: r => x + total r end.

(** u >lex v: at the first difference u has the larger exponent. *)
Definition lex_gt (u v : list nat) : Prop :=
  exists k, (k < length u) /\ (forall i, i < k -> expo u i = expo v i) /\ expo v k < expo u k.

(** u >degrevlex v: larger degree or, in the same degree, at the last difference u has the smaller
    exponent. *)
Definition degrevlex_gt (u v : list nat) : Prop :=
  total v < total u \/
  (total u = total v /\
   exists k, (k < length u) /\ (forall i, k < i -> i < length u -> expo u i = expo v i) /\
             expo u k < expo v k).

(** u >alex v: smaller degree or, in the same degree, lex. *)
Definition alex_gt (u v : list nat) : Prop :=
  total u < total v \/ (total u = total v /\ lex_gt u v).

Definition base_gt (o : base_order) (u v : list nat) : Prop :=
  match o with OLex => lex_gt u v | ODegLex => degrevlex_gt u v | OAlex => alex_gt u v end.

(** Module monomials: TOP = term over position, POT = position over term. *)
Definition module_gt (t : pos_order) (o : base_order) (a b : monom) : Prop :=
  match t with
  | TOP => base_gt o (vars a) (vars b) \/ (vars a = vars b /\ (pos b < pos a)%Z)
  | POT => (pos b < pos a)%Z \/ (pos a = pos b /\ base_gt o (vars a) (vars b))
  end.

(** A monomial in n variables; pos = -1 means "ring monomial", pos >= 0 a module component. *)
Definition mono (n : nat) (m : monom) : Prop := length (vars m) = n /\ (-1 <= pos m)%Z.

(** A C++ Monom object is valid: sizes agree, exponents are non-negative, the stored degree is their
    sum and fits an int. *)
Definition cvalid (n : nat) (c : cmonom) : Prop :=
  csize c = Z.of_nat n /\ n <> 0 /\ length (cvars c) = n /\ (-1 <= cpos c)%Z /\
  Forall (fun x => (0 <= x)%Z) (cvars c) /\
  cdegree c = fold_right Z.add 0%Z (cvars c) /\ (cdegree c <= INT_MAX)%Z.

(** The monomial a C++ object stands for. *)
Definition value (c : cmonom) : monom := Mon (cpos c) (map Z.to_nat (cvars c)).

(** A comparison function c, on monomials satisfying P, is a total order whose ties are [same]. *)
Definition total_order (P : monom -> Prop) (c : monom -> monom -> Z) (same : monom -> monom -> Prop) : Prop :=
  (forall a b, P a -> P b -> c a b = 1%Z \/ c a b = 0%Z \/ c a b = (-1)%Z) /\
  (forall a b, P a -> P b -> (c a b = 0%Z <-> same a b)) /\
  (forall a b, P a -> P b -> c b a = (- c a b)%Z) /\
  (forall a b d, P a -> P b -> P d -> c a b = 1%Z -> c b d = 1%Z -> c a d = 1%Z).

(** r completes normally with a valid object standing for m. *)
Definition yields (n : nat) (r : outcome cmonom) (m : monom) : Prop :=
  exists c, r = Ok c /\ cvalid n c /\ value c = m.
