(** What an expression means. *)
From Coq Require Import ZArith List Bool Arith.
From Verif Require Import Outcome MonomModel PyMonomModel PyDiffModel PyDiffSpec PyReadModel.
Import ListNotations.
Local Open Scope Z_scope.

(** The expression a contains no unknown function; its value is the coefficient c. *)
Inductive coefficient {C : coefs} : dexpr C -> ck C -> Prop :=
| co_atom c : coefficient (EAtom c) c
| co_add a b c d : coefficient a c -> coefficient b d -> coefficient (EAdd a b) (c_add C c d)
| co_mul a b c d : coefficient a c -> coefficient b d -> coefficient (EMul a b) (c_mul C c d)
| co_pow b d c : coefficient b d -> coefficient (EPow b c) c.

(** The value of an expression that is linear in the unknown functions u, for n variables and k functions *)
Inductive linear_value {C : coefs} (F : space C) (n : nat) (k : Z) (u : Z -> fs F) : dexpr C -> fs F -> Prop :=
| lv_coef a c : coefficient a c -> linear_value F n k u a (f_mul F c (f_one F))
| lv_fun i : 0 <= i < k -> linear_value F n k u (EFun i) (u i)
| lv_der i l : 0 <= i < k -> NoDup (map fst l) -> Forall (fun x => (fst x < n)%nat) l ->
    linear_value F n k u (EDer i l) (fold_left (fun f x => der_times F (snd x) (fst x) f) l (u i))
| lv_add a b f g : linear_value F n k u a f -> linear_value F n k u b g -> linear_value F n k u (EAdd a b) (f_add F f g)
| lv_mul_l a b c f : coefficient a c -> linear_value F n k u b f -> linear_value F n k u (EMul a b) (f_mul F c f)
| lv_mul_r a b c f : linear_value F n k u a f -> coefficient b c -> linear_value F n k u (EMul a b) (f_mul F c f).

(** Linear expressions *)
Inductive linear {C : coefs} (n : nat) (k : Z) : dexpr C -> Prop :=
| li_coef a c : coefficient a c -> linear n k a
| li_fun i : 0 <= i < k -> linear n k (EFun i)
| li_der i l : 0 <= i < k -> NoDup (map fst l) -> Forall (fun x => (fst x < n)%nat) l -> linear n k (EDer i l)
| li_add a b : linear n k a -> linear n k b -> linear n k (EAdd a b)
| li_mul_l a b c : coefficient a c -> linear n k b -> linear n k (EMul a b)
| li_mul_r a b c : linear n k a -> coefficient b c -> linear n k (EMul a b).

(** p mentions an unknown function *)
Definition mentions {C : coefs} (p : list (monom * ck C)) : Prop := exists x, In x p /\ 0 <= pos (fst x).

(** a has, outside of powers, a part like sin(x) or exp(x): a function that is not one of the unknown ones *)
Inductive has_other {C : coefs} : dexpr C -> Prop :=
| ho_here : has_other EOther
| ho_add_l a b : has_other a -> has_other (EAdd a b)
| ho_add_r a b : has_other b -> has_other (EAdd a b)
| ho_mul_l a b : has_other a -> has_other (EMul a b)
| ho_mul_r a b : has_other b -> has_other (EMul a b).
