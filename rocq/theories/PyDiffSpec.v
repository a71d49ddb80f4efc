(** What linear differential polynomials mean. *)
From Coq Require Import ZArith List Bool Arith Sorted.
From Verif Require Import Outcome MonomModel MonomSpec PolySpec PyMonomModel PyMonomSpec PyDiffModel.
Import ListNotations.
Local Open Scope Z_scope.

(** The coefficients form a commutative ring without zero divisors, with n derivations; a/gcd(a, b) and b/gcd(a, b)
    are two elements in the ratio of a and b. *)
Record good_coefs (C : coefs) : Prop := {
  gc_add_0 : forall a, c_add C (c_zero C) a = a;
  gc_add_comm : forall a b, c_add C a b = c_add C b a;
  gc_add_assoc : forall a b c, c_add C a (c_add C b c) = c_add C (c_add C a b) c;
  gc_add_neg : forall a, c_add C a (c_neg C a) = c_zero C;
  gc_mul_1 : forall a, c_mul C (c_one C) a = a;
  gc_mul_comm : forall a b, c_mul C a b = c_mul C b a;
  gc_mul_assoc : forall a b c, c_mul C a (c_mul C b c) = c_mul C (c_mul C a b) c;
  gc_distr : forall a b c, c_mul C (c_add C a b) c = c_add C (c_mul C a c) (c_mul C b c);
  gc_one : c_one C <> c_zero C;
  gc_domain : forall a b, c_mul C a b = c_zero C -> a = c_zero C \/ b = c_zero C;
  gc_is0 : forall a, c_is0 C a = true <-> a = c_zero C;
  gc_split : forall a b x y, a <> c_zero C -> b <> c_zero C -> c_split C a b = (x, y) ->
    c_mul C a y = c_mul C b x /\ x <> c_zero C /\ y <> c_zero C;
  gc_der_add : forall v a b, c_der C v (c_add C a b) = c_add C (c_der C v a) (c_der C v b);
  gc_der_mul : forall v a b, c_der C v (c_mul C a b) = c_add C (c_mul C (c_der C v a) b) (c_mul C a (c_der C v b))
}.
(** For redRat and NF: division. *)
Definition good_quo (C : coefs) : Prop := forall a b, b <> c_zero C -> c_mul C (c_quo C a b) b = a.

(** A space in which unknown functions can take their values: it can be added, multiplied with coefficients and
    differentiated, and the derivatives with respect to different variables commute.  [f_one] is the constant
    function 1. *)
Record space (C : coefs) : Type := Space {
  fs : Type;
  f_zero : fs;
  f_one : fs;
  f_add : fs -> fs -> fs;
  f_mul : ck C -> fs -> fs;
  f_der : nat -> fs -> fs
}.
Arguments fs {C}. Arguments f_zero {C}. Arguments f_one {C}. Arguments f_add {C}. Arguments f_mul {C}. Arguments f_der {C}.
Record good_space (C : coefs) (F : space C) : Prop := {
  gs_add_0 : forall f, f_add F (f_zero F) f = f;
  gs_add_comm : forall f g, f_add F f g = f_add F g f;
  gs_add_assoc : forall f g h, f_add F f (f_add F g h) = f_add F (f_add F f g) h;
  gs_mul_zero : forall f, f_mul F (c_zero C) f = f_zero F;
  gs_mul_one : forall f, f_mul F (c_one C) f = f;
  gs_mul_mul : forall a b f, f_mul F (c_mul C a b) f = f_mul F a (f_mul F b f);
  gs_add_coefs : forall a b f, f_mul F (c_add C a b) f = f_add F (f_mul F a f) (f_mul F b f);
  gs_mul_add : forall a f g, f_mul F a (f_add F f g) = f_add F (f_mul F a f) (f_mul F a g);
  gs_der_add : forall v f g, f_der F v (f_add F f g) = f_add F (f_der F v f) (f_der F v g);
  gs_der_mul : forall v a f, f_der F v (f_mul F a f) = f_add F (f_mul F (c_der C v a) f) (f_mul F a (f_der F v f));
  gs_der_comm : forall v w f, f_der F v (f_der F w f) = f_der F w (f_der F v f);
  gs_der_one : forall v, f_der F v (f_one F) = f_zero F
}.

Section Value.
Context {C : coefs} (F : space C).
(** The derivative f_{x0...x0 x1...x1 ...}; [i] is the number of the first variable of e. *)
Fixpoint der_times (d v : nat) (f : fs F) : fs F := match d with O => f | S d' => f_der F v (der_times d' v f) end.
Fixpoint derive (i : nat) (e : list nat) (f : fs F) : fs F :=
  match e with [] => f | d :: e' => der_times d i (derive (S i) e' f) end.
(** The value of a monomial and of a polynomial for given unknown functions. *)
Definition mono_value (u : Z -> fs F) (m : monom) : fs F :=
  if pos m =? -1 then f_one F else derive 0 (vars m) (u (pos m)).
Definition value (u : Z -> fs F) (p : list (monom * ck C)) : fs F :=
  fold_right (fun x s => f_add F (f_mul F (snd x) (mono_value u (fst x))) s) (f_zero F) p.
End Value.

(** A valid PolyDiff over n variables and k unknown functions: derivatives strictly decreasing, coefficients not 0;
    a monomial without unknown function is the unit. *)
Definition diff_mono (n : nat) (k : Z) (m : monom) : Prop := pmono n k m /\ (pos m = -1 -> m = py_unit n).
Definition dp_canonical (C : coefs) (o : py_order) (n : nat) (k : Z) (p : list (monom * ck C)) : Prop :=
  StronglySorted (fun x y => py_greater o (fst x) (fst y)) p /\
  Forall (fun x => diff_mono n k (fst x)) p /\ Forall (fun x => snd x <> c_zero C) p.

(** A search procedure for reducers taken from the set G: it always answers; an answer is a valid polynomial whose
    leading derivative belongs to the unknown function of the derivative asked for and divides it.  (Forest.find
    is one.) *)
Definition dp_good_find (C : coefs) (o : py_order) (n : nat) (k : Z) (G : list (monom * ck C) -> Prop)
    (find : monom -> outcome (option (list (monom * ck C)))) : Prop :=
  forall m, diff_mono n k m -> exists w, find m = Ok w /\ forall q, w = Some q ->
    dp_canonical C o n k q /\ G q /\ exists v d q', q = (v, d) :: q' /\ pos v = pos m /\ 0 <= pos m /\ mdivides v m.

(** u solves all equations g = 0 of G. *)
Definition solves {C : coefs} (F : space C) (u : Z -> fs F) (G : list (monom * ck C) -> Prop) : Prop :=
  forall g, G g -> value F u g = f_zero F.

(** On all solutions of G, in every space, r is k times p. *)
Definition same_on_solutions (C : coefs) (G : list (monom * ck C) -> Prop) (k : ck C) (p r : list (monom * ck C)) : Prop :=
  forall (F : space C), good_space C F -> forall u, solves F u G -> value F u r = f_mul F k (value F u p).

(** How df reads its arguments: a variable followed by a number d >= 0 asks for d derivatives, any other variable for one. *)
Inductive df_reads (n : nat) : list df_arg -> list (nat * nat) -> Prop :=
| df_end : df_reads n [] []
| df_one v args l : (v < n)%nat -> (forall d args', args <> AInt d :: args') -> df_reads n args l -> df_reads n (AVar v :: args) ((v, 1%nat) :: l)
| df_many v d args l : (v < n)%nat -> df_reads n args l -> df_reads n (AVar v :: AInt (Z.of_nat d) :: args) ((v, d) :: l).
(** The same with numbers of any sign; what all of the arguments ask for together in the variable v. *)
Inductive df_asks (n : nat) : list df_arg -> list (nat * Z) -> Prop :=
| ask_end : df_asks n [] []
| ask_one v args l : (v < n)%nat -> (forall d args', args <> AInt d :: args') -> df_asks n args l -> df_asks n (AVar v :: args) ((v, 1) :: l)
| ask_many v d args l : (v < n)%nat -> df_asks n args l -> df_asks n (AVar v :: AInt d :: args) ((v, d) :: l).
Fixpoint asked (l : list (nat * Z)) (v : nat) : Z :=
  match l with [] => 0 | (w, d) :: l' => (if Nat.eqb w v then d else 0) + asked l' v end.
