(** The Python classes const_monom and monom, cython/ginv.pyx:248-360.

    [dbg] tells whether the C++ asserts are compiled in; Python's own assert statements always are, and raise.
    An object of these classes holds a pointer, NULL after the bare constructor calls monom() and const_monom()
    (ginv.pyx:250-251).  The subclass monom owns what it points to; const_monom points into something else, here
    taken to be still there (lifetimes are the subject of CyHeapModel.v).
    Objects of other types are told apart only as far as the argument checks of Cython do: a typed parameter
    accepts None, and then self.ptr reads outside of the object. *)
From Coq Require Import ZArith List Bool.
From Verif Require Import Outcome MonomModel RandPermModel.
Import ListNotations.
Local Open Scope Z_scope.

Inductive exn := AssertionError | TypeError | OverflowError.
(** What a Python call that did not abort the process does. *)
Inductive pyr (A : Type) := Ret (a : A) | Raises (e : exn).
Arguments Ret {A} a.
Arguments Raises {A} e.
Definition pyo (A : Type) : Type := outcome (pyr A).
Definition pbind {A B} (x : pyo A) (f : A -> pyo B) : pyo B :=
  bind x (fun r => match r with Ret a => f a | Raises e => Ok (Raises e) end).
Notation "'pdo' x <- e ; f" := (pbind e (fun x => f)) (at level 200, x pattern, e at level 100, f at level 200, right associativity).
Definition lift {A} (x : outcome A) : pyo A := bind x (fun a => Ok (Ret a)).
(** assert c *)
Definition passert {A} (c : bool) (k : pyo A) : pyo A := if c then k else Ok (Raises AssertionError).
(** Conversion of a Python int for a parameter of C type int. *)
Definition to_cint {A} (z : Z) (k : pyo A) : pyo A := if in_int z then k else Ok (Raises OverflowError).

(** [owner] = it is a monom (not merely a const_monom); [ptr] = None for NULL. *)
Record mobj := MObj { owner : bool; ptr : option cmonom }.
Definition fresh (c : cmonom) : mobj := MObj true (Some c).
(** An argument of a method. *)
Inductive arg := AMonom (x : mobj) | ANone | AOther.

(** assert self.ptr *)
Definition with_ptr {A} (x : mobj) (k : cmonom -> pyo A) : pyo A :=
  match ptr x with Some c => k c | None => Ok (Raises AssertionError) end.
(** `const_monom self, const_monom other` followed by `assert self.ptr and other.ptr` and the comparison of sizes
    (ginv.pyx:283-284, 296-297, 316-317, 320-321, 324-325) *)
Definition with_two {A} (x : mobj) (y : arg) (k : cmonom -> cmonom -> pyo A) : pyo A :=
  match y with
  | AOther => Ok (Raises TypeError)
  | ANone => with_ptr x (fun _ => Undef)
  | AMonom o => with_ptr x (fun a => with_ptr o (fun b => passert (csize a =? csize b) (k a b)))
  end.

(** ginv.pyx:334-338 *)
Definition cy_zero (dbg : bool) (size pos : Z) : pyo mobj :=
  to_cint size (to_cint pos (passert ((1 <? size) && (-1 <=? pos)) (pdo c <- lift (c_unit dbg size pos); Ok (Ret (fresh c))))).
(** ginv.pyx:340-344 *)
Definition cy_variable (dbg : bool) (v size pos : Z) : pyo mobj :=
  to_cint v (to_cint size (to_cint pos
    (passert ((1 <? size) && (-1 <=? pos)) (pdo c <- lift (c_var dbg v size pos); Ok (Ret (fresh c)))))).
(** ginv.pyx:253-264 *)
Definition cy_bool (x : mobj) : pyo bool := with_ptr x (fun c => Ok (Ret (0 <? cdegree c))).
Definition cy_len (x : mobj) : pyo Z := with_ptr x (fun c => Ok (Ret (csize c))).
Definition cy_pos (x : mobj) : pyo Z := with_ptr x (fun c => Ok (Ret (cpos c))).
Definition cy_degree (x : mobj) : pyo Z := with_ptr x (fun c => Ok (Ret (cdegree c))).
(** ginv.pyx:265-267.  The index is not checked here. *)
Definition cy_getitem (dbg : bool) (x : mobj) (k : Z) : pyo Z := with_ptr x (fun c => to_cint k (lift (c_get dbg c k))).
(** ginv.pyx:268-271: the list of the values the generator yields; k values from index i on *)
Fixpoint iter_from (dbg : bool) (c : cmonom) (k : nat) (i : Z) : outcome (list Z) :=
  match k with O => Ok [] | S k' => do e <- c_get dbg c i; do r <- iter_from dbg c k' (i + 1); Ok (e :: r) end.
Definition cy_list (dbg : bool) (x : mobj) : pyo (list Z) := with_ptr x (fun c => lift (iter_from dbg c (Z.to_nat (csize c)) 0)).
(** ginv.pyx:282-285 *)
Definition cy_divisiable (dbg : bool) (x : mobj) (y : arg) : pyo bool := with_two x y (fun a b => lift (c_divisiable dbg a b)).
(** ginv.pyx:287-293; [p] = what the randpermutation object holds *)
Definition cy_permutation (dbg : bool) (x : mobj) (p : list nat) : pyo mobj :=
  with_ptr x (fun a => passert (csize a =? Z.of_nat (length p))
    (pdo r <- lift (c_copy dbg a); pdo r' <- lift (c_permutation dbg false r a p); Ok (Ret (fresh r')))).
(** ginv.pyx:295-301 *)
Definition cy_mul (dbg : bool) (x : mobj) (y : arg) : pyo mobj :=
  with_two x y (fun a b => passert ((cpos a =? -1) || (cpos b =? -1)) (pdo r <- lift (c_mul dbg a b); Ok (Ret (fresh r)))).
(** ginv.pyx:302-307; the third argument of pow is not used *)
Definition cy_pow (dbg : bool) (x : mobj) (k : Z) : pyo mobj :=
  to_cint k (with_ptr x (fun a => passert (cpos a =? -1) (passert (0 <=? k) (pdo r <- lift (c_pow dbg a k); Ok (Ret (fresh r)))))).
(** ginv.pyx:308-313: the divisor must be a monom, a const_monom is refused.  After the assert both pointers are set. *)
Definition cy_truediv (dbg : bool) (x : mobj) (y : arg) : pyo mobj :=
  match y with
  | AMonom o =>
      if owner o then
        pdo d <- cy_divisiable dbg x y;
        passert d (with_ptr x (fun a => with_ptr o (fun b => pdo r <- lift (c_copy dbg a); pdo r' <- lift (c_div dbg r b); Ok (Ret (fresh r')))))
      else Ok (Raises TypeError)
  | ANone => pdo d <- cy_divisiable dbg x y; Undef
  | AOther => Ok (Raises TypeError)
  end.
(** ginv.pyx:315-326 *)
Definition cy_cmp (dbg : bool) (o : base_order) (x : mobj) (y : arg) : pyo Z := with_two x y (fun a b => lift (c_bcmp dbg o a b)).
(** ginv.pyx:356-360, monom.h:111-114: the new contents of the object, which is also what the call returns *)
Definition cy_setPos (dbg : bool) (x : mobj) (p : Z) : pyo mobj :=
  to_cint p (with_ptr x (fun c => passert (-1 <=? p) (assert_ dbg (-1 <=? p) (Ok (Ret (MObj (owner x) (Some (CMon (csize c) p (cdegree c) (cvars c))))))))).

(** The random monomials.  The class variables of Monom (monom.cpp:25-27): the size and the two bounds of the degree. *)
Definition rand_state : Type := option (Z * Z * Z).
(** ginv.pyx:346-349, monom.cpp:29-37 *)
Definition cy_rand_init (dbg : bool) (size deg1 deg2 : Z) : pyo rand_state :=
  to_cint size (to_cint deg1 (to_cint deg2 (passert ((1 <? size) && ((0 <? deg1) && (deg1 <? deg2)))
    (assert_ dbg (0 <? size) (assert_ dbg ((0 <? deg1) && (deg1 <=? deg2)) (Ok (Ret (Some (size, deg1, deg2))))))))).
(** ginv.pyx:350-354, monom.cpp:62-66.  [deg] and [draws] are what the two distributions return. *)
Definition cy_next (dbg : bool) (s : rand_state) (deg : Z) (draws : list Z) : pyo mobj :=
  match s with
  | None => bind (c_unit dbg 0 (-1)) (fun _ => Undef)
  | Some (size, _, _) => pdo a <- lift (c_unit dbg size (-1)); pdo r <- lift (c_rand_next dbg a deg draws); Ok (Ret (fresh r))
  end.

(** poly_int.to_monom (ginv.pyx:558-576) stores the order as an int, const_poly_int.order (ginv.pyx:458-471) reads it. *)
Definition order_int (t : pos_order) (o : base_order) : Z :=
  Z.lor (match t with TOP => 16 | POT => 32 end) (match o with OLex => 1 | ODegLex => 2 | OAlex => 4 end).
Definition order_of_int (c : Z) : pos_order * base_order :=
  (if Z.land c 16 =? 0 then POT else TOP, if Z.land c 1 =? 0 then (if Z.land c 2 =? 0 then OAlex else ODegLex) else OLex).
