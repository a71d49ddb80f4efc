(** Python objects of the module ginv in memory: polynomials and the views of their leading monomials and
    coefficients (cython/ginv.pyx:400-590).

    A poly_int owns a C++ PolyInt and deletes it when its reference count drops to 0 (ginv.pyx:555-556); the
    results of lm() and lc() (ginv.pyx:443-454) are objects that hold the bare address of the monomial or the
    coefficient of the first term, and no reference to the polynomial.
    A program is a list of commands on variables.  A nested expression such as (p*q).lm() is
    t = p*q; x = t.lm(); del t.  Objects refer to no other objects, so that an object lives as long as a variable
    is bound to it.  Addresses are not used twice: reading freed memory is [Undef] in any case.
    The first term of a polynomial is removed by reduction only (poly_int.cpp:390-391), and always; [age] counts
    these removals, so that a pointer to the first term is good as long as the polynomial is there and has the age
    it had when the pointer was taken.  pp() divides the coefficients where they are (poly_int.cpp:544-550). *)
From Coq Require Import ZArith List Bool Arith.
From Verif Require Import Outcome MonomModel PolyModel CythonModel.
Import ListNotations.
Local Open Scope Z_scope.

Definition var := nat.
Definition addr := nat.
Inductive obj :=
| OPoly (p : poly) (age : nat)
| OMonom (a : addr) (age : nat)      (* const_monom *)
| OInteger (a : addr) (age : nat).   (* const_integer *)
Record state := State { heap : list (option obj); env : list (var * addr) }.
Definition start : state := State [] [].

Inductive binop := BAdd | BSub | BMul.
Inductive cmd :=
| CNew (x : var) (t : pos_order) (o : base_order) (m : monom)   (* x = poly_int.to_monom(t, o, m) *)
| CBin (op : binop) (x y z : var)                               (* x = y op z *)
| CNeg (x y : var)                                              (* x = -y *)
| CAlias (x y : var)                                            (* x = y *)
| CDel (x : var)                                                (* del x *)
| CReduce (y z : var)                                           (* y.reduction(z) *)
| CPp (y : var)                                                 (* y.pp() *)
| CLm (x y : var)                                               (* x = y.lm() *)
| CLc (x y : var)                                               (* x = y.lc() *)
| CShow (x : var)                                               (* look at the value *)
| CSame (x y : var).                                            (* x == y *)
(** What a look shows. *)
Inductive obs := VPoly (l : list term) | VMonom (m : monom) | VInteger (c : Z) | VBool (b : bool).
(** How a program can stop. *)
Inductive exn := ENameError | EAttributeError | ETypeError | EAssertionError.
Inductive res := Go (s : state) (o : list obs) | Stop (e : exn).

Definition lookup (x : var) (e : list (var * addr)) : option addr :=
  match find (fun b => Nat.eqb (fst b) x) e with Some b => Some (snd b) | None => None end.
Definition unbind (x : var) (e : list (var * addr)) : list (var * addr) := filter (fun b => negb (Nat.eqb (fst b) x)) e.
Definition bound (a : addr) (e : list (var * addr)) : bool := existsb (fun b => Nat.eqb (snd b) a) e.
(** Objects without references are freed (ginv.pyx:555-556). *)
Definition sweep (s : state) : state :=
  State (map (fun ab => if bound (fst ab) (env s) then snd ab else None) (combine (seq 0 (length (heap s))) (heap s))) (env s).
Definition get (s : state) (a : addr) : option obj := match nth_error (heap s) a with Some o => o | None => None end.
Definition bind_var (x : var) (a : addr) (s : state) : state := sweep (State (heap s) ((x, a) :: unbind x (env s))).
(** x = a new object *)
Definition alloc (x : var) (o : obj) (s : state) : state := bind_var x (length (heap s)) (State (heap s ++ [Some o]) (env s)).
Definition put (a : addr) (o : obj) (s : state) : state :=
  State (map (fun ab => if Nat.eqb (fst ab) a then Some o else snd ab) (combine (seq 0 (length (heap s))) (heap s))) (env s).

Definition go (s : state) : outcome res := Ok (Go s []).
Definition stop (e : exn) : outcome res := Ok (Stop e).
(** The object a variable is bound to. *)
Definition with_var (s : state) (x : var) (k : addr -> obj -> outcome res) : outcome res :=
  match lookup x (env s) with
  | None => stop ENameError
  | Some a => match get s a with Some o => k a o | None => Undef end
  end.
(** As an operand or a method's self it has to be a polynomial: [e] is raised otherwise. *)
Definition with_poly (e : exn) (s : state) (x : var) (k : addr -> poly -> nat -> outcome res) : outcome res :=
  with_var s x (fun a o => match o with OPoly p g => k a p g | _ => stop e end).
(** Follow a pointer to the first term. *)
Definition deref (s : state) (a : addr) (g : nat) : outcome term :=
  match get s a with
  | Some (OPoly p g') => match terms p with t :: _ => if Nat.eqb g g' then Ok t else Undef | [] => Undef end
  | _ => Undef
  end.
Definition binary (op : binop) (dbg : bool) (p q : poly) : outcome pyres :=
  match op with BAdd => py_add dbg (PPoly p) (PPoly q) | BSub => py_sub dbg (PPoly p) (PPoly q) | BMul => py_mul dbg (PPoly p) (PPoly q) end.
Definition result (x : var) (s : state) (r : outcome pyres) : outcome res :=
  do r' <- r; match r' with Returns p => go (alloc x (OPoly p 0) s) | AssertionError => stop EAssertionError end.

Definition step (dbg : bool) (s : state) (c : cmd) : outcome res :=
  match c with
  | CNew x t o m => do p <- p_monom dbg t o m; go (alloc x (OPoly p 0) s)                       (* ginv.pyx:558-576 *)
  | CBin op x y z =>
      with_poly ETypeError s y (fun _ p _ => with_poly ETypeError s z (fun _ q _ => result x s (binary op dbg p q)))
  | CNeg x y => with_poly ETypeError s y (fun _ p _ => result x s (py_neg dbg p))
  | CAlias x y => match lookup y (env s) with None => stop ENameError | Some a => go (bind_var x a s) end
  | CDel x => match lookup x (env s) with None => stop ENameError | Some _ => go (sweep (State (heap s) (unbind x (env s)))) end
  | CReduce y z =>                                                                              (* ginv.pyx:578-584 *)
      with_poly EAttributeError s y (fun a p g => with_poly ETypeError s z (fun b q _ =>
        match terms p, terms q with
        | (m, _) :: _, (n, _) :: _ =>
            if comparable p q && divisiable m n then
              (* poly_int.cpp:387-392: the same list is cut and read *)
              if Nat.eqb a b then Undef
              else do r <- p_reduction dbg p q; go (put a (OPoly r (S g)) s)
            else stop EAssertionError
        | _, _ => stop EAssertionError
        end))
  | CPp y =>                                                                                    (* ginv.pyx:586-590 *)
      with_poly EAttributeError s y (fun a p g => do b <- p_isPp dbg p;
        if b then stop EAssertionError else do r <- p_pp dbg p; go (put a (OPoly r g) s))
  | CLm x y =>                                                                                  (* ginv.pyx:443-448 *)
      with_poly EAttributeError s y (fun a p g => match terms p with [] => stop EAssertionError | _ :: _ => go (alloc x (OMonom a g) s) end)
  | CLc x y =>                                                                                  (* ginv.pyx:449-454 *)
      with_poly EAttributeError s y (fun a p g => match terms p with [] => stop EAssertionError | _ :: _ => go (alloc x (OInteger a g) s) end)
  | CShow x =>
      with_var s x (fun _ o =>
        match o with
        | OPoly p _ => Ok (Go s [VPoly (terms p)])
        | OMonom a g => do t <- deref s a g; Ok (Go s [VMonom (fst t)])
        | OInteger a g => do t <- deref s a g; Ok (Go s [VInteger (snd t)])
        end)
  | CSame x y =>                                                 (* no __eq__ or __richcmp__ in the classes: identity *)
      with_var s x (fun a _ => with_var s y (fun b _ => Ok (Go s [VBool (Nat.eqb a b)])))
  end.

(** What is seen until the program ends or an exception is raised. *)
Fixpoint run (dbg : bool) (s : state) (cs : list cmd) : outcome (list obs * option exn) :=
  match cs with
  | [] => Ok ([], None)
  | c :: cs' =>
      do r <- step dbg s c;
      match r with
      | Stop e => Ok ([], Some e)
      | Go s' o => do v <- run dbg s' cs'; Ok (o ++ fst v, snd v)
      end
  end.
