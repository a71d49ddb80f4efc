(** Python sessions that iterate over a polynomial p of the module ginv and change it meanwhile
    (cython/ginv.pyx:411-419, 578-590, 738-741).

    iter(p) makes a generator; its body runs up to the first yield when next() is called first, so that begin() is
    evaluated then.  A suspended generator has advanced its List::ConstIterator already: i.next() stands before the
    yield (ginv.pyx:418-419), and the iterator is the address of the next node (list.h:57-80).  The pair (m, c) that is
    yielded holds bare addresses.  A generator that has not ended keeps p alive, as the name p does; when it ends its
    closure is released.  An exception leaves everything as it was; the session goes on (try ... except). *)
From Coq Require Import ZArith List Bool Arith.
From Verif Require Import Outcome MonomModel PolyModel CellModel.
Import ListNotations.
Local Open Scope Z_scope.

Inductive gen := GNew | GAt (a : option addr) | GEnded | GDropped.
Record session := Session { object : option cpoly; named : bool; gens : list gen; pairs : list addr }.

Inductive cmd :=
| CIter                                                (* g = iter(p) *)
| CNext (g : nat)                                      (* t = next(g) *)
| CDrop (g : nat)                                      (* del g *)
| CLook (v : nat)                                      (* look at the v-th pair *)
| CReduce (q : poly)                                   (* p.reduction(q), q another polynomial *)
| CPp                                                  (* p.pp() *)
| CNf (find : monom -> outcome (option poly))          (* b.nf(p) for a basis b *)
| CDel.                                                (* del p *)
Inductive obs := VNone | VPair | VStopIteration | VTerm (m : monom) (c : Z) | VAssertionError | VNameError.

Definition begin (p : poly) (k : addr) : cpoly :=
  CP (pto p) (pbo p) (psize p) (combine (seq k (length (terms p))) (terms p)) (k + length (terms p))%nat.
Definition start (p : poly) : session := Session (Some (begin p 0%nat)) true [] [].

Definition running (g : gen) : bool := match g with GNew | GAt _ => true | GEnded | GDropped => false end.
(** ginv.pyx:555-556: the polynomial is deleted with its last reference *)
Definition collect (s : session) : session :=
  if named s || existsb running (gens s) then s else Session None (named s) (gens s) (pairs s).
Fixpoint set_nth {A} (k : nat) (x : A) (l : list A) : list A :=
  match l, k with
  | [], _ => []
  | _ :: l', O => x :: l'
  | y :: l', S k' => y :: set_nth k' x l'
  end.
Definition change (s : session) (r : outcome cpoly) : outcome (session * obs) :=
  do p <- r; Ok (Session (Some p) (named s) (gens s) (pairs s), VNone).
(** A command that uses the name p. *)
Definition with_p (s : session) (k : cpoly -> outcome (session * obs)) : outcome (session * obs) :=
  if named s then match object s with Some p => k p | None => Undef end else Ok (s, VNameError).

Definition step (fuel : nat) (dbg : bool) (s : session) (c : cmd) : outcome (session * obs) :=
  match c with
  | CIter => with_p s (fun _ => Ok (Session (object s) (named s) (gens s ++ [GNew]) (pairs s), VNone))
  | CNext g =>                                                                        (* ginv.pyx:411-419 *)
      match nth_error (gens s) g with
      | None | Some GDropped => Ok (s, VNameError)
      | Some GEnded => Ok (s, VStopIteration)
      | Some st =>
          match object s with
          | None => Undef
          | Some p =>
              match match st with GAt a => a | _ => first_cell (cells p) end with
              | None => Ok (collect (Session (object s) (named s) (set_nth g GEnded (gens s)) (pairs s)), VStopIteration)
              | Some i =>
                  match cell_after i (cells p) with
                  | None => Undef
                  | Some j => Ok (Session (object s) (named s) (set_nth g (GAt j) (gens s)) (pairs s ++ [i]), VPair)
                  end
              end
          end
      end
  | CDrop g =>
      match nth_error (gens s) g with
      | None | Some GDropped => Ok (s, VNameError)
      | Some _ => Ok (collect (Session (object s) (named s) (set_nth g GDropped (gens s)) (pairs s)), VNone)
      end
  | CLook v =>
      match nth_error (pairs s) v with
      | None => Ok (s, VNameError)
      | Some i =>
          match object s with
          | None => Undef
          | Some p => match at_addr i (cells p) with Some (m, d) => Ok (s, VTerm m d) | None => Undef end
          end
      end
  | CReduce q =>                                                                      (* ginv.pyx:578-584 *)
      with_p s (fun p =>
        match cells p, terms q with
        | (_, (m, _)) :: _, (n, _) :: _ =>
            if comparable (plain p) q && divisiable m n then change s (c_reduction dbg p q) else Ok (s, VAssertionError)
        | _, _ => Ok (s, VAssertionError)
        end)
  | CPp =>                                                                            (* ginv.pyx:586-590 *)
      with_p s (fun p => do b <- p_isPp dbg (plain p); if b then Ok (s, VAssertionError) else change s (c_pp dbg p))
  | CNf find => with_p s (fun p => change s (c_nf fuel dbg find p))                   (* ginv.pyx:738-741 *)
  | CDel => if named s then Ok (collect (Session (object s) false (gens s) (pairs s)), VNone) else Ok (s, VNameError)
  end.
(** What is seen, command by command. *)
Fixpoint run (fuel : nat) (dbg : bool) (s : session) (cs : list cmd) : outcome (list obs) :=
  match cs with
  | [] => Ok []
  | c :: cs' => do r <- step fuel dbg s c; do os <- run fuel dbg (fst r) cs'; Ok (snd r :: os)
  end.
