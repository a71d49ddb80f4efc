(** Model of the generators and recursive methods of class Janet of pyginv/janet.py that walk through the nested lists.
    Exceptions other than AssertionError (TypeError for a Wrap where a list is expected, UnboundLocalError): [Undef].
    A generator is modelled by the list of everything it yields; an exception is raised when it is exhausted. *)
From Coq Require Import ZArith List Bool Arith.
From Verif Require Import Outcome MonomModel PyMonomModel PyPolyModel PyJanetModel PyForestModel.
Import ListNotations.
Local Open Scope nat_scope.

(** janet.py:188-195, 199-206 traversal: the entries before the last are lists; the last is a Wrap, which is yielded if
    [keep] holds, or a list. *)
Fixpoint t_traversal (keep : pwrap -> bool) (t : ptree) : outcome (list pwrap) :=
  match t with
  | PWrap _ => Undef
  | PList l =>
      (fix go (l : prow) : outcome (list pwrap) :=
         match l with
         | [] => Ok []
         | t' :: l' =>
             match t', l' with
             | PWrap w, [] => Ok (if keep w then [w] else [])
             | _, _ => do a <- t_traversal keep t'; do b <- go l'; Ok (a ++ b)
             end
         end) l
  end.
(** janet.py:187-196 __iter__ *)
Definition pj_iter (J : pjanet) : outcome (list pwrap) := t_traversal (fun _ => true) (PList (pj_root J)).
(** janet.py:198-207 GB *)
Definition pj_GB (o : py_order) (J : pjanet) : outcome (list pwrap) := t_traversal (w_isGB o) (PList (pj_root J)).
(** janet.py:422-425 Forest.__iter__, 427-430 Forest.GB *)
Fixpoint pf_each (f : pjanet -> outcome (list pwrap)) (F : pforest) : outcome (list pwrap) :=
  match F with
  | [] => Ok []
  | J :: F' => do a <- f J; do b <- pf_each f F'; Ok (a ++ b)
  end.
Definition pf_iter (F : pforest) : outcome (list pwrap) := pf_each pj_iter F.
Definition pf_GB (o : py_order) (F : pforest) : outcome (list pwrap) := pf_each (pj_GB o) F.

(** janet.py:266-273 setnm: the last entry, if it is a list, is not visited: the call is setnm(n), n being the entry before
    it, again; there is no n if it is the only entry.  The repeated call finds all flags set and is left out. *)
Fixpoint t_setnm (m : monom) (t : ptree) : outcome ptree :=
  match t with
  | PWrap _ => Undef
  | PList l =>
      do x <- (fix go (n : bool) (l : prow) : outcome prow :=
         match l with
         | [] => Ok []
         | t' :: l' =>
             match t', l' with
             | PWrap w, [] => do v <- py_nonmult (pw_lm w) m; Ok [PWrap (set_nonmult v true w)]
             | PList c, [] => if n then Ok [PList c] else Undef
             | _, _ => do a <- t_setnm m t'; do b <- go true l'; Ok (a :: b)
             end
         end) false l;
      Ok (PList x)
  end.
(** janet.py:265-274 setNonmut *)
Definition pj_setNonmut (J : pjanet) (m : monom) : outcome pjanet :=
  do t <- t_setnm m (PList (pj_root J));
  Ok (PJ (match t with PList r => r | PWrap w => [PWrap w] end) (pj_pos J) (pj_count J)).
