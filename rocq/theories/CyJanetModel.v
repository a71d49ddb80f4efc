(** The Python classes janet_poly_int, wrap_poly_int and const_janet, cython/ginv.pyx:592-780.

    [dbg] tells whether the C++ asserts are compiled in; Python's own assert statements always are, and raise.
    A janet_poly_int owns a C++ JanetPolyInt.  Objects that point into it are taken to be still there (C87).
    Not modelled: timer(), the counters, draw(). *)
From Coq Require Import ZArith List Bool Arith.
From Verif Require Import Outcome MonomModel JanetModel PolyModel JanetPolyModel HilbertModel JanetPolyHPModel CyMonomModel.
Import ListNotations.
Local Open Scope Z_scope.

(** An argument declared const_poly_int: an object of this class, with a NULL pointer after the bare constructor call;
    None, which Cython accepts; or something else. *)
Inductive parg := PObj (p : option poly) | PNone | POther.
(** other.ptr[0] *)
Definition with_parg {A} (x : parg) (k : poly -> pyo A) : pyo A :=
  match x with PObj (Some p) => k p | PObj None | PNone => Undef | POther => Ok (Raises TypeError) end.

Definition is_one (J : jpoly) : bool := match jone J with Some _ => true | None => false end.
(** poly_int.h:422 size(), ginv.pyx:705-707 __len__ *)
Definition cj_len (J : jpoly) : Z := if is_one J then 1 else Z.of_nat (length (jt J)).
(** ginv.pyx:729-730 isOne, 747-748 maxPos *)
Definition cj_isOne (J : jpoly) : bool := is_one J.
Definition cj_maxPos (J : jpoly) : Z := jpos J.
(** ginv.pyx:708-716 __iter__: the objects yielded, one for each element of mT (begin(), poly_int.h:423-425), also
    when mOneWrap is set.  The Wrap part of an element is the one in its tree. *)
Fixpoint wraps_of (js : list janet) (l : list entry) : outcome (list wpoly) :=
  match l with
  | [] => Ok []
  | e :: l' => match get_wrap js (fst e) with
               | Some w => do r <- wraps_of js l'; Ok (WP w (snd e) :: r)
               | None => Undef
               end
  end.
Definition cj_iter (J : jpoly) : pyo (list wpoly) := lift (wraps_of (match jtrees J with Some js => js | None => [] end) (jt J)).

(** ginv.pyx:718-719 comparable *)
Definition cj_comparable (J : jpoly) (x : parg) : pyo bool := with_parg x (fun a => Ok (Ret (jp_comparable J a))).
(** ginv.pyx:721-724 push; the object is returned *)
Definition cj_push (dbg : bool) (J : jpoly) (x : parg) : pyo jpoly :=
  with_parg x (fun a => passert (jp_comparable J a) (lift (jp_push dbg J a))).
(** ginv.pyx:726-727 build *)
Definition cj_build (fuel : nat) (dbg : bool) (J : jpoly) : pyo jpoly := lift (jp_build fuel dbg J).

(** ginv.pyx:732-740 find, with an argument declared const_monom; poly_int.h:426-433.  The sizes are not compared. *)
Inductive marg := MArg (m : monom) | MNone | MOther.
Definition cj_find (dbg : bool) (J : jpoly) (x : marg) : pyo (option wpoly) :=
  match x with
  | MOther => Ok (Raises TypeError)
  | MNone => Undef
  | MArg m =>
      match jone J with
      | Some w => Ok (Ret (Some w))
      | None =>
          pdo r <- lift (find_wrap dbg (jpos J) (jtrees J) m);
          match r with
          | None => Ok (Ret None)
          | Some u => match lookup (jt J) (wlm u) with Some p => Ok (Ret (Some (WP u p))) | None => Undef end
          end
      end
  end.

(** ginv.pyx:742-745 nf of a polynomial that is no part of the basis: the result of comparable() is not used.  The
    polynomial is changed in place; the result is its new value. *)
Definition cj_nf (fuel : nat) (dbg : bool) (J : jpoly) (x : parg) : pyo poly := with_parg x (fun a => lift (jp_nf fuel dbg J a)).
(** The same for the polynomial w.poly() of the k-th object yielded by the iteration: const_poly_int is accepted and
    the const is cast away.  The element itself is changed, so that to reduce it by itself is to cut and read the same
    list (poly_int.cpp:387-392). *)
Definition find_other (dbg : bool) (J : jpoly) (k : monom) (m : monom) : outcome (option poly) :=
  do r <- find_wrap dbg (jpos J) (jtrees J) m;
  match r with
  | None => Ok None
  | Some u => if same_key (wlm u) k then Undef else match lookup (jt J) (wlm u) with Some p => Ok (Some p) | None => Undef end
  end.
Definition cj_nf_view (fuel : nat) (dbg : bool) (J : jpoly) (k : nat) : pyo jpoly :=
  match nth_error (jt J) k with
  | None => Ok (Raises TypeError)
  | Some (m, p) =>
      lift (assert_ dbg (jp_comparable J p)
        (do r <- p_nf fuel dbg (find_other dbg J m) p;
         do r2 <- p_nfTail fuel dbg (find_other dbg J m) (fst r);
         do r3 <- p_pp dbg (fst r2);
         Ok (JP (jone J) (jq J) (firstn k (jt J) ++ (m, r3) :: skipn (S k) (jt J)) (jpos J) (jtrees J))))
  end.

(** ginv.pyx:749-753 janet(pos), poly_int.h:441-445, followed by size(), ginv.pyx:649-651.  Without asserts a null
    pointer is followed after setOne (poly_int.cpp:608-609). *)
Definition cj_janet_size (dbg : bool) (J : jpoly) (p : Z) : pyo Z :=
  passert ((-1 <=? p) && (p <=? jpos J))
    match jtrees J with
    | None => oob dbg
    | Some js => pdo t <- lift (tree_at dbg js p); Ok (Ret (Z.of_nat (jsize t)))
    end.

(** ginv.pyx:755-765 HilbertPoly, with numbers in the place of their texts *)
Definition cj_hilbert (dbg : bool) (J : jpoly) : pyo hp :=
  passert (negb (is_one J)) (passert (0 <? cj_len J) (lift (jp_build_hp dbg J hp_none))).

(** ginv.pyx:602-630 wrap_poly_int *)
Definition cw_flag (dbg : bool) (l : list bool) (v : Z) : pyo bool :=
  to_cint v (if v <? 0 then oob dbg else lift (get_flag dbg l (Z.to_nat v))).
Definition cw_NM (dbg : bool) (w : wpoly) (v : Z) : pyo bool := cw_flag dbg (wnm (wwrap w)) v.
Definition cw_build (dbg : bool) (w : wpoly) (v : Z) : pyo bool := cw_flag dbg (wbuild (wwrap w)) v.
Definition cw_lm (w : wpoly) : monom := wlm (wwrap w).
Definition cw_ansector (w : wpoly) : monom := wanc (wwrap w).
Definition cw_isGB (w : wpoly) : bool := Nat.eqb (deg (wanc (wwrap w))) (deg (wlm (wwrap w))).
Definition cw_poly (w : wpoly) : poly := wpol w.
