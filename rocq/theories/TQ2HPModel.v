(** algorithmTQ2 as a whole: after the loop it prints the Hilbert polynomial of the basis
    (ginv/poly_int.cpp:1099-1294).  Definitions only. *)
From Coq Require Import ZArith List Bool Arith QArith.
From Verif Require Import Outcome MonomModel JanetModel PolyModel JanetPolyModel TQModel HilbertModel.
Import ListNotations.

(** Wrap::multi of an element of mT: the Wrap is in the tree, or the element has its own. *)
Definition item_wrap (js : list janet) (x : titem) : outcome wrap :=
  match x with
  | Att e => match get_wrap js (fst e) with Some w => Ok w | None => Undef end
  | Det w => Ok (wwrap w)
  end.
(** poly_int.cpp:691-695 *)
Fixpoint jp2_hp_loop (js : list janet) (l : list titem) (h t : hp) : outcome hp :=
  match l with
  | [] => Ok h
  | x :: l' =>
      do w <- item_wrap js x;
      let m := multi w in
      do t' <- hp_binomial t (Z.of_nat m - Z.of_nat (deg (item_lm x))) m;
      do h' <- hp_sub h t';
      jp2_hp_loop js l' h' t'
  end.
(** poly_int.cpp:683-696 buildHP; without asserts mT.head() of an empty list is a null dereference. *)
Definition jp2_build_hp (dbg : bool) (J : jpoly2) (h : hp) : outcome hp :=
  assert_ dbg (match j2one J with None => true | _ => false end && match j2t J with [] => false | _ => true end)
    match j2t J with
    | [] => Undef
    | x :: _ =>
        let d := size (item_lm x) in
        do h0 <- hp_setDim dbg h d;
        do h1 <- hp_binomial h0 (Z.of_nat d) d;
        jp2_hp_loop (match j2trees J with Some js => js | None => [] end) (j2t J) (hp_mult h1 (j2pos J + 2)) (hp_new d)
    end.

(** poly_int.cpp:1099-1294 algorithmTQ2: the object, and the Hilbert polynomial printed if one is.
    An object that is 1 already is left at once (1100-1101). *)
Definition jp_tq2_print (fuel : nat) (dbg : bool) (J : jpoly) : outcome (jpoly2 * option hp) :=
  do J2 <- jp_tq2 fuel dbg J;
  match j2one J2 with
  | Some _ => Ok (J2, None)
  | None => do h <- jp2_build_hp dbg J2 hp_none; Ok (J2, Some h)
  end.
