(** Model of JanetPolyInt::buildHP (ginv/poly_int.cpp:683-696, ginv/poly_int.h:446).  Definitions only. *)
From Coq Require Import ZArith List Bool Arith.
From Verif Require Import Outcome MonomModel JanetModel PolyModel JanetPolyModel HilbertModel.
Import ListNotations.

(** poly_int.cpp:690-695: the loop over mT; multi() is that of the wrap (ginv/wrap.h), which is the one in the tree. *)
Fixpoint jp_hp_loop (js : list janet) (l : list entry) (h t : hp) : outcome hp :=
  match l with
  | [] => Ok h
  | e :: l' =>
      match get_wrap js (fst e) with
      | Some w =>
          let m := multi w in
          do t' <- hp_binomial t (Z.of_nat m - Z.of_nat (deg (fst e))) m;
          do h' <- hp_sub h t';
          jp_hp_loop js l' h' t'
      | None => Undef
      end
  end.

(** poly_int.cpp:683-696; without asserts mT.head() of an empty list is a null dereference. *)
Definition jp_build_hp (dbg : bool) (J : jpoly) (h : hp) : outcome hp :=
  assert_ dbg (match jone J with None => true | _ => false end && match jt J with [] => false | _ => true end)
    match jt J with
    | [] => Undef
    | e :: _ =>
        let d := size (fst e) in
        do h0 <- hp_setDim dbg h d;
        do h1 <- hp_binomial h0 (Z.of_nat d) d;
        jp_hp_loop (match jtrees J with Some js => js | None => [] end) (jt J) (hp_mult h1 (jpos J + 2)) (hp_new d)
    end.
