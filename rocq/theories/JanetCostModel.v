(** What a search costs: Janet::find and GB::find once more, with the number of nodes they visit and of elements whose
    exponents they compare; the number of nodes of a tree.  Definitions only. *)
From Coq Require Import ZArith List Bool Arith.
From Verif Require Import Outcome MonomModel JanetModel GBModel.
Import ListNotations.

(** Nodes the iterator j has stood on, and elements checked by the loop 297-306. *)
Record cost : Type := Cost { visited : nat; checked_elems : nat }.
Definition visit (r : outcome (option wrap * cost)) : outcome (option wrap * cost) :=
  do x <- r; Ok (fst x, Cost (S (visited (snd x))) (checked_elems (snd x))).
Definition check1 (r : outcome (option wrap * cost)) : outcome (option wrap * cost) :=
  do x <- r; Ok (fst x, Cost (visited (snd x)) (S (checked_elems (snd x)))).
Definition end_ (w : option wrap) : outcome (option wrap * cost) := Ok (w, Cost 0 0).

(** janet.cpp:273-319 *)
Fixpoint find_loop_c (dbg : bool) (m : monom) (d var : nat) (j : tree) : outcome (option wrap * cost) :=
  match j with
  | Nil => oob dbg
  | Node dg ow nd nv =>
      visit (assert_ dbg (Nat.ltb 0 d)
        (do x <- mget dbg m var;
         if Nat.ltb dg x && negb (is_nil nd) then find_loop_c dbg m d var nd
         else if Nat.ltb x dg then end_ None
         else if Nat.ltb d x then Undef
         else
           let d' := d - x in
           if Nat.eqb d' 0 then
             match ow with
             | Some u => assert_div dbg u m (end_ (Some u))
             | None => assert_ dbg (negb (Nat.ltb dg x && is_nil nv)) (end_ None)
             end
           else
             match ow with
             | Some u =>
                 check1 (do ok <- check_div dbg u m;
                         if ok then end_ ow
                         else if is_nil nv then assert_div dbg u m (end_ (Some u))
                              else find_loop_c dbg m d' (S var) nv)
             | None => if is_nil nv then assert_ dbg false (end_ None) else find_loop_c dbg m d' (S var) nv
             end))
  end.
(** janet.cpp:260-323 find *)
Definition find_c (dbg : bool) (t : tree) (m : monom) : outcome (option wrap * cost) :=
  match t with
  | Nil => end_ None
  | Node dg ow _ _ =>
      if Nat.eqb (deg m) 0 then visit (if Nat.eqb dg 0 then end_ ow else end_ None)
      else find_loop_c dbg m (deg m) 0 t
  end.

(** gb.cpp:42-58 find: the visits in all trees *)
Definition add_cost (c : cost) (r : outcome (option wrap * cost)) : outcome (option wrap * cost) :=
  do x <- r; Ok (fst x, Cost (visited c + visited (snd x)) (checked_elems c + checked_elems (snd x))).
Fixpoint forest_find_c (dbg : bool) (f : list janet) (m : monom) : outcome (option wrap * cost) :=
  match f with
  | [] => end_ None
  | J :: f' =>
      do r <- find_c dbg (jroot J) m;
      add_cost (snd r)
        match fst r with
        | None => forest_find_c dbg f' m
        | Some u => do ok <- nmd_from dbg u 0 (vars m); if ok then end_ (Some u) else forest_find_c dbg f' m
        end
  end.

(** Node objects of a tree (janet.h:43-53) *)
Fixpoint nodes (t : tree) : nat :=
  match t with Nil => 0 | Node _ _ nd nv => S (nodes nd + nodes nv) end.
