(** The reductions of a waiting polynomial that algorithmTQ2 takes from Q. *)
From Coq Require Import ZArith List Bool Arith.
From Verif Require Import Outcome MonomModel PolyModel JanetPolyModel.
Import ListNotations.

(** Those of nf and of nfTail, if the normal form is not 0 *)
Definition head_tail_steps (fuel : nat) (dbg : bool) (find : monom -> outcome (option poly)) (u : wpoly) : nat :=
  match p_nf fuel dbg find (wpol u) with
  | Ok (p, k) => match terms p with
                 | [] => 0
                 | _ => match p_nfTail fuel dbg find p with Ok (_, r) => k + r | _ => 0 end
                 end
  | _ => 0
  end.
Definition both_steps (fuel : nat) (dbg : bool) (find : monom -> outcome (option poly)) (l : list wpoly) : nat :=
  fold_right (fun u s => head_tail_steps fuel dbg find u + s) 0 l.
(** The normal form is 0 *)
Definition becomes_zero (fuel : nat) (dbg : bool) (find : monom -> outcome (option poly)) (u : wpoly) : bool :=
  match p_nf fuel dbg find (wpol u) with Ok (p, _) => match terms p with [] => true | _ => false end | _ => false end.
Definition zeros (fuel : nat) (dbg : bool) (find : monom -> outcome (option poly)) (l : list wpoly) : nat :=
  length (filter (becomes_zero fuel dbg find) l).
