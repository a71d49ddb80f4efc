(** What the counters of an object should tell. *)
From Coq Require Import ZArith List Bool Arith.
From Verif Require Import Outcome MonomModel JanetModel PolyModel PolySpec JanetPolyModel JanetPolySpec TQModel CntModel.
Import ListNotations.

(** The completion algorithms considered. *)
Inductive algorithm : Type := ABuild | ATQ | ATQ1.
Definition run_algorithm (x : algorithm) (fuel : nat) (dbg : bool) (J : jpoly) : outcome jpoly :=
  match x with ABuild => jp_build fuel dbg J | ATQ => jp_tq false fuel dbg J | ATQ1 => jp_tq true fuel dbg J end.
Definition k_run (x : algorithm) (fuel : nat) (dbg : bool) (s : jpoly * counts) : outcome (jpoly * counts) :=
  match x with ABuild => k_build fuel dbg s | ATQ => k_tq false fuel dbg s | ATQ1 => k_tq true fuel dbg s end.

(** Forgetting the counters *)
Definition forget {A} (x : outcome (A * counts)) : outcome A := do r <- x; Ok (fst r).

(** An object in a program that pushes ring polynomials F (the last one first) and calls algorithms of A. *)
Inductive k_history (t : pos_order) (o : base_order) (n : nat) (A : algorithm -> Prop) : list poly -> jpoly * counts -> Prop :=
| kh_new : k_history t o n A [] (jp_empty, counts0)
| kh_push F s a s' : k_history t o n A F s -> ring_input t o n a -> k_push false s a = Ok s' -> k_history t o n A (a :: F) s'
| kh_run F s x fuel s' : k_history t o n A F s -> A x -> k_run x fuel false s = Ok s' -> k_history t o n A F s'.

(** Non-zero polynomials of a list *)
Definition nonzero (F : list poly) : nat := length (filter (fun f => negb (match terms f with [] => true | _ => false end)) F).
(** Prolongations marked as built: elements w and variables v with w.build(v) *)
Definition built (ws : list wpoly) : nat := fold_right (fun w s => (count_occ bool_dec (wbuild (wwrap w)) true + s)%nat) 0%nat ws.
Definition no_less (c c' : counts) : Prop :=
  n_red c <= n_red c' /\ n_equal c <= n_equal c' /\ n_critI c <= n_critI c' /\ n_critII c <= n_critII c' /\ n_zero c <= n_zero c'.
(** p is f times the monomial e. *)
Definition monomial_multiple (n : nat) (f p : poly) : Prop :=
  exists e : list nat, length e = n /\ terms p = map (fun x => (Mon (pos (fst x)) (addv e (vars (fst x))), snd x)) (terms f).

(** The criteria for the prolongation of an element w by the variable i, when the tree has a divisor of the product.
    Variables already built, or multiplicative, are not considered. *)
Definition considered (w : wrap) (i : nat) : bool := nth i (wnm w) false && negb (nth i (wbuild w) false).
Definition divisor (dbg : bool) (mpos : Z) (js : list janet) (w : wrap) (i : nat) : option wrap :=
  match find_wrap dbg mpos (Some js) (mul_var i (wlm w)) with Ok r => r | _ => None end.
(** Buchberger's first criterion: the product of the ancestors divides. *)
Definition criterion1 (dbg : bool) (mpos : Z) (js : list janet) (w : wrap) (i : nat) : bool :=
  match divisor dbg mpos js w i with Some d => deg (wanc w) + deg (wanc d) <=? deg (wlm w) + 1 | None => false end.
(** The second: the least common multiple of the ancestors is of smaller degree. *)
Definition criterion2 (dbg : bool) (mpos : Z) (js : list janet) (w : wrap) (i : nat) : bool :=
  match divisor dbg mpos js w i with Some d => lcm_deg (wanc w) (wanc d) <? deg (wlm w) + 1 | None => false end.
Definition how_many (P : nat -> bool) (n : nat) : nat := length (filter P (seq 0 n)).

(** The tail reductions of a waiting polynomial: those of nfTail, if its normal form with respect to the leading term is not 0. *)
Definition tail_steps (fuel : nat) (dbg : bool) (find : monom -> outcome (option poly)) (u : wpoly) : nat :=
  match p_nf fuel dbg find (wpol u) with
  | Ok (p, _) => match terms p with
                 | [] => 0
                 | _ => match p_nfTail fuel dbg find p with Ok (_, r) => r | _ => 0 end
                 end
  | _ => 0
  end.
Definition all_steps (fuel : nat) (dbg : bool) (find : monom -> outcome (option poly)) (l : list wpoly) : nat :=
  fold_right (fun u s => tail_steps fuel dbg find u + s) 0 l.
