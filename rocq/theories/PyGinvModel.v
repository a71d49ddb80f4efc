(** Model of ginvMin and ginvBlockLow of pyginv/ginv.py for polynomials of class Poly with integer coefficients that
    share no terms (C59); printing and the time are left out.  [id]: the class-level counter Wrap.id. *)
From Coq Require Import ZArith List Bool Arith.
From Verif Require Import Outcome MonomModel PyMonomModel PyPolyModel PyJanetModel PyHPModel PyForestModel PyQueueModel.
Import ListNotations.
Local Open Scope nat_scope.

(** ginv.py:151, 194: Wrap(p) for p in pset *)
Fixpoint wraps (id : nat) (ps : list ppoly) : outcome (list pwrap) :=
  match ps with
  | [] => Ok []
  | p :: ps' => do w <- w_of_poly id p; do l <- wraps (S id) ps'; Ok (w :: l)
  end.

(** ginv.py:177-179, 220-222: for w in invdiv: w.poly.NFtail(invdiv); w.poly.pp().  reduction asserts that the reducer
    is another object. *)
Definition other_find (T : pdiv) (w : pwrap) (m : monom) : outcome (option ppoly) :=
  do f <- d_findWrap T m;
  match f with Some u => if Nat.eqb (pw_id u) (pw_id w) then AssertFail else Ok (Some (pw_poly u)) | None => Ok None end.
Fixpoint sweep (nf : nat) (o : py_order) (T : pdiv) (l : list pwrap) : outcome pdiv :=
  match l with
  | [] => Ok T
  | w :: l' =>
      do p <- py_nftail nf o (other_find T w) (pw_poly w);
      do p' <- py_pp o p;
      sweep nf o (d_set T (set_poly w p')) l'
  end.

Record pstate := PS { ps_tree : pdiv; ps_queue : pqueue; ps_id : nat }.

(** ginv.py:152-179: one round of the loop of ginvMin; [false]: break.  [level]: level > 0 *)
Definition min_prolong (o : py_order) (s : pstate) : outcome pstate :=
  let take := match pq_list (ps_queue s) with
              | w :: _ => if py_bool (pw_lm w) then take_monom o (pw_lm w) else take_all
              | [] => take_all
              end in
  do x <- d_prolongs o take (ps_tree s) (ps_id s);
  do q <- q_push o (ps_queue s) (snd (fst x));
  Ok (PS (fst (fst x)) q (snd x)).
Definition min_round (nf : nat) (o : py_order) (level : bool) (s : pstate) : outcome (pstate * bool) :=
  do s1 <- (if level then min_prolong o s else Ok s);
  match pq_list (ps_queue s1) with
  | [] => Ok (s1, false)
  | _ =>
      do x <- q_reduceAll nf o (ps_tree s1) (ps_queue s1);
      let '(T, q, r) := x in
      match r with
      | None => Ok (PS T q (ps_id s1), true)
      | Some w =>
          do y <- d_insert T [w];
          do q' <- q_push o q (snd y);
          do T' <- sweep nf o (fst y) (d_elems (fst y));
          Ok (PS T' q' (ps_id s1), true)
      end
  end.
Fixpoint min_loop (fuel nf : nat) (o : py_order) (level : bool) (s : pstate) : outcome pstate :=
  match fuel with
  | O => OutOfFuel
  | S fuel => do x <- min_round nf o level s; if snd x then min_loop fuel nf o level (fst x) else Ok (fst x)
  end.
(** ginv.py:141-181 ginvMin(pset, invdiv, level) *)
Definition start (o : py_order) (ps : list ppoly) (T : pdiv) (id : nat) : outcome pstate :=
  match ps with
  | [] => AssertFail
  | _ => do l <- wraps id ps; do q <- q_new o l; Ok (PS T q (id + length ps))
  end.
Definition ginv_min (fuel nf : nat) (o : py_order) (level : bool) (ps : list ppoly) (T : pdiv) (id : nat) : outcome pstate :=
  do s <- start o ps T id; min_loop fuel nf o level s.

(** ginv.py:195-222: one round of the loop of ginvBlockLow *)
Definition low_round (fuel nf : nat) (o : py_order) (s : pstate) : outcome (pstate * bool) :=
  let j := match pq_list (ps_queue s) with w :: _ => w_degree w | [] => 0 end in
  let i := d_degMinProlong (ps_tree s) in
  if Nat.eqb i 0 && Nat.eqb j 0 then Ok (s, false)
  else
    do s1 <- (if Nat.eqb j 0 || (Nat.ltb 0 i && Nat.ltb i j) then
                do x <- d_prolongs o (take_deg i) (ps_tree s) (ps_id s);
                do q <- q_push o (ps_queue s) (snd (fst x));
                Ok (PS (fst (fst x)) q (snd x))
              else Ok s);
    do x <- q_reduceMinDegree fuel nf o (ps_tree s1) (ps_queue s1);
    let '(T, q, res) := x in
    match res with
    | [] => Ok (PS T q (ps_id s1), true)
    | _ =>
        do a <- q_autoReduce o q res;
        do y <- d_insert T (snd a);
        do q' <- q_push o (fst a) (snd y);
        do T' <- sweep nf o (fst y) (d_elems (fst y));
        Ok (PS T' q' (ps_id s1), true)
    end.
Fixpoint low_loop (fuel nf : nat) (o : py_order) (s : pstate) : outcome pstate :=
  match fuel with
  | O => OutOfFuel
  | S fuel => do x <- low_round (S fuel) nf o s; if snd x then low_loop fuel nf o (fst x) else Ok (fst x)
  end.
(** ginv.py:183-224 ginvBlockLow(pset, invdiv) *)
Definition ginv_low (fuel nf : nat) (o : py_order) (ps : list ppoly) (T : pdiv) (id : nat) : outcome pstate :=
  match ps with
  | [] => AssertFail
  | _ => assert_ true (match o with TOPdeglex => true | _ => false end) (do s <- start o ps T id; low_loop fuel nf o s)
  end.
