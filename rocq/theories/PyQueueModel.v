(** Model of class Q of pyginv/ginv.py: a list kept as a heap by Python's heapq.  The functions of heapq (CPython,
    Lib/heapq.py) are written out: the order of the list decides in which order reduceAll works. *)
From Coq Require Import ZArith List Bool Arith.
From Verif Require Import Outcome MonomModel PyMonomModel PyPolyModel PyJanetModel PyHPModel PyForestModel.
Import ListNotations.
Local Open Scope nat_scope.

(* ---- heapq ---- *)
Fixpoint put {A} (l : list A) (i : nat) (x : A) : list A :=
  match l, i with
  | [], _ => []
  | _ :: l', O => x :: l'
  | y :: l', S i' => y :: put l' i' x
  end.
(** exchange the entries i and j *)
Definition swap {A} (l : list A) (i j : nat) : list A :=
  match nth_error l i, nth_error l j with
  | Some x, Some y => put (put l i y) j x
  | _, _ => l
  end.
Definition before {A} (lt : A -> A -> bool) (l : list A) (i j : nat) : bool :=
  match nth_error l i, nth_error l j with Some x, Some y => lt x y | _, _ => false end.
(** heapq._siftdown(heap, startpos, pos): the entry moves up while it is smaller than its parent *)
Fixpoint sift_down {A} (fuel : nat) (lt : A -> A -> bool) (l : list A) (start i : nat) : list A :=
  match fuel with
  | O => l
  | S fuel =>
      if Nat.ltb start i && before lt l i ((i - 1) / 2) then sift_down fuel lt (swap l i ((i - 1) / 2)) start ((i - 1) / 2) else l
  end.
(** heapq._siftup(heap, pos): the smaller children move up until a leaf is reached, then _siftdown *)
Fixpoint sift_leaf {A} (fuel : nat) (lt : A -> A -> bool) (l : list A) (i : nat) : list A * nat :=
  match fuel with
  | O => (l, i)
  | S fuel =>
      let c := 2 * i + 1 in
      if Nat.ltb c (length l) then
        let c := if Nat.ltb (c + 1) (length l) && negb (before lt l c (c + 1)) then c + 1 else c in
        sift_leaf fuel lt (swap l i c) c
      else (l, i)
  end.
Definition sift_up {A} (lt : A -> A -> bool) (l : list A) (i : nat) : list A :=
  let x := sift_leaf (length l) lt l i in sift_down (length l) lt (fst x) i (snd x).
(** heapq.heappush, heappop (of a list that is not empty), heapify *)
Definition heap_push {A} (lt : A -> A -> bool) (l : list A) (x : A) : list A := sift_down (length l) lt (l ++ [x]) 0 (length l).
Definition heap_pop {A} (lt : A -> A -> bool) (l : list A) : option (A * list A) :=
  match rev l with
  | [] => None
  | x :: r => match rev r with [] => Some (x, []) | y :: l' => Some (y, sift_up lt (x :: l') 0) end
  end.
Definition heapify {A} (lt : A -> A -> bool) (l : list A) : list A :=
  fold_left (fun l i => sift_up lt l i) (rev (seq 0 (length l / 2))) l.

(* ---- invdiv: a Janet or a Forest ---- *)
Inductive pdiv := DJanet (J : pjanet) | DForest (F : pforest).
Definition d_findWrap (T : pdiv) (m : monom) := match T with DJanet J => pj_findWrap J m | DForest F => pf_findWrap F m end.
Definition d_find (T : pdiv) (m : monom) := match T with DJanet J => pj_find J m | DForest F => pf_find F m end.
Definition d_elems (T : pdiv) : list pwrap := match T with DJanet J => relems (pj_root J) | DForest F => pf_elems F end.
Definition d_insert (T : pdiv) (q : list pwrap) : outcome (pdiv * list pwrap) :=
  match T with
  | DJanet J => do x <- pj_insert J q; Ok (DJanet (fst x), snd x)
  | DForest F => do x <- pf_insert F q; Ok (DForest (fst x), snd x)
  end.
Definition d_degMinProlong (T : pdiv) : nat := match T with DJanet J => pj_degMinProlong J | DForest F => pf_degMinProlong F end.
Definition d_prolongs (o : py_order) (take : pwrap -> nat -> bool) (T : pdiv) (id : nat) : outcome (pdiv * list pwrap * nat) :=
  match T with
  | DJanet J => do x <- pj_prolongs o take J id; Ok (DJanet (fst (fst x)), snd (fst x), snd x)
  | DForest F => do x <- pf_prolongs (pj_prolongs o take) F id; Ok (DForest (fst (fst x)), snd (fst x), snd x)
  end.
(** The Wraps of a tree are objects: changing the one with number id *)
Fixpoint t_map (f : pwrap -> pwrap) (t : ptree) : ptree :=
  match t with PWrap w => PWrap (f w) | PList l => PList (map (t_map f) l) end.
Definition j_map (f : pwrap -> pwrap) (J : pjanet) : pjanet := PJ (map (t_map f) (pj_root J)) (pj_pos J) (pj_count J).
Definition d_map (f : pwrap -> pwrap) (T : pdiv) : pdiv :=
  match T with DJanet J => DJanet (j_map f J) | DForest F => DForest (map (j_map f) F) end.
Definition d_set (T : pdiv) (w : pwrap) : pdiv := d_map (fun u => if Nat.eqb (pw_id u) (pw_id w) then w else u) T.
Definition set_poly (w : pwrap) (p : ppoly) : pwrap := PW (pw_id w) p (pw_anc w) (pw_lm w) (pw_prolong w) (pw_nonmult w).

(* ---- class Q; the two counters are crit1 and crit2 ---- *)
Record pqueue := PQ { pq_list : list pwrap; pq_crit1 : nat; pq_crit2 : nat }.
(** polynomial.py:212-219 cancel for integer coefficients: the denominators are 1 *)
Definition q_cancel (o : py_order) (w : pwrap) : outcome unit :=
  match pw_poly w with [] => AssertFail | p => do _ <- py_checked o p; Ok tt end.
Fixpoint q_cancels (o : py_order) (l : list pwrap) : outcome unit :=
  match l with [] => Ok tt | w :: l' => do _ <- q_cancel o w; q_cancels o l' end.
(** ginv.py:7-14 *)
Definition q_new (o : py_order) (l : list pwrap) : outcome pqueue :=
  let h := heapify (w_lt o) l in do _ <- q_cancels o h; Ok (PQ h 0 0).
(** ginv.py:16-24 push of a list *)
Fixpoint q_push (o : py_order) (q : pqueue) (l : list pwrap) : outcome pqueue :=
  match l with
  | [] => Ok q
  | w :: l' => do _ <- q_cancel o w; q_push o (PQ (heap_push (w_lt o) (pq_list q) w) (pq_crit1 q) (pq_crit2 q)) l'
  end.
(** ginv.py:33-51 and 81-94, common part: what happens to a Wrap w of the queue.  [None]: w is dropped. *)
Inductive verdict := Crit1 | Crit2 | Zero | Kept (irreducible : bool) (w : pwrap).
Definition q_reduce1 (fuel : nat) (o : py_order) (T : pdiv) (w : pwrap) : outcome (pdiv * verdict) :=
  do f <- d_findWrap T (pw_lm w);
  match f with
  | None => Ok (T, Kept true w)
  | Some w1 =>
      if w_crit1 w w1 then Ok (T, Crit1)
      else if w_crit2 w w1 then Ok (T, Crit2)
      else
        do w1' <- w_refresh o w w1;
        let T := d_set T w1' in
        do p <- py_nfhead fuel o (d_find T) (pw_poly w);
        match p with
        | [] => Ok (T, Zero)
        | _ => do w' <- w_update o (set_poly w p); do p' <- py_pp o p; Ok (T, Kept false (set_poly w' p'))
        end
  end.
(** ginv.py:29-51: the loop of reduceAll *)
Fixpoint q_reduce_loop (fuel : nat) (o : py_order) (T : pdiv) (q : list pwrap) : outcome (pdiv * list pwrap * nat * nat) :=
  match q with
  | [] => Ok (T, [], 0, 0)
  | w :: q' =>
      do x <- q_reduce1 fuel o T w;
      do y <- q_reduce_loop fuel o (fst x) q';
      let '(T2, q2, c1, c2) := y in
      Ok (match snd x with
          | Crit1 => (T2, q2, S c1, c2)
          | Crit2 => (T2, q2, c1, S c2)
          | Zero => (T2, q2, c1, c2)
          | Kept _ w' => (T2, w' :: q2, c1, c2)
          end)
  end.
(** ginv.py:29-75 reduceAll *)
Definition q_reduceAll (fuel : nat) (o : py_order) (T : pdiv) (q : pqueue) : outcome (pdiv * pqueue * option pwrap) :=
  do y <- q_reduce_loop fuel o T (pq_list q);
  let '(T2, q2, c1, c2) := y in
  match heap_pop (w_lt o) (heapify (w_lt o) q2) with
  | None => Ok (T2, PQ [] (pq_crit1 q + c1) (pq_crit2 q + c2), None)
  | Some (w, h) => Ok (T2, PQ h (pq_crit1 q + c1) (pq_crit2 q + c2), Some w)
  end.

(** ginv.py:77-101: the loop of reduceMinDegree *)
Fixpoint q_min_loop (fuel nf : nat) (o : py_order) (T : pdiv) (q : pqueue) (d : nat) (r : list pwrap) : outcome (pdiv * pqueue * list pwrap) :=
  match fuel with
  | O => OutOfFuel
  | S fuel =>
      let go := match pq_list q with [] => false | x :: _ => match r with [] => true | _ => Nat.eqb (w_degree x) d end end in
      match go, heap_pop (w_lt o) (pq_list q) with
      | true, Some (w, h) =>
          let q := PQ h (pq_crit1 q) (pq_crit2 q) in
          do x <- q_reduce1 nf o T w;
          match snd x with
          | Crit1 => q_min_loop fuel nf o (fst x) (PQ h (S (pq_crit1 q)) (pq_crit2 q)) d r
          | Crit2 => q_min_loop fuel nf o (fst x) (PQ h (pq_crit1 q) (S (pq_crit2 q))) d r
          | Zero => q_min_loop fuel nf o (fst x) q d r
          | Kept true w' => q_min_loop fuel nf o (fst x) q d (r ++ [w'])
          | Kept false w' =>
              match r with
              | [] => q_min_loop fuel nf o (fst x) q (w_degree w') [w']
              | _ =>
                  if Nat.ltb (w_degree w') d
                  then do q' <- q_push o q r; q_min_loop fuel nf o (fst x) q' (w_degree w') [w']
                  else q_min_loop fuel nf o (fst x) q d (r ++ [w'])
              end
          end
      | _, _ => Ok (T, q, r)
      end
  end.
(** ginv.py:102-104 *)
Fixpoint q_tails (fuel : nat) (o : py_order) (T : pdiv) (r : list pwrap) : outcome (list pwrap) :=
  match r with
  | [] => Ok []
  | w :: r' =>
      do p <- py_nftail fuel o (d_find T) (pw_poly w);
      do p' <- py_pp o p;
      do l <- q_tails fuel o T r';
      Ok (set_poly w p' :: l)
  end.
(** ginv.py:77-105 reduceMinDegree *)
Definition q_reduceMinDegree (fuel nf : nat) (o : py_order) (T : pdiv) (q : pqueue) : outcome (pdiv * pqueue * list pwrap) :=
  do x <- q_min_loop fuel nf o T q 0 [];
  let '(T2, q2, r) := x in do r' <- q_tails nf o T2 r; Ok (T2, q2, r').

(** janet.py:94-96 __gt__ *)
Definition w_gt (o : py_order) (w other : pwrap) : bool :=
  let c := py_cmp o (pw_lm w) (pw_lm other) in (0 <? c)%Z || ((c =? 0)%Z && Nat.ltb (pw_id other) (pw_id w)).
(** ginv.py:109-116 get_min: the smallest entry w of a list w0 :: l and the other entries; [best] is the entry number i *)
Fixpoint min_index (o : py_order) (best : pwrap) (i j : nat) (l : list pwrap) : nat * pwrap :=
  match l with
  | [] => (i, best)
  | x :: l' => if w_gt o best x then min_index o x j (S j) l' else min_index o best i (S j) l'
  end.
Definition get_min (o : py_order) (w0 : pwrap) (l : list pwrap) : pwrap * list pwrap :=
  let x := min_index o w0 0 1 l in (snd x, firstn (fst x) (w0 :: l) ++ skipn (S (fst x)) (w0 :: l)).
(** ginv.py:122-128: the inner loop: w after the calls of refresh, the entries left, the least degree *)
Fixpoint auto_row (o : py_order) (w : pwrap) (q : list pwrap) (d : nat) : outcome (pwrap * list pwrap * nat) :=
  match q with
  | [] => Ok (w, [], d)
  | v :: q' =>
      do w' <- w_refresh o v w;
      do p <- py_reduce o (pw_poly v) (pw_poly w');
      match p with
      | [] => auto_row o w' q' d
      | _ =>
          do v' <- w_update o (set_poly v p);
          do y <- auto_row o w' q' (Nat.min d (w_degree v'));
          Ok (fst (fst y), v' :: snd (fst y), snd y)
      end
  end.
(** ginv.py:119-130: each round removes one entry, so length q rounds suffice *)
Fixpoint auto_loop (fuel : nat) (o : py_order) (q : list pwrap) (d : nat) (r : list pwrap) : outcome (list pwrap * nat) :=
  match fuel, q with
  | _, [] => Ok (r, d)
  | O, _ => OutOfFuel
  | S fuel, w0 :: l =>
      let m := get_min o w0 l in
      do y <- auto_row o (fst m) (snd m) d;
      auto_loop fuel o (snd (fst y)) (snd y) (r ++ [fst (fst y)])
  end.
(** ginv.py:131-139 *)
Fixpoint auto_split (o : py_order) (q : pqueue) (d : nat) (r : list pwrap) : outcome (pqueue * list pwrap) :=
  match r with
  | [] => Ok (q, [])
  | w :: r' =>
      if Nat.eqb (w_degree w) d
      then do p <- py_pp o (pw_poly w); do y <- auto_split o q d r'; Ok (fst y, set_poly w p :: snd y)
      else do q' <- q_push o q [w]; auto_split o q' d r'
  end.
(** ginv.py:107-139 autoReduce *)
Definition q_autoReduce (o : py_order) (q : pqueue) (l : list pwrap) : outcome (pqueue * list pwrap) :=
  match l with
  | [] => AssertFail
  | w :: _ => do x <- auto_loop (length l) o l (w_degree w) []; auto_split o q (snd x) (fst x)
  end.
