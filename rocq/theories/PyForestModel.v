(** Model of class Forest of pyginv/janet.py: a list of Janet trees, one for each unknown function. *)
From Coq Require Import ZArith List Bool Arith QArith.
From Verif Require Import Outcome MonomModel PyMonomModel PyPolyModel PyJanetModel PyHPModel.
Import ListNotations.
Local Open Scope nat_scope.

Notation pforest := (list pjanet).

(** janet.py:407-411 Forest(Janet) with k unknown functions *)
Definition pf_new (k : nat) : outcome pforest := assert_ true (Nat.ltb 0 k) (Ok (repeat pj_empty k)).

(** Python's self[p]: -1 is the last entry; IndexError: [None] *)
Definition py_index (len : nat) (p : Z) : option nat :=
  if ((0 <=? p) && (p <? Z.of_nat len))%Z then Some (Z.to_nat p)
  else if ((p <? 0) && (- Z.of_nat len <=? p))%Z then Some (Z.to_nat (Z.of_nat len + p)) else None.

(** janet.py:416-417 findWrap, 419-420 find *)
Definition pf_findWrap (F : pforest) (m : monom) : outcome (option pwrap) :=
  if (0 <=? pos m)%Z then
    match py_index (length F) (pos m) with Some i => pj_findWrap (nth i F pj_empty) m | None => Undef end
  else Ok None.
Definition pf_find (F : pforest) (m : monom) : outcome (option ppoly) :=
  if (0 <=? pos m)%Z then
    match py_index (length F) (pos m) with Some i => pj_find (nth i F pj_empty) m | None => Undef end
  else Ok None.

(** janet.py:422-425 __iter__ *)
Definition pf_elems (F : pforest) : list pwrap := flat_map (fun J => relems (pj_root J)) F.

Fixpoint replace (F : pforest) (i : nat) (J : pjanet) : pforest :=
  match F, i with
  | [], _ => []
  | _ :: F', O => J :: F'
  | x :: F', S i' => x :: replace F' i' J
  end.
(** janet.py:432-436 insert *)
Fixpoint pf_insert_loop (F : pforest) (q lst : list pwrap) : outcome (pforest * list pwrap) :=
  match q with
  | [] => Ok (F, lst)
  | w :: q' =>
      match py_index (length F) (pos (pw_lm w)) with
      | Some i => do x <- pj_insert (nth i F pj_empty) [w]; pf_insert_loop (replace F i (fst x)) q' (lst ++ snd x)
      | None => Undef
      end
  end.
Definition pf_insert (F : pforest) (q : list pwrap) : outcome (pforest * list pwrap) := pf_insert_loop F q [].

(** janet.py:438-447 degMinProlong *)
Definition pf_degMinProlong (F : pforest) : nat :=
  fold_left (fun d J => let d1 := pj_degMinProlong J in
    if Nat.ltb 0 d1 then (if Nat.eqb d 0 then d1 else Nat.min d d1) else d) F 0.

(** janet.py:449-465 prolongDeg, prolongMonom, prolongAll *)
Fixpoint pf_prolongs (step : pjanet -> nat -> outcome (pjanet * list pwrap * nat)) (F : pforest) (id : nat) : outcome (pforest * list pwrap * nat) :=
  match F with
  | [] => Ok ([], [], id)
  | J :: F' =>
      do x <- step J id;
      do y <- pf_prolongs step F' (snd x);
      Ok (fst (fst x) :: fst (fst y), snd (fst x) ++ snd (fst y), snd y)
  end.
Definition pf_prolongDeg (o : py_order) (F : pforest) (d id : nat) := pf_prolongs (fun J i => pj_prolongDeg o J d i) F id.
Definition pf_prolongMonom (o : py_order) (F : pforest) (m : monom) (id : nat) := pf_prolongs (fun J i => pj_prolongMonom o J m i) F id.
Definition pf_prolongAll (o : py_order) (F : pforest) (id : nat) := pf_prolongs (fun J i => pj_prolongAll o J i) F id.

(** janet.py:470-471 count *)
Definition pf_count (F : pforest) : Z := fold_right (fun J s => (pj_count J + s)%Z) 0%Z F.

(** janet.py:473-479 HP; [n]: the number of variables; the loop stops at the tree with number verge *)
Fixpoint pf_HP_loop (n : nat) (F : pforest) (k verge : Z) (h : list Q) : outcome (list Q) :=
  match F with
  | [] => Ok h
  | J :: F' => if (k =? verge)%Z then Ok h else do p <- pj_HP n J; do h' <- hilbert_add h p; pf_HP_loop n F' (k + 1) verge h'
  end.
Definition pf_HP (n : nat) (F : pforest) (verge : Z) : outcome (list Q) :=
  do h <- hilbert_poly (Z.of_nat n) false; pf_HP_loop n F 0 verge h.
