(** Model of classes Wrap and Janet of pyginv/janet.py.  The value of a Wrap is a record; Wraps of a tree are
    changed by replacing them.  Wrap.id is a global counter that is passed along.  The counter of reductions
    (__reduction) is left out; GB and setNonmut are in PyWalkModel.v. *)
From Coq Require Import ZArith List Bool Arith.
From Verif Require Import Outcome MonomModel PyMonomModel PyPolyModel.
Import ListNotations.

Record pwrap := PW { pw_id : nat; pw_poly : ppoly; pw_anc : monom; pw_lm : monom; pw_prolong : list bool; pw_nonmult : list bool }.

Fixpoint set_flag (l : list bool) (v : nat) (b : bool) : list bool :=
  match l, v with
  | [], _ => []
  | _ :: l', O => b :: l'
  | x :: l', S v' => x :: set_flag l' v' b
  end.
Definition set_nonmult (v : nat) (b : bool) (w : pwrap) : pwrap :=
  PW (pw_id w) (pw_poly w) (pw_anc w) (pw_lm w) (pw_prolong w) (set_flag (pw_nonmult w) v b).
Definition set_prolong (v : nat) (b : bool) (w : pwrap) : pwrap :=
  PW (pw_id w) (pw_poly w) (pw_anc w) (pw_lm w) (set_flag (pw_prolong w) v b) (pw_nonmult w).

(** janet.py:8-11, 19-24: Wrap(p) *)
Definition w_of_poly (id : nat) (p : ppoly) : outcome pwrap :=
  match p with
  | [] => AssertFail
  | (m, _) :: _ => Ok (PW id p m m (repeat false (length (vars m))) (repeat false (length (vars m))))
  end.
(** janet.py:12-24: Wrap(w, v): the new Wrap, and w with its flag set *)
Definition w_of_prolong (o : py_order) (id : nat) (w : pwrap) (v : nat) : outcome (pwrap * pwrap) :=
  assert_ true (negb (nth v (pw_prolong w) true)) (assert_ true (nth v (pw_nonmult w) false)
    (do p <- py_prolong_poly o (pw_poly w) v;
     match p with
     | [] => AssertFail
     | (m, _) :: _ =>
         Ok (PW id p (pw_anc w) m (repeat false (length (vars m))) (repeat false (length (vars m))), set_prolong v true w)
     end)).

(** janet.py:48-49 degree *)
Definition w_degree (w : pwrap) : nat := py_degree (pw_lm w).
(** janet.py:51-58 update *)
Definition w_update (o : py_order) (w : pwrap) : outcome pwrap :=
  match pw_poly w with
  | [] => AssertFail
  | (m, _) :: _ =>
      if py_eq o (pw_lm w) m then Ok w
      else Ok (PW (pw_id w) (pw_poly w) m m (map (fun _ => false) (pw_prolong w)) (map (fun _ => false) (pw_nonmult w)))
  end.
(** janet.py:60-64 refresh: the other Wrap after the call *)
Definition w_refresh (o : py_order) (w other : pwrap) : outcome pwrap :=
  match pw_poly w with
  | [] => AssertFail
  | (m, _) :: _ =>
      assert_ true (py_eq o m (pw_lm w))
        (Ok (if py_divisible_true (pw_anc other) (pw_anc w)
             then PW (pw_id other) (pw_poly other) (pw_anc w) (pw_lm other) (pw_prolong other) (pw_nonmult other)
             else other))
  end.
(** janet.py:75-76 isGB, 78-79 multi *)
Definition w_isGB (o : py_order) (w : pwrap) : bool := py_eq o (pw_lm w) (pw_anc w).
Definition w_multi (w : pwrap) : nat := length (filter negb (pw_nonmult w)).
(** janet.py:81-88 crit1, crit2; the polynomials are of type Poly *)
Definition w_crit1 (w other : pwrap) : bool :=
  forallb (fun p => Nat.eqb (fst p) 0 || Nat.eqb (snd p) 0) (combine (vars (pw_anc w)) (vars (pw_anc other))).
Definition w_crit2 (w other : pwrap) : bool :=
  existsb (fun p => Nat.ltb (fst (snd p) + snd (snd p)) (fst p)) (combine (vars (pw_lm w)) (combine (vars (pw_anc w)) (vars (pw_anc other)))).
(** janet.py:90-92 __lt__ *)
Definition w_lt (o : py_order) (w other : pwrap) : bool :=
  let c := py_cmp o (pw_lm w) (pw_lm other) in (c <? 0)%Z || ((c =? 0)%Z && Nat.ltb (pw_id w) (pw_id other)).

(** The nested lists of class Janet *)
Inductive ptree := PWrap (w : pwrap) | PList (l : list ptree).
Notation prow := (list ptree).

(** janet.py:187-196 __iter__ (traversal yields the Wraps from left to right) *)
Fixpoint telems (t : ptree) : list pwrap :=
  match t with
  | PWrap w => [w]
  | PList l => (fix go (l : prow) : list pwrap := match l with [] => [] | t' :: l' => telems t' ++ go l' end) l
  end.
Fixpoint relems (r : prow) : list pwrap := match r with [] => [] | t :: r' => telems t ++ relems r' end.

(** janet.py:172-181: the loop of findWrap; [es]: the exponents m[v], m[v+1], ...  The remaining degree d is
    never negative.  m[v] out of range: IndexError, [Undef]; len() of a Wrap: TypeError, [Undef]. *)
Definition last_wrap (r : prow) : option pwrap := match last r (PList []) with PWrap w => Some w | PList _ => None end.
Fixpoint p_find (es : list nat) (r : prow) : outcome (option pwrap) :=
  match r with
  | [] => Ok None
  | _ :: _ =>
      match es with
      | [] => Undef
      | e :: es' =>
          match (if Nat.leb (length r - 1) e then last_wrap r else None) with
          | Some w => Ok (Some w)
          | None =>
              match nth (Nat.min (length r - 1) e) r (PList []) with
              | PList r' => p_find es' r'
              | PWrap _ => Undef
              end
          end
      end
  end.

(** A Janet object; pos has a value after the first insertion *)
Record pjanet := PJ { pj_root : prow; pj_pos : Z; pj_count : Z }.
(** janet.py:164-167 *)
Definition pj_empty : pjanet := PJ [] 0 0.
(** janet.py:172-181 findWrap, 183-185 find *)
Definition pj_findWrap (J : pjanet) (m : monom) : outcome (option pwrap) :=
  match pj_root J with
  | [] => Ok None
  | r => assert_ true (Z.eqb (pj_pos J) (pos m)) (p_find (vars m) r)
  end.
Definition pj_find (J : pjanet) (m : monom) : outcome (option ppoly) :=
  do w <- pj_findWrap J m; Ok (match w with Some w => Some (pw_poly w) | None => None end).

(** janet.py:217-224 setNonmut(r, v): for all Wraps below *)
Fixpoint t_mark (v : nat) (t : ptree) : ptree :=
  match t with
  | PWrap w => PWrap (set_nonmult v true w)
  | PList l => PList (map (t_mark v) l)
  end.
Fixpoint set_nth (l : prow) (i : nat) (t : ptree) : prow :=
  match l, i with
  | [], _ => []
  | _ :: l', O => t :: l'
  | x :: l', S i' => x :: set_nth l' i' t
  end.
(** janet.py:235-254: the loop of __insert; the new list and the Wraps removed *)
Fixpoint p_insert (es : list nat) (v d : nat) (w : pwrap) (r : prow) : outcome (prow * list pwrap) :=
  match es with
  | [] => Undef
  | e :: es' =>
      let w := if Nat.ltb (S e) (length r) then set_nonmult v true w else w in
      let r := if Nat.ltb (length r) (S e) then map (t_mark v) r ++ repeat (PList []) (S e - length r) else r in
      match nth e r (PList []) with
      | PWrap _ => AssertFail
      | PList c =>
          if Nat.ltb e d then
            do x <- p_insert es' (S v) (d - e) w c;
            Ok (set_nth r e (PList (fst x)), snd x)
          else
            assert_ true (Nat.eqb d e)
              (Ok (firstn e r ++ [PWrap (set_nonmult v false w)], relems (skipn e r)))
      end
  end.
(** janet.py:209-256 __insert *)
Definition pj_insert1 (J : pjanet) (w : pwrap) : outcome (pjanet * list pwrap) :=
  do f <- pj_findWrap J (pw_lm w);
  match f with
  | Some _ => AssertFail
  | None =>
      let p := match pj_root J with [] => pos (pw_lm w) | _ => pj_pos J end in
      assert_ true (Z.eqb p (pos (pw_lm w)))
        (do x <- p_insert (vars (pw_lm w)) 0 (w_degree w) w (pj_root J);
         Ok (PJ (fst x) p (pj_count J + 1)%Z, snd x))
  end.
(** janet.py:258-263 insert *)
Fixpoint pj_insert_loop (J : pjanet) (q lst : list pwrap) : outcome (pjanet * list pwrap) :=
  match q with
  | [] => Ok (J, lst)
  | w :: q' => do x <- pj_insert1 J w; pj_insert_loop (fst x) q' (lst ++ snd x)
  end.
Definition pj_insert (J : pjanet) (q : list pwrap) : outcome (pjanet * list pwrap) :=
  do x <- pj_insert_loop J q [];
  Ok (PJ (pj_root (fst x)) (pj_pos (fst x)) (pj_count (fst x) - Z.of_nat (length (snd x)))%Z, snd x).

(** Variables with a pending prolongation: for v, f in enumerate(w.nonmult): if f and not w.prolong[v] *)
Definition w_pending (w : pwrap) : list nat :=
  filter (fun v => nth v (pw_nonmult w) false && negb (nth v (pw_prolong w) true)) (seq 0 (length (pw_nonmult w))).
(** janet.py:276-282 degMinProlong *)
Definition pj_degMinProlong (J : pjanet) : nat :=
  fold_left (fun d w => fold_left (fun d _ => if Nat.eqb d 0 then w_degree w else Nat.min d (w_degree w)) (w_pending w) d)
    (relems (pj_root J)) 0.
(** janet.py:284-307: the loops of prolongDeg, prolongMonom and prolongAll; [take w v]: the remaining condition *)
Fixpoint w_prolongs (o : py_order) (vs : list nat) (w : pwrap) (id : nat) : outcome (pwrap * list pwrap * nat) :=
  match vs with
  | [] => Ok (w, [], id)
  | v :: vs' =>
      do x <- w_of_prolong o id w v;
      do y <- w_prolongs o vs' (snd x) (S id);
      Ok (fst (fst y), fst x :: snd (fst y), snd y)
  end.
Fixpoint t_prolongs (o : py_order) (take : pwrap -> nat -> bool) (t : ptree) (id : nat) : outcome (ptree * list pwrap * nat) :=
  match t with
  | PWrap w =>
      do x <- w_prolongs o (filter (take w) (w_pending w)) w id;
      Ok (PWrap (fst (fst x)), snd (fst x), snd x)
  | PList l =>
      do x <- (fix go (l : prow) (id : nat) : outcome (prow * list pwrap * nat) :=
         match l with
         | [] => Ok ([], [], id)
         | t' :: l' =>
             do x <- t_prolongs o take t' id;
             do y <- go l' (snd x);
             Ok (fst (fst x) :: fst (fst y), snd (fst x) ++ snd (fst y), snd y)
         end) l id;
      Ok (PList (fst (fst x)), snd (fst x), snd x)
  end.
Definition pj_prolongs (o : py_order) (take : pwrap -> nat -> bool) (J : pjanet) (id : nat) : outcome (pjanet * list pwrap * nat) :=
  do x <- t_prolongs o take (PList (pj_root J)) id;
  Ok (PJ (match fst (fst x) with PList r => r | PWrap w => [PWrap w] end) (pj_pos J) (pj_count J), snd (fst x), snd x).
(** janet.py:284-291 prolongDeg, 293-299 prolongMonom, 301-307 prolongAll *)
Definition take_deg (d : nat) (w : pwrap) (v : nat) : bool := Nat.eqb d 0 || Nat.eqb d (w_degree w).
Definition take_monom (o : py_order) (m : monom) (w : pwrap) (v : nat) : bool :=
  match py_prolong (pw_lm w) v with Ok m' => py_le o m' m | _ => false end.
Definition take_all (w : pwrap) (v : nat) : bool := true.
Definition pj_prolongDeg (o : py_order) (J : pjanet) (d id : nat) := pj_prolongs o (take_deg d) J id.
Definition pj_prolongMonom (o : py_order) (J : pjanet) (m : monom) (id : nat) := pj_prolongs o (take_monom o m) J id.
Definition pj_prolongAll (o : py_order) (J : pjanet) (id : nat) := pj_prolongs o take_all J id.
