(** Model of the objects behind class Poly (pyginv/polynomial.py): a Poly is a Python list of references to
    two-element lists [m, k] (cells), and the same cell can be in several Polys.  A state holds the cells and
    the Poly objects; addresses and object numbers are indices, nothing is ever freed.  An operation is a
    method call on existing objects; it answers with the new state and the object returned (for the in-place
    methods, which return None, the object changed).  Cells are read and written when the code does. *)
From Coq Require Import ZArith List Bool Arith.
From Verif Require Import Outcome MonomModel PyMonomModel PyPolyModel.
Import ListNotations.
Local Open Scope Z_scope.

Definition cells := list pterm.
Record hstate := H { hcells : cells; hobjs : list (list nat) }.

Definition cell (C : cells) (a : nat) : pterm := nth a C (Mon (-1) [], 0).
Fixpoint put (C : cells) (a : nat) (x : pterm) : cells :=
  match C, a with
  | [], _ => []
  | _ :: C', O => x :: C'
  | y :: C', S a' => y :: put C' a' x
  end.
Definition obj (s : hstate) (p : nat) : list nat := nth p (hobjs s) [].
Definition vals (C : cells) (l : list nat) : ppoly := map (cell C) l.
Definition hval (s : hstate) (p : nat) : ppoly := vals (hcells s) (obj s p).
Fixpoint set_obj (O : list (list nat)) (p : nat) (l : list nat) : list (list nat) :=
  match O, p with
  | [], _ => []
  | _ :: O', O%nat => l :: O'
  | x :: O', S p' => x :: set_obj O' p' l
  end.

(** A Poly built term by term with append([m, k]): all cells new. *)
Definition h_new (s : hstate) (v : ppoly) : hstate * nat :=
  (H (hcells s ++ v) (hobjs s ++ [seq (length (hcells s)) (length v)]), length (hobjs s)).

(** polynomial.py:77-107: in [__add__], [other] is copied (line 82), [self]'s cells are put in the result
    (lines 88-89, 100-101).  The list says for each entry of the result whether it is a cell of self. *)
Fixpoint h_merge (o : py_order) (p : list (nat * pterm)) : ppoly -> list (option nat * pterm) :=
  match p with
  | [] => fun q => map (fun x => (None, x)) q
  | (a, (m, k)) :: p' =>
      fix go (q : ppoly) : list (option nat * pterm) :=
        match q with
        | [] => map (fun x => (Some (fst x), snd x)) ((a, (m, k)) :: p')
        | (u, d) :: q' =>
            let c := py_cmp o m u in
            if 0 <? c then (Some a, (m, k)) :: h_merge o p' q
            else if c <? 0 then (None, (u, d)) :: go q'
            else if k + d =? 0 then h_merge o p' q' else (None, (m, k + d)) :: h_merge o p' q'
        end
  end.
(** polynomial.py:112-142 [__sub__]: as [__add__] with the coefficients of the copy negated *)
Fixpoint h_merge_sub (o : py_order) (p : list (nat * pterm)) : ppoly -> list (option nat * pterm) :=
  match p with
  | [] => fun q => map (fun x => (None, (fst x, - snd x))) q
  | (a, (m, k)) :: p' =>
      fix go (q : ppoly) : list (option nat * pterm) :=
        match q with
        | [] => map (fun x => (Some (fst x), snd x)) ((a, (m, k)) :: p')
        | (u, d) :: q' =>
            let c := py_cmp o m u in
            if 0 <? c then (Some a, (m, k)) :: h_merge_sub o p' q
            else if c <? 0 then (None, (u, - d)) :: go q'
            else if k - d =? 0 then h_merge_sub o p' q' else (None, (m, k - d)) :: h_merge_sub o p' q'
        end
  end.
Fixpoint place (C : cells) (l : list (option nat * pterm)) : cells * list nat :=
  match l with
  | [] => (C, [])
  | (Some a, _) :: l' => let (C', r) := place C l' in (C', a :: r)
  | (None, x) :: l' => let (C', r) := place (C ++ [x]) l' in (C', length C :: r)
  end.
(** The new Poly with these entries, after assertValid *)
Definition h_placed (o : py_order) (s : hstate) (l : list (option nat * pterm)) : outcome (hstate * nat) :=
  let (C, r) := place (hcells s) l in
  do _ <- py_checked o (vals C r);
  Ok (H C (hobjs s ++ [r]), length (hobjs s)).
Definition tagged (s : hstate) (p : nat) : list (nat * pterm) := map (fun a => (a, cell (hcells s) a)) (obj s p).

(** polynomial.py:221-233 pp: mk[1] = mk[1]/g for each cell *)
Fixpoint h_map_cells (f : pterm -> pterm) (l : list nat) (C : cells) : cells :=
  match l with
  | [] => C
  | a :: l' => h_map_cells f l' (put C a (f (cell C a)))
  end.

(** polynomial.py:250-275, as [py_red_merge], on cells *)
Fixpoint h_tail (m2 : monom) (k2 : Z) (qs : list nat) (C : cells) : outcome (list nat * cells) :=
  match qs with
  | [] => Ok ([], C)
  | b :: qs' =>
      do m <- py_mul (fst (cell C b)) m2;
      do r <- h_tail m2 k2 qs' (C ++ [(m, snd (cell C b) * k2)]);
      Ok (length C :: fst r, snd r)
  end.
Fixpoint h_red_merge (o : py_order) (k1 k2 : Z) (m2 : monom) (ps : list nat) : list nat -> cells -> outcome (list nat * cells) :=
  match ps with
  | [] => fun qs C => h_tail m2 k2 qs C
  | a :: ps' =>
      fix go (qs : list nat) (C : cells) : outcome (list nat * cells) :=
        match qs with
        | [] => Ok (a :: ps', h_map_cells (fun x => (fst x, snd x * k1)) (a :: ps') C)
        | b :: qs' =>
            do um <- py_mul (fst (cell C b)) m2;
            let m := fst (cell C a) in
            let k := snd (cell C a) in
            let d := snd (cell C b) in
            let c := py_cmp o m um in
            if 0 <? c then do r <- h_red_merge o k1 k2 m2 ps' qs (put C a (m, k * k1)); Ok (a :: fst r, snd r)
            else if c <? 0 then do r <- go qs' (C ++ [(um, d * k2)]); Ok (length C :: fst r, snd r)
            else if k * k1 + d * k2 =? 0 then h_red_merge o k1 k2 m2 ps' qs' C
            else do r <- h_red_merge o k1 k2 m2 ps' qs' (put C a (m, k * k1 + d * k2)); Ok (a :: fst r, snd r)
        end
  end.
(** polynomial.py:235-276 reduction(i, other) *)
Definition h_reduction (o : py_order) (s : hstate) (p i q : nat) : outcome hstate :=
  assert_ true (negb (Nat.eqb p q))
    (match nth_error (obj s p) i with
     | None => AssertFail
     | Some a =>
         match obj s q with
         | [] => Undef
         | b :: qs =>
             let C := hcells s in
             let m := fst (cell C a) in
             let k := snd (cell C a) in
             let u := fst (cell C b) in
             let d := snd (cell C b) in
             assert_ true (py_divisible m u)
               (let g := Z.gcd k d in
                do m2 <- py_div m u;
                let k1 := d / g in
                let k2 := - (k / g) in
                let A := firstn i (obj s p) in
                do r <- h_red_merge o k1 k2 m2 (skipn (S i) (obj s p)) qs (h_map_cells (fun x => (fst x, snd x * k1)) A C);
                do _ <- py_checked o (vals (snd r) (A ++ fst r));
                Ok (H (snd r) (set_obj (hobjs s) p (A ++ fst r))))
         end
     end).

(** polynomial.py:320-326 NFhead(pset) with a Poly as pset; Poly.find, lines 58-60 *)
Fixpoint h_nfhead (fuel : nat) (o : py_order) (s : hstate) (p q : nat) : outcome hstate :=
  match fuel with
  | O => OutOfFuel
  | S fuel =>
      match hval s p, hval s q with
      | [], _ => Ok s
      | _, [] => AssertFail
      | (m, _) :: _, (u, _) :: _ =>
          if py_divisible m u then do s' <- h_reduction o s p 0 q; h_nfhead fuel o s' p q else Ok s
      end
  end.

Inductive hop :=
| HMonom (m : monom) | HInt (c : Z) | HCopy (p : nat) | HNeg (p : nat)
| HAdd (p q : nat) | HSub (p q : nat) | HAddInt (p : nat) (c : Z) | HSubInt (p : nat) (c : Z)
| HMul (p q : nat) | HMulInt (p : nat) (c : Z) | HPow (p : nat) (j : Z)
| HProlong (p v : nat) | HMult (p : nat) (m : monom) (c : Z)
| HPp (p : nat) | HReduction (p i q : nat) | HReduce (p q : nat) | HNFhead (p q : nat).

Definition h_fresh (s : hstate) (r : outcome ppoly) : outcome (hstate * nat) := do v <- r; Ok (h_new s v).
Definition h_inplace (s : outcome hstate) (p : nat) : outcome (hstate * nat) := do s' <- s; Ok (s', p).

(** [n]: number of variables; [fuel]: for the loop of NFhead.
    [__mul__], [__pow__], [__add__], [__sub__] return self itself for * 1, ** 1, + 0, - 0
    (polynomial.py:78-79, 113-114, 148-149, 183-185). *)
Definition h_step (fuel : nat) (o : py_order) (n : nat) (op : hop) (s : hstate) : outcome (hstate * nat) :=
  match op with
  | HMonom m => h_fresh s (Ok (py_of_monom m))
  | HInt c => h_fresh s (Ok (py_of_int n c))
  | HCopy p => h_fresh s (py_checked o (hval s p))
  | HNeg p => h_fresh s (Ok (py_neg (hval s p)))
  | HAdd p q => h_placed o s (h_merge o (tagged s p) (hval s q))
  | HSub p q => h_placed o s (h_merge_sub o (tagged s p) (hval s q))
  | HAddInt p c => if c =? 0 then Ok (s, p) else h_placed o s (h_merge o (tagged s p) (py_of_int n c))
  | HSubInt p c => if c =? 0 then Ok (s, p) else h_placed o s (h_merge_sub o (tagged s p) (py_of_int n c))
  | HMul p q => h_fresh s (py_times o (hval s p) (hval s q))
  | HMulInt p c => if c =? 1 then Ok (s, p) else h_fresh s (py_times o (hval s p) (py_of_int n c))
  | HPow p j => if j =? 1 then Ok (s, p) else h_fresh s (py_power o n (hval s p) j)
  | HProlong p v => h_fresh s (py_prolong_poly o (hval s p) v)
  | HMult p m c => h_fresh s (py_mult o (hval s p) m c)
  | HPp p =>
      match hval s p with
      | [] => AssertFail
      | (_, k) :: v =>
          match py_content k v with
          | None => Ok (s, p)
          | Some g =>
              let C := h_map_cells (fun x => (fst x, snd x / g)) (obj s p) (hcells s) in
              do _ <- py_checked o (vals C (obj s p));
              Ok (H C (hobjs s), p)
          end
      end
  | HReduction p i q => h_inplace (h_reduction o s p i q) p
  | HReduce p q =>
      match hval s p, hval s q with
      | _ :: _, (lm, _) :: _ =>
          match py_position o 0 (hval s p) lm with
          | Some i => h_inplace (h_reduction o s p i q) p
          | None => Ok (s, p)
          end
      | _, _ => AssertFail
      end
  | HNFhead p q => h_inplace (h_nfhead fuel o s p q) p
  end.
