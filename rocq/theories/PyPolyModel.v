(** Model of class Poly of pyginv/polynomial.py: the values of the objects.  Sharing of the two-element lists
    [m, k] between objects is modelled in PyHeapModel.v.  A Poly is a Python list of pairs; the coefficients are
    sympy numbers, here integers (Q.cancel makes them integers before the algorithms run; ginv.py:10-12, 18, 23).
    For integers is_integer holds, so the calls of sympy.cancel and sympy.expand are not made. *)
From Coq Require Import ZArith List Bool Arith.
From Verif Require Import Outcome MonomModel PyMonomModel.
Import ListNotations.
Local Open Scope Z_scope.

Definition pterm : Type := monom * Z.
Definition ppoly : Type := list pterm.

(** polynomial.py:356-361 assertValid *)
Fixpoint py_valid (o : py_order) (p : ppoly) : bool :=
  match p with
  | [] => true
  | (m, k) :: p' =>
      match p' with
      | [] => negb (k =? 0)
      | (m', _) :: _ => negb (k =? 0) && negb (py_cmp o m m' <=? 0) && py_valid o p'
      end
  end.
Definition py_checked (o : py_order) (p : ppoly) : outcome ppoly := assert_ true (py_valid o p) (Ok p).

(** polynomial.py:20-34: Poly(m), Poly(c) *)
Definition py_of_monom (m : monom) : ppoly := [(m, 1)].
Definition py_of_int (n : nat) (c : Z) : ppoly := if c =? 0 then [] else [(py_unit n, c)].

(** polynomial.py:68-72 __neg__ *)
Definition py_neg (p : ppoly) : ppoly := map (fun x => (fst x, - snd x)) p.

(** polynomial.py:84-105: the loops of __add__ *)
Fixpoint py_merge (o : py_order) (p : ppoly) : ppoly -> ppoly :=
  match p with
  | [] => fun q => q
  | (m, k) :: p' =>
      fix go (q : ppoly) : ppoly :=
        match q with
        | [] => (m, k) :: p'
        | (u, d) :: q' =>
            let c := py_cmp o m u in
            if 0 <? c then (m, k) :: py_merge o p' q
            else if c <? 0 then (u, d) :: go q'
            else if k + d =? 0 then py_merge o p' q' else (m, k + d) :: py_merge o p' q'
        end
  end.
(** polynomial.py:77-107 __add__ *)
Definition py_add (o : py_order) (p q : ppoly) : outcome ppoly := py_checked o (py_merge o p q).

(** polynomial.py:119-140: the loops of __sub__ *)
Fixpoint py_merge_sub (o : py_order) (p : ppoly) : ppoly -> ppoly :=
  match p with
  | [] => fun q => map (fun x => (fst x, - snd x)) q
  | (m, k) :: p' =>
      fix go (q : ppoly) : ppoly :=
        match q with
        | [] => (m, k) :: p'
        | (u, d) :: q' =>
            let c := py_cmp o m u in
            if 0 <? c then (m, k) :: py_merge_sub o p' q
            else if c <? 0 then (u, - d) :: go q'
            else if k - d =? 0 then py_merge_sub o p' q' else (m, k - d) :: py_merge_sub o p' q'
        end
  end.
(** polynomial.py:112-142 __sub__ *)
Definition py_sub (o : py_order) (p q : ppoly) : outcome ppoly := py_checked o (py_merge_sub o p q).

(** polynomial.py:77-82, 109-117: the right operand an int c *)
Definition py_add_int (o : py_order) (n : nat) (p : ppoly) (c : Z) : outcome ppoly :=
  if c =? 0 then Ok p else py_add o p (py_of_int n c).
Definition py_sub_int (o : py_order) (n : nat) (p : ppoly) (c : Z) : outcome ppoly :=
  if c =? 0 then Ok p else py_sub o p (py_of_int n c).
(** polynomial.py:74-75 __radd__, 109-110 __rsub__: c + p, c - p *)
Definition py_radd_int (o : py_order) (n : nat) (c : Z) (p : ppoly) : outcome ppoly := py_add_int o n p c.
Definition py_rsub_int (o : py_order) (n : nat) (c : Z) (p : ppoly) : outcome ppoly := py_sub_int o n p c.

(** polynomial.py:154-161: t[m] += k or t[m] = k; the dictionary as the list of its items *)
Fixpoint py_dict_add (o : py_order) (m : monom) (k : Z) (t : ppoly) : ppoly :=
  match t with
  | [] => [(m, k)]
  | (u, d) :: t' => if py_eq o u m then (u, d + k) :: t' else (u, d) :: py_dict_add o m k t'
  end.
Fixpoint py_dict_row (o : py_order) (m1 : monom) (k1 : Z) (q t : ppoly) : outcome ppoly :=
  match q with
  | [] => Ok t
  | (m2, k2) :: q' => do m <- py_mul m1 m2; py_dict_row o m1 k1 q' (py_dict_add o m (k1 * k2) t)
  end.
Fixpoint py_dict (o : py_order) (p q t : ppoly) : outcome ppoly :=
  match p with
  | [] => Ok t
  | (m1, k1) :: p' => do t' <- py_dict_row o m1 k1 q t; py_dict o p' q t'
  end.
(** polynomial.py:163 sorted(t.items(), reverse=True): the keys are different, so the monomials decide *)
Fixpoint py_insert (o : py_order) (x : pterm) (l : ppoly) : ppoly :=
  match l with
  | [] => [x]
  | y :: l' => if py_lt o (fst x) (fst y) then y :: py_insert o x l' else x :: l
  end.
Definition py_sorted (o : py_order) (t : ppoly) : ppoly := fold_right (py_insert o) [] t.
(** polynomial.py:147-167 __mul__ *)
Definition py_times (o : py_order) (p q : ppoly) : outcome ppoly :=
  do t <- py_dict o p q [];
  py_checked o (filter (fun x => negb (snd x =? 0)) (py_sorted o t)).
Definition py_times_int (o : py_order) (n : nat) (p : ppoly) (c : Z) : outcome ppoly :=
  if c =? 1 then Ok p else py_times o p (py_of_int n c).

(** polynomial.py:178-186 __pow__ *)
Fixpoint py_power_loop (o : py_order) (p : ppoly) (k : nat) (r : ppoly) : outcome ppoly :=
  match k with
  | O => Ok r
  | S k' => do r' <- py_times o r p; py_power_loop o p k' r'
  end.
Definition py_power (o : py_order) (n : nat) (p : ppoly) (k : Z) : outcome ppoly :=
  assert_ true (0 <=? k)
    (if k =? 0 then Ok (py_of_int n 1) else py_power_loop o p (Z.to_nat k - 1) p).

(** polynomial.py:188-193 prolong *)
Fixpoint py_map_terms (f : monom -> outcome monom) (c : Z) (p : ppoly) : outcome ppoly :=
  match p with
  | [] => Ok []
  | (m, k) :: p' => do m' <- f m; do r <- py_map_terms f c p'; Ok ((m', c * k) :: r)
  end.
Definition py_prolong_poly (o : py_order) (p : ppoly) (v : nat) : outcome ppoly :=
  do r <- py_map_terms (fun m => py_prolong m v) 1 p; py_checked o r.

(** polynomial.py:204-210 mult *)
Definition py_mult (o : py_order) (p : ppoly) (m1 : monom) (k1 : Z) : outcome ppoly :=
  assert_ true (negb (k1 =? 0)) (do r <- py_map_terms (fun m2 => py_mul m1 m2) k1 p; py_checked o r).

(** polynomial.py:221-233 pp; the gcd of sympy is not negative.  gcd of an empty tail is the first
    coefficient itself. *)
Fixpoint py_content (g : Z) (p : ppoly) : option Z :=
  match p with
  | [] => Some g
  | (_, k) :: p' => if g =? 1 then None else py_content (Z.gcd g k) p'
  end.
Definition py_pp (o : py_order) (p : ppoly) : outcome ppoly :=
  match p with
  | [] => AssertFail
  | (_, k) :: p' =>
      match py_content k p' with
      | None => Ok p
      | Some g => py_checked o (map (fun x => (fst x, snd x / g)) p)
      end
  end.

(** polynomial.py:250-275: the loops of reduction after position i *)
Fixpoint py_tail (m2 : monom) (k2 : Z) (q : ppoly) : outcome ppoly :=
  match q with
  | [] => Ok []
  | (u, d) :: q' => do m <- py_mul u m2; do r <- py_tail m2 k2 q'; Ok ((m, d * k2) :: r)
  end.
Fixpoint py_red_merge (o : py_order) (k1 k2 : Z) (m2 : monom) (p : ppoly) : ppoly -> outcome ppoly :=
  match p with
  | [] => fun q => py_tail m2 k2 q
  | (m, k) :: p' =>
      fix go (q : ppoly) : outcome ppoly :=
        match q with
        | [] => Ok ((m, k * k1) :: map (fun x => (fst x, snd x * k1)) p')
        | (u, d) :: q' =>
            do um <- py_mul u m2;
            let c := py_cmp o m um in
            if 0 <? c then do r <- py_red_merge o k1 k2 m2 p' q; Ok ((m, k * k1) :: r)
            else if c <? 0 then do r <- go q'; Ok ((um, d * k2) :: r)
            else do r <- py_red_merge o k1 k2 m2 p' q';
                 Ok (if k * k1 + d * k2 =? 0 then r else (m, k * k1 + d * k2) :: r)
        end
  end.
(** polynomial.py:235-276 reduction(i, other); other is not the same object (assert, line 236).  other[0] of an
    empty list raises IndexError: [Undef]. *)
Definition py_reduction (o : py_order) (p : ppoly) (i : nat) (q : ppoly) : outcome ppoly :=
  match nth_error p i with
  | None => AssertFail
  | Some (m, k) =>
      match q with
      | [] => Undef
      | (u, d) :: q' =>
          assert_ true (py_divisible m u)
            (let g := Z.gcd k d in
             do m2 <- py_div m u;
             let k1 := d / g in
             let k2 := - (k / g) in
             do r <- py_red_merge o k1 k2 m2 (skipn (S i) p) q';
             py_checked o (map (fun x => (fst x, snd x * k1)) (firstn i p) ++ r))
      end
  end.

(** polynomial.py:310-318 reduce *)
Fixpoint py_position (o : py_order) (i : nat) (p : ppoly) (lm : monom) : option nat :=
  match p with
  | [] => None
  | (m, _) :: p' => let c := py_cmp o m lm in if 0 <? c then py_position o (S i) p' lm else if c =? 0 then Some i else None
  end.
Definition py_reduce (o : py_order) (p q : ppoly) : outcome ppoly :=
  match p, q with
  | _ :: _, (lm, _) :: _ =>
      match py_position o 0 p lm with
      | Some i => py_reduction o p i q
      | None => Ok p
      end
  | _, _ => AssertFail
  end.

(** polynomial.py:320-326 NFhead; [find] is pset.find; the test is on the truth of a list *)
Definition truthy (q : option ppoly) : option ppoly := match q with Some [] => None | _ => q end.
Fixpoint py_nfhead (fuel : nat) (o : py_order) (find : monom -> outcome (option ppoly)) (p : ppoly) : outcome ppoly :=
  match fuel with
  | O => OutOfFuel
  | S fuel =>
      match p with
      | [] => Ok []
      | (m, _) :: _ =>
          do w <- find m;
          match truthy w with
          | Some q => do p' <- py_reduction o p 0 q; py_nfhead fuel o find p'
          | None => Ok p
          end
      end
  end.

(** polynomial.py:328-336 NFtail *)
Fixpoint py_nftail_loop (fuel : nat) (o : py_order) (find : monom -> outcome (option ppoly)) (i : nat) (p : ppoly) : outcome ppoly :=
  match fuel with
  | O => OutOfFuel
  | S fuel =>
      match nth_error p i with
      | None => Ok p
      | Some (m, _) =>
          do w <- find m;
          match truthy w with
          | Some q => do p' <- py_reduction o p i q; py_nftail_loop fuel o find i p'
          | None => py_nftail_loop fuel o find (S i) p
          end
      end
  end.
Definition py_nftail (fuel : nat) (o : py_order) (find : monom -> outcome (option ppoly)) (p : ppoly) : outcome ppoly :=
  match p with [] => AssertFail | _ => py_nftail_loop fuel o find 1 p end.

(** polynomial.py:58-60 find of a single polynomial *)
Definition py_find1 (q : ppoly) (m : monom) : outcome (option ppoly) :=
  match q with [] => AssertFail | (u, _) :: _ => Ok (if py_divisible m u then Some q else None) end.

(** polynomial.py:348-354 S(p, q) *)
Definition py_spoly (o : py_order) (p q : ppoly) : outcome ppoly :=
  match p, q with
  | (mp, kp) :: _, (mq, kq) :: _ =>
      assert_ true (pos mp =? pos mq)
        (do m <- py_lcm mp mq;
         let k := Z.gcd kp kq in
         do a <- py_div m mp;
         do x <- py_mult o p a (kq / k);
         do b <- py_div m mq;
         do y <- py_mult o q b (kp / k);
         py_sub o x y)
  | _, _ => AssertFail
  end.
