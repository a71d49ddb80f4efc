(** Where the terms of a polynomial are in memory while it is changed in place (ginv/poly_int.cpp), and the Python
    generators and pairs (m, c) that point to them (cython/ginv.pyx:411-419).

    A polynomial is a List<Term*>; a node of the list and its Term are made together and destroyed together in all
    of the functions below, so that one address stands for both ([cell]).  New cells get new addresses [k], [k+1], ...:
    memory that is freed and taken again would only make [Undef] into something else.
    The values computed are those of PolyModel.v; here the edits of the list are followed cell by cell. *)
From Coq Require Import ZArith List Bool Arith.
From Verif Require Import Outcome MonomModel PolyModel.
Import ListNotations.
Local Open Scope Z_scope.

Definition addr := nat.
Notation cell := (addr * term)%type.
Record cpoly := CP { cto : pos_order; cbo : base_order; csize : nat; cells : list cell; fresh : addr }.
Definition plain (p : cpoly) : poly := Poly (cto p) (cbo p) (csize p) (map snd (cells p)).
Definition with_cells (p : cpoly) (l : list cell) (k : addr) : cpoly := CP (cto p) (cbo p) (csize p) l k.
(** The term at an address, if there still is one. *)
Definition at_addr (i : addr) (l : list cell) : option term :=
  match find (fun x => Nat.eqb (fst x) i) l with Some x => Some (snd x) | None => None end.

(** poly_int.cpp:152-182 add(a), a another object *)
Fixpoint c_add (t : pos_order) (o : base_order) (p : list cell) : addr -> list term -> list cell * addr :=
  fix go (k : addr) (a : list term) : list cell * addr :=
    match p, a with
    | [], [] => ([], k)
    | [], (n, d) :: a' => let (l, k') := go (S k) a' in ((k, (n, d)) :: l, k')                        (* 176-180 *)
    | _ :: _, [] => (p, k)
    | (i, (m, c)) :: p', (n, d) :: a' =>
        if cmp1 t o m n =? 1 then let (l, k') := c_add t o p' k a in ((i, (m, c)) :: l, k')           (* 158-160 *)
        else if cmp1 t o m n =? -1 then let (l, k') := go (S k) a' in ((k, (n, d)) :: l, k')          (* 161-165 *)
        else if c + d =? 0 then c_add t o p' k a'                                                     (* 170-173 *)
        else let (l, k') := c_add t o p' k a' in ((i, (m, c + d)) :: l, k')                           (* 167-169 *)
    end.
(** poly_int.cpp:210-242 sub(a), a another object *)
Fixpoint c_sub (t : pos_order) (o : base_order) (p : list cell) : addr -> list term -> list cell * addr :=
  fix go (k : addr) (a : list term) : list cell * addr :=
    match p, a with
    | [], [] => ([], k)
    | [], (n, d) :: a' => let (l, k') := go (S k) a' in ((k, (n, - d)) :: l, k')
    | _ :: _, [] => (p, k)
    | (i, (m, c)) :: p', (n, d) :: a' =>
        if cmp1 t o m n =? 1 then let (l, k') := c_sub t o p' k a in ((i, (m, c)) :: l, k')
        else if cmp1 t o m n =? -1 then let (l, k') := go (S k) a' in ((k, (n, - d)) :: l, k')
        else if c - d =? 0 then c_sub t o p' k a'
        else let (l, k') := c_sub t o p' k a' in ((i, (m, c - d)) :: l, k')
    end.
(** poly_int.cpp:129-150 add("c"), 185-208 sub("c") *)
Fixpoint c_add_const (n : nat) (l : list cell) (k : addr) (c : Z) : list cell * addr :=
  match l with
  | [] => ([(k, (unit_monom n (-1), c))], S k)
  | (i, (m, d)) :: l' =>
      if Nat.ltb 0 (deg m) || (0 <=? pos m) then let (r, k') := c_add_const n l' k c in ((i, (m, d)) :: r, k')
      else if d + c =? 0 then (l', k) else ((i, (m, d + c)) :: l', k)
  end.
Fixpoint c_sub_const (n : nat) (l : list cell) (k : addr) (c : Z) : list cell * addr :=
  match l with
  | [] => ([(k, (unit_monom n (-1), - c))], S k)
  | (i, (m, d)) :: l' =>
      if Nat.ltb 0 (deg m) || (0 <=? pos m) then let (r, k') := c_sub_const n l' k c in ((i, (m, d)) :: r, k')
      else if d - c =? 0 then (l', k) else ((i, (m, d - c)) :: l', k)
  end.
(** set_neg, mult of the coefficients where they are: poly_int.cpp:120-127, 245-260, 419-422 *)
Definition c_neg (l : list cell) : list cell := map (fun x => (fst x, (fst (snd x), - snd (snd x)))) l.
Definition c_scale (k : Z) (l : list cell) : list cell := map (fun x => (fst x, (fst (snd x), snd (snd x) * k))) l.
(** poly_int.cpp:423-427: what is left of a, times m2 *)
Fixpoint c_mulmon (dbg : bool) (m : monom) (c : Z) (k : addr) (l : list term) : outcome (list cell * addr) :=
  match l with
  | [] => Ok ([], k)
  | (u, d) :: l' => do w <- mul_ dbg u m; do r <- c_mulmon dbg m c (S k) l'; Ok ((k, (w, d * c)) :: fst r, snd r)
  end.
(** poly_int.cpp:393-427 and 458-492 *)
Fixpoint c_red (dbg : bool) (t : pos_order) (o : base_order) (k1 k2 : Z) (m2 : monom) (p : list cell) :
    addr -> list term -> outcome (list cell * addr) :=
  fix go (k : addr) (a : list term) : outcome (list cell * addr) :=
    match p, a with
    | _, [] => Ok (c_scale k1 p, k)
    | [], _ => c_mulmon dbg m2 k2 k a
    | (i, (m, c)) :: p', (n, d) :: a' =>
        do r <- cmp2_ dbg t o m n m2;
        if r =? 1 then do l <- c_red dbg t o k1 k2 m2 p' k a; Ok ((i, (m, c * k1)) :: fst l, snd l)
        else if r =? -1 then do w <- mul_ dbg n m2; do l <- go (S k) a'; Ok ((k, (w, d * k2)) :: fst l, snd l)
        else do l <- c_red dbg t o k1 k2 m2 p' k a';
             if c * k1 + d * k2 =? 0 then Ok l else Ok ((i, (m, c * k1 + d * k2)) :: fst l, snd l)
    end.

(** assertValid at the end of each function (poly_int.cpp:565-582) *)
Definition c_checked (dbg : bool) (p : cpoly) : outcome cpoly := assert_ dbg (assertValid (plain p)) (Ok p).

(** poly_int.cpp:372-429 reduction(a), a another object *)
Definition c_reduction (dbg : bool) (p : cpoly) (a : poly) : outcome cpoly :=
  assert_ dbg (comparable (plain p) a)
    match cells p, terms a with
    | (_, (m, c)) :: p', (n, d) :: a' =>
        do f <- red_factors dbg m c n d;
        let '(m2, k1, k2) := f in
        do l <- c_red dbg (cto p) (cbo p) k1 k2 m2 p' (fresh p) a';
        c_checked dbg (with_cells p (fst l) (snd l))
    | _, _ => null_head dbg
    end.
(** poly_int.cpp:496-503 redMaybe(a), 431-494 redTail *)
Fixpoint c_skip_gt (t : pos_order) (o : base_order) (m : monom) (pre rest : list cell) : list cell * list cell :=
  match rest with
  | [] => (pre, [])
  | x :: rest' => if 0 <? cmp1 t o (fst (snd x)) m then c_skip_gt t o m (pre ++ [x]) rest' else (pre, rest)
  end.
Definition c_redMaybe (dbg : bool) (p : cpoly) (a : poly) : outcome cpoly :=
  match cells p, terms a with
  | [], _ => if dbg then AssertFail else Ok p
  | _, [] => null_head dbg
  | _, (n, d) :: a' =>
      let (pre, rest) := c_skip_gt (cto p) (cbo p) n [] (cells p) in
      match rest with
      | [] => Ok p
      | (_, (m, c)) :: rest' =>
          if eqm m n
          then assert_ dbg (comparable (plain p) a)
                 (do f <- red_factors dbg m c n d;
                  let '(m2, k1, k2) := f in
                  do l <- c_red dbg (cto p) (cbo p) k1 k2 m2 rest' (fresh p) a';
                  c_checked dbg (with_cells p (c_scale k1 pre ++ fst l) (snd l)))
          else Ok p
      end
  end.
(** poly_int.cpp:525-547 pp *)
Fixpoint c_div (dbg : bool) (g : Z) (l : list cell) : outcome (list cell) :=
  match l with
  | [] => Ok []
  | (i, (m, c)) :: l' => do k <- int_div dbg c g; do r <- c_div dbg g l'; Ok ((i, (m, k)) :: r)
  end.
Definition c_pp (dbg : bool) (p : cpoly) : outcome cpoly :=
  match cells p with
  | [] => Ok p
  | (_, (_, c)) :: l =>
      if Z.abs c =? 1 then Ok p
      else do r <- gcd_loop dbg c (map snd l);
           match r with
           | None => Ok p
           | Some g =>
               do l' <- c_div dbg g (cells p);
               do b <- p_isPp dbg (plain (with_cells p l' (fresh p)));
               assert_ dbg b (Ok (with_cells p l' (fresh p)))
           end
  end.
(** poly_int.h:291-304 nf *)
Fixpoint c_nf (fuel : nat) (dbg : bool) (find : monom -> outcome (option poly)) (p : cpoly) : outcome cpoly :=
  match cells p with
  | [] => Ok p
  | (_, (m, _)) :: _ =>
      do w <- find m;
      match w with
      | None => Ok p
      | Some a => match fuel with O => OutOfFuel | S fuel' => do p' <- c_reduction dbg p a; c_nf fuel' dbg find p' end
      end
  end.

(** The calls that change a polynomial term by term. *)
Inductive edit :=
| EMinus | EAdd (a : poly) | ESub (a : poly) | EAddConst (c : Z) | ESubConst (c : Z) | EMultConst (c : Z)
| EPp | EReduction (a : poly) | ERedMaybe (a : poly).
Definition c_edit (dbg : bool) (p : cpoly) (e : edit) : outcome cpoly :=
  match e with
  | EMinus => c_checked dbg (with_cells p (c_neg (cells p)) (fresh p))
  | EAdd a => assert_ dbg (comparable (plain p) a)
      (let (l, k) := c_add (cto p) (cbo p) (cells p) (fresh p) (terms a) in c_checked dbg (with_cells p l k))
  | ESub a => assert_ dbg (comparable (plain p) a)
      (let (l, k) := c_sub (cto p) (cbo p) (cells p) (fresh p) (terms a) in c_checked dbg (with_cells p l k))
  | EAddConst c =>
      match cells p with
      | [] => null_head dbg
      | (_, (m, _)) :: _ => let (l, k) := c_add_const (size m) (cells p) (fresh p) c in c_checked dbg (with_cells p l k)
      end
  | ESubConst c =>
      match cells p with
      | [] => null_head dbg
      | (_, (m, _)) :: _ => let (l, k) := c_sub_const (size m) (cells p) (fresh p) c in c_checked dbg (with_cells p l k)
      end
  | EMultConst c =>
      match cells p with
      | [] => c_checked dbg p
      | _ => if c =? 0 then c_checked dbg (with_cells p [] (fresh p)) else c_checked dbg (with_cells p (c_scale c (cells p)) (fresh p))
      end
  | EPp => c_pp dbg p
  | EReduction a => c_reduction dbg p a
  | ERedMaybe a => c_redMaybe dbg p a
  end.
Fixpoint c_edits (dbg : bool) (p : cpoly) (es : list edit) : outcome cpoly :=
  match es with [] => Ok p | e :: es' => do q <- c_edit dbg p e; c_edits dbg q es' end.

(* ------------------------------------------------------------------------------------------ *)
(** * p.add(p), p.sub(p): the list that is changed is the list that is read *)

(** The cell after the one at address i; None: there is no cell at i any more. *)
Fixpoint cell_after (i : addr) (l : list cell) : option (option addr) :=
  match l with
  | [] => None
  | x :: l' => if Nat.eqb (fst x) i then Some (match l' with [] => None | y :: _ => Some (fst y) end) else cell_after i l'
  end.
Definition first_cell (l : list cell) : option addr := match l with [] => None | x :: _ => Some (fst x) end.
Definition del_cell (i : addr) (l : list cell) : list cell := filter (fun x => negb (Nat.eqb (fst x) i)) l.
Definition set_coeff (i : addr) (c : Z) (l : list cell) : list cell :=
  map (fun x => if Nat.eqb (fst x) i then (fst x, (fst (snd x), c)) else x) l.
(** poly_int.cpp:155-175 ([sgn] = 1) and 213-233 ([sgn] = -1) with a = *this.  [l] are the
    cells; i and ia are addresses and start at the first cell.  The branches for different monomials (cases 1 and -1
    of the switch) are left out: they would be [Undef] here, and C101_add_itself shows that they are not reached. *)
Fixpoint self_loop (fuel : nat) (t : pos_order) (o : base_order) (sgn : Z) (l : list cell) (i ia : option addr) : outcome (list cell) :=
  match i, ia with
  | Some i0, Some j0 =>
      match fuel with
      | O => OutOfFuel
      | S fuel' =>
          match at_addr i0 l, at_addr j0 l with
          | Some (m, c), Some (n, d) =>
              if negb (cmp1 t o m n =? 0) then Undef
              else
                let l' := set_coeff i0 (c + sgn * d) l in
                if c + sgn * d =? 0
                then match cell_after i0 l', cell_after j0 (del_cell i0 l') with
                     | Some i', Some ia' => self_loop fuel' t o sgn (del_cell i0 l') i' ia'
                     | _, _ => Undef                      (* ++ia reads a node that i.del() has freed *)
                     end
                else match cell_after i0 l', cell_after j0 l' with
                     | Some i', Some ia' => self_loop fuel' t o sgn l' i' ia'
                     | _, _ => Undef
                     end
          | _, _ => Undef
          end
      end
  | _, _ => Ok l
  end.
Definition c_self (fuel : nat) (dbg : bool) (sgn : Z) (p : cpoly) : outcome cpoly :=
  do l <- self_loop fuel (cto p) (cbo p) sgn (cells p) (first_cell (cells p)) (first_cell (cells p));
  c_checked dbg (with_cells p l (fresh p)).
