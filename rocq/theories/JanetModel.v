(** Model of ginv/wrap.h, ginv/wrap.cpp, ginv/janet.h, ginv/janet.cpp.
    A Wrap is only ever reachable through one tree (or queue) node, so it is stored by value in the
    node; two wraps are told apart by their leading monomial.  Allocation itself is not modelled here. *)
From Coq Require Import ZArith List Bool Arith.
From Verif Require Import Outcome MonomModel.
Import ListNotations.

(** wrap.h:31-37 *)
Record wrap : Type := Wrap { wlm : monom; wanc : monom; wnm : list bool; wnmd : list bool; wbuild : list bool }.

(** Access outside of an array: fails the assert in operator[] / setNM / NM ..., undefined without it. *)
Definition oob {A} (dbg : bool) : outcome A := if dbg then AssertFail else Undef.

(** monom.h:106 operator[] *)
Definition mget (dbg : bool) (m : monom) (i : nat) : outcome nat :=
  match nth_error (vars m) i with Some x => Ok x | None => oob dbg end.

Fixpoint set_at (l : list bool) (i : nat) : option (list bool) :=
  match l, i with
  | [], _ => None
  | _ :: l', O => Some (true :: l')
  | b :: l', S i' => match set_at l' i' with Some r => Some (b :: r) | None => None end
  end.

(** wrap.h:108-111 setNM *)
Definition set_nm (dbg : bool) (w : wrap) (i : nat) : outcome wrap :=
  match set_at (wnm w) i with
  | Some l => Ok (Wrap (wlm w) (wanc w) l (wnmd w) (wbuild w))
  | None => oob dbg
  end.
(** wrap.h:112-115 setNMd *)
Definition set_nmd (dbg : bool) (w : wrap) (i : nat) : outcome wrap :=
  match set_at (wnmd w) i with
  | Some l => Ok (Wrap (wlm w) (wanc w) (wnm w) l (wbuild w))
  | None => oob dbg
  end.
(** wrap.h:128-131 setBuild *)
Definition set_build (dbg : bool) (w : wrap) (i : nat) : outcome wrap :=
  match set_at (wbuild w) i with
  | Some l => Ok (Wrap (wlm w) (wanc w) (wnm w) (wnmd w) l)
  | None => oob dbg
  end.
(** wrap.h:116-127 NM, NMd, build *)
Definition get_flag (dbg : bool) (l : list bool) (i : nat) : outcome bool :=
  match nth_error l i with Some b => Ok b | None => oob dbg end.

(** wrap.h:54-67 Wrap(m) *)
Definition new_wrap (m : monom) : wrap :=
  Wrap m m (repeat false (size m)) (repeat false (size m)) (repeat false (size m)).

(** wrap.h:68-83 Wrap(var, ansector): the new wrap and the ansector with build[var] set. *)
Definition prolong_wrap (dbg : bool) (k : nat) (a : wrap) : outcome (wrap * wrap) :=
  do nm <- get_flag dbg (wnm a) k;
  do nmd <- get_flag dbg (wnmd a) k;
  do b <- get_flag dbg (wbuild a) k;
  assert_ dbg ((nm || nmd) && negb b)
    (do a' <- set_build dbg a k;
     let f := repeat false (size (wlm a)) in
     Ok (Wrap (mul_var k (wlm a)) (wanc a) f f f, a')).

(** wrap.cpp:25-35 update (lex does not look at the position). *)
Definition update (w : wrap) (m : monom) : wrap :=
  if (lex (wlm w) m =? 0)%Z then w
  else let f := repeat false (size m) in Wrap m m f f f.

(** wrap.h:100-106 multi *)
Definition multi (w : wrap) : nat := length (filter negb (wnm w)).

(** janet.h:43-53 Node: mDeg, mWrap, mNextDeg, mNextVar; [Nil] is the null link. *)
Inductive tree : Type :=
| Nil
| Node (d : nat) (w : option wrap) (nextDeg nextVar : tree).

Definition is_nil (t : tree) : bool := match t with Nil => true | _ => false end.

(** Elements in the order in which every traversal of the code visits them (node, nextVar, nextDeg). *)
Fixpoint wraps (t : tree) : list wrap :=
  match t with
  | Nil => []
  | Node _ w nd nv => match w with Some u => [u] | None => [] end ++ wraps nv ++ wraps nd
  end.

(** janet.cpp:35-50 Iterator::build(d, var, wrap): chain of nodes for the exponents from [var] on, put
    in front of the link [next].  [l] are the remaining exponents of wrap->lm() from [var]. *)
Fixpoint build_chain (dbg : bool) (w : wrap) (d : nat) (l : list nat) (next : tree) : outcome tree :=
  match l with
  | [] => oob dbg
  | x :: l' =>
      if Nat.ltb x d
      then do nv <- build_chain dbg w (d - x) l' Nil; Ok (Node x None next nv)
      else Ok (Node x (Some w) next Nil)
  end.
Definition build_at (dbg : bool) (w : wrap) (d var : nat) (next : tree) : outcome tree :=
  do x <- mget dbg (wlm w) var;
  assert_ dbg (Nat.leb x d)
    (do r <- build_chain dbg w d (skipn var (vars (wlm w))) next;
     match next with
     | Node dn _ _ _ => assert_ dbg (Nat.ltb x dn) (Ok r)
     | Nil => Ok r
     end).

Definition opt_set_nm (dbg : bool) (ow : option wrap) (v : nat) : outcome (option wrap) :=
  match ow with
  | Some u => do u' <- set_nm dbg u v; Ok (Some u')
  | None => Ok None
  end.

(** janet.cpp:60-73 ConstIterator::setNM(var) *)
Fixpoint set_nm_tree (dbg : bool) (t : tree) (v : nat) : outcome tree :=
  match t with
  | Nil => Ok Nil
  | Node dg ow nd nv =>
      do nv' <- set_nm_tree dbg nv v;
      do ow' <- opt_set_nm dbg ow v;
      do nd' <- set_nm_tree dbg nd v;
      Ok (Node dg ow' nd' nv')
  end.

(** janet.cpp:75-87 assertValid *)
Fixpoint assert_valid_tree (t : tree) : bool :=
  match t with
  | Nil => false
  | Node dg ow nd nv =>
      match nd with
      | Node dn _ _ _ =>
          negb (Nat.leb dn dg) && (is_nil nv || assert_valid_tree nv) && assert_valid_tree nd
      | Nil => if is_nil nv then match ow with Some _ => true | None => false end
               else assert_valid_tree nv
      end
  end.

(** janet.cpp:297-306: is [u] an involutive divisor of [m] by its stored flags?  Also
    mcompletion.cpp:85-94.  Loop over v < m.size(). *)
Fixpoint check_from (dbg : bool) (u : wrap) (v : nat) (l : list nat) : outcome bool :=
  match l with
  | [] => Ok true
  | x :: l' =>
      do y <- mget dbg (wlm u) v;
      if Nat.ltb x y then Ok false
      else if Nat.ltb y x
           then do b <- get_flag dbg (wnm u) v;
                if b then Ok false else check_from dbg u (S v) l'
           else check_from dbg u (S v) l'
  end.
Definition check_div (dbg : bool) (u : wrap) (m : monom) : outcome bool := check_from dbg u 0 (vars m).

(** assert(wrap->lm() | m): monom.h operator| is m.divisiable(wrap->lm()). *)
Definition assert_div {A} (dbg : bool) (u : wrap) (m : monom) (k : outcome A) : outcome A :=
  assert_ dbg (divisiable m (wlm u)) k.

(** janet.cpp:273-319, the loop of find.  [d] is unsigned in C++; it is the degree of the part of m that
    is still to be matched, [Undef] for d < m[var] is proved unreachable. *)
Fixpoint find_loop (dbg : bool) (m : monom) (d var : nat) (j : tree) : outcome (option wrap) :=
  match j with
  | Nil => oob dbg
  | Node dg ow nd nv =>
      assert_ dbg (Nat.ltb 0 d)
        (do x <- mget dbg m var;
         if Nat.ltb dg x && negb (is_nil nd) then find_loop dbg m d var nd
         else if Nat.ltb x dg then Ok None
         else if Nat.ltb d x then Undef
         else
           let d' := d - x in
           if Nat.eqb d' 0 then
             match ow with
             | Some u => assert_div dbg u m (Ok (Some u))
             | None => assert_ dbg (negb (Nat.ltb dg x && is_nil nv)) (Ok None)
             end
           else
             do ok <- match ow with Some u => check_div dbg u m | None => Ok false end;
             if ok then Ok ow
             else if is_nil nv
                  then match ow with
                       | Some u => assert_div dbg u m (Ok (Some u))
                       | None => assert_ dbg false (Ok None)
                       end
                  else find_loop dbg m d' (S var) nv)
  end.

(** janet.cpp:260-323 find *)
Definition find (dbg : bool) (t : tree) (m : monom) : outcome (option wrap) :=
  match t with
  | Nil => Ok None
  | Node dg ow _ _ =>
      if Nat.eqb (deg m) 0 then (if Nat.eqb dg 0 then Ok ow else Ok None)
      else find_loop dbg m (deg m) 0 t
  end.

(** First v >= [v] with a[v] > b[v]; [a], [b] are the exponents from [v] on
    (janet.cpp:365-369, mcompletion.cpp:28-33, 42-47). *)
Fixpoint first_gt (a b : list nat) (v : nat) : option nat :=
  match a, b with
  | x :: a', y :: b' => if Nat.ltb y x then Some v else first_gt a' b' (S v)
  | _, _ => None
  end.

(** janet.cpp:389-393: first v with lm[v] <> 0; running over the end is a bad access. *)
Fixpoint first_nz (dbg : bool) (a : list nat) (v : nat) : outcome nat :=
  match a with
  | [] => oob dbg
  | x :: a' => if Nat.eqb x 0 then first_nz dbg a' (S v) else Ok v
  end.

(** janet.cpp:374-383: walk down the chain of zero exponents. *)
Fixpoint walk (dbg : bool) (w : wrap) (var : nat) (j : tree) : outcome wrap :=
  match j with
  | Nil => Ok w
  | Node dg _ nd nv =>
      do w1 <- (if Nat.ltb 0 dg || negb (is_nil nd) then set_nm dbg w var else Ok w);
      if Nat.eqb dg 0 then walk dbg w1 (S var) nv else Ok w1
  end.

(** janet.cpp:337-404, the loop of insert. *)
Fixpoint ins_loop (dbg : bool) (w : wrap) (d var : nat) (j : tree) : outcome tree :=
  match j with
  | Nil => build_at dbg w d var Nil
  | Node dg ow nd nv =>
      assert_ dbg (Nat.ltb 0 d)
        (do x <- mget dbg (wlm w) var;
         if Nat.ltb dg x && negb (is_nil nd)
         then do nd' <- ins_loop dbg w d var nd; Ok (Node dg ow nd' nv)
         else if Nat.ltb x dg
         then do w' <- set_nm dbg w var; build_at dbg w' d var j
         else if Nat.ltb dg x
         then do ow' <- opt_set_nm dbg ow var;
              do nv' <- set_nm_tree dbg nv var;
              do nd' <- build_at dbg w d var Nil;
              Ok (Node dg ow' nd' nv')
         else
           do w1 <- (if is_nil nd then Ok w else set_nm dbg w var);
           do ow1 <- match ow with
                     | Some u =>
                         match first_gt (skipn (S var) (vars (wlm w))) (skipn (S var) (vars (wlm u))) (S var) with
                         | Some v => opt_set_nm dbg ow v
                         | None => Ok ow
                         end
                     | None => Ok None
                     end;
           if Nat.ltb d x then Undef
           else
             let d' := d - x in
             if Nat.eqb d' 0 then
               match ow1 with
               | Some _ => if dbg then AssertFail
                           else do w2 <- walk dbg w1 (S var) nv; Ok (Node dg (Some w2) nd nv)
               | None => do w2 <- walk dbg w1 (S var) nv; Ok (Node dg (Some w2) nd nv)
               end
             else
               do ow2 <- (if is_nil nv
                          then match ow1 with
                               | None => if dbg then AssertFail else Undef
                               | Some u => do v <- first_nz dbg (skipn (S var) (vars (wlm w))) (S var);
                                           opt_set_nm dbg ow1 v
                               end
                          else Ok ow1);
               do nv' <- ins_loop dbg w1 d' (S var) nv;
               Ok (Node dg ow2 nd nv'))
  end.

(** janet.cpp:325-410 insert, without the asserts at its ends. *)
Definition ins_root (dbg : bool) (t : tree) (w : wrap) : outcome tree :=
  match t with
  | Nil => build_at dbg w (deg (wlm w)) 0 Nil
  | _ => ins_loop dbg w (deg (wlm w)) 0 t
  end.

(** janet.h:109-111 the Janet object: mSize and mRoot. *)
Record janet : Type := JT { jsize : nat; jroot : tree }.
Definition jempty : janet := JT 0 Nil.

(** janet.cpp:325-410 insert *)
Definition insert (dbg : bool) (J : janet) (w : wrap) : outcome janet :=
  do r <- (if dbg then find dbg (jroot J) (wlm w) else Ok None);
  match r with
  | Some _ => AssertFail
  | None =>
      do t <- ins_root dbg (jroot J) w;
      if dbg
      then do r' <- find dbg t (wlm w);
           match r' with
           | None => AssertFail
           | Some _ => assert_ dbg (assert_valid_tree t) (Ok (JT (S (jsize J)) t))
           end
      else Ok (JT (S (jsize J)) t)
  end.

(** janet.cpp:89-101 build(j): the copy made by the copy constructor janet.h:129-135.  The subtree behind
    mNextVar is copied only for nodes that have a successor in their degree chain. *)
Fixpoint copy_tree (t : tree) : tree :=
  match t with
  | Nil => Nil
  | Node dg ow nd nv =>
      match nd with
      | Nil => Node dg ow Nil Nil
      | _ => Node dg ow (copy_tree nd) (copy_tree nv)
      end
  end.
Definition janet_copy (J : janet) : janet := JT (jsize J) (copy_tree (jroot J)).

(** janet.cpp:215-227 setMNprec(wrap, v, j) and janet.h:155-158.  [wrap] is not in this tree. *)
Fixpoint set_mn_prec (dbg : bool) (w : wrap) (v : nat) (j : tree) : outcome wrap :=
  match j with
  | Nil => Ok w
  | Node dg _ nd nv =>
      do d <- mget dbg (wlm w) v;
      if Nat.ltb d dg then set_nmd dbg w v
      else do w1 <- (if is_nil nv then Ok w else set_mn_prec dbg w (S v) nv);
           set_mn_prec dbg w1 v nd
  end.
