(** Model of util/rbtree.h on a heap of nodes with parent pointers; a freed node stays None forever (addresses
    are not reused), so any later access to it is undefined. *)
From Coq Require Import ZArith List Bool Arith.
From Verif Require Import Outcome RandPermModel.
Import ListNotations.
Local Open Scope nat_scope.

Section RB.
Context {T : Type}.
(** The template argument compare *)
Variable compare : T -> T -> Z.

(** rbtree.h:49-54 Node; mRed: mColor == Red; a null pointer is None *)
Record node := Node { mKey : T; mRed : bool; mParent : option nat; mLeft : option nat; mRight : option nat }.
Definition heap := list (option node).
(** The heap and the mRoot of the tree whose member function is running (rbtree.h:74) *)
Record st := St { hp : heap; rt : option nat }.

Definition get (h : heap) (a : nat) : outcome node := do x <- rd h a; match x with Some n => Ok n | None => Undef end.
Definition deref (p : option nat) : outcome nat := match p with Some a => Ok a | None => Undef end.
Definition ptr_eqb (p q : option nat) : bool :=
  match p, q with Some a, Some b => a =? b | None, None => true | _, _ => false end.
Definition is_null (p : option nat) : bool := match p with None => true | Some _ => false end.
Definition put (h : heap) (a : nat) (n : node) : heap := upd h a (Some n).

(** Reading a field through a pointer *)
Definition key (h : heap) (a : nat) : outcome T := do n <- get h a; Ok (mKey n).
Definition red (h : heap) (a : nat) : outcome bool := do n <- get h a; Ok (mRed n).
Definition parent (h : heap) (a : nat) : outcome (option nat) := do n <- get h a; Ok (mParent n).
Definition left (h : heap) (a : nat) : outcome (option nat) := do n <- get h a; Ok (mLeft n).
Definition right (h : heap) (a : nat) : outcome (option nat) := do n <- get h a; Ok (mRight n).
(** p && p->mColor == Red *)
Definition is_red (h : heap) (p : option nat) : outcome bool := match p with None => Ok false | Some a => red h a end.

(** Writing a field through a pointer *)
Definition set_key (h : heap) (a : nat) (k : T) : outcome heap :=
  do n <- get h a; Ok (put h a (Node k (mRed n) (mParent n) (mLeft n) (mRight n))).
Definition set_red (h : heap) (a : nat) (c : bool) : outcome heap :=
  do n <- get h a; Ok (put h a (Node (mKey n) c (mParent n) (mLeft n) (mRight n))).
Definition set_parent (h : heap) (a : nat) (p : option nat) : outcome heap :=
  do n <- get h a; Ok (put h a (Node (mKey n) (mRed n) p (mLeft n) (mRight n))).
Definition set_left (h : heap) (a : nat) (p : option nat) : outcome heap :=
  do n <- get h a; Ok (put h a (Node (mKey n) (mRed n) (mParent n) p (mRight n))).
Definition set_right (h : heap) (a : nat) (p : option nat) : outcome heap :=
  do n <- get h a; Ok (put h a (Node (mKey n) (mRed n) (mParent n) (mLeft n) p)).
Definition set_color (s : st) (a : nat) (c : bool) : outcome st := do h <- set_red (hp s) a c; Ok (St h (rt s)).
(** mAllocator->destroy(a), allocator->dealloc(a) *)
Definition free (h : heap) (a : nat) : outcome heap := do _ <- get h a; Ok (upd h a None).

(** Loops and recursions over nodes of one tree end after as many steps as there are nodes. *)
Definition enough (h : heap) : nat := S (length h).

(** rbtree.h:77-81 minimum(x), 82-86 maximum(x) *)
Fixpoint minimum_loop (fuel : nat) (h : heap) (x : nat) : outcome nat :=
  match fuel with
  | O => OutOfFuel
  | S f => do l <- left h x; match l with Some y => minimum_loop f h y | None => Ok x end
  end.
Definition minimum (h : heap) (x : nat) : outcome nat := minimum_loop (enough h) h x.
Fixpoint maximum_loop (fuel : nat) (h : heap) (x : nat) : outcome nat :=
  match fuel with
  | O => OutOfFuel
  | S f => do r <- right h x; match r with Some y => maximum_loop f h y | None => Ok x end
  end.
Definition maximum (h : heap) (x : nat) : outcome nat := maximum_loop (enough h) h x.

(** rbtree.h:87-99 next(x): the climbing loop, then the function *)
Fixpoint climb_right (fuel : nat) (h : heap) (x : nat) (y : option nat) : outcome (option nat) :=
  match fuel with
  | O => OutOfFuel
  | S f =>
    match y with
    | None => Ok None
    | Some a =>
      do r <- right h a;
      if ptr_eqb (Some x) r then do p <- parent h a; climb_right f h a p else Ok (Some a)
    end
  end.
Definition next (h : heap) (x : nat) : outcome (option nat) :=
  do r <- right h x;
  match r with
  | Some y => do m <- minimum h y; Ok (Some m)
  | None => do p <- parent h x; climb_right (enough h) h x p
  end.
(** rbtree.h:100-112 prev(x) *)
Fixpoint climb_left (fuel : nat) (h : heap) (x : nat) (y : option nat) : outcome (option nat) :=
  match fuel with
  | O => OutOfFuel
  | S f =>
    match y with
    | None => Ok None
    | Some a =>
      do l <- left h a;
      if ptr_eqb (Some x) l then do p <- parent h a; climb_left f h a p else Ok (Some a)
    end
  end.
Definition prev (h : heap) (x : nat) : outcome (option nat) :=
  do l <- left h x;
  match l with
  | Some y => do m <- maximum h y; Ok (Some m)
  | None => do p <- parent h x; climb_left (enough h) h x p
  end.

(** rbtree.h:114-127 countBlack(node, root) *)
Fixpoint count_loop (fuel : nat) (h : heap) (sum : nat) (x : nat) (root : option nat) : outcome nat :=
  match fuel with
  | O => OutOfFuel
  | S f =>
    do c <- red h x;
    let sum' := if c then sum else S sum in
    if ptr_eqb (Some x) root then Ok sum'
    else do p <- parent h x; do y <- deref p; count_loop f h sum' y root
  end.
Definition countBlack (h : heap) (x : nat) (root : option nat) : outcome nat := count_loop (enough h) h 0 x root.

(** x->mParent's link to x: rbtree.h:138-143 and 365-372 (left child compared first), 157-162 (right child). *)
Definition relink_left (s : st) (x : nat) (y : option nat) : outcome st :=
  do p <- parent (hp s) x;
  match p with
  | None => Ok (St (hp s) y)
  | Some q => do l <- left (hp s) q;
              if ptr_eqb (Some x) l then do h <- set_left (hp s) q y; Ok (St h (rt s))
              else do h <- set_right (hp s) q y; Ok (St h (rt s))
  end.
Definition relink_right (s : st) (x : nat) (y : option nat) : outcome st :=
  do p <- parent (hp s) x;
  match p with
  | None => Ok (St (hp s) y)
  | Some q => do r <- right (hp s) q;
              if ptr_eqb (Some x) r then do h <- set_right (hp s) q y; Ok (St h (rt s))
              else do h <- set_left (hp s) q y; Ok (St h (rt s))
  end.

(** rbtree.h:129-146 rotateLeft(x) *)
Definition rotateLeft (s : st) (x : nat) : outcome st :=
  do r <- right (hp s) x;
  do y <- deref r;
  do yl <- left (hp s) y;
  do h1 <- set_right (hp s) x yl;
  do h2 <- match yl with Some b => set_parent h1 b (Some x) | None => Ok h1 end;
  do p <- parent h2 x;
  do h3 <- set_parent h2 y p;
  do s4 <- relink_left (St h3 (rt s)) x (Some y);
  do h5 <- set_left (hp s4) y (Some x);
  do h6 <- set_parent h5 x (Some y);
  Ok (St h6 (rt s4)).
(** rbtree.h:148-165 rotateRight(x) *)
Definition rotateRight (s : st) (x : nat) : outcome st :=
  do l <- left (hp s) x;
  do y <- deref l;
  do yr <- right (hp s) y;
  do h1 <- set_left (hp s) x yr;
  do h2 <- match yr with Some b => set_parent h1 b (Some x) | None => Ok h1 end;
  do p <- parent h2 x;
  do h3 <- set_parent h2 y p;
  do s4 <- relink_right (St h3 (rt s)) x (Some y);
  do h5 <- set_right (hp s4) y (Some x);
  do h6 <- set_parent h5 x (Some y);
  Ok (St h6 (rt s4)).

(** rbtree.h:63-69 Node(a, parent): a copy without children *)
Definition new_node (h : heap) (n : node) : heap * nat := (h ++ [Some n], length h).
Definition clone (h : heap) (x : nat) (p : option nat) : outcome (heap * nat) :=
  do n <- get h x; Ok (new_node h (Node (mKey n) (mRed n) p None None)).
(** rbtree.h:171-179 the loop of copy: i is the copy of x *)
Fixpoint copy_loop (fuel : nat) (h : heap) (x i : nat) : outcome heap :=
  match fuel with
  | O => OutOfFuel
  | S f =>
    do r <- right h x;
    do h1 <- match r with
             | Some b => do (h1, j) <- clone h b (Some i); do h2 <- copy_loop f h1 b j; set_right h2 i (Some j)
             | None => Ok h
             end;
    do l <- left h1 x;
    match l with
    | None => Ok h1
    | Some b => do (h2, j) <- clone h1 b (Some i); do h3 <- set_left h2 i (Some j); copy_loop f h3 b j
    end
  end.
(** rbtree.h:167-181 copy(x, allocator, nullptr) *)
Definition copy (h : heap) (x : nat) : outcome (heap * nat) :=
  do (h1, i) <- clone h x None;
  do h2 <- copy_loop (enough h) h1 x i;
  Ok (h2, i).

(** rbtree.h:183-192 clear(x, allocator) *)
Fixpoint clear_loop (fuel : nat) (h : heap) (x : nat) : outcome heap :=
  match fuel with
  | O => OutOfFuel
  | S f =>
    do r <- right h x;
    do h1 <- match r with Some b => clear_loop f h b | None => Ok h end;
    do l <- left h1 x;
    do h2 <- free h1 x;
    match l with Some b => clear_loop f h2 b | None => Ok h2 end
  end.
Definition clear_node (h : heap) (x : nat) : outcome heap := clear_loop (enough h) h x.

(** rbtree.h:194-206 findNode(key) *)
Fixpoint find_loop (fuel : nat) (h : heap) (k : T) (r : option nat) : outcome (option nat) :=
  match fuel with
  | O => OutOfFuel
  | S f =>
    match r with
    | None => Ok None
    | Some a =>
      do k' <- key h a;
      if (compare k k' <? 0)%Z then do l <- left h a; find_loop f h k l
      else if (0 <? compare k k')%Z then do r' <- right h a; find_loop f h k r'
      else Ok (Some a)
    end
  end.
Definition findNode (s : st) (k : T) : outcome (option nat) := find_loop (enough (hp s)) (hp s) k (rt s).

(** rbtree.h:211-228 x->mParent (p) is the left child of xpp; the result is the new x *)
Definition ins_left (s : st) (x p xpp : nat) : outcome (st * nat) :=
  do y <- right (hp s) xpp;
  do cy <- is_red (hp s) y;
  if cy then
    do s1 <- set_color s p false;
    do y' <- deref y;
    do s2 <- set_color s1 y' false;
    do s3 <- set_color s2 xpp true;
    Ok (s3, xpp)
  else
    do r <- right (hp s) p;
    do (s1, x1) <- (if ptr_eqb (Some x) r then do s1 <- rotateLeft s p; Ok (s1, p) else Ok (s, x));
    do px1 <- parent (hp s1) x1;
    do p1 <- deref px1;
    do s2 <- set_color s1 p1 false;
    do s3 <- set_color s2 xpp true;
    do s4 <- rotateRight s3 xpp;
    Ok (s4, x1).
(** rbtree.h:229-246 p is the right child of xpp *)
Definition ins_right (s : st) (x p xpp : nat) : outcome (st * nat) :=
  do y <- left (hp s) xpp;
  do cy <- is_red (hp s) y;
  if cy then
    do s1 <- set_color s p false;
    do y' <- deref y;
    do s2 <- set_color s1 y' false;
    do s3 <- set_color s2 xpp true;
    Ok (s3, xpp)
  else
    do l <- left (hp s) p;
    do (s1, x1) <- (if ptr_eqb (Some x) l then do s1 <- rotateRight s p; Ok (s1, p) else Ok (s, x));
    do px1 <- parent (hp s1) x1;
    do p1 <- deref px1;
    do s2 <- set_color s1 p1 false;
    do s3 <- set_color s2 xpp true;
    do s4 <- rotateLeft s3 xpp;
    Ok (s4, x1).
(** rbtree.h:208-247 the loop of insertFixup *)
Fixpoint ins_loop (fuel : nat) (s : st) (x : nat) : outcome st :=
  match fuel with
  | O => OutOfFuel
  | S f =>
    if ptr_eqb (Some x) (rt s) then Ok s
    else
      do px <- parent (hp s) x;
      do p <- deref px;
      do c <- red (hp s) p;
      if negb c then Ok s
      else
        do ppx <- parent (hp s) p;
        do xpp <- deref ppx;
        do l <- left (hp s) xpp;
        do (s', x') <- (if ptr_eqb (Some p) l then ins_left s x p xpp else ins_right s x p xpp);
        ins_loop f s' x'
  end.
(** rbtree.h:207-249 insertFixup(x) *)
Definition insertFixup (s : st) (x : nat) : outcome st :=
  do s1 <- ins_loop (enough (hp s)) s x;
  do r <- deref (rt s1);
  set_color s1 r false.

(** rbtree.h:253-262 the descent of insertNode; the result is y *)
Fixpoint descend (fuel : nat) (dbg : bool) (h : heap) (k : T) (x y : option nat) : outcome (option nat) :=
  match fuel with
  | O => OutOfFuel
  | S f =>
    match x with
    | None => Ok y
    | Some a =>
      do k' <- key h a;
      if (compare k k' <? 0)%Z then do l <- left h a; descend f dbg h k l x
      else assert_ dbg (0 <? compare k k')%Z (do r <- right h a; descend f dbg h k r x)
    end
  end.
(** rbtree.h:250-279 insertNode(z), without ++mCount *)
Definition insertNode (dbg : bool) (s : st) (z : nat) : outcome st :=
  do k <- key (hp s) z;
  do y <- descend (enough (hp s)) dbg (hp s) k (rt s) None;
  do h1 <- set_parent (hp s) z y;
  do s1 <- match y with
           | None => Ok (St h1 (Some z))
           | Some b =>
             do k' <- key h1 b;
             assert_ dbg (negb (compare k k' =? 0)%Z)
               (if (compare k k' <? 0)%Z then do h2 <- set_left h1 b (Some z); Ok (St h2 (rt s))
                else do h2 <- set_right h1 b (Some z); Ok (St h2 (rt s)))
           end;
  insertFixup s1 z.

(** rbtree.h:284-290 x is the left child of p: its sibling, after a rotation if that is red *)
Definition sib_left (s : st) (p : nat) : outcome (st * nat) :=
  do wx <- right (hp s) p;
  do w <- deref wx;
  do cw <- red (hp s) w;
  if cw then
    do s1 <- set_color s w false;
    do s2 <- set_color s1 p true;
    do s3 <- rotateLeft s2 p;
    do wx' <- right (hp s3) p;
    do w' <- deref wx';
    Ok (s3, w')
  else Ok (s, w).
(** rbtree.h:291-311; true: the loop goes on with x = p; false: break.  Both children of w are looked at; C++
    skips the second look when the first one decides. *)
Definition del_left (s : st) (p w : nat) : outcome (st * bool) :=
  do wl <- left (hp s) w;
  do cl <- is_red (hp s) wl;
  do wr <- right (hp s) w;
  do cr <- is_red (hp s) wr;
  if negb cl && negb cr then
    do s1 <- set_color s w true;
    Ok (s1, true)
  else
    do (s1, w1) <- (if negb cr then
                      do b <- deref wl;
                      do s1 <- set_color s b false;
                      do s2 <- set_color s1 w true;
                      do s3 <- rotateRight s2 w;
                      do wx <- right (hp s3) p;
                      do w' <- deref wx;
                      Ok (s3, w')
                    else Ok (s, w));
    do cp <- red (hp s1) p;
    do s2 <- set_color s1 w1 cp;
    do s3 <- set_color s2 p false;
    do wr' <- right (hp s3) w1;
    do s4 <- match wr' with Some b => set_color s3 b false | None => Ok s3 end;
    do s5 <- rotateLeft s4 p;
    Ok (s5, false).
(** rbtree.h:313-319, 320-340: the mirror image *)
Definition sib_right (s : st) (p : nat) : outcome (st * nat) :=
  do wx <- left (hp s) p;
  do w <- deref wx;
  do cw <- red (hp s) w;
  if cw then
    do s1 <- set_color s w false;
    do s2 <- set_color s1 p true;
    do s3 <- rotateRight s2 p;
    do wx' <- left (hp s3) p;
    do w' <- deref wx';
    Ok (s3, w')
  else Ok (s, w).
Definition del_right (s : st) (p w : nat) : outcome (st * bool) :=
  do wr <- right (hp s) w;
  do cr <- is_red (hp s) wr;
  do wl <- left (hp s) w;
  do cl <- is_red (hp s) wl;
  if negb cr && negb cl then
    do s1 <- set_color s w true;
    Ok (s1, true)
  else
    do (s1, w1) <- (if negb cl then
                      do b <- deref wr;
                      do s1 <- set_color s b false;
                      do s2 <- set_color s1 w true;
                      do s3 <- rotateLeft s2 w;
                      do wx <- left (hp s3) p;
                      do w' <- deref wx;
                      Ok (s3, w')
                    else Ok (s, w));
    do cp <- red (hp s1) p;
    do s2 <- set_color s1 w1 cp;
    do s3 <- set_color s2 p false;
    do wl' <- left (hp s3) w1;
    do s4 <- match wl' with Some b => set_color s3 b false | None => Ok s3 end;
    do s5 <- rotateRight s4 p;
    Ok (s5, false).
(** rbtree.h:282-341 the loop of deleteFixup; the result includes the last x *)
Fixpoint del_loop (fuel : nat) (s : st) (x xp : option nat) : outcome (st * option nat) :=
  match fuel with
  | O => OutOfFuel
  | S f =>
    if ptr_eqb x (rt s) then Ok (s, x)
    else
      do c <- is_red (hp s) x;
      if c then Ok (s, x)
      else
        do p <- deref xp;
        do l <- left (hp s) p;
        do (s2, again) <-
          (if ptr_eqb x l then do (s1, w) <- sib_left s p; del_left s1 p w
           else do (s1, w) <- sib_right s p; del_right s1 p w);
        if again then do pp <- parent (hp s2) p; del_loop f s2 (Some p) pp else Ok (s2, x)
  end.
(** rbtree.h:280-344 deleteFixup(x, xp) *)
Definition deleteFixup (dbg : bool) (s : st) (x xp : option nat) : outcome st :=
  do ok <- (if dbg then match x with None => Ok true | Some a => do p <- parent (hp s) a; Ok (ptr_eqb p xp) end
            else Ok true);
  assert_ dbg ok
    (do (s1, x1) <- del_loop (enough (hp s)) s x xp;
     match x1 with Some a => set_color s1 a false | None => Ok s1 end).

(** rbtree.h:345-381 deleteNode(z), without --mCount; the result includes y *)
Definition deleteNode (dbg : bool) (s : st) (z : nat) : outcome (st * nat) :=
  do zl <- left (hp s) z;
  do zr <- right (hp s) z;
  do (h1, y) <- (if is_null zl || is_null zr then Ok (hp s, z)
                 else
                   do r <- deref zr;
                   do y <- minimum (hp s) r;
                   do k <- key (hp s) y;
                   do h1 <- set_key (hp s) z k;
                   Ok (h1, y));
  do yl <- left h1 y;
  do yr <- right h1 y;
  assert_ dbg (is_null yl || is_null yr)
    (let x := match yl with Some _ => yl | None => yr end in
     do xp <- parent h1 y;
     do h2 <- match x with Some a => set_parent h1 a xp | None => Ok h1 end;
     do s3 <- relink_left (St h2 (rt s)) y x;
     do c <- red (hp s3) y;
     do s4 <- (if negb c then deleteFixup dbg s3 x xp else Ok s3);
     Ok (s4, y)).

(* ------------------------------------------------------------------ public interface *)
(** rbtree.h:74-75 mRoot, mCount (mAllocator is not modelled: all trees share one heap; mCount as a natural
    number) *)
Record tree := Tree { mRoot : option nat; mCount : nat }.

(** rbtree.h:623-650 assertValid: the loop over the nodes from i, then the function *)
Fixpoint valid_loop (fuel : nat) (s : st) (len : nat) (i : option nat) : outcome bool :=
  match fuel with
  | O => OutOfFuel
  | S f =>
    match i with
    | None => Ok true
    | Some x =>
      do n <- get (hp s) x;
      do cl <- is_red (hp s) (mLeft n);
      do cr <- (if cl then Ok true else is_red (hp s) (mRight n));
      if mRed n && cr then Ok false
      else
        do bl <- match mLeft n with None => Ok false | Some y => do k <- key (hp s) y; Ok (0 <? compare k (mKey n))%Z end;
        if bl then Ok false
        else
          do br <- match mRight n with None => Ok false | Some y => do k <- key (hp s) y; Ok (compare k (mKey n) <? 0)%Z end;
          if br then Ok false
          else
            do bc <- (if is_null (mLeft n) || is_null (mRight n)
                      then do c <- countBlack (hp s) x (rt s); Ok (negb (c =? len))
                      else Ok false);
            if bc then Ok false else do i' <- next (hp s) x; valid_loop f s len i'
    end
  end.
Definition assertValid (h : heap) (t : tree) : outcome bool :=
  match mRoot t with
  | None => Ok (mCount t =? 0)
  | Some r =>
    if mCount t =? 0 then Ok false
    else
      do c <- red h r;
      if c then Ok false
      else
        do i <- minimum h r;
        do len <- countBlack h i (mRoot t);
        valid_loop (enough h) (St h (mRoot t)) len (Some i)
  end.
Definition check_valid {A} (dbg : bool) (h : heap) (t : tree) (k : outcome A) : outcome A :=
  if dbg then do b <- assertValid h t; assert_ dbg b k else k.

(** rbtree.h:601-607 insert(key) *)
Definition insert (dbg : bool) (h : heap) (t : tree) (k : T) : outcome (heap * tree) :=
  do r <- (if dbg then findNode (St h (mRoot t)) k else Ok None);
  assert_ dbg (is_null r)
    (let (h1, z) := new_node h (Node k true None None None) in
     do s <- insertNode dbg (St h1 (mRoot t)) z;
     let t' := Tree (rt s) (S (mCount t)) in
     do r' <- (if dbg then findNode s k else Ok None);
     assert_ dbg (negb (is_null r')) (check_valid dbg (hp s) t' (Ok (hp s, t')))).
(** rbtree.h:608-615 remove(key) *)
Definition remove (dbg : bool) (h : heap) (t : tree) (k : T) : outcome (heap * tree) :=
  do z <- findNode (St h (mRoot t)) k;
  assert_ dbg (negb (is_null z))
    (do a <- deref z;
     do (s, y) <- deleteNode dbg (St h (mRoot t)) a;
     do h' <- free (hp s) y;
     let t' := Tree (rt s) (pred (mCount t)) in
     do r' <- (if dbg then findNode (St h' (rt s)) k else Ok None);
     assert_ dbg (is_null r') (check_valid dbg h' t' (Ok (h', t')))).
(** rbtree.h:616-621 remove(iterator) *)
Definition remove_it (dbg : bool) (h : heap) (t : tree) (i : option nat) : outcome (heap * tree) :=
  assert_ dbg (negb (is_null i))
    (do a <- deref i;
     do (s, y) <- deleteNode dbg (St h (mRoot t)) a;
     do h' <- free (hp s) y;
     let t' := Tree (rt s) (pred (mCount t)) in
     check_valid dbg h' t' (Ok (h', t'))).

(** rbtree.h:496-507 destructor and clear() *)
Definition clear (dbg : bool) (h : heap) (t : tree) : outcome (heap * tree) :=
  do h' <- match mRoot t with Some r => clear_node h r | None => Ok h end;
  check_valid dbg h' (Tree None 0) (Ok (h', Tree None 0)).
(** rbtree.h:490-495 RBTree(a, allocator) *)
Definition copy_tree (dbg : bool) (h : heap) (a : tree) : outcome (heap * tree) :=
  do (h', r) <- match mRoot a with
                | Some x => do (h', i) <- copy h x; Ok (h', Some i)
                | None => Ok (h, None)
                end;
  let t := Tree r (mCount a) in
  check_valid dbg h' t (Ok (h', t)).
(** rbtree.h:521-529 operator=(a) for two different objects: a null a.mRoot is dereferenced by copy *)
Definition assign (dbg : bool) (h : heap) (t a : tree) : outcome (heap * tree) :=
  do h1 <- match mRoot t with Some r => clear_node h r | None => Ok h end;
  assert_ dbg (negb (is_null (mRoot a)))
    (do x <- deref (mRoot a);
     do (h2, i) <- copy h1 x;
     let t' := Tree (Some i) (mCount a) in
     check_valid dbg h2 t' (Ok (h2, t'))).

(** rbtree.h:533-540 maximumKey, minimumKey *)
Definition maximumKey (dbg : bool) (h : heap) (t : tree) : outcome T :=
  assert_ dbg (negb (is_null (mRoot t))) (do r <- deref (mRoot t); do m <- maximum h r; key h m).
Definition minimumKey (dbg : bool) (h : heap) (t : tree) : outcome T :=
  assert_ dbg (negb (is_null (mRoot t))) (do r <- deref (mRoot t); do m <- minimum h r; key h m).
(** rbtree.h:545-556 maximum(), minimum() as iterators *)
Definition it_maximum (h : heap) (t : tree) : outcome (option nat) :=
  match mRoot t with None => Ok None | Some r => do m <- maximum h r; Ok (Some m) end.
Definition it_minimum (h : heap) (t : tree) : outcome (option nat) :=
  match mRoot t with None => Ok None | Some r => do m <- minimum h r; Ok (Some m) end.
(** rbtree.h:560-579 findPrev(key) *)
Fixpoint findPrev_loop (fuel : nat) (h : heap) (k : T) (i : nat) : outcome (option nat) :=
  match fuel with
  | O => OutOfFuel
  | S f =>
    do k' <- key h i;
    if (compare k k' <=? 0)%Z
    then do l <- left h i; match l with None => prev h i | Some j => findPrev_loop f h k j end
    else do r <- right h i; match r with None => Ok (Some i) | Some j => findPrev_loop f h k j end
  end.
Definition findPrev (h : heap) (t : tree) (k : T) : outcome (option nat) :=
  match mRoot t with None => Ok None | Some r => findPrev_loop (enough h) h k r end.
(** rbtree.h:580-599 findNext(key) *)
Fixpoint findNext_loop (fuel : nat) (h : heap) (k : T) (i : nat) : outcome (option nat) :=
  match fuel with
  | O => OutOfFuel
  | S f =>
    do k' <- key h i;
    if (0 <=? compare k k')%Z
    then do r <- right h i; match r with None => next h i | Some j => findNext_loop f h k j end
    else do l <- left h i; match l with None => Ok (Some i) | Some j => findNext_loop f h k j end
  end.
Definition findNext (h : heap) (t : tree) (k : T) : outcome (option nat) :=
  match mRoot t with None => Ok None | Some r => findNext_loop (enough h) h k r end.

(** rbtree.h:450-462 ConstIterator: ++, --, key() *)
Definition it_next (dbg : bool) (h : heap) (i : option nat) : outcome (option nat) :=
  assert_ dbg (negb (is_null i)) (do a <- deref i; next h a).
Definition it_prev (dbg : bool) (h : heap) (i : option nat) : outcome (option nat) :=
  assert_ dbg (negb (is_null i)) (do a <- deref i; prev h a).
Definition it_key (dbg : bool) (h : heap) (i : option nat) : outcome T :=
  assert_ dbg (negb (is_null i)) (do a <- deref i; key h a).

(** Programs over trees 0, 1, ... and one iterator variable. *)
Inductive op :=
| New | Insert (t : nat) (k : T) | Remove (t : nat) (k : T) | RemoveIt (t : nat) | Length (t : nat) | NonEmpty (t : nat)
| MinKey (t : nat) | MaxKey (t : nat) | Copy (a : nat) | Assign (t a : nat) | Swap (t a : nat) | Clear (t : nat)
| Min (t : nat) | Max (t : nat) | Find (t : nat) (k : T) | FindPrev (t : nat) (k : T) | FindNext (t : nat) (k : T)
| Incr | Decr | Key | Good.
Inductive obs := ONone | OKey (k : T) | OLen (n : nat) | OBool (b : bool).
Record state := State { shp : heap; strees : list tree; sit : option nat }.

Definition mutate (s : state) (i : nat) (f : heap -> tree -> outcome (heap * tree)) : outcome (state * obs) :=
  do t <- rd (strees s) i;
  do (h', t') <- f (shp s) t;
  Ok (State h' (upd (strees s) i t') (sit s), ONone).
Definition seek (s : state) (i : nat) (f : heap -> tree -> outcome (option nat)) : outcome (state * obs) :=
  do t <- rd (strees s) i;
  do j <- f (shp s) t;
  Ok (State (shp s) (strees s) j, ONone).
Definition look (s : state) (i : nat) (f : heap -> tree -> outcome obs) : outcome (state * obs) :=
  do t <- rd (strees s) i; do o <- f (shp s) t; Ok (s, o).

Definition step (dbg : bool) (s : state) (o : op) : outcome (state * obs) :=
  match o with
  | New => Ok (State (shp s) (strees s ++ [Tree None 0]) (sit s), ONone)
  | Insert i k => mutate s i (fun h t => insert dbg h t k)
  | Remove i k => mutate s i (fun h t => remove dbg h t k)
  | RemoveIt i => mutate s i (fun h t => remove_it dbg h t (sit s))
  | Length i => look s i (fun h t => Ok (OLen (mCount t)))
  | NonEmpty i => look s i (fun h t => Ok (OBool (negb (is_null (mRoot t)))))
  | MinKey i => look s i (fun h t => do k <- minimumKey dbg h t; Ok (OKey k))
  | MaxKey i => look s i (fun h t => do k <- maximumKey dbg h t; Ok (OKey k))
  | Copy a => do t <- rd (strees s) a;
              do (h', t') <- copy_tree dbg (shp s) t;
              Ok (State h' (strees s ++ [t']) (sit s), ONone)
  | Assign i a => assert_ dbg (negb (i =? a))
                    (do ta <- rd (strees s) a;
                     (* the same object: its nodes are freed before they are copied *)
                     if i =? a then Undef else mutate s i (fun h t => assign dbg h t ta))
  | Swap i a => do t <- rd (strees s) i; do ta <- rd (strees s) a;
                Ok (State (shp s) (upd (upd (strees s) i ta) a t) (sit s), ONone)
  | Clear i => mutate s i (fun h t => clear dbg h t)
  | Min i => seek s i it_minimum
  | Max i => seek s i it_maximum
  | Find i k => seek s i (fun h t => findNode (St h (mRoot t)) k)
  | FindPrev i k => seek s i (fun h t => findPrev h t k)
  | FindNext i k => seek s i (fun h t => findNext h t k)
  | Incr => do j <- it_next dbg (shp s) (sit s); Ok (State (shp s) (strees s) j, ONone)
  | Decr => do j <- it_prev dbg (shp s) (sit s); Ok (State (shp s) (strees s) j, ONone)
  | Key => do k <- it_key dbg (shp s) (sit s); Ok (s, OKey k)
  | Good => Ok (s, OBool (negb (is_null (sit s))))
  end.
Fixpoint run (dbg : bool) (s : state) (os : list op) : outcome (state * list obs) :=
  match os with
  | [] => Ok (s, [])
  | o :: os' => do (s1, x) <- step dbg s o; do (s2, xs) <- run dbg s1 os'; Ok (s2, x :: xs)
  end.
Definition start : state := State [] [] None.
End RB.
Arguments node T : clear implicits.
Arguments heap T : clear implicits.
Arguments st T : clear implicits.
Arguments op T : clear implicits.
Arguments obs T : clear implicits.
Arguments state T : clear implicits.
