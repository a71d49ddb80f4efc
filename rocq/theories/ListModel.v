(** Model of util/list.h on a heap of nodes; a freed node stays None forever (addresses are not reused), so any
    later access to it is undefined. *)
From Coq Require Import ZArith List Bool Arith.
From Verif Require Import Outcome RandPermModel.
Import ListNotations.
Local Open Scope nat_scope.

Section List_.
Context {T : Type}.

(** list.h:37-48 Node; a null mNext is None *)
Record node := Node { mData : T; mNext : option nat }.
(** list.h:51-52 mHead, mLength (mAllocator is not modelled: all lists share one heap) *)
Record lst := Lst { mHead : option nat; mLength : nat }.
Record mem := Mem { heap : list (option node); lists : list lst }.

(** list.h:83: Node** points at some mHead or at the mNext of a node *)
Inductive link := AtHead (l : nat) | AtNode (n : nat).
(** list.h:81-83 Iterator *)
Record iter := Iter { mList : nat; mLink : link }.

Definition get_node (h : mem) (n : nat) : outcome node :=
  do x <- rd (heap h) n; match x with Some y => Ok y | None => Undef end.
Definition set_node (h : mem) (n : nat) (x : option node) : mem := Mem (upd (heap h) n x) (lists h).
Definition get_list (h : mem) (l : nat) : outcome lst := rd (lists h) l.
Definition set_list (h : mem) (l : nat) (x : lst) : mem := Mem (heap h) (upd (lists h) l x).
(** new Node(data, next) *)
Definition new_node (h : mem) (d : T) (next : option nat) : mem * nat :=
  (Mem (heap h ++ [Some (Node d next)]) (lists h), length (heap h)).
(** mAllocator->destroy(node) *)
Definition free_node (h : mem) (n : nat) : outcome mem := do _ <- get_node h n; Ok (set_node h n None).

(** *mLink and *mLink = p *)
Definition read_link (h : mem) (k : link) : outcome (option nat) :=
  match k with
  | AtHead l => do x <- get_list h l; Ok (mHead x)
  | AtNode n => do x <- get_node h n; Ok (mNext x)
  end.
Definition write_link (h : mem) (k : link) (p : option nat) : outcome mem :=
  match k with
  | AtHead l => do x <- get_list h l; Ok (set_list h l (Lst p (mLength x)))
  | AtNode n => do x <- get_node h n; Ok (set_node h n (Some (Node (mData x) p)))
  end.
(** dereferencing a pointer *)
Definition deref (p : option nat) : outcome nat := match p with Some n => Ok n | None => Undef end.
Definition add_length (h : mem) (l : nat) (f : nat -> nat) : outcome mem :=
  do x <- get_list h l; Ok (set_list h l (Lst (mHead x) (f (mLength x)))).

(** list.h:94-97, 226 Iterator(List* ), begin() *)
Definition it_begin (l : nat) : iter := Iter l (AtHead l).
(** list.h:110 operator bool *)
Definition it_bool (h : mem) (i : iter) : outcome bool :=
  do p <- read_link h (mLink i); Ok (match p with Some _ => true | None => false end).
(** list.h:113-116 operator++ *)
Definition it_next (h : mem) (i : iter) : outcome iter :=
  do p <- read_link h (mLink i); do n <- deref p; Ok (Iter (mList i) (AtNode n)).
(** list.h:118-121 data *)
Definition it_data (h : mem) (i : iter) : outcome T :=
  do p <- read_link h (mLink i); do n <- deref p; do x <- get_node h n; Ok (mData x).
(** list.h:123-127 insert(data) *)
Definition it_insert (h : mem) (i : iter) (d : T) : outcome mem :=
  do p <- read_link h (mLink i);
  let (h1, n) := new_node h d p in
  do h2 <- write_link h1 (mLink i) (Some n);
  add_length h2 (mList i) S.
(** list.h:128-133 insert(ConstIterator) *)
Definition it_link (h : mem) (i : iter) (j : option nat) : outcome mem :=
  do n <- deref j;
  do p <- read_link h (mLink i);
  do x <- get_node h n;
  do h2 <- write_link (set_node h n (Some (Node (mData x) p))) (mLink i) j;
  add_length h2 (mList i) S.
(** list.h:134-141 get *)
Definition it_get (h : mem) (i : iter) : outcome (mem * option nat) :=
  do j <- read_link h (mLink i);
  do n <- deref j;
  do x <- get_node h n;
  do h1 <- write_link h (mLink i) (mNext x);
  do y <- get_node h1 n;
  do h2 <- add_length (set_node h1 n (Some (Node (mData y) None))) (mList i) pred;
  Ok (h2, j).
(** list.h:142-148 del *)
Definition it_del (h : mem) (i : iter) : outcome mem :=
  do j <- read_link h (mLink i);
  do n <- deref j;
  do x <- get_node h n;
  do h1 <- write_link h (mLink i) (mNext x);
  do h2 <- free_node h1 n;
  add_length h2 (mList i) pred.
(** list.h:149-154 clear; the loop runs at most as long as there are nodes in the heap *)
Fixpoint it_clear_loop (fuel : nat) (h : mem) (i : iter) : outcome mem :=
  match fuel with
  | O => OutOfFuel
  | S f => do b <- it_bool h i; if b then do h' <- it_del h i; it_clear_loop f h' i else Ok h
  end.
Definition it_clear (dbg : bool) (h : mem) (i : iter) : outcome mem :=
  do h' <- it_clear_loop (S (length (heap h))) h i;
  do x <- get_list h' (mList i);
  assert_ dbg (mLength x =? 0) (Ok h').

(** list.h:70-77 ConstIterator: ++ and data *)
Definition ci_next (h : mem) (j : option nat) : outcome (option nat) := do n <- deref j; do x <- get_node h n; Ok (mNext x).
Definition ci_data (h : mem) (j : option nat) : outcome T := do n <- deref j; do x <- get_node h n; Ok (mData x).

(** list.h:157-162 List(allocator) *)
Definition l_new (h : mem) : mem := Mem (heap h) (lists h ++ [Lst None 0]).
(** list.h:176-181, 212-217: copy the nodes reachable from ia before iterator i *)
Fixpoint l_copy_loop (fuel : nat) (h : mem) (i : iter) (ia : option nat) : outcome mem :=
  match ia with
  | None => Ok h
  | Some _ =>
    match fuel with
    | O => OutOfFuel
    | S f => do d <- ci_data h ia; do h1 <- it_insert h i d; do ia' <- ci_next h1 ia; do i' <- it_next h1 i; l_copy_loop f h1 i' ia'
    end
  end.
(** list.h:170-182 copy constructor: a new list with number [length (lists h)] *)
Definition l_copy (h : mem) (a : nat) : outcome mem :=
  let h1 := l_new h in
  do x <- get_list h1 a;
  l_copy_loop (S (mLength x)) h1 (it_begin (length (lists h))) (mHead x).
(** list.h:207-218 operator= *)
Definition l_assign (dbg : bool) (h : mem) (l a : nat) : outcome mem :=
  assert_ dbg (negb (l =? a))
    (do h1 <- it_clear dbg h (it_begin l);
     do x <- get_list h1 a;
     l_copy_loop (S (mLength x)) h1 (it_begin l) (mHead x)).
(** list.h:183, 185 destructor, clear *)
Definition l_clear (dbg : bool) (h : mem) (l : nat) : outcome mem := it_clear dbg h (it_begin l).
(** list.h:187-199 swap *)
Definition l_swap (h : mem) (l a : nat) : outcome mem :=
  do x <- get_list h l; do y <- get_list h a; Ok (set_list (set_list h l y) a x).
(** list.h:233 head *)
Definition l_head (dbg : bool) (h : mem) (l : nat) : outcome T :=
  do x <- get_list h l;
  assert_ dbg (match mHead x with Some _ => true | None => false end)
    (do n <- deref (mHead x); do y <- get_node h n; Ok (mData y)).
(** list.h:235-238 push *)
Definition l_push (h : mem) (l : nat) (d : T) : outcome mem :=
  do x <- get_list h l;
  let (h1, n) := new_node h d (mHead x) in
  Ok (set_list h1 l (Lst (Some n) (S (mLength x)))).
(** list.h:239-247 pop *)
Definition l_pop (dbg : bool) (h : mem) (l : nat) : outcome (mem * T) :=
  do x <- get_list h l;
  assert_ dbg (match mHead x with Some _ => true | None => false end)
    (do n <- deref (mHead x);
     do y <- get_node h n;
     do h1 <- free_node (set_list h l (Lst (mNext y) (mLength x))) n;
     do h2 <- add_length h1 l pred;
     Ok (h2, mData y)).
(** list.h:223 *)
Definition l_length (h : mem) (l : nat) : outcome nat := do x <- get_list h l; Ok (mLength x).

(** Programs over lists 0, 1, ..., one iterator and one register for a detached node. *)
Inductive op :=
| New | Push (l : nat) (x : T) | Pop (l : nat) | Head (l : nat) | Length (l : nat) | Swap (l a : nat) | Copy (a : nat) | Assign (l a : nat) | Clear (l : nat)
| Begin (l : nat) | Bool | Next | Data | Insert (x : T) | Del | Get | Link | ClearHere.
Inductive obs := ONone | OData (x : T) | OLen (n : nat) | OBool (b : bool).
Record state := State { smem : mem; sit : option iter; sdet : option nat }.

Definition with_it {A} (s : state) (f : iter -> outcome A) : outcome A := match sit s with Some i => f i | None => Undef end.
Definition lstep (dbg : bool) (s : state) (o : op) : outcome (state * obs) :=
  let h := smem s in
  match o with
  | New => Ok (State (l_new h) (sit s) (sdet s), ONone)
  | Push l x => do h' <- l_push h l x; Ok (State h' None (sdet s), ONone)
  | Pop l => do (h', x) <- l_pop dbg h l; Ok (State h' None (sdet s), OData x)
  | Head l => do x <- l_head dbg h l; Ok (s, OData x)
  | Length l => do n <- l_length h l; Ok (s, OLen n)
  | Swap l a => do h' <- l_swap h l a; Ok (State h' None (sdet s), ONone)
  | Copy a => do h' <- l_copy h a; Ok (State h' None (sdet s), ONone)
  | Assign l a => do h' <- l_assign dbg h l a; Ok (State h' None (sdet s), ONone)
  | Clear l => do h' <- l_clear dbg h l; Ok (State h' None (sdet s), ONone)
  | Begin l => Ok (State h (Some (it_begin l)) (sdet s), ONone)
  | Bool => with_it s (fun i => do b <- it_bool h i; Ok (s, OBool b))
  | Next => with_it s (fun i => do i' <- it_next h i; Ok (State h (Some i') (sdet s), ONone))
  | Data => with_it s (fun i => do x <- it_data h i; Ok (s, OData x))
  | Insert x => with_it s (fun i => do h' <- it_insert h i x; Ok (State h' (Some i) (sdet s), ONone))
  | Del => with_it s (fun i => do h' <- it_del h i; Ok (State h' (Some i) (sdet s), ONone))
  | Get => with_it s (fun i => do (h', j) <- it_get h i; Ok (State h' (Some i) j, ONone))
  | Link => with_it s (fun i => do h' <- it_link h i (sdet s); Ok (State h' (Some i) None, ONone))
  | ClearHere => with_it s (fun i => do h' <- it_clear dbg h i; Ok (State h' (Some i) (sdet s), ONone))
  end.
Fixpoint lrun (dbg : bool) (s : state) (os : list op) : outcome (state * list obs) :=
  match os with
  | [] => Ok (s, [])
  | o :: os' => do (s1, x) <- lstep dbg s o; do (s2, xs) <- lrun dbg s1 os'; Ok (s2, x :: xs)
  end.
Definition lstart : state := State (Mem [] []) None None.
End List_.
Arguments node T : clear implicits.
Arguments mem T : clear implicits.
Arguments state T : clear implicits.
Arguments op T : clear implicits.
Arguments obs T : clear implicits.
