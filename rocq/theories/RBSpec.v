(** Specification of the red-black tree: sets of keys, and what a user sees of them. *)
From Coq Require Import ZArith List Bool Arith.
From Verif Require Import Outcome RBModel.
Import ListNotations.

Section Spec.
Context {T : Type}.
Variable compare : T -> T -> Z.

(** compare decides a total order *)
Record key_order : Prop := {
  ko_eq : forall a b, compare a b = 0%Z <-> a = b;
  ko_anti : forall a b, (compare a b < 0 <-> 0 < compare b a)%Z;
  ko_trans : forall a b c, (compare a b < 0 -> compare b c < 0 -> compare a c < 0)%Z }.

(** A set is the list of its keys in increasing order. *)
Definition below (a b : T) : bool := (compare a b <? 0)%Z.
Definition mem (k : T) (l : list T) : bool := existsb (fun x => (compare k x =? 0)%Z) l.
Fixpoint add (k : T) (l : list T) : list T :=
  match l with [] => [k] | x :: l' => if below k x then k :: l else x :: add k l' end.
Definition del (k : T) (l : list T) : list T := filter (fun x => negb (compare k x =? 0)%Z) l.
(** least key above k, greatest key below k *)
Definition above (k : T) (l : list T) : option T := hd_error (filter (fun x => below k x) l).
Definition beneath (k : T) (l : list T) : option T := hd_error (rev (filter (fun x => below x k) l)).

(** The iterator variable: unusable, past the end, or at a key of a tree. *)
Inductive iterator := Invalid | End | At (t : nat) (k : T).
Record sstate := SState { sets : list (list T); itr : iterator }.

Definition at_opt (t : nat) (k : option T) : iterator := match k with Some k => At t k | None => End end.
Definition set_nth (l : list (list T)) (i : nat) (x : list T) : list (list T) := firstn i l ++ x :: skipn (S i) l.
(** The iterator after the keys of tree t for which [bad] holds have lost their nodes *)
Definition spoil (t : nat) (bad : T -> bool) (i : iterator) : iterator :=
  match i with At u k => if (u =? t)%nat && bad k then Invalid else i | _ => i end.
Definition is_key (o : option T) (k : T) : bool := match o with Some x => (compare x k =? 0)%Z | None => false end.
(** Removing k invalidates iterators at k and at the next key, no others. *)
Definition sp_remove (s : sstate) (t : nat) (k : T) : option sstate :=
  match nth_error (sets s) t with
  | Some l => if mem k l
              then Some (SState (set_nth (sets s) t (del k l)) (spoil t (fun x => (compare k x =? 0)%Z || is_key (above k l) x) (itr s)))
              else None
  | None => None
  end.

(** None: the program is outside the contract (no such tree, key present or absent, empty tree, unusable
    iterator, assignment to itself or of an empty tree). *)
Definition sp_step (s : sstate) (o : op T) : option (sstate * obs T) :=
  match o with
  | New => Some (SState (sets s ++ [[]]) (itr s), ONone)
  | Insert t k => match nth_error (sets s) t with
                  | Some l => if mem k l then None else Some (SState (set_nth (sets s) t (add k l)) (itr s), ONone)
                  | None => None end
  | Remove t k => match sp_remove s t k with Some s' => Some (s', ONone) | None => None end
  | RemoveIt t => match itr s with
                  | At u k => if (u =? t)%nat then match sp_remove s t k with Some s' => Some (s', ONone) | None => None end else None
                  | _ => None end
  | Length t => match nth_error (sets s) t with Some l => Some (s, OLen (length l)) | None => None end
  | NonEmpty t => match nth_error (sets s) t with Some l => Some (s, OBool (negb (length l =? 0)%nat)) | None => None end
  | MinKey t => match nth_error (sets s) t with Some (k :: _) => Some (s, OKey k) | _ => None end
  | MaxKey t => match nth_error (sets s) t with
                | Some l => match rev l with k :: _ => Some (s, OKey k) | [] => None end | None => None end
  | Copy a => match nth_error (sets s) a with Some l => Some (SState (sets s ++ [l]) (itr s), ONone) | None => None end
  | Assign t a => match nth_error (sets s) t, nth_error (sets s) a with
                  | Some _, Some l =>
                    if (t =? a)%nat || (length l =? 0)%nat then None
                    else Some (SState (set_nth (sets s) t l) (spoil t (fun _ => true) (itr s)), ONone)
                  | _, _ => None end
  | Swap t a => match nth_error (sets s) t, nth_error (sets s) a with
                | Some l, Some m =>
                  Some (SState (set_nth (set_nth (sets s) t m) a l)
                         (match itr s with At u k => At (if (u =? t)%nat then a else if (u =? a)%nat then t else u) k | i => i end), ONone)
                | _, _ => None end
  | Clear t => match nth_error (sets s) t with
               | Some _ => Some (SState (set_nth (sets s) t []) (spoil t (fun _ => true) (itr s)), ONone) | None => None end
  | Min t => match nth_error (sets s) t with Some l => Some (SState (sets s) (at_opt t (hd_error l)), ONone) | None => None end
  | Max t => match nth_error (sets s) t with Some l => Some (SState (sets s) (at_opt t (hd_error (rev l))), ONone) | None => None end
  | Find t k => match nth_error (sets s) t with
                | Some l => Some (SState (sets s) (if mem k l then At t k else End), ONone) | None => None end
  | FindPrev t k => match nth_error (sets s) t with Some l => Some (SState (sets s) (at_opt t (beneath k l)), ONone) | None => None end
  | FindNext t k => match nth_error (sets s) t with Some l => Some (SState (sets s) (at_opt t (above k l)), ONone) | None => None end
  | Incr => match itr s with
            | At t k => match nth_error (sets s) t with Some l => Some (SState (sets s) (at_opt t (above k l)), ONone) | None => None end
            | _ => None end
  | Decr => match itr s with
            | At t k => match nth_error (sets s) t with Some l => Some (SState (sets s) (at_opt t (beneath k l)), ONone) | None => None end
            | _ => None end
  | Key => match itr s with At _ k => Some (s, OKey k) | _ => None end
  | Good => match itr s with At _ _ => Some (s, OBool true) | End => Some (s, OBool false) | Invalid => None end
  end.
Fixpoint sp_run (s : sstate) (os : list (op T)) : option (sstate * list (obs T)) :=
  match os with
  | [] => Some (s, [])
  | o :: os' => match sp_step s o with
                | Some (s1, x) => match sp_run s1 os' with Some (s2, xs) => Some (s2, x :: xs) | None => None end
                | None => None end
  end.
Definition sp_start : sstate := SState [] End.

(** Walks from a node down to a null link, with the colours met (true: red). *)
Inductive walk (h : heap T) : option nat -> list bool -> Prop :=
| walk_end : walk h None []
| walk_left a n cs : get h a = Ok n -> walk h (mLeft n) cs -> walk h (Some a) (mRed n :: cs)
| walk_right a n cs : get h a = Ok n -> walk h (mRight n) cs -> walk h (Some a) (mRed n :: cs).
Fixpoint no_two_reds (cs : list bool) : Prop :=
  match cs with true :: (true :: _) => False | _ :: cs' => no_two_reds cs' | [] => True end.
Definition blacks (cs : list bool) : nat := count_occ Bool.bool_dec cs false.
(** red-black shape below a root pointer *)
Record balanced (h : heap T) (root : option nat) : Prop := {
  b_root : forall cs, walk h root cs -> hd false cs = false;
  b_red : forall cs, walk h root cs -> no_two_reds cs;
  b_black : forall cs cs', walk h root cs -> walk h root cs' -> blacks cs = blacks cs' }.

(** strictly increasing lists *)
Fixpoint increasing (l : list T) : Prop :=
  match l with [] => True | x :: l' => (forall y, In y l' -> (compare x y < 0)%Z) /\ increasing l' end.
(** the nodes below two root pointers have the same keys and colours in the same places *)
Inductive same_shape (h h' : heap T) : option nat -> option nat -> Prop :=
| ss_null : same_shape h h' None None
| ss_node a a' n n' : get h a = Ok n -> get h' a' = Ok n' -> mKey n = mKey n' -> mRed n = mRed n' ->
    same_shape h h' (mLeft n) (mLeft n') -> same_shape h h' (mRight n) (mRight n') -> same_shape h h' (Some a) (Some a').
(** nodes in use *)
Definition used (h : heap T) : nat := length (filter (fun x => match x with Some _ => true | None => false end) h).
(** the program reading a whole tree from minimum() by ++, and what it reads *)
Definition read_all (t : nat) (l : list T) : list (op T) := Min t :: flat_map (fun _ => [Good; Key; Incr]) l ++ [Good].
Definition all_read (l : list T) : list (obs T) := ONone :: flat_map (fun k => [OBool true; OKey k; ONone]) l ++ [OBool false].
End Spec.
