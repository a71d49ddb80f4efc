(** What the list operations do to sequences. *)
From Coq Require Import List Arith Bool.
From Verif Require Import ListModel.
Import ListNotations.

(** The lists, the iterator as (list, part before it, part from it on), the detached element. *)
Record view (T : Type) := View { seqs : list (list T); cur : option (nat * list T * list T); det : option T }.
Arguments View {T}. Arguments seqs {T}. Arguments cur {T}. Arguments det {T}.

Fixpoint put {A} (l : list A) (i : nat) (x : A) : list A :=
  match l, i with [], _ => [] | _ :: l', O => x :: l' | y :: l', S i' => y :: put l' i' x end.

(** None: the call is not allowed. An iterator may not be used after its list was changed otherwise. *)
Definition vstep {T} (v : view T) (o : op T) : option (view T * obs T) :=
  let get l := nth_error (seqs v) l in
  let set l x := View (put (seqs v) l x) None (det v) in
  let move l a b := View (put (seqs v) l (a ++ b)) (Some (l, a, b)) (det v) in
  match o with
  | New => Some (View (seqs v ++ [[]]) (cur v) (det v), ONone)
  | Push l x => match get l with Some s => Some (set l (x :: s), ONone) | None => None end
  | Pop l => match get l with Some (x :: s) => Some (set l s, OData x) | _ => None end
  | Head l => match get l with Some (x :: s) => Some (v, OData x) | _ => None end
  | Length l => match get l with Some s => Some (v, OLen (length s)) | None => None end
  | Swap l a => match get l, get a with Some s, Some s' => Some (View (put (put (seqs v) l s') a s) None (det v), ONone) | _, _ => None end
  | Copy a => match get a with Some s => Some (View (seqs v ++ [s]) None (det v), ONone) | None => None end
  | Assign l a => if Nat.eqb l a then None else match get l, get a with Some _, Some s => Some (set l s, ONone) | _, _ => None end
  | Clear l => match get l with Some _ => Some (set l [], ONone) | None => None end
  | Begin l => match get l with Some s => Some (move l [] s, ONone) | None => None end
  | Bool => match cur v with Some (l, a, b) => Some (v, OBool (match b with [] => false | _ => true end)) | None => None end
  | Next => match cur v with Some (l, a, x :: b) => Some (move l (a ++ [x]) b, ONone) | _ => None end
  | Data => match cur v with Some (l, a, x :: b) => Some (v, OData x) | _ => None end
  | Insert x => match cur v with Some (l, a, b) => Some (move l a (x :: b), ONone) | None => None end
  | Del => match cur v with Some (l, a, x :: b) => Some (move l a b, ONone) | _ => None end
  | Get => match cur v, det v with
           | Some (l, a, x :: b), None => Some (View (put (seqs v) l (a ++ b)) (Some (l, a, b)) (Some x), ONone)
           | _, _ => None end
  | Link => match cur v, det v with
            | Some (l, a, b), Some x => Some (View (put (seqs v) l (a ++ x :: b)) (Some (l, a, x :: b)) None, ONone)
            | _, _ => None end
  | ClearHere => match cur v with Some (l, [], b) => Some (move l [] [], ONone) | _ => None end
  end.
Fixpoint vrun {T} (v : view T) (os : list (op T)) : option (view T * list (obs T)) :=
  match os with
  | [] => Some (v, [])
  | o :: os' =>
    match vstep v o with
    | None => None
    | Some (v1, x) => match vrun v1 os' with None => None | Some (v2, xs) => Some (v2, x :: xs) end
    end
  end.
Definition vstart {T} : view T := View [] None None.

(** The nodes reached from pointer p are those of s, in this order. *)
Fixpoint chain {T} (h : mem T) (p : option nat) (s : list T) : Prop :=
  match s with
  | [] => p = None
  | x :: s' => exists n q, p = Some n /\ nth_error (heap h) n = Some (Some (Node x q)) /\ chain h q s'
  end.
(** number of nodes in use *)
Definition used {T} (h : mem T) : nat := length (filter (fun x => match x with Some _ => true | None => false end) (heap h)).

Section Heap.
Context {T : Type}.
Implicit Types (h : mem T) (s : list T) (p q : option nat) (ns : list nat).
(** nodes ns with data s lead from p to q *)
Fixpoint lseg h p ns s q : Prop :=
  match ns, s with
  | [], [] => p = q
  | n :: ns', x :: s' => p = Some n /\ exists r, nth_error (heap h) n = Some (Some (Node x r)) /\ lseg h r ns' s' q
  | _, _ => False
  end.


(** a node taken out by get *)
Definition det_ok h (D : list nat) (d : list T) : Prop :=
  match D, d with
  | [n], [x] => exists q, nth_error (heap h) n = Some (Some (Node x q))
  | [], [] => True
  | _, _ => False
  end.
(** The heap consists of the lists ss, list l in the nodes A l, and the detached nodes D with data d: the lengths
    are right, no two share a node, and no other node is in use. *)
Record inv h (ss : list (list T)) (A : nat -> list nat) (D : list nat) (d : list T) : Prop := {
  i_len : length (lists h) = length ss;
  i_seg : forall l s, nth_error ss l = Some s -> exists p, nth_error (lists h) l = Some (Lst p (length s)) /\ lseg h p (A l) s None;
  i_nd : forall l, l < length ss -> NoDup (A l);
  i_dis : forall l l' n, l <> l' -> l < length ss -> l' < length ss -> In n (A l) -> ~ In n (A l');
  i_det : det_ok h D d;
  i_ddis : forall n l, In n D -> l < length ss -> ~ In n (A l);
  i_live : forall n x, nth_error (heap h) n = Some (Some x) -> In n D \/ exists l, l < length ss /\ In n (A l) }.


Definition lists_are h (ss : list (list T)) : Prop := exists A, inv h ss A [] [].
End Heap.
(** What the lists contain *)
Definition contain {T} (st : state T) (ss : list (list T)) : Prop :=
  length (lists (smem st)) = length ss /\ forall l s, nth_error ss l = Some s -> exists p, nth_error (lists (smem st)) l = Some (Lst p (length s)) /\ chain (smem st) p s.
