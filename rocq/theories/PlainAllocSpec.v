(** Histories of calls by a client that frees each object once, by the function for its kind, with its type and length. *)
From Coq Require Import ZArith List Bool.
From Verif Require Import Outcome AllocSpec PlainAllocModel.
Import ListNotations.
Local Open Scope Z_scope.

(** An object or (with a length) an array. *)
Record obj := Obj { o_at : nat; o_ptr : ptr; o_type : ctype; o_len : option Z }.
(** its bytes, with the 8 bytes for the length where the compiler adds them *)
Definition bytes (o : obj) : Z :=
  match o_len o with
  | None => sizeof (o_type o)
  | Some n => sizeof (o_type o) * n + (if trivial (o_type o) then 0 else 8)
  end.
(** what is accounted for it *)
Definition cost (o : obj) : Z := bytes o + 16.

(** The objects in use, and the largest value currMemory() ever had. *)
Record pclient := PClient { plive : list obj; ppeak : Z }.
Definition of_alloc (i : nat) (l : list obj) : list obj := filter (fun o => Nat.eqb (o_at o) i) l.
Definition sane (t : ctype) (n : Z) : Prop := 0 < sizeof t /\ 0 < n /\ sizeof t * n < 2 ^ 62.
Definition moved (i j : nat) (o : obj) : obj :=
  Obj (if Nat.eqb (o_at o) i then j else if Nat.eqb (o_at o) j then i else o_at o) (o_ptr o) (o_type o) (o_len o).

Section Params.
Variable memory : Z.

Inductive pstep (dbg : bool) : pworld * pclient -> outcome (pworld * pclient) -> Prop :=
| ps_new w c : pstep dbg (w, c) (Ok (p_new w, c))
| ps_limit w c l : pstep dbg (w, c) (Ok (p_limit l w, c))
| ps_one w c i a t : pget w i = Ok a -> sane t 1 ->
    pstep dbg (w, c) (do (w', p) <- new_one memory dbg i t w; Ok (w', PClient (Obj i p t None :: plive c) (Z.max (ppeak c) (pCurr w'))))
| ps_array w c i a t n : pget w i = Ok a -> sane t n ->
    pstep dbg (w, c) (do (w', p) <- new_array memory dbg i t n w; Ok (w', PClient (Obj i p t (Some n) :: plive c) (Z.max (ppeak c) (pCurr w'))))
| ps_dealloc w c l1 i p t l2 : plive c = l1 ++ Obj i p t None :: l2 ->
    pstep dbg (w, c) (do w' <- dealloc_one dbg i t p w; Ok (w', PClient (l1 ++ l2) (ppeak c)))
| ps_destroy w c l1 i p t l2 : plive c = l1 ++ Obj i p t None :: l2 ->
    pstep dbg (w, c) (do w' <- destroy_one dbg i t p w; Ok (w', PClient (l1 ++ l2) (ppeak c)))
| ps_dealloc_array w c l1 i p t n l2 : plive c = l1 ++ Obj i p t (Some n) :: l2 -> trivial t = true ->
    pstep dbg (w, c) (do w' <- dealloc_array dbg i t p n w; Ok (w', PClient (l1 ++ l2) (ppeak c)))
| ps_delete w c i a : pget w i = Ok a -> of_alloc i (plive c) = [] ->
    pstep dbg (w, c) (do w' <- p_delete dbg i w; Ok (w', c))
| ps_swap w c i j a b : pget w i = Ok a -> pget w j = Ok b -> i <> j ->
    pstep dbg (w, c) (do w' <- p_swap i j w; Ok (w', PClient (map (moved i j) (plive c)) (ppeak c))).

Inductive preach (dbg : bool) : outcome (pworld * pclient) -> Prop :=
| pr_start : preach dbg (Ok (pworld0, PClient [] 0))
| pr_step s r : preach dbg (Ok s) -> pstep dbg s r -> preach dbg r.
End Params.
