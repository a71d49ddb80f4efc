(** Property C29 (util/list.h), and C10 for polynomials on the heap. *)
From Coq Require Import ZArith List Bool Arith.
From Verif Require Import Outcome MonomModel PolyModel RandPermModel ListModel ListSpec ListProofs ListMisuse PolyHeapModel PolyHeapSpec PolyHeapProofs.
Import ListNotations.
Local Open Scope nat_scope.

(** Every program of list and iterator calls that the specification allows runs without touching a freed node,
    gives the specified answers, leaves exactly the specified sequences in the lists, and the nodes in use are
    exactly the elements of the sequences (plus the one taken out by get). *)
Theorem C29_list : forall (T : Type) (dbg : bool) (os : list (op T)) (v : view T) (xs : list (obs T)),
  vrun vstart os = Some (v, xs) ->
  exists st, lrun dbg lstart os = Ok (st, xs) /\
    (forall l s, nth_error (seqs v) l = Some s ->
       exists p, nth_error (lists (smem st)) l = Some (Lst p (length s)) /\ chain (smem st) p s) /\
    used (smem st) = length (concat (seqs v)) + (match det v with Some _ => 1 | None => 0 end) /\
    (det v = None -> lists_are (smem st) (seqs v)).
Proof. exact @c29. Qed.
Print Assumptions C29_list.

(** clear() on an iterator that is not at the beginning asserts in the debug build. *)
Theorem C29_clear_tail_refuted :
  (exists st, lrun false lstart [New; Push 0 7; Push 0 8; Begin 0; Next; ClearHere; Length 0] = Ok (st, [ONone; ONone; ONone; ONone; ONone; ONone; OLen 1])) /\
  lrun true lstart [New; Push 0 7; Push 0 8; Begin 0; Next; ClearHere; Length 0] = AssertFail.
Proof. exact c29_clear_tail. Qed.
Print Assumptions C29_clear_tail_refuted.

(** Calls outside the specification: head() and pop() of an empty list fail an assertion (debug) or read NULL; an iterator at the end
    may not be advanced, read, deleted or taken; insert(j) needs a node; l = l fails an assertion or empties l; clear() of an iterator
    that is not at the beginning fails an assertion or drops the elements from there on. *)
Theorem C29_misuse : forall (T : Type) (dbg : bool) (os : list (op T)) (v : view T) (xs : list (obs T)), vrun vstart os = Some (v, xs) ->
  exists st, lrun dbg lstart os = Ok (st, xs) /\
    (forall l, nth_error (seqs v) l = Some [] -> lstep dbg st (Head l) = (if dbg then AssertFail else Undef) /\ lstep dbg st (Pop l) = (if dbg then AssertFail else Undef)) /\
    (forall l a, cur v = Some (l, a, []) -> lstep dbg st Next = Undef /\ lstep dbg st Data = Undef /\ lstep dbg st Del = Undef /\ lstep dbg st Get = Undef) /\
    (cur v <> None -> det v = None -> lstep dbg st Link = Undef) /\
    (forall l s, nth_error (seqs v) l = Some s ->
       if dbg then lstep dbg st (Assign l l) = AssertFail else exists st', lstep dbg st (Assign l l) = Ok (st', ONone) /\ contain st' (put (seqs v) l [])) /\
    (forall l a b, cur v = Some (l, a, b) -> a <> [] ->
       if dbg then lstep dbg st ClearHere = AssertFail else exists st', lstep dbg st ClearHere = Ok (st', ONone) /\ contain st' (put (seqs v) l a)).
Proof. exact c29_misuse. Qed.
Print Assumptions C29_misuse.
Example C29_misuse_ex : exists v xs, vrun vstart [New; New; Push 0 7; Push 0 8; Begin 0; Next; Next] = Some (v, xs) /\
  nth_error (seqs v) 1 = Some [] /\ cur v = Some (0, [8; 7], []) /\ det v = None.
Proof. exact c29_misuse_case. Qed.

Example C29_ex : exists st,
  vrun vstart [New; Push 0 1; Push 0 2; Begin 0; Next; Insert 5; Next; Get; Bool; Begin 0; Link; Copy 0; Assign 0 1; Pop 1; Begin 1; Del; Length 1] =
    Some (View [[1; 2; 5]; [5]] (Some (1, [], [5])) None,
          [ONone; ONone; ONone; ONone; ONone; ONone; ONone; ONone; OBool false; ONone; ONone; ONone; ONone; OData 1; ONone; ONone; OLen 1]) /\
  lrun true lstart [New; Push 0 1; Push 0 2; Begin 0; Next; Insert 5; Next; Get; Bool; Begin 0; Link; Copy 0; Assign 0 1; Pop 1; Begin 1; Del; Length 1] =
    Ok (st, [ONone; ONone; ONone; ONone; ONone; ONone; ONone; ONone; OBool false; ONone; ONone; ONone; ONone; OData 1; ONone; ONone; OLen 1]).
Proof. eexists. split; vm_compute; reflexivity. Qed.

(** C10 on the heap: the polynomials have separate term objects pl, pa in the lists l, a.  No freed object is used,
    the result is that of PolyModel (theorems C10_add, C10_sub), a is unchanged, no term is lost. *)
Theorem C10_heap : forall (minus : bool) (t : pos_order) (o : base_order) (h : pmem) (ss : list (list nat)) (l a : nat)
    (pl pa : list nat) (tl ta : list term),
  lists_are (lsts h) ss -> l <> a -> nth_error ss l = Some pl -> nth_error ss a = Some pa ->
  values h pl tl -> values h pa ta -> NoDup (pl ++ pa) ->
  exists h' pl', h_arith minus t o h l a = Ok h' /\ lists_are (lsts h') (upd ss l pl') /\
    values h' pl' (if minus then sub_terms t o tl ta else add_terms t o tl ta) /\ values h' pa ta /\ NoDup (pl' ++ pa) /\
    kept (objs h) (objs h') pl pl'.
Proof. exact c10_heap. Qed.
Print Assumptions C10_heap.

(** p.add(p) doubles p. *)
Theorem C10_add_itself : forall (t : pos_order) (o : base_order) (h : pmem) (ss : list (list nat)) (l : nat) (pl : list nat) (tl : list term),
  lists_are (lsts h) ss -> nth_error ss l = Some pl -> values h pl tl -> NoDup pl -> Forall (fun x => snd x <> 0%Z) tl ->
  exists h', h_add t o h l l = Ok h' /\ lists_are (lsts h') ss /\
    values h' pl (map (fun x => (fst x, (snd x + snd x)%Z)) tl) /\ kept (objs h) (objs h') pl pl.
Proof. exact c10_double. Qed.
Print Assumptions C10_add_itself.

(** p.sub(p) reads a freed list node for every non-zero p. *)
Theorem C10_sub_itself_undefined : forall (t : pos_order) (o : base_order) (h : pmem) (ss : list (list nat)) (l px : nat) (pl : list nat) (x : term) (tl : list term),
  lists_are (lsts h) ss -> nth_error ss l = Some (px :: pl) -> values h (px :: pl) (x :: tl) ->
  h_sub t o h l l = Undef.
Proof. exact c10_sub_self. Qed.
Print Assumptions C10_sub_itself_undefined.

Theorem C10_sub_itself_refuted : exists h : pmem, lists_are (lsts h) [[0; 1]] /\
  values h [0; 1] [(Mon (-1) [1], 3%Z); (Mon (-1) [0], 2%Z)] /\ h_sub TOP OLex h 0 0 = Undef.
Proof. exact c10_sub_self_witness. Qed.
Print Assumptions C10_sub_itself_refuted.

Example C10_heap_ex : exists h h' : pmem, lists_are (lsts h) [[0; 1]; [2; 3]] /\
  values h [0; 1] [(Mon (-1) [2], 3%Z); (Mon (-1) [1], 2%Z)] /\ values h [2; 3] [(Mon (-1) [1], 2%Z); (Mon (-1) [0], 7%Z)] /\
  h_sub TOP OLex h 0 1 = Ok h' /\ values h' [0; 4] [(Mon (-1) [2], 3%Z); (Mon (-1) [0], (-7)%Z)].
Proof. exact c10_heap_ex. Qed.
