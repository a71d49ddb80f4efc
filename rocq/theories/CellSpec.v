(** Specification of C101, without addresses: a reference to a term is the monomial it was taken at, and it is lost
    when the polynomial has no term with this monomial any more, even if it has one again later. *)
From Coq Require Import ZArith List Bool Arith.
From Verif Require Import Outcome MonomModel PolyModel PolySpec CellModel CellPyModel.
Import ListNotations.
Local Open Scope Z_scope.

Definition has (m : monom) (p : poly) : Prop := In m (map fst (terms p)).
Definition has_b (m : monom) (p : poly) : bool := existsb (fun x => if monom_eq_dec (fst x) m then true else false) (terms p).

(** The value of a polynomial after a call, and the calls considered (the preconditions of C09). *)
Definition value (dbg : bool) (p : poly) (e : edit) : outcome poly :=
  match e with
  | EMinus => p_minus dbg p
  | EAdd a => p_add dbg p a
  | ESub a => p_sub dbg p a
  | EAddConst c => p_add_const dbg p c
  | ESubConst c => p_sub_const dbg p c
  | EMultConst c => p_mult_const dbg p c
  | EPp => p_pp dbg p
  | EReduction a => p_reduction dbg p a
  | ERedMaybe a => p_redMaybe dbg p a
  end.
Inductive allowed (dbg : bool) (p : poly) : edit -> Prop :=
| al_minus : allowed dbg p EMinus
| al_add a : valid_poly a -> same_ring p a -> allowed dbg p (EAdd a)
| al_sub a : valid_poly a -> same_ring p a -> allowed dbg p (ESub a)
| al_add_const c : terms p <> [] -> pbo p <> OAlex -> c <> 0 -> allowed dbg p (EAddConst c)
| al_sub_const c : terms p <> [] -> pbo p <> OAlex -> c <> 0 -> allowed dbg p (ESubConst c)
| al_mult_const c : allowed dbg p (EMultConst c)
| al_pp : allowed dbg p EPp
| al_reduction a m c l v d l' : valid_poly a -> same_ring p a -> terms p = (m, c) :: l -> terms a = (v, d) :: l' ->
    mdivides v m -> reducer dbg m (terms a) -> allowed dbg p (EReduction a)
| al_redMaybe a : valid_poly a -> same_ring p a -> terms p <> [] -> terms a <> [] ->
    ring_poly (terms p) -> ring_poly (terms a) -> allowed dbg p (ERedMaybe a).
(** [values dbg p es ps]: the values p takes one after the other, p first. *)
Inductive values (dbg : bool) : poly -> list edit -> list poly -> Prop :=
| values_end p : values dbg p [] [p]
| values_step p e q es ps : allowed dbg p e -> value dbg p e = Ok q -> values dbg q es ps -> values dbg p (e :: es) (p :: ps).

(** No two terms at one address, and new addresses are new. *)
Definition in_memory (p : cpoly) : Prop :=
  NoDup (map fst (cells p)) /\ Forall (fun i => (i < fresh p)%nat) (map fst (cells p)).

(* ------------------------------------------------------------------------------------------ *)
(** * Sessions *)

Inductive ref := Here (m : monom) | Lost.
Inductive sgen := SNew | SAt (r : option ref) | SEnded | SDropped.
Record world := World { wp : option poly; wnamed : bool; wgens : list sgen; wpairs : list ref }.
Definition new_world (p : poly) : world := World (Some p) true [] [].

Definition keep (p : poly) (r : ref) : ref := match r with Here m => if has_b m p then r else Lost | Lost => Lost end.
Definition keep_gen (p : poly) (g : sgen) : sgen := match g with SAt (Some r) => SAt (Some (keep p r)) | _ => g end.
(** The polynomial gets a new value. *)
Definition becomes (w : world) (p : poly) : world := World (Some p) (wnamed w) (map (keep_gen p) (wgens w)) (map (keep p) (wpairs w)).
(** The monomial after m. *)
Fixpoint next_monom (m : monom) (l : list term) : option monom :=
  match l with
  | [] => None
  | x :: l' => if monom_eq_dec (fst x) m then (match l' with [] => None | y :: _ => Some (fst y) end) else next_monom m l'
  end.
Definition alive (w : world) : bool :=
  wnamed w || existsb (fun g => match g with SNew | SAt _ => true | _ => false end) (wgens w).
Definition settle (w : world) : world := if alive w then w else World None (wnamed w) (wgens w) (wpairs w).
Definition here (m : option monom) : option ref := match m with Some m => Some (Here m) | None => None end.

(** b.nf(p): reductions one after the other *)
Fixpoint means_nf (fuel : nat) (dbg : bool) (find : monom -> outcome (option poly)) (w : world) (p : poly) : outcome world :=
  match terms p with
  | [] => Ok w
  | (m, _) :: _ =>
      do a <- find m;
      match a with
      | None => Ok w
      | Some a => match fuel with O => OutOfFuel | S fuel' => do q <- p_reduction dbg p a; means_nf fuel' dbg find (becomes w q) q end
      end
  end.
Definition on_p (w : world) (k : poly -> outcome (world * obs)) : outcome (world * obs) :=
  if wnamed w then match wp w with Some p => k p | None => Undef end else Ok (w, VNameError).
Definition means (fuel : nat) (dbg : bool) (w : world) (c : cmd) : outcome (world * obs) :=
  match c with
  | CIter => on_p w (fun _ => Ok (World (wp w) (wnamed w) (wgens w ++ [SNew]) (wpairs w), VNone))
  | CNext g =>
      match nth_error (wgens w) g, wp w with
      | None, _ | Some SDropped, _ => Ok (w, VNameError)
      | Some SEnded, _ => Ok (w, VStopIteration)
      | _, None => Undef
      | Some st, Some p =>
          match match st with SAt r => r | _ => here (hd_error (map fst (terms p))) end with
          | None => Ok (settle (World (wp w) (wnamed w) (set_nth g SEnded (wgens w)) (wpairs w)), VStopIteration)
          | Some Lost => Undef
          | Some (Here m) => Ok (World (wp w) (wnamed w) (set_nth g (SAt (here (next_monom m (terms p)))) (wgens w)) (wpairs w ++ [Here m]), VPair)
          end
      end
  | CDrop g =>
      match nth_error (wgens w) g with
      | None | Some SDropped => Ok (w, VNameError)
      | Some _ => Ok (settle (World (wp w) (wnamed w) (set_nth g SDropped (wgens w)) (wpairs w)), VNone)
      end
  | CLook v =>
      match nth_error (wpairs w) v, wp w with
      | None, _ => Ok (w, VNameError)
      | Some (Here m), Some p => Ok (w, VTerm m (coef (terms p) m))
      | _, _ => Undef
      end
  | CReduce q =>
      on_p w (fun p =>
        match terms p, terms q with
        | (m, _) :: _, (n, _) :: _ =>
            if comparable p q && divisiable m n then do r <- p_reduction dbg p q; Ok (becomes w r, VNone) else Ok (w, VAssertionError)
        | _, _ => Ok (w, VAssertionError)
        end)
  | CPp => on_p w (fun p => do b <- p_isPp dbg p; if b then Ok (w, VAssertionError) else do r <- p_pp dbg p; Ok (becomes w r, VNone))
  | CNf find => on_p w (fun p => do w' <- means_nf fuel dbg find w p; Ok (w', VNone))
  | CDel => if wnamed w then Ok (settle (World (wp w) false (wgens w) (wpairs w)), VNone) else Ok (w, VNameError)
  end.
Fixpoint means_run (fuel : nat) (dbg : bool) (w : world) (cs : list cmd) : outcome (list obs) :=
  match cs with
  | [] => Ok []
  | c :: cs' => do r <- means fuel dbg w c; do os <- means_run fuel dbg (fst r) cs'; Ok (snd r :: os)
  end.

(** The polynomials and bases a session works with: over the ring and with the order of p. *)
Definition reducers (n : nat) (t : pos_order) (o : base_order) (dbg : bool) (c : cmd) : Prop :=
  match c with
  | CReduce q => valid_poly q /\ ring_poly (terms q)
  | CNf find => good_find dbg t o n ring_poly find
  | _ => True
  end.
