(** What timers, stacks, big integers and digit strings are; independent of the models. *)
From Coq Require Import ZArith List.
From Verif Require Import Outcome UtilModel.
Import ListNotations.
Local Open Scope Z_scope.

(** One measured interval: contN, ..., cont (the last one counts), stop. *)
Record interval := Interval { ignored : list reading; from : reading; upto : reading }.
Definition interval_events (i : interval) : list tm_event := map TCont (ignored i) ++ [TCont (from i); TStop (upto i)].
Definition total (f : reading -> Z) (is : list interval) : Z :=
  fold_right (fun i s => (f (upto i) - f (from i)) + s) 0 is.

(** An abstract stack is a list, top first. *)
Definition spec_step {T} (l : list T) (o : @st_op T) : option (list T * @st_obs T) :=
  match o, l with
  | SPush x, _ => Some (x :: l, ONone)
  | SPop, _ :: l' => Some (l', ONone)
  | STop, x :: _ => Some (l, OVal x)
  | SGet i, _ => match nth_error (rev l) i with Some x => Some (l, OVal x) | None => None end
  | SDeep, _ => Some (l, ODepth (length l))
  | SReset, _ => Some ([], ONone)
  | SCopy, _ => Some (l, ONone)
  | _, [] => None
  end.
Fixpoint spec_run {T} (l : list T) (os : list (@st_op T)) : option (list T * list (@st_obs T)) :=
  match os with
  | [] => Some (l, [])
  | o :: os' =>
    match spec_step l o with
    | None => None
    | Some (l1, x) => match spec_run l1 os' with None => None | Some (l2, xs) => Some (l2, x :: xs) end
    end
  end.
(** The array holds the abstract stack, bottom first, and is as long as the capacity. *)
Definition holds {T} (s : stack T) (l : list T) : Prop :=
  length (sarr s) = scap s /\ sdeep s = length l /\ firstn (length l) (sarr s) = map Some (rev l).

(** A big integer object is sound: its value fits its own storage. *)
Definition sound (x : integer) : Prop := 0 <= limbs (ival x) <= ialloc x.

(** k is the number of digits of v <> 0 in base b. *)
Definition digits (b v k : Z) : Prop := 0 < k /\ b ^ (k - 1) <= Z.abs v < b ^ k.
(** bytes of the text: sign, digits, terminator *)
Definition text_bytes (v k : Z) : Z := (if v <? 0 then 1 else 0) + k + 1.

(** A call get_str(v, b) with k digits, for which mpz_sizeinbase returned sib; histories of calls. *)
Inductive call := Call (b v k sib : Z).
Definition good_call (c : call) : Prop := match c with Call b v k sib => 2 <= b <= 62 /\ (v <> 0 -> digits b v k /\ k <= sib) end.
Fixpoint calls (dbg : bool) (cs : list call) (buf : Z) : outcome Z :=
  match cs with [] => Ok buf | Call b v k sib :: cs' => do buf' <- get_str dbg b v sib (text_bytes v k) buf; calls dbg cs' buf' end.
