(** Model of the timers of cython/ginv.pyx: timer, const_timer, const_timer_GC and janet_poly_int.timer().  Definitions only. *)
From Coq Require Import ZArith List Bool Arith.
From Verif Require Import Outcome UtilModel.
Import ListNotations.
Local Open Scope Z_scope.

(** A garbage collection: the clock at timerCont and at timerStop (allocator.h:165-168, poly_int.h:254-257) *)
Definition collection : Type := reading * reading.
Definition collect (gcs : list collection) (t : timer) : timer :=
  fold_left (fun t g => tm_stop (snd g) (tm_cont (fst g) t)) gcs t.

(** ginv.pyx:16-17 class timer owns its Timer; ginv.pyx:71-74 class const_timer has a pointer, NULL at first, to the Timer of a
    JanetPolyInt (the number of the basis here); ginv.pyx:52-55 const_timer_GC points to Allocator::sTimer. *)
Inductive tview : Type := TOwn (t : timer) | TOf (p : option nat) | TGC.

(** The bases made so far (None: no name refers to it any more, the object is freed) with mOneWrap != nullptr and mTimer,
    Allocator::sTimer, and the timer objects of the program *)
Record tsys : Type := TS { tbases : list (option (bool * timer)); tgc : timer; tviews : list tview }.
Definition tsys0 : tsys := TS [] tm_new [].

Inductive part : Type := PUser | PSys | PReal.
Definition part_of (p : part) (r : reading) : Z := match p with PUser => ruser r | PSys => rsys r | PReal => rreal r end.

Inductive tcmd : Type :=
| TNew                                   (* janet_poly_int() *)
| TDel (k : nat)                         (* del, of the last reference *)
| TComplete (k : nat) (start : reading) (gcs : list collection) (stop : reading) (one : bool)
                                         (* build(), algorithmTQ(), ...: the clock, the collections and whether it ended with 1 *)
| TWork (gcs : list collection)          (* anything else that collects *)
| TTimer (k : nat)                       (* J.timer() *)
| TConst                                 (* const_timer() *)
| TGCTimer                               (* allocator.GC_timer() *)
| TOwnNew                                (* timer() *)
| TEvent (v : nat) (e : tm_event)        (* start(), cont(), stop() *)
| TTime (v : nat) (p : part)             (* userTime(), sysTime(), realTime() *)
| TText (v : nat).                       (* str() *)
Inductive tanswer : Type := TNone | TNumber (z : Z) | TShown (r : reading) | TRaise.

Fixpoint set_nth {A} (l : list A) (i : nat) (x : A) : list A :=
  match l, i with
  | [], _ => []
  | _ :: l', O => x :: l'
  | y :: l', Datatypes.S i' => y :: set_nth l' i' x
  end.

(** poly_int.cpp:698-707, 907 (and the same in algorithmTQ, algorithmTQ1 and algorithmTQ2): every loop is left with break,
    so stop() is reached; reallocate() inside the loop uses the timer of the allocator. *)
Definition t_complete (start stop : reading) (one : bool) (b : bool * timer) : bool * timer :=
  if fst b then b else (one, tm_stop stop (tm_start start (snd b))).

Definition t_step (s : tsys) (c : tcmd) : outcome (tsys * tanswer) :=
  match c with
  | TNew => Ok (TS (tbases s ++ [Some (false, tm_new)]) (tgc s) (tviews s), TNone)
  | TDel k =>
      match nth_error (tbases s) k with
      | Some (Some _) => Ok (TS (set_nth (tbases s) k None) (tgc s) (tviews s), TNone)
      | _ => Ok (s, TRaise)
      end
  | TComplete k start gcs stop one =>
      match nth_error (tbases s) k with
      | Some (Some b) => Ok (TS (set_nth (tbases s) k (Some (t_complete start stop one b))) (if fst b then tgc s else collect gcs (tgc s)) (tviews s), TNone)
      | _ => Ok (s, TRaise)
      end
  | TWork gcs => Ok (TS (tbases s) (collect gcs (tgc s)) (tviews s), TNone)
  | TTimer k =>                                                     (* ginv.pyx:767-770 *)
      match nth_error (tbases s) k with
      | Some (Some _) => Ok (TS (tbases s) (tgc s) (tviews s ++ [TOf (Some k)]), TNone)
      | _ => Ok (s, TRaise)
      end
  | TConst => Ok (TS (tbases s) (tgc s) (tviews s ++ [TOf None]), TNone)      (* ginv.pyx:73-74 *)
  | TGCTimer => Ok (TS (tbases s) (tgc s) (tviews s ++ [TGC]), TNone)         (* ginv.pyx:102-104, 54-55 *)
  | TOwnNew => Ok (TS (tbases s) (tgc s) (tviews s ++ [TOwn tm_new]), TNone)  (* ginv.pyx:16-17 *)
  | TEvent v e =>                                                   (* ginv.pyx:19-24; the other classes have no such method *)
      match nth_error (tviews s) v with
      | Some (TOwn t) => Ok (TS (tbases s) (tgc s) (set_nth (tviews s) v (TOwn (tm_step t e))), TNone)
      | _ => Ok (s, TRaise)
      end
  | TTime v p =>
      match nth_error (tviews s) v with
      | Some (TOwn t) => Ok (s, TNumber (part_of p (elapsed t)))    (* ginv.pyx:26-31 *)
      | Some TGC => Ok (s, TNumber (part_of p (elapsed (tgc s))))   (* ginv.pyx:57-62 *)
      | Some (TOf _) => Ok (s, TNumber (part_of p (elapsed (tgc s))))  (* ginv.pyx:76-81: allocator_timer(), not self.ptr *)
      | None => Ok (s, TRaise)
      end
  | TText v =>
      match nth_error (tviews s) v with
      | Some (TOwn t) => Ok (s, TShown (elapsed t))                 (* ginv.pyx:33-38 *)
      | Some TGC => Ok (s, TShown (elapsed (tgc s)))                (* ginv.pyx:64-69 *)
      | Some (TOf None) => Undef                                    (* ginv.pyx:83-88, self.ptr is NULL *)
      | Some (TOf (Some k)) =>
          match nth_error (tbases s) k with
          | Some (Some b) => Ok (s, TShown (elapsed (snd b)))
          | _ => Undef                                              (* freed *)
          end
      | None => Ok (s, TRaise)
      end
  end.
