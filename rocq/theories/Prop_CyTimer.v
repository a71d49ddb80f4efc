(** C90: what the timers of the Python interface show. *)
From Coq Require Import ZArith List Bool Arith.
From Verif Require Import Outcome UtilModel CyTimerModel CyTimerSpec CyTimerProofs CyTimerExamples.
Import ListNotations.
Local Open Scope Z_scope.

(** The text of J.timer() shows the time of the last completion of J, as long as J exists; afterwards freed memory is read. *)
Theorem C90_text : forall (h : list tcmd) (s : tsys) (v k : nat), program h s -> nth_error (timers h) v = Some (ForBasis k) ->
  t_step s (TText v) = if alive k h then Ok (s, TShown (completion_time k h)) else Undef.
Proof. exact c90_text. Qed.
Print Assumptions C90_text.

(** A GC_timer() shows the sum of all garbage collections of the program. *)
Theorem C90_collections : forall (h : list tcmd) (s : tsys) (v : nat) (p : part), program h s -> nth_error (timers h) v = Some ForCollections ->
  t_step s (TTime v p) = Ok (s, TNumber (component p (sum (collections h)))) /\ t_step s (TText v) = Ok (s, TShown (sum (collections h))).
Proof. exact c90_collections. Qed.
Print Assumptions C90_collections.

(** A timer() shows what its own start, cont and stop measured (C36), whatever else happens. *)
Theorem C90_own : forall (h : list tcmd) (s : tsys) (v : nat) (p : part), program h s -> nth_error (timers h) v = Some ForOwn ->
  t_step s (TTime v p) = Ok (s, TNumber (component p (elapsed (tm_run tm_new (events v h))))) /\
  t_step s (TText v) = Ok (s, TShown (elapsed (tm_run tm_new (events v h)))).
Proof. exact c90_own. Qed.
Print Assumptions C90_own.

(** userTime(), sysTime() and realTime() of J.timer() always answer the time of the garbage collections of the whole program, ... *)
Theorem C90_methods : forall (h : list tcmd) (s : tsys) (v k : nat) (p : part), program h s -> nth_error (timers h) v = Some (ForBasis k) ->
  t_step s (TTime v p) = Ok (s, TNumber (component p (sum (collections h)))).
Proof. exact c90_methods. Qed.
Print Assumptions C90_methods.
(** ... which is not what its text shows: 6 and 4. *)
Theorem C90_methods_refuted : exists (h : list tcmd) (s : tsys) (v k : nat), program h s /\ nth_error (timers h) v = Some (ForBasis k) /\ alive k h = true /\
  t_step s (TText v) = Ok (s, TShown (rd 6)) /\ t_step s (TTime v PUser) = Ok (s, TNumber 4).
Proof. exact ti_methods. Qed.
Print Assumptions C90_methods_refuted.

(** str(J.timer()) after del J, and str(const_timer()) *)
Theorem C90_deleted_refuted : exists (h : list tcmd) (s : tsys) (v : nat), program h s /\ nth_error (timers h) v = Some (ForBasis 0) /\ t_step s (TText v) = Undef.
Proof. exact ti_gone. Qed.
Print Assumptions C90_deleted_refuted.
Theorem C90_null_refuted : exists (h : list tcmd) (s : tsys) (v : nat), program h s /\ nth_error (timers h) v = Some ForNothing /\ t_step s (TText v) = Undef.
Proof. exact ti_null. Qed.
Print Assumptions C90_null_refuted.

(** Two bases: the first completed in 8 and then in 6 ticks, the second found 1 in 2 ticks and was not completed again. *)
Example C90_case : program ti_h ti_s /\ timers ti_h = [ForOwn; ForBasis 0; ForCollections; ForBasis 1] /\ alive 0 ti_h = true /\
  t_step ti_s (TText 1) = Ok (ti_s, TShown (rd 6)) /\ t_step ti_s (TText 3) = Ok (ti_s, TShown (rd 2)) /\
  t_step ti_s (TText 2) = Ok (ti_s, TShown (rd 4)) /\ t_step ti_s (TText 0) = Ok (ti_s, TShown (rd 29)).
Proof. exact ti_case. Qed.
