(** Two bases, one of them completed twice. *)
From Coq Require Import ZArith List Bool Arith.
From Verif Require Import Outcome UtilModel CyTimerModel CyTimerSpec CyTimerProofs.
Import ListNotations.
Local Open Scope Z_scope.

Definition rd (n : Z) : reading := Reading n (2 * n) (5 * n).
Definition ti_h : list tcmd := rev [TNew; TNew; TOwnNew; TTimer 0; TGCTimer; TEvent 0 (TStart (rd 1));
  TComplete 0 (rd 2) [(rd 3, rd 4)] (rd 10) false; TComplete 1 (rd 11) [] (rd 13) true; TWork [(rd 13, rd 14); (rd 15, rd 17)];
  TComplete 0 (rd 20) [] (rd 26) false; TComplete 1 (rd 27) [(rd 27, rd 28)] (rd 29) false; TEvent 0 (TStop (rd 30)); TTimer 1].
Definition t_run (h : list tcmd) : outcome tsys := fold_right (fun c s => do s <- s; do r <- t_step s c; Ok (fst r)) (Ok tsys0) h.
Lemma t_run_program : forall h s, t_run h = Ok s -> program h s.
Proof.
  induction h as [|c h IH]; intros s E; cbn [t_run fold_right] in E; [injection E as <-; constructor|]. fold (t_run h) in E.
  destruct (t_run h) as [s1| | | |] eqn:E1; cbn [bind] in E; try discriminate. destruct (t_step s1 c) as [[s2 a]| | | |] eqn:E2; cbn [bind fst] in E; try discriminate.
  injection E as <-. eapply program_step; [apply IH; reflexivity|exact E2].
Qed.
Definition ti_s : tsys := match t_run ti_h with Ok s => s | _ => tsys0 end.
Lemma ti_program : program ti_h ti_s.
Proof. apply t_run_program. vm_compute. reflexivity. Qed.

Lemma ti_case : program ti_h ti_s /\ timers ti_h = [ForOwn; ForBasis 0; ForCollections; ForBasis 1] /\ alive 0 ti_h = true /\
  t_step ti_s (TText 1) = Ok (ti_s, TShown (rd 6)) /\ t_step ti_s (TText 3) = Ok (ti_s, TShown (rd 2)) /\
  t_step ti_s (TText 2) = Ok (ti_s, TShown (rd 4)) /\ t_step ti_s (TText 0) = Ok (ti_s, TShown (rd 29)).
Proof. split; [exact ti_program|]. vm_compute. repeat split. Qed.

Lemma ti_methods : exists h s v k, program h s /\ nth_error (timers h) v = Some (ForBasis k) /\ alive k h = true /\
  t_step s (TText v) = Ok (s, TShown (rd 6)) /\ t_step s (TTime v PUser) = Ok (s, TNumber 4).
Proof. exists ti_h, ti_s, 1%nat, 0%nat. split; [exact ti_program|]. vm_compute. repeat split. Qed.

Lemma ti_gone : exists h s v, program h s /\ nth_error (timers h) v = Some (ForBasis 0) /\ t_step s (TText v) = Undef.
Proof.
  exists [TDel 0; TTimer 0; TNew]. eexists. exists 0%nat. split; [apply t_run_program; vm_compute; reflexivity|]. split; vm_compute; reflexivity.
Qed.
Lemma ti_null : exists h s v, program h s /\ nth_error (timers h) v = Some ForNothing /\ t_step s (TText v) = Undef.
Proof.
  exists [TConst]. eexists. exists 0%nat. split; [apply t_run_program; vm_compute; reflexivity|]. split; vm_compute; reflexivity.
Qed.
