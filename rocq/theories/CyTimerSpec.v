(** What timers should show, from the commands of a program alone.  Histories have the last command first. *)
From Coq Require Import ZArith List Bool Arith.
From Verif Require Import Outcome UtilModel CyTimerModel.
Import ListNotations.
Local Open Scope Z_scope.

Inductive program : list tcmd -> tsys -> Prop :=
| program_start : program [] tsys0
| program_step h s c s' a : program h s -> t_step s c = Ok (s', a) -> program (c :: h) s'.

(** user, system or real time *)
Definition component (p : part) (r : reading) : Z := match p with PUser => ruser r | PSys => rsys r | PReal => rreal r end.
Definition difference (b a : reading) : reading := Reading (ruser b - ruser a) (rsys b - rsys a) (rreal b - rreal a).
Definition sum (l : list collection) : reading :=
  Reading (fold_right (fun g s => ruser (snd g) - ruser (fst g) + s) 0 l) (fold_right (fun g s => rsys (snd g) - rsys (fst g) + s) 0 l)
          (fold_right (fun g s => rreal (snd g) - rreal (fst g) + s) 0 l).

(** How many bases were made; has basis k been made and not been deleted? *)
Fixpoint made (h : list tcmd) : nat := match h with [] => 0%nat | TNew :: h' => Datatypes.S (made h') | _ :: h' => made h' end.
Fixpoint alive (k : nat) (h : list tcmd) : bool :=
  match h with
  | [] => false
  | TNew :: h' => (made h' =? k)%nat || alive k h'
  | TDel k' :: h' => negb (k' =? k)%nat && alive k h'
  | _ :: h' => alive k h'
  end.
(** Has its completion found 1? *)
Fixpoint is_one (k : nat) (h : list tcmd) : bool :=
  match h with
  | [] => false
  | TComplete k' _ _ _ one :: h' => ((k' =? k)%nat && alive k h' && one) || is_one k h'
  | _ :: h' => is_one k h'
  end.
(** Time of the last completion of basis k that did anything *)
Fixpoint completion_time (k : nat) (h : list tcmd) : reading :=
  match h with
  | [] => Reading 0 0 0
  | TComplete k' start _ stop _ :: h' => if (k' =? k)%nat && alive k h' && negb (is_one k h') then difference stop start else completion_time k h'
  | _ :: h' => completion_time k h'
  end.
(** All collections, the last first *)
Fixpoint collections (h : list tcmd) : list collection :=
  match h with
  | [] => []
  | TComplete k _ gcs _ _ :: h' => (if alive k h' && negb (is_one k h') then gcs else []) ++ collections h'
  | TWork gcs :: h' => gcs ++ collections h'
  | _ :: h' => collections h'
  end.
(** The timer objects: what each is for *)
Inductive purpose : Type := ForOwn | ForBasis (k : nat) | ForNothing | ForCollections.
Fixpoint timers (h : list tcmd) : list purpose :=
  match h with
  | [] => []
  | TTimer k :: h' => timers h' ++ (if alive k h' then [ForBasis k] else [])
  | TConst :: h' => timers h' ++ [ForNothing]
  | TGCTimer :: h' => timers h' ++ [ForCollections]
  | TOwnNew :: h' => timers h' ++ [ForOwn]
  | _ :: h' => timers h'
  end.
(** The calls of start, cont and stop of timer v, in the order of the program *)
Fixpoint events (v : nat) (h : list tcmd) : list tm_event :=
  match h with
  | [] => []
  | TEvent v' e :: h' => events v h' ++ (if (v' =? v)%nat && (v <? length (timers h'))%nat then [e] else [])
  | _ :: h' => events v h'
  end.
