(** Model of ginv/mcompletion.h and ginv/mcompletion.cpp: the two monomial completion classes.
    Lists of Wrap* are lists of wraps (see JanetModel.v for storing wraps by value). *)
From Coq Require Import ZArith List Bool Arith.
From Verif Require Import Outcome MonomModel JanetModel.
Import ListNotations.

(* ------------------------------------------------------------------------------------------ *)
(** * MCompletion *)

(** mcompletion.h:63-101: the seven comparison functions offered for the constructor. *)
Inductive mc_order := MLex | MDegLex | MAlex | MLexGB | MDegLexGB | MAlexGB | MGB.

Definition then_ (r s : Z) : Z := if (r =? 0)%Z then s else r.
Definition mc_cmp (o : mc_order) (a b : wrap) : Z :=
  match o with
  | MLex => lex (wlm a) (wlm b)
  | MDegLex => deglex (wlm a) (wlm b)
  | MAlex => alex (wlm a) (wlm b)
  | MLexGB => then_ (lex (wanc a) (wanc b)) (lex (wlm a) (wlm b))
  | MDegLexGB => then_ (deglex (wanc a) (wanc b)) (deglex (wlm a) (wlm b))
  | MAlexGB => then_ (alex (wanc a) (wanc b)) (alex (wlm a) (wlm b))
  | MGB => then_ (if Nat.ltb (deg (wanc b)) (deg (wanc a)) then -1
                  else if Nat.ltb (deg (wanc a)) (deg (wanc b)) then 1 else 0)%Z
                 (lex (wlm a) (wlm b))
  end.

(** mcompletion.cpp:28-33 (and 42-47): mark in [u] the first variable in which [w] is larger. *)
Definition mark (dbg : bool) (w u : wrap) : outcome wrap :=
  match first_gt (vars (wlm w)) (vars (wlm u)) 0 with
  | Some v => set_nm dbg u v
  | None => Ok u
  end.

(** mcompletion.cpp:41-49: the remaining elements mark the inserted one. *)
Fixpoint mark_all (dbg : bool) (w : wrap) (l : list wrap) : outcome wrap :=
  match l with
  | [] => Ok w
  | u :: l' => do w' <- mark dbg u w; mark_all dbg w' l'
  end.

(** mcompletion.cpp:25-50 insert.  On a tie the new wrap is destroyed and, if the tied element has a
    successor, the second loop then reads it: use after free. *)
Fixpoint mc_insert (dbg : bool) (o : mc_order) (T : list wrap) (w : wrap) : outcome (list wrap) :=
  match T with
  | [] => Ok [w]
  | u :: T' =>
      if (mc_cmp o u w <? 0)%Z
      then do u' <- mark dbg w u;
           do r <- mc_insert dbg o T' w;
           Ok (u' :: r)
      else if (0 <? mc_cmp o u w)%Z
      then do w' <- mark_all dbg w T; Ok (w' :: T)
      else match T' with [] => Ok T | _ => Undef end
  end.

(** mcompletion.cpp:54-57 the inner loop of prolong, for one element; Q is pushed at the front. *)
Fixpoint prolong_vars (dbg : bool) (k cnt : nat) (u : wrap) (Q : list wrap) : outcome (wrap * list wrap) :=
  match cnt with
  | O => Ok (u, Q)
  | S cnt' =>
      do nm <- get_flag dbg (wnm u) k;
      do b <- get_flag dbg (wbuild u) k;
      if nm && negb b
      then do r <- prolong_wrap dbg k u;
           let (w, u') := r in prolong_vars dbg (S k) cnt' u' (w :: Q)
      else prolong_vars dbg (S k) cnt' u Q
  end.
Definition prolong_elem (dbg : bool) (u : wrap) (Q : list wrap) : outcome (wrap * list wrap) :=
  prolong_vars dbg 0 (size (wlm u)) u Q.

(** mcompletion.cpp:52-58 prolong *)
Fixpoint prolong_list (dbg : bool) (T Q : list wrap) : outcome (list wrap * list wrap) :=
  match T with
  | [] => Ok ([], Q)
  | u :: T' =>
      do r <- prolong_elem dbg u Q; let (u', Q1) := r in
      do s <- prolong_list dbg T' Q1; let (T1, Q2) := s in
      Ok (u' :: T1, Q2)
  end.

(** mcompletion.cpp:82-97 find *)
Fixpoint mc_find (dbg : bool) (T : list wrap) (m : monom) : outcome (option wrap) :=
  match T with
  | [] => Ok None
  | u :: T' => do b <- check_div dbg u m; if b then Ok (Some u) else mc_find dbg T' m
  end.

(** mcompletion.cpp:71-76: one pass over the queue. *)
Fixpoint mc_process (dbg : bool) (o : mc_order) (T Q : list wrap) : outcome (list wrap) :=
  match Q with
  | [] => Ok T
  | w :: Q' =>
      do r <- mc_find dbg T (wlm w);
      match r with
      | Some _ => mc_process dbg o T Q'
      | None => do T' <- mc_insert dbg o T w; mc_process dbg o T' Q'
      end
  end.

(** mcompletion.cpp:68-80 build; the loop runs as long as prolong() fills the queue. *)
Fixpoint mc_loop (fuel : nat) (dbg : bool) (o : mc_order) (T Q : list wrap) : outcome (list wrap) :=
  match Q with
  | [] => Ok T
  | _ =>
      match fuel with
      | O => OutOfFuel
      | S f =>
          do T1 <- mc_process dbg o T Q;
          do r <- prolong_list dbg T1 []; let (T2, Q2) := r in
          mc_loop f dbg o T2 Q2
      end
  end.
Definition mc_build (fuel : nat) (dbg : bool) (o : mc_order) (T : list wrap) : outcome (list wrap) :=
  do r <- prolong_list dbg T []; let (T1, Q1) := r in mc_loop fuel dbg o T1 Q1.

(** mcompletion.h:54-56 push, several times *)
Fixpoint mc_push_all (dbg : bool) (o : mc_order) (T : list wrap) (l : list monom) : outcome (list wrap) :=
  match l with
  | [] => Ok T
  | m :: l' => do T' <- mc_insert dbg o T (new_wrap m); mc_push_all dbg o T' l'
  end.

(* ------------------------------------------------------------------------------------------ *)
(** * MJanet *)

(** mcompletion.cpp:109-119 prolong(j) *)
Fixpoint prolong_tree (dbg : bool) (t : tree) (Q : list wrap) : outcome (tree * list wrap) :=
  match t with
  | Nil => Ok (Nil, Q)
  | Node dg ow nd nv =>
      do r <- match ow with
              | Some u => do s <- prolong_elem dbg u Q; let (u', Q') := s in Ok (Some u', Q')
              | None => Ok (None, Q)
              end;
      let (ow', Q1) := r in
      do r2 <- prolong_tree dbg nv Q1; let (nv', Q2) := r2 in
      do r3 <- prolong_tree dbg nd Q2; let (nd', Q3) := r3 in
      Ok (Node dg ow' nd' nv', Q3)
  end.

(** mcompletion.cpp:133-138: one pass over the queue. *)
Fixpoint mj_process (dbg : bool) (J : janet) (Q : list wrap) : outcome janet :=
  match Q with
  | [] => Ok J
  | w :: Q' =>
      do r <- find dbg (jroot J) (wlm w);
      match r with
      | Some _ => mj_process dbg J Q'
      | None => do J' <- insert dbg J w; mj_process dbg J' Q'
      end
  end.

(** mcompletion.cpp:130-141 build *)
Fixpoint mj_loop (fuel : nat) (dbg : bool) (J : janet) (Q : list wrap) : outcome janet :=
  match Q with
  | [] => Ok J
  | _ =>
      match fuel with
      | O => OutOfFuel
      | S f =>
          do J1 <- mj_process dbg J Q;
          do r <- prolong_tree dbg (jroot J1) []; let (t2, Q2) := r in
          mj_loop f dbg (JT (jsize J1) t2) Q2
      end
  end.
Definition mj_build (fuel : nat) (dbg : bool) (J : janet) : outcome janet :=
  do r <- prolong_tree dbg (jroot J) []; let (t1, Q1) := r in mj_loop fuel dbg (JT (jsize J) t1) Q1.

(** mcompletion.h:122-125 push, several times *)
Fixpoint mj_push_all (dbg : bool) (J : janet) (l : list monom) : outcome janet :=
  match l with
  | [] => Ok J
  | m :: l' => do J' <- insert dbg J (new_wrap m); mj_push_all dbg J' l'
  end.
