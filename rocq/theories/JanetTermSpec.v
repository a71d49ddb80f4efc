(** The rounds of the main loops of JanetPolyInt: the states in which a call of build, algorithmTQ or
    algorithmTQ1 is between two rounds. *)
From Coq Require Import ZArith List Bool Arith.
From Verif Require Import Outcome MonomModel JanetModel PolyModel JanetPolyModel TQModel.
Import ListNotations.
Local Open Scope Z_scope.

(** The trees, mQ and mT. *)
Notation rstate := (list janet * list wpoly * list entry)%type.

(** One round of algorithmBlockTQ (poly_int.cpp:706-906): the next state, or the finished object. *)
Definition block_round (fuel : nat) (dbg : bool) (mpos : Z) (s : rstate) : outcome (rstate + jpoly) :=
  let '(js, q, t) := s in
  match q with
  | [] => Ok (inr (JP None [] t mpos (Some js)))
  | u :: _ =>
      do m <- p_lm dbg (wpol u);
      do r <- take_block fuel dbg (find_poly dbg mpos (Some js) t) (deg m) q [];
      match r with
      | None => do J <- set_one dbg (pto (wpol u)) (pbo (wpol u)) (psize (wpol u)) mpos; Ok (inr J)
      | Some (q1, tmp) =>
          assert_ dbg (assertSort q1 && assertSort tmp)
            match tmp with
            | [] => Ok (inl (js, q1, t))
            | _ =>
                do s <- block_loop fuel dbg tmp q1;
                let '(tmp2, q2, dg) := s in
                do e <- enter dbg js tmp2;
                let (js2, new) := e in
                do x <- merge_loop (length new + length t) fuel dbg mpos dg js2 q2 [] new t;
                let '(js3, q3, t3) := x in
                do b <- (if dbg then assertT dbg mpos js3 t3 else Ok true);
                assert_ dbg b (Ok (inl (js3, q3, t3)))
            end
      end
  end.

(** One round of algorithmTQ (one = false, poly_int.cpp:1303-1436) and algorithmTQ1 (one = true, 922-1087). *)
Definition tq_round (one : bool) (fuel : nat) (dbg : bool) (mpos : Z) (s : rstate) : outcome (rstate + jpoly) :=
  let '(js, q, t) := s in
  match q with
  | [] => Ok (inr (JP None [] t mpos (Some js)))
  | u :: _ =>
      let find := find_poly dbg mpos (Some js) t in
      do m <- p_lm dbg (wpol u);
      do r <- take_tq false fuel dbg find (deg m) q [];
      match r with
      | None => do J <- set_one dbg (pto (wpol u)) (pbo (wpol u)) (psize (wpol u)) mpos; Ok (inr J)
      | Some (q1, tmp) =>
          assert_ dbg (assertSort q1 && assertSort tmp)
            match tmp with
            | [] => Ok (inl (js, q1, t))
            | w0 :: tmp0 =>
                do m0 <- p_lm dbg (wpol w0);
                do s <- same_lm dbg m0 tmp0;
                let (eqs, rest) := s in
                do w1 <- (if one then do p <- tail_pp fuel dbg find (wpol w0); Ok (WP (wwrap w0) p) else Ok w0);
                do eqs1 <- (if one then tails fuel dbg find eqs else Ok eqs);
                let (w, eqs2) := swap_min w1 eqs1 in
                if one && negb (length eqs2 =? 0)%nat then
                  do eqs3 <- red_eq dbg (wpol w) eqs2;
                  do q2 <- jp_insert dbg (rest ++ q1) w;
                  do q3 <- insert_all dbg q2 eqs3;
                  assert_ dbg (assertSort q3) (Ok (inl (js, q3, t)))
                else
                  let q2 := (eqs2 ++ rest) ++ q1 in
                  assert_ dbg (assertSort (eqs2 ++ rest) && assertSort q2)
                    (do e <- enter_w dbg js w;
                     let (js2, w') := e in
                     do x <- match t with
                             | [] => Ok (js2, q2, [(wlm w', wpol w)])
                             | _ => walk (S (length t)) fuel dbg mpos (deg m) js2 q2 [] (Some (wlm w', wpol w)) t
                             end;
                     let '(js3, q3, t3) := x in
                     do b <- (if dbg then assertT dbg mpos js3 t3 else Ok true);
                     assert_ dbg b (Ok (inl (js3, q3, t3))))
            end
      end
  end.

(** s' is the state after some rounds from s. *)
Inductive rounds (round : nat -> rstate -> outcome (rstate + jpoly)) : rstate -> rstate -> Prop :=
| rounds_here s : rounds round s s
| rounds_next s1 s2 s3 fuel : round fuel s1 = Ok (inl s2) -> rounds round s2 s3 -> rounds round s1 s3.

(** The state in which a call begins (poly_int.cpp:698-704). *)
Definition start (J : jpoly) : rstate :=
  let J' := set_pos J in (match jtrees J' with Some js => js | None => [] end, jq J', jt J').

(** A call that ends: with enough steps its result does not depend on the bound. *)
Definition ends {A} (f : nat -> outcome A) : Prop := exists N x, forall fuel, (N <= fuel)%nat -> f fuel = Ok x.
