(** Model of ginv/gb.h, ginv/gb.cpp: a forest of Janet trees indexed by the degree of the ansector.  Definitions only. *)
From Coq Require Import ZArith List Bool Arith.
From Verif Require Import Outcome MonomModel JanetModel.
Import ListNotations.

(** gb.h:36-41; mMaxDegree is the length of the list *)
Record gb : Type := GB { gsize : nat; gforest : list janet }.
(** gb.cpp:25-34; sMaxDegree = 20 *)
Definition gb_new : gb := GB 0 (repeat jempty 20).

(** gb.cpp:48-50: no v < m.size() with m[v] > lm[v] && NMd(v) *)
Fixpoint nmd_from (dbg : bool) (u : wrap) (v : nat) (l : list nat) : outcome bool :=
  match l with
  | [] => Ok true
  | x :: l' =>
      do y <- mget dbg (wlm u) v;
      if Nat.ltb y x
      then do b <- get_flag dbg (wnmd u) v; if b then Ok false else nmd_from dbg u (S v) l'
      else nmd_from dbg u (S v) l'
  end.
(** gb.cpp:42-58 find *)
Fixpoint forest_find (dbg : bool) (f : list janet) (m : monom) : outcome (option wrap) :=
  match f with
  | [] => Ok None
  | J :: f' =>
      do r <- find dbg (jroot J) m;
      match r with
      | None => forest_find dbg f' m
      | Some u => do ok <- nmd_from dbg u 0 (vars m); if ok then Ok (Some u) else forest_find dbg f' m
      end
  end.
Definition gb_find (dbg : bool) (g : gb) (m : monom) : outcome (option wrap) := forest_find dbg (gforest g) m.

(** gb.cpp:75-76 *)
Fixpoint prec_all (dbg : bool) (f : list janet) (w : wrap) : outcome wrap :=
  match f with [] => Ok w | J :: f' => do w1 <- set_mn_prec dbg w 0 (jroot J); prec_all dbg f' w1 end.
(** gb.cpp:63-72; d*13 overflows int for d > INT_MAX/13 *)
Definition gb_grow (f : list janet) (d : nat) : outcome (list janet) :=
  if Nat.ltb d (length f) then Ok f
  else do x <- int_ (Z.of_nat d * 13);
       let d12 := Z.to_nat (x / 10) in Ok (f ++ repeat jempty (d12 - length f)).
Fixpoint replace_at {A} (l : list A) (i : nat) (x : A) : list A :=
  match l, i with [], _ => [] | _ :: t, O => x :: t | y :: t, S i' => y :: replace_at t i' x end.
(** gb.cpp:60-81 insert.  setMNsucc (janet.cpp:229-242) does nothing: its body is commented out. *)
Definition gb_insert (dbg : bool) (g : gb) (w : wrap) : outcome gb :=
  do r <- (if dbg then gb_find dbg g (wlm w) else Ok None);
  match r with
  | Some _ => AssertFail
  | None =>
      let d := deg (wanc w) in
      do f <- gb_grow (gforest g) d;
      assert_ dbg (Nat.ltb d (length f))
        (do w1 <- prec_all dbg (firstn d f) w;
         match nth_error f d with
         | None => Undef
         | Some J => do J' <- insert dbg J w1; Ok (GB (S (gsize g)) (replace_at f d J'))
         end)
  end.

(** A freshly made wrap (wrap.h:54-67, 68-83): its leading monomial and its ansector, all flags clear. *)
Definition fresh_wrap (m a : monom) : wrap :=
  Wrap m a (repeat false (size m)) (repeat false (size m)) (repeat false (size m)).
Fixpoint gb_insert_all (dbg : bool) (g : gb) (h : list (monom * monom)) : outcome gb :=
  match h with [] => Ok g | (m, a) :: t => do g1 <- gb_insert dbg g (fresh_wrap m a); gb_insert_all dbg g1 t end.
