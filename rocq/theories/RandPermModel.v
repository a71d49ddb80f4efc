(** Model of util/randpermutation.h/.cpp and of Monom::permutation. *)
From Coq Require Import ZArith List Bool Arith.
From Verif Require Import Outcome MonomModel.
Import ListNotations.
Local Open Scope nat_scope.

(** a[i] and a[i] = x on an array; outside it: undefined. *)
Definition rd {A} (l : list A) (i : nat) : outcome A := match nth_error l i with Some x => Ok x | None => Undef end.
Fixpoint upd {A} (l : list A) (i : nat) (x : A) : list A :=
  match l, i with [], _ => [] | _ :: l', O => x :: l' | y :: l', S i' => y :: upd l' i' x end.
Definition wr {A} (l : list A) (i : nat) (x : A) : outcome (list A) := if i <? length l then Ok (upd l i x) else Undef.

(** randpermutation.cpp:25-34 constructor: mPerm[i] = i; without asserts a size < 1 requests an array of
    size -1 (undefined here). The distributions mDis[i-1], one per bound i, are the argument [uniform]
    of [rp_next]. *)
Definition rp_new (dbg : bool) (n : nat) : outcome (list nat) := assert_ dbg (0 <? n) (if 0 <? n then Ok (seq 0 n) else Undef).

Section Generator.
(** The generator: its states and what uniform_int_distribution<int>(0, b) draws from it. *)
Context {G : Type} (uniform : nat -> G -> nat * G).

(** randpermutation.h:54-57 body of the loop *)
Definition rp_swap (l : list nat) (i j : nat) : outcome (list nat) :=
  do x <- rd l j;
  do y <- rd l i;
  do l1 <- wr l j y;
  wr l1 i x.
(** randpermutation.h:52-59 next(g): for i = mSize-1 .. 1 *)
Fixpoint rp_loop (i : nat) (l : list nat) (g : G) : outcome (list nat * G) :=
  match i with
  | O => Ok (l, g)
  | S i' => let (j, g') := uniform i g in do l' <- rp_swap l i j; rp_loop i' l' g'
  end.
Definition rp_next (l : list nat) (g : G) : outcome (list nat * G) := rp_loop (length l - 1) l g.
(** k calls of next *)
Fixpoint rp_calls (k : nat) (l : list nat) (g : G) : outcome (list nat * G) :=
  match k with O => Ok (l, g) | S k' => do (l', g') <- rp_next l g; rp_calls k' l' g' end.
End Generator.

(** A generator that plays back a list of draws. *)
Definition playback (b : nat) (g : list nat) : nat * list nat := (hd 0%nat g, tl g).

(** randpermutation.h:46-49 operator[] *)
Definition rp_get (dbg : bool) (p : list nat) (i : nat) : outcome nat := assert_ dbg (i <? length p) (rd p i).

(** monom.cpp:213-214: for v: mVariables[v] = a.mVariables[p[v]].  [self] says that a is the object itself, so that
    reads see earlier writes. *)
Fixpoint permute_loop (dbg self : bool) (k v : nat) (dst src : list Z) (p : list nat) : outcome (list Z) :=
  match k with
  | O => Ok dst
  | S k' => do j <- rp_get dbg p v;
            do x <- rd (if self then dst else src) j;
            do dst' <- wr dst v x;
            permute_loop dbg self k' (S v) dst' src p
  end.
(** monom.cpp:209-216 permutation(a, p) *)
Definition c_permutation (dbg self : bool) (m a : cmonom) (p : list nat) : outcome cmonom :=
  assert_ dbg (csize a =? Z.of_nat (length p))%Z
    (assert_ dbg (csize m =? Z.of_nat (length p))%Z
       (do l <- permute_loop dbg self (Z.to_nat (csize m)) 0 (cvars m) (cvars a) p;
        assert_valid dbg (CMon (csize m) (cpos m) (cdegree a) l))).
