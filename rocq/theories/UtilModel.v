(** Models of util/timer, util/stack, util/integer and the string buffers.  Definitions only. *)
From Coq Require Import ZArith List Bool Arith.
From Verif Require Import Outcome RandPermModel.
Import ListNotations.
Local Open Scope Z_scope.

(* ------------------------------------------------------------------ Timer *)
(** A clock reading: user, system and real time.  C++ divides each by sHZ and computes in double; here the
    unit is the tick and the arithmetic exact (rounding is not modelled). *)
Record reading := Reading { ruser : Z; rsys : Z; rreal : Z }.
(** timer.h:33-39 *)
Record timer := Timer { last : reading; elapsed : reading }.
(** timer.h:42-49 *)
Definition tm_new : timer := Timer (Reading 0 0 0) (Reading 0 0 0).
(** timer.cpp:87-96 (Linux) and 42-56 (Windows) *)
Definition tm_start (now : reading) (t : timer) : timer := Timer now (Reading 0 0 0).
(** timer.cpp:98-103, 58-67 *)
Definition tm_cont (now : reading) (t : timer) : timer := Timer now (elapsed t).
(** timer.cpp:105-116, 69-82 *)
Definition tm_stop (now : reading) (t : timer) : timer :=
  Timer now (Reading (ruser (elapsed t) + (ruser now - ruser (last t)))
                     (rsys (elapsed t) + (rsys now - rsys (last t)))
                     (rreal (elapsed t) + (rreal now - rreal (last t)))).
Inductive tm_event := TStart (r : reading) | TCont (r : reading) | TStop (r : reading).
Definition tm_step (t : timer) (e : tm_event) : timer :=
  match e with TStart r => tm_start r t | TCont r => tm_cont r t | TStop r => tm_stop r t end.
Definition tm_run (t : timer) (es : list tm_event) : timer := fold_left tm_step es t.

(* ------------------------------------------------------------------ Stack *)
Section Stack.
Context {T : Type}.
(** stack.h:35-38.  An array slot never written is None; reading it is undefined. *)
Record stack := Stack { scap : nat; sdeep : nat; sarr : list (option T) }.

(** stack.h:56-61.  The allocator asserts a positive size. *)
Definition st_new (dbg : bool) (n : nat) : outcome stack := assert_ dbg (0 <? n)%nat (Ok (Stack n 0 (repeat None n))).
(** array[i] = a.mArray[i] for i = k .. k+todo-1 *)
Fixpoint st_copy_loop (todo k : nat) (dst src : list (option T)) : outcome (list (option T)) :=
  match todo with
  | O => Ok dst
  | S todo' => do x <- rd src k; do dst' <- wr dst k x; st_copy_loop todo' (S k) dst' src
  end.
(** stack.h:40-50 resize; dealloc asserts mSize > 0.  Overflow of size_t is not modelled. *)
Definition st_resize (dbg : bool) (s : stack) : outcome stack :=
  assert_ dbg (sdeep s =? scap s)%nat
    (let size := ((scap s + 1) * 12 / 10)%nat in
     do arr <- st_copy_loop (sdeep s) 0 (repeat None size) (sarr s);
     assert_ dbg (0 <? scap s)%nat (Ok (Stack size (sdeep s) arr))).
(** stack.h:123-127 *)
Definition st_push (dbg : bool) (x : T) (s : stack) : outcome stack :=
  do s1 <- (if (sdeep s =? scap s)%nat then st_resize dbg s else Ok s);
  do arr <- wr (sarr s1) (sdeep s1) (Some x);
  Ok (Stack (scap s1) (S (sdeep s1)) arr).
(** stack.h:128-131; without asserts an empty stack gets depth 2^64-1: undefined here *)
Definition st_pop (dbg : bool) (s : stack) : outcome stack :=
  assert_ dbg (0 <? sdeep s)%nat (if (0 <? sdeep s)%nat then Ok (Stack (scap s) (sdeep s - 1) (sarr s)) else Undef).
Definition st_read (s : stack) (i : nat) : outcome T :=
  do x <- rd (sarr s) i; match x with Some v => Ok v | None => Undef end.
(** stack.h:111-114 *)
Definition st_top (dbg : bool) (s : stack) : outcome T :=
  assert_ dbg (0 <? sdeep s)%nat (if (0 <? sdeep s)%nat then st_read s (sdeep s - 1) else Undef).
(** stack.h:115-118 *)
Definition st_get (dbg : bool) (s : stack) (i : nat) : outcome T := assert_ dbg (i <? sdeep s)%nat (st_read s i).
(** stack.h:120-122 *)
Definition st_reset (s : stack) : stack := Stack (scap s) 0 (sarr s).
(** stack.h:62-69 copy constructor *)
Definition st_copy (dbg : bool) (a : stack) : outcome stack :=
  assert_ dbg (0 <? scap a)%nat
    (do arr <- st_copy_loop (sdeep a) 0 (repeat None (scap a)) (sarr a); Ok (Stack (scap a) (sdeep a) arr)).
(** stack.h:90-99 operator= *)
Definition st_assign (dbg : bool) (s a : stack) : outcome stack :=
  do s1 <- (if (scap s <? sdeep a)%nat then assert_ dbg (0 <? scap s)%nat (Ok (Stack (sdeep a) (sdeep s) (repeat None (sdeep a)))) else Ok s);
  do arr <- st_copy_loop (sdeep a) 0 (sarr s1) (sarr a);
  Ok (Stack (scap s1) (sdeep a) arr).

Inductive st_op := SPush (x : T) | SPop | STop | SGet (i : nat) | SDeep | SReset | SCopy.
Inductive st_obs := ONone | OVal (x : T) | ODepth (n : nat).
Definition st_step (dbg : bool) (s : stack) (o : st_op) : outcome (stack * st_obs) :=
  match o with
  | SPush x => do s' <- st_push dbg x s; Ok (s', ONone)
  | SPop => do s' <- st_pop dbg s; Ok (s', ONone)
  | STop => do x <- st_top dbg s; Ok (s, OVal x)
  | SGet i => do x <- st_get dbg s i; Ok (s, OVal x)
  | SDeep => Ok (s, ODepth (sdeep s))
  | SReset => Ok (st_reset s, ONone)
  | SCopy => do s' <- st_copy dbg s; Ok (s', ONone)
  end.
Fixpoint st_run (dbg : bool) (s : stack) (os : list st_op) : outcome (stack * list st_obs) :=
  match os with
  | [] => Ok (s, [])
  | o :: os' => do (s1, x) <- st_step dbg s o; do (s2, xs) <- st_run dbg s1 os'; Ok (s2, x :: xs)
  end.
End Stack.
Arguments stack T : clear implicits.

(* ------------------------------------------------------------------ Integer *)
(** Number of 64-bit limbs of a number: abs(_mp_size). *)
Definition limbs (z : Z) : Z := if z =? 0 then 0 else Z.log2 (Z.abs z) / 64 + 1.

(** integer.h:53: __mpz_struct with its limb array owned by the Allocator: _mp_alloc and the value
    (_mp_size and the limbs). *)
Record integer := Int { ialloc : Z; ival : Z }.

(** integer.h:57-60; mpz_init of GMP >= 6.2 allocates nothing. *)
Definition i_new : integer := Int 0 0.

(** integer.cpp:29-39.  After growing, the old limbs are gone, so the value is not kept: every caller
    overwrites it. *)
Definition i_reallocate (dbg : bool) (size : Z) (x : integer) : outcome integer :=
  assert_ dbg (0 <? size) (Ok (if ialloc x <? size then Int size 0 else x)).

(** A GMP function storing v into x, which asks for [request] limbs beforehand: if these, or those of v,
    exceed _mp_alloc, GMP calls realloc on memory that is not its own. *)
Definition gmp_store (request v : Z) (x : integer) : outcome integer :=
  if (request <=? ialloc x) && (limbs v <=? ialloc x) then Ok (Int (ialloc x) v) else Undef.

(** mpz_add, mpz_sub: GMP asks for max+1 limbs *)
Definition mpz_add (x : integer) (a b : Z) := gmp_store (Z.max (limbs a) (limbs b) + 1) (a + b) x.
Definition mpz_sub (x : integer) (a b : Z) := gmp_store (Z.max (limbs a) (limbs b) + 1) (a - b) x.
(** mpz_mul: a zero factor is handled first; otherwise GMP asks for the sum *)
Definition mpz_mul (x : integer) (a b : Z) :=
  gmp_store (if (a =? 0) || (b =? 0) then 0 else limbs a + limbs b) (a * b) x.
(** mpz_divexact: undefined unless b divides a, b <> 0; asks for the difference + 1 unless a is the shorter one *)
Definition mpz_divexact (x : integer) (a b : Z) :=
  if b =? 0 then Undef else if negb (a mod b =? 0) then Undef
  else gmp_store (if limbs a <? limbs b then 0 else limbs a - limbs b + 1) (a / b) x.
(** mpz_gcd: asks for the size of the result *)
Definition mpz_gcd (x : integer) (a b : Z) := gmp_store 0 (Z.gcd a b) x.
(** mpz_set: asks for the size of the operand; mpz_set_si/ui: for one limb *)
Definition mpz_set (x : integer) (a : Z) := gmp_store 0 a x.

(** integer.cpp:41-51 Integer(allocator, str): str has been parsed to v *)
Definition i_parse (dbg : bool) (v : Z) : outcome integer := do x <- i_reallocate dbg (limbs v) i_new; mpz_set x v.
(** integer.h:69-74 copy, 100-103 assignment *)
Definition i_copy (dbg : bool) (a : integer) : outcome integer := do x <- i_reallocate dbg (limbs (ival a)) i_new; mpz_set x (ival a).
Definition i_assign (dbg : bool) (x a : integer) : outcome integer := do y <- i_reallocate dbg (limbs (ival a)) x; mpz_set y (ival a).
(** integer.h:104-111 *)
Definition i_set_si (dbg : bool) (x : integer) (v : Z) : outcome integer := do y <- i_reallocate dbg 1 x; mpz_set y v.

(** integer.cpp:53-58, 67-72, 82-87, 96-102, 112-118: compute into a temporary and swap *)
Definition i_add (dbg : bool) (x a : integer) : outcome integer :=
  do n <- int_ (Z.max (limbs (ival x)) (limbs (ival a)) + 1);
  do t <- i_reallocate dbg n i_new; mpz_add t (ival x) (ival a).
Definition i_sub (dbg : bool) (x a : integer) : outcome integer :=
  do n <- int_ (Z.max (limbs (ival x)) (limbs (ival a)) + 1);
  do t <- i_reallocate dbg n i_new; mpz_sub t (ival x) (ival a).
Definition i_mult (dbg : bool) (x a : integer) : outcome integer :=
  do n <- int_ (limbs (ival x) + limbs (ival a));
  do t <- i_reallocate dbg n i_new; mpz_mul t (ival x) (ival a).
(** integer.h:126-128 mpz_divisible_p *)
Definition i_divisible (x a : Z) : bool := if a =? 0 then x =? 0 else x mod a =? 0.
Definition i_div (dbg : bool) (x a : integer) : outcome integer :=
  assert_ dbg (i_divisible (ival x) (ival a))
    (do t <- i_reallocate dbg (limbs (ival x) - limbs (ival a) + 1) i_new; mpz_divexact t (ival x) (ival a)).
Definition i_gcd (dbg : bool) (x a : integer) : outcome integer :=
  assert_ dbg (negb (ival x =? 0) && negb (ival a =? 0))
    (do t <- i_reallocate dbg (Z.min (limbs (ival x)) (limbs (ival a))) i_new; mpz_gcd t (ival x) (ival a)).
(** integer.cpp:60-65, 75-80, 89-94, 104-110, 120-126: into this, which differs from both operands *)
Definition i_add3 (dbg : bool) (x a b : integer) : outcome integer :=
  do n <- int_ (Z.max (limbs (ival a)) (limbs (ival b)) + 1);
  do t <- i_reallocate dbg n x; mpz_add t (ival a) (ival b).
Definition i_sub3 (dbg : bool) (x a b : integer) : outcome integer :=
  do n <- int_ (Z.max (limbs (ival a)) (limbs (ival b)) + 1);
  do t <- i_reallocate dbg n x; mpz_sub t (ival a) (ival b).
Definition i_mult3 (dbg : bool) (x a b : integer) : outcome integer :=
  do n <- int_ (limbs (ival a) + limbs (ival b));
  do t <- i_reallocate dbg n x; mpz_mul t (ival a) (ival b).
Definition i_div3 (dbg : bool) (x a b : integer) : outcome integer :=
  assert_ dbg (i_divisible (ival a) (ival b))
    (do t <- i_reallocate dbg (limbs (ival a) - limbs (ival b) + 1) x; mpz_divexact t (ival a) (ival b)).
Definition i_gcd3 (dbg : bool) (x a b : integer) : outcome integer :=
  assert_ dbg (negb (ival a =? 0) && negb (ival b =? 0))
    (do t <- i_reallocate dbg (Z.min (limbs (ival a)) (limbs (ival b))) x; mpz_gcd t (ival a) (ival b)).
(** integer.h:119 set_neg: _mp_size *= -1 *)
Definition i_neg (x : integer) : integer := Int (ialloc x) (- ival x).
(** integer.h:113-117 *)
Definition i_isZero (x : integer) : bool := ival x =? 0.
Definition i_isOne (x : integer) : bool := ival x =? 1.
Definition i_isAbsOne (x : integer) : bool := Z.abs (ival x) =? 1.
Definition i_sgn (x : integer) : Z := Z.sgn (ival x).

(* ------------------------------------------------------------------ string buffers *)
(** integer.cpp:138-144, hilbertpoly.cpp:37-44: make the buffer hold [size] bytes; overflow of size_t is not
    modelled. *)
Definition grow (size bufsize : Z) : Z :=
  if bufsize <? size then (size * 15 / 10 / 4096 + 1) * 4096 else bufsize.
(** integer.cpp:131-149 get_str: [sib] is the value mpz_sizeinbase returns, [written] the number of bytes
    mpz_get_str writes.  The result is the new sBufferSize; writing beyond it is undefined. *)
Definition get_str (dbg : bool) (base v sib written bufsize : Z) : outcome Z :=
  assert_ dbg ((2 <=? base) && (base <=? 62))
    (if v =? 0 then if 2 <=? bufsize then Ok bufsize else Undef
     else let b := grow (sib + 2) bufsize in
          assert_ dbg (sib + 2 <=? b) (if written <=? b then Ok b else Undef)).
(** integer.cpp:25 *)
Definition buffer0 : Z := 4096 * 16.
(** hilbertpoly.cpp:29-50 operator[]: a fraction, base 10 *)
Definition hp_str (dbg : bool) (num sibn sibd written bufsize : Z) : outcome Z :=
  if num =? 0 then if 2 <=? bufsize then Ok bufsize else Undef
  else let b := grow (sibn + sibd + 3) bufsize in
       assert_ dbg (sibn + sibd + 3 <=? b) (if written <=? b then Ok b else Undef).
