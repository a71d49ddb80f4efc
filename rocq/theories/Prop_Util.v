(** Properties C08, C30, C34, C35, C36 of the helper classes in /repo/util. *)
From Coq Require Import ZArith List Bool Arith Permutation.
From Verif Require Import Outcome MonomModel MonomSpec MonomCProofs RandPermModel RandPermProofs UtilModel UtilSpec UtilProofs.
Import ListNotations.
Local Open Scope nat_scope.

(** C08: u b g is the draw of uniform_int_distribution(0, b) from generator state g; any generator whose
    draws are in range keeps the object a permutation, without ever leaving the array. *)
Theorem C08_permutation : forall (G : Type) (u : nat -> G -> nat * G), (forall b g, fst (u b g) <= b) ->
  forall (dbg : bool) (n : nat), 0 < n ->
  exists l0, rp_new dbg n = Ok l0 /\
  forall k g, exists l g', rp_calls u k l0 g = Ok (l, g') /\ Permutation (seq 0 n) l.
Proof. exact @c08_permutation. Qed.
Print Assumptions C08_permutation.

(** The size must be positive: the debug build stops otherwise, the release build has undefined behaviour. *)
Theorem C08_positive_size : forall (dbg : bool) (n : nat), rp_new dbg n = if 0 <? n then Ok (seq 0 n) else if dbg then AssertFail else Undef.
Proof. exact rp_new_cases. Qed.
Print Assumptions C08_positive_size.

(** Every permutation is the result of exactly one in-range sequence of draws (so in-range uniform
    independent draws give all permutations with the same probability). *)
Theorem C08_reachable : forall l q : list nat, l <> [] -> NoDup l -> Permutation l q ->
  exists! d, in_range (length l - 1) d /\ rp_next playback l d = Ok (q, []).
Proof. exact c08_reachable. Qed.
Print Assumptions C08_reachable.

Theorem C08_permute_monomial : forall (dbg : bool) (n : nat) (m a : cmonom) (p : list nat),
  cvalid n m -> cvalid n a -> Permutation (seq 0 n) p ->
  exists r, c_permutation dbg false m a p = Ok r /\ cvalid n r /\ cdegree r = cdegree a /\ cpos r = cpos m /\
    Permutation (cvars r) (cvars a) /\
    forall v j, nth_error p v = Some j -> nth_error (cvars r) v = nth_error (cvars a) j.
Proof. exact c08_permute. Qed.
Print Assumptions C08_permute_monomial.

(** m.permutation(m, p) is not supported: it overwrites exponents it still has to read. *)
Theorem C08_permute_itself_refuted : exists m p r, cvalid 2 m /\ Permutation (seq 0 2) p /\
  c_permutation false true m m p = Ok r /\ ~ Permutation (cvars r) (cvars m) /\ ~ cvalid 2 r.
Proof. exact c08_permute_self_refuted. Qed.
Print Assumptions C08_permute_itself_refuted.

Theorem C08_random_monomial : forall (dbg : bool) (n : nat) (a : cmonom) (d : Z) (draws : list Z),
  cvalid n a -> Z.of_nat (length draws) = d -> (0 < d <= INT_MAX)%Z ->
  Forall (fun v => 0 <= v < Z.of_nat n)%Z draws ->
  exists c, c_rand_next dbg a d draws = Ok c /\ cvalid n c /\ cdegree c = d /\ cpos c = cpos a.
Proof. exact c_rand_next_ok. Qed.
Print Assumptions C08_random_monomial.

Example C08_ex : rp_next playback (seq 0 4) [1; 2; 0] = Ok ([3; 0; 2; 1], []) /\ in_range 3 [1; 2; 0] /\
  c_permutation true false (CMon 3 (-1) 0 [0; 0; 0]%Z) (CMon 3 (-1) 6 [1; 2; 3]%Z) [2; 0; 1] = Ok (CMon 3 (-1) 6 [3; 1; 2]%Z).
Proof. repeat split; repeat constructor. Qed.

(** C30: every program of push, pop, top, [], deep, reset and copy on a new stack of any initial capacity
    answers as the list does and ends with the list's contents. *)
Theorem C30_stack : forall (T : Type) (dbg : bool) (n : nat) (os : list st_op) (l' : list T) (xs : list st_obs),
  dbg = false \/ 0 < n -> spec_run [] os = Some (l', xs) ->
  exists s0 s', st_new dbg n = Ok s0 /\ st_run dbg s0 os = Ok (s', xs) /\ holds s' l'.
Proof. exact @c30_stack. Qed.
Print Assumptions C30_stack.

Theorem C30_push : forall (T : Type) (dbg : bool) (s : stack T) (l : list T) (x : T),
  holds s l -> dbg = false \/ 0 < scap s ->
  exists s', st_push dbg x s = Ok s' /\ holds s' (x :: l) /\ 0 < scap s'.
Proof. exact @push_ok. Qed.
Print Assumptions C30_push.

Theorem C30_assign : forall (T : Type) (dbg : bool) (s : stack T) (l : list T) (a : stack T) (m : list T),
  holds s l -> holds a m -> dbg = false \/ 0 < scap s -> exists s', st_assign dbg s a = Ok s' /\ holds s' m.
Proof. exact @assign_ok. Qed.
Print Assumptions C30_assign.

(** The debug build refuses a stack without initial capacity. *)
Theorem C30_capacity_debug : forall (T : Type) (n : nat), @st_new T true n = AssertFail <-> n = 0.
Proof. exact c30_new_debug. Qed.
Print Assumptions C30_capacity_debug.

Example C30_ex : exists s, st_run true (Stack 1 0 [None]) [SPush 5; SPush 6; SPush 7; STop; SPop; SGet 0; SCopy; STop; SDeep] =
  Ok (s, [ONone; ONone; ONone; OVal 7; ONone; OVal 5; ONone; OVal 6; ODepth 2]) /\ holds s [6; 5].
Proof. eexists. split; [vm_compute; reflexivity|]. repeat split. Qed.

Local Open Scope Z_scope.

(** C34: results are exact and stay in the storage reserved for them, also when an operand is the object itself
    (x may be a).  [sound x]: the value of x fits its storage. *)
Theorem C34_add_sub : forall (dbg : bool) (x a : integer), Z.max (limbs (ival x)) (limbs (ival a)) < INT_MAX ->
  (exists r, i_add dbg x a = Ok r /\ ival r = ival x + ival a /\ sound r) /\
  (exists r, i_sub dbg x a = Ok r /\ ival r = ival x - ival a /\ sound r).
Proof. exact c34_add_sub. Qed.
Print Assumptions C34_add_sub.

Theorem C34_add_sub_into : forall (dbg : bool) (x a b : integer), Z.max (limbs (ival a)) (limbs (ival b)) < INT_MAX ->
  (exists r, i_add3 dbg x a b = Ok r /\ ival r = ival a + ival b /\ sound r) /\
  (exists r, i_sub3 dbg x a b = Ok r /\ ival r = ival a - ival b /\ sound r).
Proof. exact c34_add3_sub3. Qed.
Print Assumptions C34_add_sub_into.

Theorem C34_mult : forall (dbg : bool) (x a : integer), limbs (ival x) + limbs (ival a) <= INT_MAX ->
  dbg = false \/ ival x <> 0 \/ ival a <> 0 ->
  exists r, i_mult dbg x a = Ok r /\ ival r = ival x * ival a /\ sound r.
Proof. exact c34_mult. Qed.
Print Assumptions C34_mult.

Theorem C34_mult_into : forall (dbg : bool) (x a b : integer), limbs (ival a) + limbs (ival b) <= INT_MAX -> sound x ->
  dbg = false \/ ival a <> 0 \/ ival b <> 0 ->
  exists r, i_mult3 dbg x a b = Ok r /\ ival r = ival a * ival b /\ sound r.
Proof. exact c34_mult3. Qed.
Print Assumptions C34_mult_into.

Theorem C34_div : forall (dbg : bool) (x a : integer), ival a <> 0 -> (ival a | ival x) -> dbg = false \/ ival x <> 0 ->
  exists r, i_div dbg x a = Ok r /\ ival r * ival a = ival x /\ sound r.
Proof. exact c34_div. Qed.
Print Assumptions C34_div.

Theorem C34_div_into : forall (dbg : bool) (x a b : integer), sound x -> ival b <> 0 -> (ival b | ival a) ->
  dbg = false \/ ival a <> 0 ->
  exists r, i_div3 dbg x a b = Ok r /\ ival r * ival b = ival a /\ sound r.
Proof. exact c34_div3. Qed.
Print Assumptions C34_div_into.

Theorem C34_gcd : forall (dbg : bool) (x a : integer), ival x <> 0 -> ival a <> 0 ->
  exists r, i_gcd dbg x a = Ok r /\ ival r = Z.gcd (ival x) (ival a) /\ sound r.
Proof. exact c34_gcd. Qed.
Print Assumptions C34_gcd.

Theorem C34_gcd_into : forall (dbg : bool) (x a b : integer), sound x -> ival a <> 0 -> ival b <> 0 ->
  exists r, i_gcd3 dbg x a b = Ok r /\ ival r = Z.gcd (ival a) (ival b) /\ sound r.
Proof. exact c34_gcd3. Qed.
Print Assumptions C34_gcd_into.

Theorem C34_copy : forall (dbg : bool) (x a : integer), sound x -> dbg = false \/ ival a <> 0 ->
  (exists r, i_assign dbg x a = Ok r /\ ival r = ival a /\ sound r) /\
  (exists r, i_copy dbg a = Ok r /\ ival r = ival a /\ sound r) /\
  (exists r, i_parse dbg (ival a) = Ok r /\ ival r = ival a /\ sound r).
Proof. exact c34_assign. Qed.
Print Assumptions C34_copy.

Theorem C34_set : forall (dbg : bool) (x : integer) (v : Z), - 2 ^ 63 <= v < 2 ^ 64 ->
  exists r, i_set_si dbg x v = Ok r /\ ival r = v /\ sound r.
Proof. exact c34_set. Qed.
Print Assumptions C34_set.

Theorem C34_tests : forall x : integer, sound x ->
  (i_isZero x = true <-> ival x = 0) /\ (i_isOne x = true <-> ival x = 1) /\ (i_isAbsOne x = true <-> Z.abs (ival x) = 1) /\
  i_sgn x = Z.sgn (ival x) /\ ival (i_neg x) = - ival x /\ sound (i_neg x).
Proof. exact c34_tests. Qed.
Print Assumptions C34_tests.

(** The storage of a result is what the operands need, whatever the object held before. *)
Theorem C34_storage : forall (dbg : bool) (x a r : integer),
  (i_add dbg x a = Ok r \/ i_sub dbg x a = Ok r -> ialloc r = Z.max (limbs (ival x)) (limbs (ival a)) + 1) /\
  (i_mult dbg x a = Ok r -> ialloc r = limbs (ival x) + limbs (ival a)) /\
  (ival x <> 0 -> ival a <> 0 -> i_gcd dbg x a = Ok r -> ialloc r = Z.min (limbs (ival x)) (limbs (ival a))) /\
  (i_copy dbg a = Ok r -> ialloc r = limbs (ival a)).
Proof. exact c34_storage. Qed.
Print Assumptions C34_storage.

(** Operands outside the domain of gcd and exact division are caught by the debug build ... *)
Theorem C34_asserts : forall x a : integer,
  (ival x = 0 \/ ival a = 0 -> i_gcd true x a = AssertFail) /\
  (ival a <> 0 -> ~ (ival a | ival x) -> i_div true x a = AssertFail) /\
  (ival a = 0 -> ival x <> 0 -> i_div true x a = AssertFail).
Proof. exact c34_asserts. Qed.
Print Assumptions C34_asserts.

(** ... but not 0 / 0, which passes the assertion and divides by zero. *)
Theorem C34_zero_by_zero_refuted : exists zero : integer, ival zero = 0 /\ sound zero /\ i_div true zero zero = Undef.
Proof. exact c34_zero_by_zero. Qed.
Print Assumptions C34_zero_by_zero_refuted.

(** The debug build aborts when the result needs no storage: 0 * 0, copies of 0, 0 / 5. *)
Theorem C34_zero_debug_refuted : exists zero five : integer, ival zero = 0 /\ ival five = 5 /\ sound zero /\ sound five /\
  i_mult true zero zero = AssertFail /\ i_copy true zero = AssertFail /\ i_assign true zero zero = AssertFail /\
  i_parse true 0 = AssertFail /\ i_div true zero five = AssertFail.
Proof. exact c34_zero_debug. Qed.
Print Assumptions C34_zero_debug_refuted.

Example C34_ex : limbs (2 ^ 64 - 1) = 1 /\ limbs (2 ^ 64) = 2 /\
  i_add true (Int 1 (2 ^ 64 - 1)) (Int 1 1) = Ok (Int 2 (2 ^ 64)) /\
  i_mult true (Int 1 (2 ^ 64 - 1)) (Int 1 (2 ^ 64 - 1)) = Ok (Int 2 ((2 ^ 64 - 1) * (2 ^ 64 - 1))) /\
  i_div true (Int 2 (2 ^ 64)) (Int 1 2) = Ok (Int 2 (2 ^ 63)) /\ i_gcd true (Int 1 12) (Int 1 18) = Ok (Int 1 6).
Proof. repeat split; vm_compute; reflexivity. Qed.

(** C35: [sib] is the result of mpz_sizeinbase, at least the number k of digits; the text fits the buffer. *)
Theorem C35_get_str : forall (dbg : bool) (b v k sib buf : Z), 2 <= b <= 62 -> 2 <= buf -> v <> 0 -> digits b v k -> k <= sib ->
  exists buf', get_str dbg b v sib (text_bytes v k) buf = Ok buf' /\ buf <= buf' /\ text_bytes v k <= buf'.
Proof. exact c35_get_str. Qed.
Print Assumptions C35_get_str.

Theorem C35_zero : forall (dbg : bool) (b sib w buf : Z), 2 <= b <= 62 -> 2 <= buf -> get_str dbg b 0 sib w buf = Ok buf.
Proof. exact c35_zero. Qed.
Print Assumptions C35_zero.

Theorem C35_hilbert_zero : forall (dbg : bool) (sibn sibd w buf : Z), 2 <= buf -> hp_str dbg 0 sibn sibd w buf = Ok buf.
Proof. exact c35_hilbert_zero. Qed.
Print Assumptions C35_hilbert_zero.

Theorem C35_hilbert : forall (dbg : bool) (num kn kd den sibn sibd buf : Z), num <> 0 -> 0 < den -> 2 <= buf ->
  digits 10 num kn -> digits 10 den kd -> kn <= sibn -> kd <= sibd ->
  exists buf', hp_str dbg num sibn sibd (text_bytes num kn + 1 + kd) buf = Ok buf' /\ buf <= buf' /\
    text_bytes num kn + 1 + kd <= buf'.
Proof. exact c35_hilbert. Qed.
Print Assumptions C35_hilbert.

Theorem C35_history : forall (dbg : bool) (cs : list call) (buf : Z), 2 <= buf -> Forall good_call cs ->
  exists buf', calls dbg cs buf = Ok buf' /\ buf <= buf'.
Proof. exact c35_history. Qed.
Print Assumptions C35_history.

Example C35_ex : digits 10 (-12345) 5 /\ text_bytes (-12345) 5 = 7 /\ get_str true 10 (-12345) 5 7 buffer0 = Ok 65536 /\
  Forall good_call [Call 10 (-12345) 5 5; Call 2 (2 ^ 70000) 70001 70001; Call 62 0 0 1] /\
  calls true [Call 10 (-12345) 5 5; Call 2 (2 ^ 70000) 70001 70001; Call 62 0 0 1] buffer0 = Ok 106496.
Proof. exact c35_ex. Qed.

(** C36: whatever was done before the last start. *)
Theorem C36_timer : forall (before : list tm_event) (r s : reading) (is : list interval),
  elapsed (tm_run tm_new (before ++ TStart r :: TStop s :: flat_map interval_events is)) =
  Reading ((ruser s - ruser r) + total ruser is) ((rsys s - rsys r) + total rsys is) ((rreal s - rreal r) + total rreal is).
Proof. exact c36_timer. Qed.
Print Assumptions C36_timer.

Theorem C36_timer_cont : forall is : list interval, elapsed (tm_run tm_new (flat_map interval_events is)) =
  Reading (total ruser is) (total rsys is) (total rreal is).
Proof. exact c36_timer_cont. Qed.
Print Assumptions C36_timer_cont.

Theorem C36_open : forall (t : timer) (l : list reading) (r : reading),
  elapsed (tm_run t (map TCont l)) = elapsed t /\ elapsed (tm_run t [TStart r]) = Reading 0 0 0.
Proof. exact c36_open. Qed.
Print Assumptions C36_open.

(** A second stop counts time that belongs to no started interval. *)
Theorem C36_stop_twice_refuted : exists r s u,
  elapsed (tm_run tm_new [TStart r; TStop s; TStop u]) <> elapsed (tm_run tm_new [TStart r; TStop s]).
Proof. exact c36_stop_twice. Qed.
Print Assumptions C36_stop_twice_refuted.

Example C36_ex : let r n := Reading n (2 * n) (3 * n) in
  elapsed (tm_run tm_new (TStop (r 9) :: TStart (r 10) :: TStop (r 15) :: flat_map interval_events [Interval [r 20] (r 30) (r 32); Interval [] (r 40) (r 47)])) = r 14.
Proof. reflexivity. Qed.
