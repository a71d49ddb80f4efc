(** C25, C26: Hilbert polynomials.  Specification: HilbertSpec.v. *)
From Coq Require Import ZArith List Bool Arith QArith Lia Permutation.
From Verif Require Import Outcome MonomModel MonomSpec JanetModel JanetSpec CompletionModel HilbertModel HilbertSpec HilbertProofs HilbertTop.
Import ListNotations.
Local Open Scope nat_scope.

(** * C25 *)
(** binomial(a, b) makes the polynomial binom(s+a, b) in s, whatever was stored before, for b at most the dimension. *)
Theorem C25_binomial : forall (h : hp) (a : Z) (b : nat), b < length h ->
  exists r, hp_binomial h a b = Ok r /\ length r = length h /\ Forall lowest_terms r /\
    (forall x, peval r x == choose (x + inject_Z a) b)%Q /\ forall i, b < i -> (nth i r 0 == 0)%Q.
Proof. exact hp_binomial_ok. Qed.
Print Assumptions C25_binomial.

Theorem C25_add : forall a b : hp, length a = length b ->
  exists r, hp_add a b = Ok r /\ length r = length a /\ Forall lowest_terms r /\ forall x, (peval r x == peval a x + peval b x)%Q.
Proof. exact hp_add_ok. Qed.
Print Assumptions C25_add.

Theorem C25_sub : forall a b : hp, length a = length b ->
  exists r, hp_sub a b = Ok r /\ length r = length a /\ Forall lowest_terms r /\ forall x, (peval r x == peval a x - peval b x)%Q.
Proof. exact hp_sub_ok. Qed.
Print Assumptions C25_sub.

Theorem C25_mult : forall (h : hp) (a : Z), length (hp_mult h a) = length h /\ Forall lowest_terms (hp_mult h a) /\
  forall x, (peval (hp_mult h a) x == inject_Z a * peval h x)%Q.
Proof. exact hp_mult_ok. Qed.
Print Assumptions C25_mult.

Theorem C25_isZero : forall (dbg : bool) (h : hp) (k : nat), k < length h ->
  exists b, hp_isZero dbg h k = Ok b /\ (b = true <-> (nth k h 0 == 0)%Q).
Proof. exact hp_isZero_ok. Qed.
Print Assumptions C25_isZero.

(** A new polynomial of dimension dim is 0, with dim + 1 coefficients; setDim makes one of an object without coefficients, and
    in a debug build only of such an object. *)
Theorem C25_new : forall dim : nat, length (hp_new dim) = S dim /\ hp_dim (hp_new dim) = Z.of_nat dim /\ Forall lowest_terms (hp_new dim) /\
  (forall x, peval (hp_new dim) x == 0)%Q /\ forall dbg k, k <= dim -> hp_isZero dbg (hp_new dim) k = Ok true.
Proof. exact hp_new_ok. Qed.
Print Assumptions C25_new.
Theorem C25_setDim : forall (dbg : bool) (h : hp) (dim : nat),
  hp_setDim dbg h dim = if dbg && negb (length h =? 0) then AssertFail else Ok (hp_new dim).
Proof. exact hp_setDim_ok. Qed.
Print Assumptions C25_setDim.

(** The values determine the stored coefficients, numerator and denominator. *)
Theorem C25_coefficients : forall c d : hp, length c = length d -> Forall lowest_terms c -> Forall lowest_terms d ->
  (forall x, peval c x == peval d x)%Q -> c = d.
Proof. exact coeffs_determined. Qed.
Print Assumptions C25_coefficients.

(** binom(s-3, 2) = 6 - 7/2 s + 1/2 s^2 *)
Example C25_ex : 2 < length (hp_new 3) /\ hp_binomial (hp_new 3) (-3) 2 = Ok [6#1; (-7)#2; 1#2; 0#1]%Q /\
  hp_sub [1#2; 0#1]%Q [1#6; 2#1]%Q = Ok [1#3; (-2)#1]%Q.
Proof. split; [vm_compute; lia|]. split; vm_compute; reflexivity. Qed.

(** * C26 *)
(** A tree into which a Janet basis of the ideal of F was inserted: from the largest degree in the basis on, the polynomial
    gives the number of monomials of degree at most s outside the ideal. *)
Theorem C26_inserts : forall (dbg : bool) (n : nat) (l : list monom) (F : list (list nat)),
  0 < n -> l <> [] -> Forall (fun m => length (vars m) = n) l -> NoDup (map vars l) -> janet_basis n F (map vars l) ->
  exists J h, mj_push_all false jempty l = Ok J /\ build_hp dbg J hp_none = Ok h /\ length h = S n /\ Forall lowest_terms h /\
    forall s, (forall m, In m l -> total (vars m) <= s) ->
      exists k, hilbert_function n F s k /\ (peval h (inject_Z (Z.of_nat s)) == inject_Z (Z.of_nat k))%Q.
Proof. exact c26_inserts. Qed.
Print Assumptions C26_inserts.

(** The same for the tree completed by MJanet; no stored degree exceeds that of any common multiple of the input. *)
Theorem C26_completed : forall (dbg : bool) (n : nat) (p : Z) (l : list monom), 0 < n -> l <> [] ->
  Forall (fun m => length (vars m) = n /\ pos m = p) l -> NoDup (map vars l) ->
  (dbg = true -> forall a b, In a (map vars l) -> In b (map vars l) -> divides n a b -> a = b) ->
  exists J J' h, mj_push_all dbg jempty l = Ok J /\
    (exists N, forall fuel, N <= fuel -> mj_build fuel dbg J = Ok J') /\
    build_hp dbg J' hp_none = Ok h /\ length h = S n /\ Forall lowest_terms h /\
    (forall u, In u (wraps (jroot J')) -> forall B, length B = n -> (forall f, In f l -> divides n (vars f) B) -> total (vars (wlm u)) <= total B) /\
    forall s, (forall u, In u (wraps (jroot J')) -> total (vars (wlm u)) <= s) ->
      exists k, hilbert_function n (map vars l) s k /\ (peval h (inject_Z (Z.of_nat s)) == inject_Z (Z.of_nat k))%Q.
Proof. exact c26_build. Qed.
Print Assumptions C26_completed.

(** The two misuses: an object that already has coefficients, and a tree without elements. *)
Theorem C26_used : forall (J : janet) (h : hp), h <> [] -> build_hp true J h = AssertFail /\ (wraps (jroot J) <> [] -> build_hp false J h = Undef).
Proof. exact build_hp_used. Qed.
Print Assumptions C26_used.
Theorem C26_empty : forall h : hp, build_hp true jempty h = AssertFail /\ build_hp false jempty h = Ok h.
Proof. exact build_hp_empty. Qed.
Print Assumptions C26_empty.
Example C26_used_ex : exists J, mj_push_all false jempty [Mon (-1) [2;1]] = Ok J /\ wraps (jroot J) <> [] /\ hp_new 2 <> [].
Proof. eexists. split; [vm_compute; reflexivity|]. split; discriminate. Qed.

(** x^2 y, y^3 in three variables: 1/2 s^2 + 11/2 s - 3, which is 48 at s = 6. *)
Example C26_ex : let l := [Mon (-1) [2;1;0]; Mon (-1) [0;3;0]] in
  Forall (fun m => length (vars m) = 3 /\ pos m = (-1)%Z) l /\ NoDup (map vars l) /\
  (forall a b, In a (map vars l) -> In b (map vars l) -> divides 3 a b -> a = b) /\
  exists J J' h, mj_push_all true jempty l = Ok J /\ mj_build 20 true J = Ok J' /\ length (wraps (jroot J')) = 3 /\
    build_hp true J' hp_none = Ok h /\ Qred (peval h 6) = (48#1)%Q.
Proof.
  cbv zeta. split; [repeat constructor|]. split; [repeat constructor; cbn; intuition discriminate|]. split.
  - cbn. intros a b [<-|[<-|[]]] [<-|[<-|[]]] D; auto; exfalso; [specialize (D 0 ltac:(lia))|specialize (D 1 ltac:(lia))]; cbn in D; lia.
  - do 3 eexists. split; [vm_compute; reflexivity|]. split; [vm_compute; reflexivity|]. split; [vm_compute; reflexivity|].
    split; vm_compute; reflexivity.
Qed.

(** * C51 *)
(** An index in 0..dim is accepted; with asserts, one beyond dim+1 is rejected. *)
Theorem C51_index_partial : forall (dbg : bool) (h : hp) (k : nat), h <> [] ->
  ((Z.of_nat k <= hp_dim h)%Z -> exists b, hp_isZero dbg h k = Ok b) /\
  ((hp_dim h + 1 < Z.of_nat k)%Z -> hp_isZero true h k = AssertFail).
Proof. exact hp_index_ok. Qed.
Print Assumptions C51_index_partial.

(** The asserts of isZero and operator[] let the index dim+1 pass, one beyond the array. *)
Theorem C51_index_refuted : exists (h : hp) (k : nat), Z.of_nat k = (hp_dim h + 1)%Z /\ hp_isZero true h k = Undef.
Proof. exists (hp_new 2), 3. split; vm_compute; reflexivity. Qed.
Print Assumptions C51_index_refuted.
