(** Property C71: arithmetic of polynomials and module elements with coefficients from any domain (Poly of the Python
    package pyginv). *)
From Coq Require Import ZArith QArith List Bool Arith Lia.
From Verif Require Import Outcome MonomModel MonomSpec PolySpec PyMonomModel PyMonomSpec PyDiffModel PyDiffSpec PyDiffExamples PyReadModel PyGenModel PyGenSpec
  PyGenProofs PyGenTop PyGenExamples.
Import ListNotations.
Local Open Scope Z_scope.

(** In every module over the coefficients in which the variables act: p + q, -p, p - q have the value of the sum, the
    opposite and the difference. *)
Theorem C71_add : forall (C : coefs), good_coefs C -> forall (o : py_order) (n : nat) (k : Z) p q, sp_canonical C o n k p -> sp_canonical C o n k q ->
  exists r, dp_add C o p q = Ok r /\ sp_canonical C o n k r /\
    forall F, good_module C F -> forall u, mod_value F u r = f_add F (mod_value F u p) (mod_value F u q).
Proof. exact add_ok. Qed.
Print Assumptions C71_add.
Theorem C71_neg : forall (C : coefs), good_coefs C -> forall (o : py_order) (n : nat) (k : Z) p, sp_canonical C o n k p ->
  sp_canonical C o n k (dp_neg C p) /\ forall F, good_module C F -> forall u, f_add F (mod_value F u p) (mod_value F u (dp_neg C p)) = f_zero F.
Proof. exact neg_top. Qed.
Print Assumptions C71_neg.
Theorem C71_sub : forall (C : coefs), good_coefs C -> forall (o : py_order) (n : nat) (k : Z) p q, sp_canonical C o n k p -> sp_canonical C o n k q ->
  exists r, sp_sub C o p q = Ok r /\ sp_canonical C o n k r /\
    forall F, good_module C F -> forall u, f_add F (mod_value F u r) (mod_value F u q) = mod_value F u p.
Proof. exact sub_top. Qed.
Print Assumptions C71_sub.

(** p*q is p applied to q, where one of them has no unknown function; ... *)
Theorem C71_times : forall (C : coefs), good_coefs C -> forall (o : py_order) (n : nat) (k : Z) p q, sp_canonical C o n k p -> sp_canonical C o n k q ->
  plain p \/ plain q ->
  exists r, dp_times C o p q = Ok r /\ sp_canonical C o n k r /\
    forall F, good_module C F -> forall u,
      (plain p -> mod_value F u r = apply_poly F p (mod_value F u q)) /\ (plain q -> mod_value F u r = apply_poly F q (mod_value F u p)).
Proof. exact times_ok. Qed.
Print Assumptions C71_times.
(** ... if both leading terms have one there is an assertion failure. *)
Theorem C71_times_fails : forall (C : coefs) (o : py_order) p q a c p' b d q', p = (a, c) :: p' -> q = (b, d) :: q' ->
  0 <= pos a -> 0 <= pos b -> dp_times C o p q = AssertFail.
Proof. exact times_module. Qed.
Print Assumptions C71_times_fails.
(** p**j is p applied j times *)
Theorem C71_power : forall (C : coefs), good_coefs C -> forall (o : py_order) (n : nat) (k : Z) p j, 0 <= k -> sp_canonical C o n k p -> plain p ->
  exists r, sp_power C o n p (Z.of_nat j) = Ok r /\ sp_canonical C o n k r /\ plain r /\
    forall F, good_module C F -> forall f, apply_poly F r f = Nat.iter j (apply_poly F p) f.
Proof. exact power_ok. Qed.
Print Assumptions C71_power.

(** p/c, where the coefficients can be divided, gives p when multiplied with c. *)
Theorem C71_truediv : forall (C : coefs), good_coefs C -> forall (o : py_order) (n : nat) (k : Z) p c, good_quo C -> c <> c_zero C -> sp_canonical C o n k p ->
  sp_canonical C o n k (sp_truediv C p c) /\ forall F, good_module C F -> forall u, f_mul F c (mod_value F u (sp_truediv C p c)) = mod_value F u p.
Proof. exact truediv_ok. Qed.
Print Assumptions C71_truediv.
(** But c/p is not the quotient, even for a constant p: 6/2 gives 1/3. *)
Theorem C71_rtruediv_refuted : exists (p : list (monom * ck Rat)) c, sp_canonical Rat TOPdeglex 1 0 p /\ (exists d, d <> c_zero Rat /\ p = dp_of_coef Rat 1 d) /\
  sp_rtruediv Rat p c = dp_of_coef Rat 1 (rt (1 # 3)) /\ dp_times Rat TOPdeglex p (sp_rtruediv Rat p c) <> Ok (dp_of_coef Rat 1 c).
Proof.
  exists two, (rt 6). split; [exact two_canonical'|]. split; [exists (rt 2); split; [apply rat_neq; discriminate|vm_compute; reflexivity]|].
  split; [vm_compute; reflexivity|]. vm_compute. discriminate.
Qed.
Print Assumptions C71_rtruediv_refuted.

(** p.prolong(v) is the product with variable v; p.mult(m, c) the one with c m. *)
Theorem C71_prolong : forall (C : coefs), good_coefs C -> forall (o : py_order) (n : nat) (k : Z) p v, sp_canonical C o n k p ->
  ((v < n)%nat -> exists r, sp_prolong C o p v = Ok r /\ sp_canonical C o n k r /\ forall F, good_module C F -> forall u, mod_value F u r = f_der F v (mod_value F u p)) /\
  ((n <= v)%nat -> p <> [] -> sp_prolong C o p v = AssertFail).
Proof. exact prolong_top. Qed.
Print Assumptions C71_prolong.
Theorem C71_mult : forall (C : coefs), good_coefs C -> forall (o : py_order) (n : nat) (k : Z) p m c, sp_canonical C o n k p -> pmono n k m -> c <> c_zero C ->
  pos m = -1 \/ plain p ->
  exists r, sp_mult C o p m c = Ok r /\ sp_canonical C o n k r /\
    forall F, good_module C F -> forall u,
      (pos m = -1 -> mod_value F u r = f_mul F c (power_on F (vars m) (mod_value F u p))) /\
      (plain p -> mod_value F u r = f_mul F c (apply_poly F p (mod_mono F u m))).
Proof. exact mult_top. Qed.
Print Assumptions C71_mult.
Theorem C71_mult_zero : forall (C : coefs), good_coefs C -> forall (o : py_order) p m, sp_mult C o p m (c_zero C) = AssertFail.
Proof. exact mult_zero. Qed.
Print Assumptions C71_mult_zero.
(** p.diff(v) is the derivative of the coefficients with respect to v: under every derivation of the module that extends it
    and sends the monomials to 0, it is the image of p. *)
Theorem C71_diff : forall (C : coefs), good_coefs C -> forall (o : py_order) (n : nat) (k : Z) p v, sp_canonical C o n k p ->
  exists r, sp_diff C o p v = Ok r /\ sp_canonical C o n k r /\
    forall F, good_module C F -> forall u (D : fs F -> fs F), (forall f g, D (f_add F f g) = f_add F (D f) (D g)) ->
      (forall a f, D (f_mul F a f) = f_add F (f_mul F (c_der C v a) f) (f_mul F a (D f))) ->
      (forall m, D (mod_mono F u m) = f_zero F) -> mod_value F u r = D (mod_value F u p).
Proof. exact diff_ok. Qed.
Print Assumptions C71_diff.

(** p.reduction(i, q), where the leading monomial v of q divides the monomial m of term i of p and is in the same component:
    k1 p + k2 x^s q with k1 <> 0 and x^s = m/v, and m is gone; p.redRat(i, q): the same with k1 = 1. *)
Theorem C71_reduction : forall (C : coefs), good_coefs C -> forall (o : py_order) (n : nat) (k : Z) p i m c v d q, sp_canonical C o n k p ->
  nth_error p i = Some (m, c) -> sp_canonical C o n k ((v, d) :: q) -> pos v = pos m -> mdivides v m ->
  exists r k1 k2 s, dp_reduction C o p i ((v, d) :: q) = Ok r /\ sp_canonical C o n k r /\ k1 <> c_zero C /\ vsum (vars v) s = vars m /\ ~ In m (map fst r) /\
    forall F, good_module C F -> forall u, mod_value F u r = f_add F (f_mul F k1 (mod_value F u p)) (f_mul F k2 (power_on F s (mod_value F u ((v, d) :: q)))).
Proof. exact reduction_top. Qed.
Print Assumptions C71_reduction.
Theorem C71_redrat : forall (C : coefs), good_coefs C -> forall (o : py_order) (n : nat) (k : Z) p i m c v d q, good_quo C -> sp_canonical C o n k p ->
  nth_error p i = Some (m, c) -> sp_canonical C o n k ((v, d) :: q) -> pos v = pos m -> mdivides v m ->
  exists r k2 s, dp_redrat C o p i ((v, d) :: q) = Ok r /\ sp_canonical C o n k r /\ vsum (vars v) s = vars m /\ ~ In m (map fst r) /\
    forall F, good_module C F -> forall u, mod_value F u r = f_add F (mod_value F u p) (f_mul F k2 (power_on F s (mod_value F u ((v, d) :: q)))).
Proof. exact redrat_top. Qed.
Print Assumptions C71_redrat.
(** Both assert that v divides m. *)
Theorem C71_not_divisible : forall (C : coefs) (o : py_order) (n : nat) (k : Z) p i m c v d q, sp_canonical C o n k p -> nth_error p i = Some (m, c) ->
  sp_canonical C o n k ((v, d) :: q) -> ~ mdivides v m ->
  dp_reduction C o p i ((v, d) :: q) = AssertFail /\ dp_redrat C o p i ((v, d) :: q) = AssertFail.
Proof. exact c71_not_divisible. Qed.
Print Assumptions C71_not_divisible.
(** p.reduce(q) removes from p the leading monomial of q itself. *)
Theorem C71_reduce : forall (C : coefs), good_coefs C -> forall (o : py_order) (n : nat) (k : Z) p lm d q, sp_canonical C o n k p -> p <> [] ->
  sp_canonical C o n k ((lm, d) :: q) ->
  exists r k1 k2, sp_reduce C o p ((lm, d) :: q) = Ok r /\ sp_canonical C o n k r /\ k1 <> c_zero C /\ ~ In lm (map fst r) /\
    forall F, good_module C F -> forall u, mod_value F u r = f_add F (f_mul F k1 (mod_value F u p)) (f_mul F k2 (mod_value F u ((lm, d) :: q))).
Proof. exact reduce_ok. Qed.
Print Assumptions C71_reduce.
(** p.S(q), leading monomials a and b without unknown functions: all terms are below m = lcm(a, b), and
    r = k1 (m/a) p - k2 (m/b) q. *)
Theorem C71_S : forall (C : coefs), good_coefs C -> forall (o : py_order) (n : nat) (k : Z) a c p b d q, sp_canonical C o n k ((a, c) :: p) ->
  sp_canonical C o n k ((b, d) :: q) -> pos a = -1 -> pos b = -1 ->
  exists r m e f k1 k2, sp_S C o ((a, c) :: p) ((b, d) :: q) = Ok r /\ sp_canonical C o n k r /\
    pos m = -1 /\ length (vars m) = n /\ (forall i, (i < n)%nat -> expo (vars m) i = Nat.max (expo (vars a) i) (expo (vars b) i)) /\
    vsum (vars a) e = vars m /\ vsum (vars b) f = vars m /\ k1 <> c_zero C /\ k2 <> c_zero C /\ Forall (fun x => py_greater o m (fst x)) r /\
    forall F, good_module C F -> forall u, f_add F (mod_value F u r) (f_mul F k2 (power_on F f (mod_value F u ((b, d) :: q)))) = f_mul F k1 (power_on F e (mod_value F u ((a, c) :: p))).
Proof. exact S_top. Qed.
Print Assumptions C71_S.

(** p = 2 x^2 y - 3 y + 1 and q = x y^2 + 4 x over the integers; Z with x = 2, y = 3 is such a module. *)
Example C71_example : good_coefs Zi /\ good_module Zi Zi_module /\ sp_canonical Zi TOPdeglex 2 0 gp /\ sp_canonical Zi TOPdeglex 2 0 gq /\ plain gp /\
  mod_value Zi_module (fun _ => 0) gp = 16 /\ mod_value Zi_module (fun _ => 0) gq = 26 /\
  sp_sub Zi TOPdeglex gp gq = Ok [zt 2 1 2; zt 1 2 (-1); zt 1 0 (-4); zt 0 1 (-3); zt 0 0 1] /\
  dp_times Zi TOPdeglex gp gq = Ok [zt 3 3 2; zt 3 1 8; zt 1 3 (-3); zt 1 2 1; zt 1 1 (-12); zt 1 0 4] /\
  sp_power Zi TOPdeglex 2 gq 3 = Ok [zt 3 6 1; zt 3 4 12; zt 3 2 48; zt 3 0 64] /\
  sp_S Zi TOPdeglex gp gq = Ok [zt 2 0 (-8); zt 0 2 (-3); zt 0 1 1] /\
  sp_reduce Zi TOPdeglex gp [zt 0 1 2; zt 0 0 5] = Ok [zt 2 1 4; zt 0 0 17].
Proof.
  split; [exact Zi_good|]. split; [exact Zi_module_good|]. split; [exact gp_canonical|]. split; [exact gq_canonical|]. split; [repeat constructor|].
  repeat split; vm_compute; reflexivity.
Qed.
(** The derivative by t of (t^2 + 1) x + t, in Z[t] with x = 2 and d/dt. *)
Example C71_diff_example : good_coefs Zx /\ good_module Zx Zx_module /\ let p := [(Mon (-1) [1%nat], mk [1; 0; 1]); (Mon (-1) [0%nat], mk [0; 1])] in
  sp_canonical Zx TOPdeglex 1 0 p /\ sp_diff Zx TOPdeglex p 0 = Ok [(Mon (-1) [1%nat], mk [0; 2]); (Mon (-1) [0%nat], mk [1])] /\
  mod_value Zx_module (fun _ => zx_nil) p = mk [2; 1; 2] /\ zx_der 0 (mk [2; 1; 2]) = mk [1; 4] /\
  (forall f g, zx_der 0 (zx_add f g) = zx_add (zx_der 0 f) (zx_der 0 g)) /\
  (forall a f, zx_der 0 (zx_mul a f) = zx_add (zx_mul (zx_der 0 a) f) (zx_mul a (zx_der 0 f))).
Proof.
  split; [exact Zx_good|]. split; [exact Zx_module_good|]. split; [apply canonb_ok; [exact Zx_good|vm_compute; reflexivity]|].
  split; [vm_compute; reflexivity|]. split; [vm_compute; reflexivity|]. split; [vm_compute; reflexivity|]. split; [apply (gc_der_add Zx Zx_good 0)|apply (gc_der_mul Zx Zx_good 0)].
Qed.
