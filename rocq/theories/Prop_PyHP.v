(** Property C61: the Hilbert polynomials of the Python package pyginv. *)
From Coq Require Import ZArith List Bool Arith QArith Lia.
From Verif Require Import Outcome MonomModel MonomSpec JanetSpec HilbertSpec PyJanetModel PyJanetSpec PyJanetExamples PyHPModel PyHPSpec PyHPProofs PyHPExamples.
Import ListNotations.
Local Open Scope nat_scope.

(** CombRepet(m + 1, d): the polynomial (s + m - d) (s + m - d - 1) ... (s - d + 1) / m! of s. *)
Theorem C61_comb : forall (m : nat) (d : Z), exists l, comb_repet (Z.of_nat m + 1) d = Ok l /\ length l = S m /\
  forall x, (py_subs l x == choose (x + inject_Z (Z.of_nat m - d)) m)%Q.
Proof. exact comb_repet_subs. Qed.
Print Assumptions C61_comb.
Theorem C61_comb_fails : forall (n d : Z), (n < 0)%Z -> comb_repet n d = AssertFail.
Proof. exact comb_repet_neg. Qed.
Print Assumptions C61_comb_fails.

(** += adds polynomials of the same length, -= subtracts one that is not longer; other lengths are errors. *)
Theorem C61_add : forall a b : list Q,
  (length a = length b -> exists r, hilbert_add a b = Ok r /\ length r = length a /\ forall x, (py_subs r x == py_subs a x + py_subs b x)%Q) /\
  (length a <> length b -> hilbert_add a b = AssertFail).
Proof. exact hilbert_add_subs. Qed.
Print Assumptions C61_add.
Theorem C61_sub : forall a b : list Q,
  (length b <= length a -> exists r, hilbert_sub a b = Ok r /\ length r = length a /\ forall x, (py_subs r x == py_subs a x - py_subs b x)%Q) /\
  (length a < length b -> hilbert_sub a b = AssertFail).
Proof. exact hilbert_sub_subs. Qed.
Print Assumptions C61_sub.

(** HP() of a tree: from the largest degree of the tree on, the value at s is the number of monomials of degree at most s
    without Janet divisor. *)
Theorem C61_HP : forall (n : nat) (J : pjanet), 0 < n -> built n J ->
  exists h, pj_HP n J = Ok h /\ length h = S n /\
    forall s, (forall w, In w (elems J) -> total (exps w) <= s) ->
      exists k, janet_free n (tree_exps J) s k /\ (py_subs h (inject_Z (Z.of_nat s)) == inject_Z (Z.of_nat k))%Q.
Proof. exact pyj_HP. Qed.
Print Assumptions C61_HP.

(** If the leading monomials of the tree are a Janet basis of the monomial ideal of F, it is the Hilbert function of F. *)
Theorem C61_HP_basis : forall (n : nat) (J : pjanet) (F : list (list nat)), 0 < n -> built n J -> janet_basis n F (tree_exps J) ->
  exists h, pj_HP n J = Ok h /\ length h = S n /\
    forall s, (forall w, In w (elems J) -> total (exps w) <= s) ->
      exists k, hilbert_function n F s k /\ (py_subs h (inject_Z (Z.of_nat s)) == inject_Z (Z.of_nat k))%Q.
Proof. exact pyj_HP_basis. Qed.
Print Assumptions C61_HP_basis.

(** x^2, x*y, y^3: the monomials without Janet divisor are 1, x, y, y^2. *)
Example C61_ex : built 2 tree2 /\ janet_basis 2 [[2; 0]; [1; 1]; [0; 3]] (tree_exps tree2) /\
  (forall s, 3 <= s -> forall w, In w (elems tree2) -> total (exps w) <= s) /\ exists h, pj_HP 2 tree2 = Ok h /\ Forall2 Qeq h [4; 0; 0]%Q.
Proof.
  split; [destruct built2 as (lst & _ & _ & B); exact B|]. split; [exact tree2_basis|]. split.
  - intros s S w W. assert (E : total (exps w) <= 3); [|lia]. revert w W. apply Forall_forall. vm_compute. repeat constructor.
  - eexists. split; [vm_compute; reflexivity|]. vm_compute. repeat constructor.
Qed.
