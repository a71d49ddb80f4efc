(** Property C65: sums and derivatives of linear differential polynomials (PolyDiff of the Python package pyginv). *)
From Coq Require Import ZArith List Bool Arith Lia.
From Verif Require Import Outcome MonomModel MonomSpec PyMonomModel PyMonomSpec PyDiffModel PyDiffSpec PyDiffProofs PyDiffArgs PyDiffExamples PyDiffValid.
Import ListNotations.
Local Open Scope Z_scope.

(** The sum of two valid polynomials is valid and its value, for all unknown functions in all spaces of functions, is the
    sum of the values. *)
Theorem C65_add : forall (C : coefs), good_coefs C -> forall (o : py_order) (n : nat) (k : Z) p q, dp_canonical C o n k p -> dp_canonical C o n k q ->
  exists r, dp_add C o p q = Ok r /\ dp_canonical C o n k r /\
    forall F, good_space C F -> forall u, value F u r = f_add F (value F u p) (value F u q).
Proof. exact add_ok. Qed.
Print Assumptions C65_add.

Theorem C65_neg : forall (C : coefs), good_coefs C -> forall (o : py_order) (n : nat) (k : Z) p, dp_canonical C o n k p ->
  dp_canonical C o n k (dp_neg C p) /\ forall F, good_space C F -> forall u, f_add F (value F u p) (value F u (dp_neg C p)) = f_zero F.
Proof. exact neg_ok. Qed.
Print Assumptions C65_neg.

(** p.prolong(v) is valid and its value is the derivative of the value of p with respect to the variable v, although the
    coefficients are not constant; its leading derivative is that of p differentiated once more, with the same coefficient. *)
Theorem C65_prolong : forall (C : coefs), good_coefs C -> forall (o : py_order) (n : nat) (k : Z) p v, dp_canonical C o n k p -> (v < n)%nat ->
  exists r, dp_prolong C o p v = Ok r /\ dp_canonical C o n k r /\
    (forall F, good_space C F -> forall u, value F u r = f_der F v (value F u p)) /\
    forall m c p', p = (m, c) :: p' -> 0 <= pos m -> exists r', r = (Mon (pos m) (incr v (vars m)), c) :: r'.
Proof. exact prolong_top. Qed.
Print Assumptions C65_prolong.

(** df(u_p, v1, d1, v2, ...) is the derivative of the function number p that the arguments ask for. *)
Theorem C65_df : forall (C : coefs), good_coefs C -> forall (o : py_order) (n : nat) (k : Z) p args l, 0 <= p < k -> df_reads n args l ->
  exists r, dp_df C n k p args = Ok r /\ dp_canonical C o n k r /\
    forall F, good_space C F -> forall u, value F u r = fold_left (fun f x => der_times F (snd x) (fst x) f) l (u p).
Proof. exact df_ok. Qed.
Print Assumptions C65_df.

(** df accepts its arguments exactly if the first is a function, variables (each with or without a number) follow, and
    no derivative of negative order is asked for in total; otherwise an assertion fails. *)
Theorem C65_df_accepts : forall (C : coefs) (n : nat) (k p : Z) args,
  (exists l, 0 <= p < k /\ df_asks n args l /\ (forall v, 0 <= asked l v) /\
     exists e, dp_df C n k p args = Ok [(Mon p e, c_one C)] /\ length e = n /\ forall v, Z.of_nat (nth v e 0%nat) = asked l v) \/
  (dp_df C n k p args = AssertFail /\ ~ (0 <= p < k /\ exists l, df_asks n args l /\ forall v, 0 <= asked l v)).
Proof. intros C n k p args. exact (df_result n C k p args). Qed.
Print Assumptions C65_df_accepts.

(** An object that is not valid (terms out of order, a monomial twice, a zero coefficient) does not get through a sum:
    the assertion of Poly fails. *)
Theorem C65_rejects : forall (C : coefs), good_coefs C -> forall (o : py_order) (n : nat) (k : Z) p, Forall (fun x => diff_mono n k (fst x)) p ->
  ~ dp_canonical C o n k p -> dp_add C o p [] = AssertFail.
Proof. exact dp_add_rejects. Qed.
Print Assumptions C65_rejects.
Example C65_rejects_case : let p := [dt 1 0 [2]; dt 1 0 [3]] in
  Forall (fun x => diff_mono 2 1 (fst x)) p /\ ~ dp_canonical Zx TOPdeglex 2 1 p /\ dp_add Zx TOPdeglex p [] = AssertFail.
Proof. exact dp_rejects_case. Qed.

(** Coefficients in Z[x], functions u(x, y): the derivative of x u_x - u_y with respect to x is x u_xx - u_xy + u_x;
    df(u, x, 2, y) is u_xxy. *)
Example C65_example : good_coefs Zx /\ good_space Zx Zx_space /\ dp_canonical Zx TOPdeglex 2 1 eq2 /\
  dp_prolong Zx TOPdeglex eq2 0 = Ok [dt 2 0 [0; 1]; dt 1 1 [-1]; dt 1 0 [1]] /\
  df_reads 2 [AVar 0; AInt 2; AVar 1] [(0, 2); (1, 1)]%nat /\ dp_df Zx 2 1 0 [AVar 0; AInt 2; AVar 1] = Ok [dt 2 1 [1]] /\
  value Zx_space (fun _ => mk [0; 0; 0; 1]) eq2 = mk [0; 0; 0; 3].
Proof.
  split; [exact Zx_good|]. split; [exact Zx_space_good|]. split; [exact eq2_canonical|]. split; [vm_compute; reflexivity|].
  split; [apply (df_many 2 0 2); [lia|]; apply df_one; [lia|discriminate|constructor]|]. split; vm_compute; reflexivity.
Qed.
