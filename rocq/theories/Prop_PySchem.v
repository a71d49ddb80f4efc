(** Property C73: difference schemes (PolySchem of the Python package pyginv) as operators on grid functions. *)
From Coq Require Import ZArith List Bool Arith Lia String Factorial.
From Verif Require Import Outcome MonomModel MonomSpec PyMonomModel PyMonomSpec PyDiffModel PyDiffSpec PyDiffExamples TextModel PyTextModel PyGenModel PyGenSpec
  PyGenProofs PyGenTop PyGenExamples.
Import ListNotations.
Local Open Scope Z_scope.

(** T(u, v1, d1, v2, ...) is the function u at the point moved by d1 steps in direction v1, and so on; a missing number means
    1. *)
Theorem C73_T : forall (C : coefs), good_coefs C -> forall (o : py_order) (n : nat) (k p : Z) args l, 0 <= p < k -> df_reads n args l ->
  exists r, sp_T C n k p args = Ok r /\ sp_canonical C o n k r /\
    (forall F, good_module C F -> forall u, mod_value F u r = fold_left (fun f x => der_times F (snd x) (fst x) f) l (u p)) /\
    forall w i, List.length i = n -> scheme_at w r i = w p (shifted_by l i).
Proof. exact T_ok. Qed.
Print Assumptions C73_T.

(** Sums of schemes are taken pointwise; p.prolong(v) is p at the neighbouring point in direction v. *)
Theorem C73_add : forall (C : coefs), good_coefs C -> forall (o : py_order) (n : nat) (k : Z) p q, sp_canonical C o n k p -> sp_canonical C o n k q ->
  forall w, exists r, dp_add C o p q = Ok r /\ forall i, scheme_at w r i = c_add C (scheme_at w p i) (scheme_at w q i).
Proof. exact add_at_points. Qed.
Print Assumptions C73_add.
Theorem C73_prolong : forall (C : coefs), good_coefs C -> forall (o : py_order) (n : nat) (k : Z) p v w, sp_canonical C o n k p -> (v < n)%nat ->
  exists r, sp_prolong C o p v = Ok r /\ forall i, List.length i = n -> scheme_at w r i = scheme_at w p (incr v i).
Proof. exact prolong_at. Qed.
Print Assumptions C73_prolong.

(** This needs constant coefficients: T(u, x) - (x + 1) T(u) is 0 at all points for the factorials, and its prolongation
    (that leaves the coefficient x + 1 as it is) is not. *)
Theorem C73_variable_refuted : exists p w r, sp_canonical Zx TOPdeglex 1 1 p /\ (forall i, at_point w p i = 0) /\
  sp_prolong Zx TOPdeglex p 0 = Ok r /\ at_point w r 0 <> 0.
Proof.
  destruct facs_prolong as (r & E & V). exists facs, (fun j => Z.of_nat (fact j)), r. split; [exact facs_canonical|]. split; [exact facs_zero|]. split; [exact E|].
  rewrite V. discriminate.
Qed.
Print Assumptions C73_variable_refuted.

(** T(u, x) - 1 has a text and its prolongation has none. *)
Theorem C73_inhomogeneous_refuted : exists (p : list (monom * ck Zi)) s r, sp_canonical Zi TOPdeglex 1 1 p /\
  py_op_str (Z.eqb 1) z_text (py_T_text ["x"%string] ["u"%string]) p = Ok s /\ sp_prolong Zi TOPdeglex p 0 = Ok r /\
  py_op_str (Z.eqb 1) z_text (py_T_text ["x"%string] ["u"%string]) r = AssertFail.
Proof.
  exists [ft 1 1; (Mon (-1) [0%nat], -1)], "T(u, x) + -1"%string, [ft 2 1; (Mon (-1) [1%nat], -1)].
  split; [apply canonb_ok; [exact Zi_good|vm_compute; reflexivity]|]. repeat split; vm_compute; reflexivity.
Qed.
Print Assumptions C73_inhomogeneous_refuted.

(** The Fibonacci numbers solve T(u, x, 2) - T(u, x) - T(u) at the first points; T(u, x, 3, y) over two variables is the function
    at (i + 3, j + 1). *)
Example C73_example : good_coefs Zi /\ sp_canonical Zi TOPdeglex 1 1 fib /\
  (let w := fun _ i => nth (hd 0%nat i) [1; 1; 2; 3; 5; 8] 0 in
   map (fun i => scheme_at (C := Zi) w fib [i]) [0; 1; 2; 3]%nat = [0; 0; 0; 0]) /\
  sp_prolong Zi TOPdeglex fib 0 = Ok [ft 3 1; ft 2 (-1); ft 1 (-1)] /\
  sp_T Zi 2 1 0 [AVar 0; AInt 3; AVar 1] = Ok [(Mon 0 [3; 1]%nat, 1)] /\ df_reads 2 [AVar 0; AInt 3; AVar 1] [(0, 3); (1, 1)]%nat /\
  shifted_by [(0, 3); (1, 1)]%nat [5; 7]%nat = [8; 8]%nat.
Proof.
  split; [exact Zi_good|]. split; [exact fib_canonical|]. split; [vm_compute; reflexivity|]. split; [vm_compute; reflexivity|]. split; [vm_compute; reflexivity|]. split; [|reflexivity].
  apply (df_many 2 0 3); [lia|]. apply df_one; [lia|discriminate|constructor].
Qed.
