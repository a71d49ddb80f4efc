(** Property C68: reading symbolic equations (PolyDiff.diff2poly of the Python package pyginv). *)
From Coq Require Import ZArith List Bool Arith Lia.
From Verif Require Import Outcome MonomModel MonomSpec PyMonomModel PyMonomSpec PyDiffModel PyDiffSpec PyDiffExamples PyReadModel PyReadSpec PyReadProofs PyReadExamples.
Import ListNotations.
Local Open Scope Z_scope.

(** Every linear expression is read, the result is a valid polynomial, and for all functions in all spaces of functions
    it has the value of the expression. *)
Theorem C68_linear : forall (C : coefs), good_coefs C -> forall (o : py_order) (n : nat) (k : Z), 0 <= k -> forall a, linear n k a ->
  exists p, diff2poly C o n k a = Ok p /\ dp_canonical C o n k p /\
    forall F, good_space C F -> forall u f, linear_value F n k u a f -> value F u p = f.
Proof. exact read_linear. Qed.
Print Assumptions C68_linear.

(** Every linear expression has a value. *)
Theorem C68_linear_has_value : forall (C : coefs) (n : nat) (k : Z) a, linear n k a ->
  forall (F : space C) u, exists f, linear_value F n k u a f.
Proof. exact linear_has_value. Qed.
Print Assumptions C68_linear_has_value.

(** Whatever is read is a valid polynomial. *)
Theorem C68_valid : forall (C : coefs), good_coefs C -> forall (o : py_order) (n : nat) (k : Z), 0 <= k -> forall a p,
  diff2poly C o n k a = Ok p -> dp_canonical C o n k p.
Proof. exact read_canonical. Qed.
Print Assumptions C68_valid.

(** A product of two expressions that both mention unknown functions is rejected. *)
Theorem C68_product_rejected : forall (C : coefs) (o : py_order) (n : nat) (k : Z) a b p q,
  diff2poly C o n k a = Ok p -> diff2poly C o n k b = Ok q -> mentions p -> mentions q ->
  diff2poly C o n k (EMul a b) = AssertFail.
Proof. exact read_product. Qed.
Print Assumptions C68_product_rejected.

(** But a power of an unknown function is accepted as a coefficient: the left side of u_xx + u^2 = 0 is read as
    u_xx + c with c = u^2, without complaint.  (Here coefficients in Z[x]; c is any coefficient.) *)
Theorem C68_power_refuted : exists (b : dexpr Zx) (c : ck Zx), ~ linear 2 1 (EPow b c) /\
  diff2poly Zx TOPdeglex 2 1 (EAdd (@EDer Zx 0 [(0, 2)%nat]) (EPow b c)) = Ok [dt 2 0 [1]; (py_unit 2, c)].
Proof. exact power_accepted. Qed.
Print Assumptions C68_power_refuted.

(** An expression with a function other than the unknown ones, as in sin(x) u, is rejected, although it may be linear. *)
Theorem C68_other_functions_rejected : forall (C : coefs) (o : py_order) (n : nat) (k : Z) a, has_other a ->
  forall p, diff2poly C o n k a <> Ok p.
Proof. exact other_rejected. Qed.
Print Assumptions C68_other_functions_rejected.

(** And a derivative that names a variable twice, Derivative(u, x, 1, x, 1), would be read with the last order only:
    m[v] = d sets, it does not add.  (sympy merges repeated variables of one derivative, which is why this goes unnoticed.) *)
Theorem C68_repeated_refuted : exists (l : list (nat * nat)) p (u : Z -> fs Zx_space), Forall (fun x => (fst x < 2)%nat) l /\
  diff2poly Zx TOPdeglex 2 1 (@EDer Zx 0 l) = Ok p /\
  value Zx_space u p <> fold_left (fun f x => der_times Zx_space (snd x) (fst x) f) l (u 0).
Proof. exact repeated_read. Qed.
Print Assumptions C68_repeated_refuted.

(** Coefficients in Z[x], one function u(x, y): x (u_xxy + 2 x^3) + u - 1 is linear and read as x u_xxy + u + (2 x^4 - 1);
    x u_x - u_y and u are read, so their product is rejected; sin(x) u is rejected. *)
Example C68_example : good_coefs Zx /\ linear 2 1 ex_read /\
  diff2poly Zx TOPdeglex 2 1 ex_read = Ok [dt 2 1 [0; 1]; dt 0 0 [1]; (py_unit 2, mk [-1; 0; 0; 0; 2])] /\
  (diff2poly Zx TOPdeglex 2 1 (EAdd (EMul (@EAtom Zx (mk [0; 1])) (@EDer Zx 0 [(0, 1)%nat])) (EMul (@EAtom Zx (mk [-1])) (@EDer Zx 0 [(1, 1)%nat]))) = Ok eq2 /\
   mentions eq2 /\ diff2poly Zx TOPdeglex 2 1 (EFun 0) = Ok [dt 0 0 [1]] /\ mentions [dt 0 0 [1]]) /\
  has_other (@EMul Zx EOther (EFun 0)).
Proof. split; [exact Zx_good|]. split; [exact ex_read_linear|]. split; [exact ex_read_value|]. split; [exact ex_product|]. apply ho_mul_l, ho_here. Qed.
