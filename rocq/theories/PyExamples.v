(** Concrete polynomials for the examples beside the theorems about pyginv.  Variables x > y, unknown function u. *)
From Coq Require Import ZArith List Bool Arith Lia Sorted.
From Verif Require Import Outcome MonomModel MonomSpec PolySpec PyMonomModel PyMonomSpec PyMonomProofs PyPolyModel PyPolySpec PyPolyProofs PyTop.
Import ListNotations.
Local Open Scope Z_scope.

Definition mono_b (n : nat) (k : Z) (m : monom) : bool := Nat.eqb (length (vars m)) n && (-1 <=? pos m) && (pos m <? k).
Fixpoint sorted_b (o : py_order) (p : ppoly) : bool :=
  match p with
  | [] => true
  | (m, _) :: p' => forallb (fun x => py_cmp o m (fst x) =? 1) p' && sorted_b o p'
  end.
Definition canonical_b (o : py_order) (n : nat) (k : Z) (p : ppoly) : bool :=
  sorted_b o p && forallb (fun x => mono_b n k (fst x)) p && forallb (fun x => negb (snd x =? 0)) p.

Lemma mono_b_ok n k m : mono_b n k m = true -> pmono n k m.
Proof.
  unfold mono_b. rewrite !andb_true_iff, Nat.eqb_eq, Z.leb_le, Z.ltb_lt. intros [[A B] C]. split; [split; [exact A|exact B]|exact C].
Qed.
Lemma canonical_b_ok o n k p : canonical_b o n k p = true -> py_canonical o n k p.
Proof.
  unfold canonical_b. rewrite !andb_true_iff. intros [[S M] N]. apply py_canonical_iff. split; [|split].
  - clear M N. induction p as [|[m c] p IH]; [constructor|]. cbn [sorted_b] in S. rewrite andb_true_iff in S. destruct S as [F S].
    apply psorted_cons. split; [|auto]. unfold pbelow. rewrite forallb_forall in F. apply Forall_forall. intros x X. cbn [fst].
    specialize (F x X). apply Z.eqb_eq in F. exact F.
  - rewrite forallb_forall in M. apply Forall_forall. intros x X. apply mono_b_ok. auto.
  - rewrite forallb_forall in N. apply Forall_forall. intros x X. specialize (N x X). apply negb_true_iff, Z.eqb_neq in N. exact N.
Qed.

(** 2*x^2*y + 4*y^2 - 6*x *)
Definition e_p : ppoly := [(Mon (-1) [2; 1]%nat, 2); (Mon (-1) [0; 2]%nat, 4); (Mon (-1) [1; 0]%nat, -6)].
(** 3*x*y + 1 *)
Definition e_q : ppoly := [(Mon (-1) [1; 1]%nat, 3); (Mon (-1) [0; 0]%nat, 1)].
(** u*x + y *)
Definition e_u : ppoly := [(Mon 0 [1; 0]%nat, 1); (Mon (-1) [0; 1]%nat, 1)].
Lemma e_p_ok : py_canonical TOPdeglex 2 0 e_p.
Proof. apply canonical_b_ok. vm_compute. reflexivity. Qed.
Lemma e_q_ok : py_canonical TOPdeglex 2 0 e_q.
Proof. apply canonical_b_ok. vm_compute. reflexivity. Qed.
Lemma e_u_ok : py_canonical TOPdeglex 2 1 e_u.
Proof. apply canonical_b_ok. vm_compute. reflexivity. Qed.
Lemma e_q_ok1 : py_canonical TOPdeglex 2 1 e_q.
Proof. apply canonical_b_ok. vm_compute. reflexivity. Qed.
