(** Coefficients and polynomials for the theorems on Poly and PolySchem. *)
From Coq Require Import ZArith QArith List Bool Arith Lia Sorted Factorial.
From Verif Require Import Outcome MonomModel MonomSpec PolySpec PyMonomModel PyMonomSpec PyMonomProofs PyDiffModel PyDiffSpec PyDiffExamples
  PyReadModel PyGenModel PyGenSpec PyGenTop.
Import ListNotations.
Local Open Scope Z_scope.

(* ---------------------------------------------------------------- the integers *)

Definition Zi : coefs := Coefs Z 0 1 Z.add Z.mul Z.opp (Z.eqb 0) (fun a b => (a / Z.gcd a b, b / Z.gcd a b)) Z.div (fun _ _ => 0).
Lemma Zi_good : good_coefs Zi.
Proof.
  split; cbn [Zi ck c_add c_mul c_neg c_zero c_one c_is0 c_split c_quo c_der]; try (intros; ring).
  - discriminate.
  - intros a b E. apply Z.mul_eq_0 in E. exact E.
  - intro a. rewrite Z.eqb_eq. split; congruence.
  - intros a b x y Na Nb E. injection E as <- <-. destruct (Z.gcd_divide_l a b) as [a' A], (Z.gcd_divide_r a b) as [b' B].
    remember (Z.gcd a b) as g eqn:Eg. clear Eg. assert (G : g <> 0) by (intro G; rewrite G, Z.mul_0_r in A; contradiction). subst a b. rewrite !Z.div_mul by exact G. split; [ring|]. split; intros ->; rewrite Z.mul_0_l in *; contradiction.
Qed.
(** Z with x = 2, y = 3, ... *)
Definition Zi_module : space Zi := Space Zi Z 0 1 Z.add Z.mul (fun v f => (Z.of_nat v + 2) * f).
Lemma Zi_module_good : good_module Zi Zi_module.
Proof. split; cbn [Zi Zi_module ck c_add c_mul c_zero c_one fs f_zero f_one f_add f_mul f_der]; intros; ring. Qed.
(** Z[t] with the variables 2, 3, ... and D = d/dt *)
Definition Zx_module : space Zx := Space Zx zx zx_nil (mk [1]) zx_add zx_mul (fun v f => zx_mul (mk [Z.of_nat v + 2]) f).
Ltac zm_solve := intros; cbn [Zx_module f_add f_mul f_der f_zero f_one fs]; zx_solve.
Lemma Zx_module_good : good_module Zx Zx_module.
Proof. split; zm_solve. Qed.

(* ---------------------------------------------------------------- checking [sp_canonical] by computation *)

Fixpoint canonb (C : coefs) (o : py_order) (n : nat) (k : Z) (p : list (monom * ck C)) : bool :=
  match p with
  | [] => true
  | (m, c) :: p' => forallb (fun x => py_cmp o m (fst x) =? 1) p' && Nat.eqb (length (vars m)) n && (-1 <=? pos m) && (pos m <? k) && negb (c_is0 C c) && canonb C o n k p'
  end.
Lemma canonb_ok (C : coefs) o n k p : good_coefs C -> canonb C o n k p = true -> sp_canonical C o n k p.
Proof.
  intros H. induction p as [|[m c] p IH]; intro E; [repeat split; constructor|]. cbn [canonb] in E. apply andb_prop in E as [E E'].
  apply andb_prop in E as [E Ec]. apply andb_prop in E as [E E2]. apply andb_prop in E as [E E1]. apply andb_prop in E as [E EL].
  apply Nat.eqb_eq in EL. apply Z.leb_le in E1. apply Z.ltb_lt in E2. destruct (IH E') as (S & M & N).
  assert (Hm : pmono n k m) by (split; [split|]; lia).
  split; [|split]; [|constructor; assumption|constructor; [|exact N]; cbn [snd]; intros ->].
  - constructor; [exact S|]. rewrite forallb_forall in E. rewrite Forall_forall in *. intros x Hx. specialize (E x Hx). apply Z.eqb_eq in E.
    apply (py_meaning o n); [apply Hm|apply M, Hx|exact E].
  - rewrite (proj2 (gc_is0 C H (c_zero C)) eq_refl) in Ec. discriminate.
Qed.

(* ---------------------------------------------------------------- polynomials in x, y *)

Definition zt (a b : nat) (c : Z) : monom * ck Zi := (Mon (-1) [a; b], c).
(** p = 2 x^2 y - 3 y + 1, q = x y^2 + 4 x *)
Definition gp : list (monom * ck Zi) := [zt 2 1 2; zt 0 1 (-3); zt 0 0 1].
Definition gq : list (monom * ck Zi) := [zt 1 2 1; zt 1 0 4].
Lemma gp_canonical : sp_canonical Zi TOPdeglex 2 0 gp.
Proof. apply canonb_ok; [exact Zi_good|vm_compute; reflexivity]. Qed.
Lemma gq_canonical : sp_canonical Zi TOPdeglex 2 0 gq.
Proof. apply canonb_ok; [exact Zi_good|vm_compute; reflexivity]. Qed.

(* ---------------------------------------------------------------- difference schemes: one variable, one function *)

Definition ft (d : nat) (c : Z) : monom * ck Zi := (Mon 0 [d], c).
(** T(u, x, 2) - T(u, x) - T(u): the Fibonacci numbers *)
Definition fib : list (monom * ck Zi) := [ft 2 1; ft 1 (-1); ft 0 (-1)].
Lemma fib_canonical : sp_canonical Zi TOPdeglex 1 1 fib.
Proof. apply canonb_ok; [exact Zi_good|vm_compute; reflexivity]. Qed.
Definition rf (d : nat) (c : Q) : monom * ck Rat := (Mon 0 [d], rt c).
(** 2 T(u, x, 2) - T(u) *)
Definition half : list (monom * ck Rat) := [rf 2 2; rf 0 (-1)].
Lemma half_canonical : sp_canonical Rat TOPdeglex 1 1 half.
Proof. apply canonb_ok; [exact Rat_good|vm_compute; reflexivity]. Qed.
Definition two : list (monom * ck Rat) := [(Mon (-1) [0%nat], rt 2)].
Lemma two_canonical' : sp_canonical Rat TOPdeglex 1 0 two.
Proof. apply canonb_ok; [exact Rat_good|vm_compute; reflexivity]. Qed.

(** T(u, x) - (x + 1) T(u): the factorials, when x is the number of the point *)
Definition facs : list (monom * ck Zx) := [(Mon 0 [1%nat], mk [1]); (Mon 0 [0%nat], mk [-1; -1])].
Lemma facs_canonical : sp_canonical Zx TOPdeglex 1 1 facs.
Proof. apply canonb_ok; [exact Zx_good|vm_compute; reflexivity]. Qed.
(** The value at point i of a scheme in one function w whose coefficients are polynomials in x, x the number of the point *)
Definition at_point (w : nat -> Z) (p : list (monom * ck Zx)) (i : nat) : Z :=
  fold_right (fun x s => ev (proj1_sig (snd x)) (Z.of_nat i) * w (i + expo (vars (fst x)) 0)%nat + s) 0 p.
Lemma facs_zero i : at_point (fun j => Z.of_nat (fact j)) facs i = 0.
Proof.
  unfold at_point, facs. cbn [fold_right fst snd vars expo nth]. replace (i + 1)%nat with (S i) by lia. rewrite Nat.add_0_r.
  change (fact (S i)) with (S i * fact i)%nat. rewrite !mk_list, !ev_norm. cbn [ev]. rewrite Nat2Z.inj_mul. lia.
Qed.
Lemma facs_prolong : exists r, sp_prolong Zx TOPdeglex facs 0 = Ok r /\ at_point (fun j => Z.of_nat (fact j)) r 0 = 1.
Proof. eexists. split; vm_compute; reflexivity. Qed.
