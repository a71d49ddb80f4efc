(** Checking the local test on concrete bases. *)
From Coq Require Import ZArith List Bool Arith Lia.
From Verif Require Import Outcome MonomModel MonomSpec MonomProofs PolyModel PolySpec PolyProofs PolyNfProofs
  JanetModel JanetSpec JanetFindProofs CompletionProofs JanetPolyModel JanetPolySpec IdealProofs JanetPolyProofs JanetPolyTop JanetPolyExamples
  InvolutiveProofs InvolutiveTop.
Import ListNotations.
Local Open Scope Z_scope.

Definition nm_b (U : list (list nat)) (u : list nat) (i : nat) : bool :=
  existsb (fun w => forallb (fun j => Nat.eqb (expo w j) (expo u j)) (seq 0 i) && Nat.ltb (expo u i) (expo w i)) U.
Lemma nm_b_ok U u i : janet_nm U u i -> nm_b U u i = true.
Proof.
  intros (w & Iw & H1 & H2). unfold nm_b. apply existsb_exists. exists w. split; [exact Iw|]. apply andb_true_iff. split.
  - apply forallb_forall. intros j Hj. apply in_seq in Hj. apply Nat.eqb_eq, H1. lia.
  - apply Nat.ltb_lt. exact H2.
Qed.
Definition test_b (fuel n : nat) (J : jpoly) : bool :=
  let U := map lead (basis J) in
  forallb (fun g => forallb (fun i => negb (nm_b U (lead g) i) ||
    match p_mul_var false i g with
    | Ok x => match jp_nf fuel false J x with Ok r => match terms r with [] => true | _ => false end | _ => false end
    | _ => false
    end) (seq 0 n)) (basis J).

Lemma test_ok t o n fuel F J : (0 < n)%nat -> o <> OAlex -> jp_history false t o n F J -> test_b fuel n J = true -> passes_local_test t o n J.
Proof.
  intros Hn Ho H T g i u x Ig Hi Nm [Lu Hu] Rx Ex. unfold test_b in T. rewrite forallb_forall in T. specialize (T g Ig).
  rewrite forallb_forall in T. specialize (T i). rewrite (nm_b_ok _ _ _ Nm) in T. cbn [negb orb] in T.
  assert (I : In i (seq 0 n)) by (apply in_seq; lia). specialize (T I).
  destruct (c39_members t o n F J g Hn Ho H Ig) as (Rg & Ng & _). assert (Gg := goodzA t o n g Rg).
  assert (Eu : u = e n i). { apply expo_ext; [rewrite e_len; exact Lu|]. intros j Hj. rewrite Lu in Hj. rewrite Hu, e_expo by lia. reflexivity. }
  destruct (good_hd t o n _ g (conj Gg Ng)) as (m & Hm).
  destruct (good_mul_var t o n _ Hn i g m Hi (conj Gg Ng) Hm) as (y & Ey & [Gy _] & _). rewrite Ey in T.
  assert (Ey' : terms y = shift (e n i) (terms g)).
  { unfold p_mul_var, checked, assert_ in Ey. cbn [andb] in Ey. injection Ey as <-. cbn [terms with_terms]. apply (shift_var t o n (fun _ => True)); [exact Hi|exact Gg]. }
  assert (x = y).
  { destruct Rx as (V & A1 & A2 & A3 & _). destruct Gy as (V' & (B1 & B2 & B3) & _). unfold pvalid, valid_poly in V, V'.
    assert (terms x = terms y). { apply (canonical_unique t o n); [congruence|congruence|]. intro z. rewrite Ex, Ey', Eu. reflexivity. }
    destruct x, y. cbn in *. congruence. }
  subst y. exists fuel. destruct (jp_nf fuel false J x) as [r| | | |]; try discriminate. exists r. split; [reflexivity|]. destruct (terms r); [reflexivity|discriminate].
Qed.

(** deglex, x > y: x^2 - y and x y - 1. *)
Definition iv_f1 := pol ODegLex 2 [([2;0]%nat, 1); ([0;1]%nat, -1)].
Definition iv_f2 := pol ODegLex 2 [([1;1]%nat, 1); ([0;0]%nat, -1)].
Lemma iv_in : Forall (ring_input TOP ODegLex 2) [iv_f1; iv_f2].
Proof. repeat constructor; cbn; try lia; try discriminate. Qed.
Definition iv_J : jpoly := match run 40 false [iv_f1; iv_f2] with Ok J => J | _ => jp_empty end.
Lemma iv_run : run 40 false [iv_f1; iv_f2] = Ok iv_J.
Proof. vm_compute. reflexivity. Qed.
Lemma iv_history : jp_history false TOP ODegLex 2 [iv_f2; iv_f1] iv_J.
Proof. exact (run_history 40 false ODegLex 2 _ _ iv_in iv_run). Qed.
Lemma iv_local : passes_local_test TOP ODegLex 2 iv_J.
Proof. eapply (test_ok TOP ODegLex 2 40); [lia|discriminate|exact iv_history|]. vm_compute. reflexivity. Qed.

(** x + 1, x^2: the basis contains a constant. *)
Lemma on_local : passes_local_test TOP ODegLex 1 on_J.
Proof. eapply (test_ok TOP ODegLex 1 40); [lia|discriminate| |]. 2: vm_compute; reflexivity. exact (run_history 40 false ODegLex 1 _ _ on_in on_run). Qed.
