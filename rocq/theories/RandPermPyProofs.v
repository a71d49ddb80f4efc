(** Proofs about RandPermPyModel.v. *)
From Coq Require Import ZArith List Bool Arith Lia Permutation.
From Verif Require Import Outcome RandPermModel RandPermPyModel.
Import ListNotations.

Lemma item_in dbg p k x : nth_error p k = Some x -> py_item dbg p (Z.of_nat k) = Ok x.
Proof.
  intro E. assert (L : k < length p) by (apply nth_error_Some; congruence). unfold py_item, assert_. cbn [andb].
  destruct (Z.leb_spec 0 (Z.of_nat k)); [|lia]. destruct (Z.ltb_spec (Z.of_nat k) (Z.of_nat (length p))); [|lia]. cbn [andb negb].
  unfold rp_get, assert_, rd. rewrite Nat2Z.id. destruct (Nat.ltb_spec k (length p)); [|lia]. rewrite andb_false_r || cbn [negb andb]. rewrite ?andb_false_r. now rewrite E.
Qed.
Lemma item_out dbg p k : (k < 0 \/ Z.of_nat (length p) <= k)%Z -> py_item dbg p k = AssertFail.
Proof.
  intro K. unfold py_item, assert_. destruct (Z.leb_spec 0 k); cbn [andb negb]; [|reflexivity]. destruct (Z.ltb_spec k (Z.of_nat (length p))); [lia|reflexivity].
Qed.

Lemma iterate_fails dbg p : forall d k fuel, d + k = length p -> d < fuel -> py_iterate fuel dbg p (Z.of_nat k) = AssertFail.
Proof.
  induction d as [|d IH]; intros k fuel E F; (destruct fuel as [|fuel]; [lia|]); cbn [py_iterate].
  - rewrite item_out by lia. reflexivity.
  - destruct (nth_error p k) as [x|] eqn:X; [|apply nth_error_None in X; lia]. rewrite (item_in _ _ _ _ X). cbn [bind].
    replace (Z.of_nat k + 1)%Z with (Z.of_nat (S k)) by lia. rewrite (IH (S k) fuel) by lia. reflexivity.
Qed.
Lemma search_ok dbg p x : forall d k fuel, d + k = length p -> d < fuel ->
  py_search fuel dbg p x (Z.of_nat k) = if existsb (Nat.eqb x) (skipn k p) then Ok true else AssertFail.
Proof.
  induction d as [|d IH]; intros k fuel E F; (destruct fuel as [|fuel]; [lia|]); cbn [py_search].
  - rewrite item_out by lia. rewrite skipn_all2 by lia. reflexivity.
  - destruct (nth_error p k) as [y|] eqn:X; [|apply nth_error_None in X; lia]. rewrite (item_in _ _ _ _ X). cbn [bind].
    replace (skipn k p) with (y :: skipn (S k) p).
    2:{ clear -X. revert k X. induction p as [|z p IHp]; intros [|k] X; cbn in X; try discriminate; [now injection X as <-|]. cbn [skipn]. rewrite <- (IHp k X). reflexivity. }
    cbn [existsb]. destruct (Nat.eqb x y); [reflexivity|]. replace (Z.of_nat k + 1)%Z with (Z.of_nat (S k)) by lia. now rewrite (IH (S k) fuel) by lia.
Qed.
Lemma firstn_next (p : list nat) : forall k x, nth_error p k = Some x -> firstn (S k) p = firstn k p ++ [x].
Proof.
  induction p as [|z p IH]; intros [|k] x X; cbn in X; try discriminate; [now injection X as <-|]. change (firstn (S (S k)) (z :: p)) with (z :: firstn (S k) p). rewrite (IH k x X). reflexivity.
Qed.
Lemma backwards_ok dbg p : forall k, k <= length p -> py_backwards k dbg p = Ok (rev (firstn k p)).
Proof.
  induction k as [|k IH]; intro L; [reflexivity|]. cbn [py_backwards]. destruct (nth_error p k) as [x|] eqn:X; [|apply nth_error_None in X; lia].
  rewrite (item_in _ _ _ _ X). cbn [bind]. rewrite IH by lia. cbn [bind]. rewrite (firstn_next p k x X), rev_app_distr. reflexivity.
Qed.
Lemma reversed_ok dbg p : py_reversed dbg p = Ok (rev p).
Proof. unfold py_reversed, py_len. rewrite backwards_ok by lia. now rewrite firstn_all. Qed.
Lemma items_ok dbg p : py_items dbg p (seq 0 (py_len p)) = Ok p.
Proof.
  enough (G : forall d k, d + k = length p -> py_items dbg p (seq k d) = Ok (skipn k p)) by (unfold py_len; rewrite (G (length p) 0) by lia; reflexivity).
  induction d as [|d IH]; intros k E; cbn [seq py_items]; [now rewrite skipn_all2 by lia|].
  destruct (nth_error p k) as [x|] eqn:X; [|apply nth_error_None in X; lia]. rewrite (item_in _ _ _ _ X). cbn [bind]. rewrite IH by lia. cbn [bind]. f_equal.
  clear -X. revert k X. induction p as [|z p IHp]; intros [|k] X; cbn in X; try discriminate; [now injection X as <-|]. cbn [skipn]. rewrite <- (IHp k X). reflexivity.
Qed.
Lemma in_ok dbg n p x fuel : Permutation (seq 0 n) p -> n < fuel -> py_search fuel dbg p x 0 = if x <? n then Ok true else AssertFail.
Proof.
  intros P F. pose proof (Permutation_length P) as L. rewrite seq_length in L. change 0%Z with (Z.of_nat 0). rewrite (search_ok dbg p x (length p) 0 fuel) by lia. cbn [skipn].
  destruct (existsb (Nat.eqb x) p) eqn:B.
  - apply existsb_exists in B as (y & Y & B). apply Nat.eqb_eq in B. subst y. apply (Permutation_in x (Permutation_sym P)), in_seq in Y. destruct (Nat.ltb_spec x n); [reflexivity|lia].
  - destruct (Nat.ltb_spec x n) as [Xn|]; [|reflexivity]. assert (Y : In x p) by (apply (Permutation_in x P), in_seq; lia).
    assert (existsb (Nat.eqb x) p = true); [|congruence]. apply existsb_exists. exists x. now rewrite Nat.eqb_refl.
Qed.
