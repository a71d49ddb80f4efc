(** The assertion on polynomials of pyginv with general coefficients accepts exactly the valid polynomials. *)
From Coq Require Import ZArith List Bool Arith Sorted Lia.
From Verif Require Import Outcome MonomModel MonomSpec PyMonomModel PyMonomSpec PyMonomProofs PyPolyProofs PyDiffModel PyDiffSpec PyDiffProofs PyDiffExamples.
Import ListNotations.
Local Open Scope Z_scope.

Section D.
Variables (C : coefs) (H : good_coefs C) (o : py_order) (n : nat) (k : Z).
Lemma dp_valid_canonical p : Forall (fun x => diff_mono n k (fst x)) p -> dp_valid C o p = true -> dp_canonical C o n k p.
Proof.
  destruct (py_total o n) as (T1 & _ & _ & T4). intros M V. apply dp_canonical_iff. split; [|split; [exact M|]].
  - induction p as [|[m c] p IH]; [constructor|]. apply dsorted_cons. inversion M as [|? ? Mm M']; subst. cbn [fst] in *.
    destruct p as [|[m' c'] p]; [split; constructor|]. cbn [dp_valid] in V. apply andb_true_iff in V as [V V']. apply andb_true_iff in V as [_ V].
    specialize (IH M' V'). split; [|exact IH]. inversion M' as [|? ? Mm' M'']; subst. cbn [fst] in *.
    assert (G : pgt o m m'). { apply negb_true_iff, Z.leb_gt in V. unfold pgt. destruct (T1 m m' (diff_mono_mono _ _ _ Mm) (diff_mono_mono _ _ _ Mm')) as [X|[X|X]]; lia. }
    apply dbelow_cons. split; [exact G|]. apply dsorted_cons in IH as [B _].
    exact (dbelow_trans C o n k m m' p G B (diff_mono_mono _ _ _ Mm) (diff_mono_mono _ _ _ Mm') M'').
  - clear M. induction p as [|[m c] p IH]; [constructor|]. cbn [dp_valid] in V. apply dnz_cons. cbn [snd].
    assert (X : negb (c_is0 C c) = true /\ dp_valid C o p = true).
    { destruct p as [|[m' c'] p]; [split; [exact V|reflexivity]|]. apply andb_true_iff in V as [V V']. apply andb_true_iff in V as [V _]. auto. }
    destruct X as [X Y]. split; [|exact (IH Y)]. intro Z. apply (gc_is0 C H) in Z. rewrite Z in X. discriminate X.
Qed.
Lemma dp_add_rejects p : Forall (fun x => diff_mono n k (fst x)) p -> ~ dp_canonical C o n k p -> dp_add C o p [] = AssertFail.
Proof.
  intros M N. unfold dp_add. replace (dp_merge C o p []) with p by (destruct p as [|[]]; reflexivity). unfold dp_checked, assert_.
  destruct (dp_valid C o p) eqn:V; [destruct (N (dp_valid_canonical p M V))|reflexivity].
Qed.
End D.
(** 2 u_x + 3 u_x is rejected. *)
Lemma dp_rejects_case : let p := [dt 1 0 [2]; dt 1 0 [3]] in
  Forall (fun x => diff_mono 2 1 (fst x)) p /\ ~ dp_canonical Zx TOPdeglex 2 1 p /\ dp_add Zx TOPdeglex p [] = AssertFail.
Proof.
  intro p. split; [repeat constructor; cbn; lia|]. split; [|reflexivity]. intro S. apply (dp_checked_ok Zx Zx_good) in S. vm_compute in S. discriminate S.
Qed.
