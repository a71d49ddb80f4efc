(** The assertion on polynomials of pyginv accepts exactly the valid polynomials. *)
From Coq Require Import ZArith QArith Qcanon List Bool Arith Sorted Lia.
From Verif Require Import Outcome MonomModel MonomSpec PyMonomModel PyMonomSpec PyMonomProofs PyRatModel PyRatSpec PyRatProofs.
Import ListNotations.
Local Open Scope Z_scope.

Lemma valid_canonical o n k p : Forall (fun x => pmono n k (fst x)) p -> rp_valid o p = true -> rp_canonical o n k p.
Proof.
  destruct (py_total o n) as (T1 & _ & _ & T4). intros M V. split; [|split; [exact M|]].
  - induction p as [|[m c] p IH]; [constructor|]. cbn [rp_valid] in V. apply andb_true_iff in V as [V V']. apply andb_true_iff in V as [_ V]. inversion M as [|? ? Mm M']; subst. cbn [fst] in Mm.
    specialize (IH M' V'). constructor; [exact IH|]. destruct p as [|[m' c'] p]; [constructor|]. inversion M' as [|? ? Mm' M'']; subst. cbn [fst] in Mm'.
    assert (G : py_cmp o m m' = 1). { apply negb_true_iff, Z.leb_gt in V. destruct (T1 m m' (proj1 Mm) (proj1 Mm')) as [X|[X|X]]; lia. }
    inversion IH as [|? ? _ F]; subst. constructor; [apply (py_meaning o n _ _ (proj1 Mm) (proj1 Mm')); exact G|].
    rewrite Forall_forall in *. intros y Iy. specialize (F y Iy). specialize (M'' y Iy). cbn [fst] in *.
    apply (py_meaning o n _ _ (proj1 Mm) (proj1 M'')). apply (py_meaning o n _ _ (proj1 Mm') (proj1 M'')) in F. exact (T4 _ _ _ (proj1 Mm) (proj1 Mm') (proj1 M'') G F).
  - clear M. induction p as [|[m c] p IH]; [constructor|]. cbn [rp_valid] in V. apply andb_true_iff in V as [V V']. apply andb_true_iff in V as [V _]. constructor; [|exact (IH V')].
    cbn [snd]. intros ->. discriminate V.
Qed.

(** cancel() of anything else fails. *)
Lemma cancel_rejects o n k p : Forall (fun x => pmono n k (fst x)) p -> ~ rp_canonical o n k p -> rp_cancel o p = AssertFail.
Proof.
  intros M N. destruct p as [|[m0 c0] p]; [reflexivity|]. unfold rp_cancel. set (l := rp_lcm (r_den c0) p). destruct (lcm_fold p (r_den c0) (den_pos c0)) as [Pl _]. fold l in Pl.
  unfold rp_checked, assert_. set (q := map (fun x : monom * Qc => (fst x, (snd x * zc l)%Qc)) ((m0, c0) :: p)). destruct (rp_valid o q) eqn:V; [|reflexivity]. exfalso. apply N.
  assert (Nl : zc l <> 0%Qc) by (apply zc_nz; lia).
  assert (Mq : Forall (fun x => pmono n k (fst x)) q). { unfold q. rewrite Forall_forall in *. intros y Iy. apply in_map_iff in Iy as (z & <- & Iz). exact (M z Iz). }
  assert (Ni : (/ zc l)%Qc <> 0%Qc). { intro H. assert (X := Qcmult_inv_r _ Nl). rewrite H, Qcmult_0_r in X. discriminate X. }
  assert (C := scale_canonical o n k q (/ zc l)%Qc Ni (valid_canonical o n k q Mq V)).
  unfold q in C. rewrite map_map in C. cbn [fst snd] in C. replace (map _ ((m0, c0) :: p)) with ((m0, c0) :: p) in C; [exact C|].
  symmetry. rewrite <- (map_id ((m0, c0) :: p)) at 2. apply map_ext. intros [m c]. cbn [fst snd]. f_equal. rewrite <- Qcmult_assoc, Qcmult_inv_r by exact Nl. ring.
Qed.
(** x + x and x + 0 y are rejected. *)
Lemma rejects_case : let p := [(Mon (-1) [1;0]%nat, 1%Qc); (Mon (-1) [1;0]%nat, 1%Qc)] in let q := [(Mon (-1) [1;0]%nat, 1%Qc); (Mon (-1) [0;1]%nat, 0%Qc)] in
  (Forall (fun x => pmono 2 0 (fst x)) p /\ ~ rp_canonical TOPdeglex 2 0 p /\ rp_cancel TOPdeglex p = AssertFail) /\
  Forall (fun x => pmono 2 0 (fst x)) q /\ ~ rp_canonical TOPdeglex 2 0 q /\ rp_cancel TOPdeglex q = AssertFail.
Proof.
  intros p q.
  assert (Mp : Forall (fun x => pmono 2 0 (fst x)) p) by (repeat constructor; cbn; lia).
  assert (Mq : Forall (fun x => pmono 2 0 (fst x)) q) by (repeat constructor; cbn; lia).
  assert (Np : ~ rp_canonical TOPdeglex 2 0 p) by (intro C; apply canonical_valid in C; vm_compute in C; discriminate C).
  assert (Nq : ~ rp_canonical TOPdeglex 2 0 q) by (intro C; apply canonical_valid in C; vm_compute in C; discriminate C).
  split; (split; [assumption|split; [assumption|]]); eapply cancel_rejects; eassumption.
Qed.
