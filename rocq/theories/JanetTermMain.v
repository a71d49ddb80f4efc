(** build, algorithmTQ and algorithmTQ1 end unless the basis grows without bound. *)
From Coq Require Import ZArith List Bool Arith Lia Permutation Sorted Relations Wellfounded.
From Verif Require Import Outcome MonomModel MonomSpec MonomProofs PolyModel PolySpec PolyProofs PolyRedProofs PolyNfProofs
  PolyTopProofs JanetModel JanetSpec JanetProofs JanetFindProofs JanetPolyModel TQModel JanetPolySpec IdealProofs JanetPolyProofs
  TQProofs MultisetProofs GrowthProofs JanetTermSpec JanetTermProofs.
Import ListNotations.
Local Open Scope Z_scope.

(** The leading monomials of mT. *)
Definition leads (s : rstate) : list (list nat) := map vars (map fst (snd s)).
Notation grows n := (clos_trans _ (grow n)).

Lemma grow_perm_r n V W W' : Permutation W W' -> grow n V W -> grow n V W'.
Proof. intros P (m & C & Q). exists m. split; [eapply unc_perm; eassumption|]. now rewrite Q, P. Qed.
Lemma grows_perm_r n V W W' : Permutation W W' -> grows n V W -> grows n V W'.
Proof.
  intros P H. apply clos_trans_tn1 in H. apply clos_tn1_trans. destruct H as [W H|W0 W H H'].
  - constructor. eapply grow_perm_r; eassumption.
  - eapply Relation_Operators.tn1_trans; [eapply grow_perm_r; eassumption|exact H'].
Qed.

Section Main.
Variables (n : nat) (round : nat -> rstate -> outcome (rstate + jpoly)) (loop : nat -> rstate -> outcome jpoly).
Hypothesis loop_eq : forall fuel s, loop (S fuel) s =
  do r <- round (S fuel) s; match r with inl s' => loop fuel s' | inr J => Ok J end.
Variables (Inv : rstate -> Prop) (small : rstate -> rstate -> Prop).
Hypothesis small_wf : well_founded small.
Hypothesis round_ok : forall s, Inv s -> exists N r, (forall fuel, (N <= fuel)%nat -> round fuel s = Ok r) /\
  match r with
  | inr _ => True
  | inl s' => Inv s' /\ ((Permutation (leads s') (leads s) /\ small s' s) \/ grows n (leads s') (leads s))
  end.
Variable B : list (list nat) -> Prop.
Hypothesis (Bdec : forall U, B U \/ ~ B U).

Definition bigger (V W : list (list nat)) : Prop := grows n V W /\ B V.
Lemma bigger_perm V W : Permutation V W -> Acc bigger V -> Acc bigger W.
Proof. intros P [H]. constructor. intros U [K L]. apply H. split; [|exact L]. eapply grows_perm_r; [symmetry; exact P|exact K]. Qed.

Lemma loop_ends : forall s, Acc bigger (leads s) -> Inv s ->
  ends (fun k => loop k s) \/ exists s', rounds round s s' /\ Inv s' /\ ~ B (leads s').
Proof.
  intros s H. remember (leads s) as U eqn:EU. assert (P : Permutation U (leads s)) by (subst; reflexivity). clear EU. revert s P.
  induction H as [U HU IH]. intro s. induction s as [s IHs] using (well_founded_induction small_wf). intros P I.
  destruct (round_ok s I) as (N & r & Er & D).
  assert (Es : forall fuel, (N <= fuel)%nat -> loop (S fuel) s = match r with inl s' => loop fuel s' | inr J => Ok J end).
  { intros fuel Hf. rewrite loop_eq, Er by lia. reflexivity. }
  destruct r as [s'|J].
  - destruct D as [I' D].
    assert (X : ends (fun k => loop k s') \/ exists s2, rounds round s' s2 /\ Inv s2 /\ ~ B (leads s2)).
    { destruct D as [[Q Sm]|Gr].
      - apply IHs; [exact Sm|rewrite Q; exact P|exact I'].
      - destruct (Bdec (leads s')) as [Bs|Bs]; [|right; exists s'; split; [constructor|split; [exact I'|exact Bs]]].
        apply (IH (leads s')); [|reflexivity|exact I']. split; [|exact Bs]. eapply grows_perm_r; [symmetry; exact P|exact Gr]. }
    destruct X as [(M & J & X)|(s2 & R2 & I2 & B2)].
    + left. exists (S (Nat.max N M)), J. intros [|k] Hk; [lia|]. rewrite Es by lia. apply X. lia.
    + right. exists s2. split; [|split; [exact I2|exact B2]]. eapply rounds_next; [apply (Er N); lia|exact R2].
  - left. exists (S N), J. intros [|k] Hk; [lia|]. apply Es. lia.
Qed.
End Main.

(* ------------------------------------------------------------------------------------------ *)
(** * The bound on the degree *)

(** All exponent vectors with exponents up to d. *)
Fixpoint vectors (n d : nat) : list (list nat) :=
  match n with
  | O => [[]]
  | S n' => flat_map (fun v => map (fun x => x :: v) (seq 0 (S d))) (vectors n' d)
  end.
Lemma vectors_in d : forall n v, length v = n -> (total v <= d)%nat -> In v (vectors n d).
Proof.
  induction n as [|n IH]; intros [|x v] L T; cbn [length] in L; try lia; [left; reflexivity|]. cbn [total] in T.
  cbn [vectors]. apply in_flat_map. exists v. split; [apply IH; lia|]. apply in_map_iff. exists x. split; [reflexivity|]. apply in_seq. lia.
Qed.

Definition up_to (d : nat) (U : list (list nat)) : Prop := Forall (fun u => (total u <= d)%nat) U.
Lemma up_to_dec d U : up_to d U \/ ~ up_to d U.
Proof.
  destruct (Forall_dec (fun u => (total u <= d)%nat) (fun u => le_dec (total u) d) U) as [H|H]; [left|right]; exact H.
Qed.

Definition mset (n : nat) (U : list (list nat)) : Prop := NoDup U /\ Forall (fun u => length u = n) U.
Lemma grow_mset n V U : grow n V U -> mset n U -> mset n V /\ length V = S (length U).
Proof.
  intros (m & [L C] & P) [N F]. split; [split|].
  - apply (Permutation_NoDup (Permutation_sym P)). constructor; [|exact N]. intro I. apply (C m). split; [exact I|]. split; [intros i _; lia|intros i _ X; lia].
  - apply (Permutation_Forall (Permutation_sym P)). constructor; assumption.
  - rewrite (Permutation_length P). reflexivity.
Qed.
Lemma grows_mset n V U : grows n V U -> mset n U -> mset n V /\ (length U < length V)%nat.
Proof.
  intro H. apply clos_trans_tn1 in H. induction H as [U H|W U H H' IH]; intro M.
  - destruct (grow_mset n _ _ H M) as [A B]. split; [exact A|lia].
  - destruct (grow_mset n _ _ H M) as [A B]. destruct (IH A) as [C D]. split; [exact C|lia].
Qed.
Lemma bigger_wf n d U : mset n U -> up_to d U -> Acc (bigger n (up_to d)) U.
Proof.
  intros M Bu. remember (length (vectors n d) - length U)%nat as k eqn:Ek. revert U M Bu Ek.
  induction k as [k IH] using lt_wf_ind. intros U M Bu ->. constructor. intros V [H BV].
  destruct (grows_mset n V U H M) as [MV L]. apply (IH (length (vectors n d) - length V)%nat); try reflexivity; try assumption.
  assert (X : (length V <= length (vectors n d))%nat).
  { destruct MV as [N F]. apply NoDup_incl_length; [exact N|]. intros v I. unfold up_to in BV. rewrite Forall_forall in BV, F. apply vectors_in; auto. }
  lia.
Qed.

(** Elements of one degree, all without Janet divisor, may enter one after the other. *)
Lemma block_grows n d : forall l U, l <> [] -> NoDup l -> Forall (fun m => total m = d) l -> Forall (uncovered n U) l -> grows n (l ++ U) U.
Proof.
  induction l as [|m l IH]; intros U Ne N D F; [congruence|]. apply NoDup_cons_iff in N as [Nm N].
  assert (St : grow n (m :: U) U) by (exists m; split; [exact (Forall_inv F)|reflexivity]).
  destruct l as [|m2 l]; [constructor; exact St|]. set (l2 := m2 :: l) in *.
  apply t_trans with (y := m :: U); [|constructor; exact St].
  assert (X : grows n (l2 ++ m :: U) (m :: U)).
  { apply IH; [discriminate|exact N|exact (Forall_inv_tail D)|]. assert (Dm := Forall_inv D). assert (Lm := proj1 (Forall_inv F)).
    apply Forall_inv_tail in D, F. rewrite Forall_forall in *. intros x Ix. apply unc_add; [exact Lm|rewrite (D x Ix); symmetry; exact Dm|intros ->; exact (Nm Ix)|apply F; exact Ix]. }
  clear IH. apply clos_trans_t1n in X. apply clos_t1n_trans. 
  assert (P : Permutation (l2 ++ m :: U) ((m :: l2) ++ U)) by (symmetry; apply Permutation_middle).
  destruct X as [y X|y z X X'].
  - constructor. destruct X as (k & C & Q). exists k. split; [exact C|]. rewrite <- P. exact Q.
  - eapply Relation_Operators.t1n_trans; [|exact X']. destruct X as (k & C & Q). exists k. split; [exact C|]. rewrite <- P. exact Q.
Qed.

(* ------------------------------------------------------------------------------------------ *)
(** * algorithmBlockTQ *)

Lemma block_tq_round fuel dbg mpos js q T : block_tq (S fuel) dbg mpos js q T =
  do r <- block_round (S fuel) dbg mpos (js, q, T);
  match r with inl (js', q', T') => block_tq fuel dbg mpos js' q' T' | inr J => Ok J end.
Proof.
  cbn [block_tq block_round]. destruct q as [|u q]; [reflexivity|].
  destruct (p_lm dbg (wpol u)) as [m| | | |]; cbn [bind]; try reflexivity.
  destruct (take_block _ _ _ _ _ _) as [[[q1 tmp]|]| | | |]; cbn [bind]; try reflexivity.
  2:{ destruct (set_one _ _ _ _ _); reflexivity. }
  unfold assert_. destruct (dbg && _); [reflexivity|]. destruct tmp as [|x tmp]; [reflexivity|].
  destruct (block_loop _ _ _ _) as [[[tmp2 q2] dg]| | | |]; cbn [bind]; try reflexivity.
  destruct (enter _ _ _) as [[js2 new]| | | |]; cbn [bind]; try reflexivity.
  destruct (merge_loop _ _ _ _ _ _ _ _ _ _) as [[[js3 q3] t3]| | | |]; cbn [bind]; try reflexivity.
  destruct (if dbg then _ else _) as [b| | | |]; cbn [bind]; try reflexivity.
  destruct (dbg && negb b); reflexivity.
Qed.
Definition block_run (fuel : nat) (s : rstate) : outcome jpoly := let '(js, q, T) := s in block_tq fuel false (-1) js q T.
Lemma block_run_eq fuel s : block_run (S fuel) s =
  do r <- block_round (S fuel) false (-1) s; match r with inl s' => block_run fuel s' | inr J => Ok J end.
Proof. destruct s as [[js q] T]. apply block_tq_round. Qed.

Lemma tq_loop_round one fuel dbg mpos js q T : tq_loop one (S fuel) dbg mpos js q T =
  do r <- tq_round one (S fuel) dbg mpos (js, q, T);
  match r with inl (js', q', T') => tq_loop one fuel dbg mpos js' q' T' | inr J => Ok J end.
Proof.
  cbn [tq_loop tq_round]. destruct q as [|u q]; [reflexivity|].
  destruct (p_lm dbg (wpol u)) as [m| | | |]; cbn [bind]; try reflexivity.
  destruct (take_tq _ _ _ _ _ _ _) as [[[q1 tmp]|]| | | |]; cbn [bind]; try reflexivity.
  2:{ destruct (set_one _ _ _ _ _); reflexivity. }
  unfold assert_. destruct (dbg && _); [reflexivity|]. destruct tmp as [|x tmp]; [reflexivity|].
  destruct (p_lm dbg (wpol x)) as [m0| | | |]; cbn [bind]; try reflexivity.
  destruct (same_lm dbg m0 tmp) as [[eqs rest]| | | |]; cbn [bind]; try reflexivity.
  destruct (if one then do p <- _; _ else _) as [w1| | | |]; cbn [bind]; try reflexivity.
  destruct (if one then tails _ _ _ _ else _) as [eqs1| | | |]; cbn [bind]; try reflexivity.
  destruct (swap_min w1 eqs1) as [w eqs2]. destruct (one && _).
  - destruct (red_eq _ _ _) as [eqs3| | | |]; cbn [bind]; try reflexivity.
    destruct (jp_insert _ _ _) as [q2| | | |]; cbn [bind]; try reflexivity.
    destruct (insert_all _ _ _) as [q3| | | |]; cbn [bind]; try reflexivity.
    destruct (dbg && _); reflexivity.
  - destruct (dbg && _); [reflexivity|].
    destruct (enter_w _ _ _) as [[js2 w']| | | |]; cbn [bind]; try reflexivity.
    destruct (match T with [] => _ | _ :: _ => _ end) as [[[js3 q3] t3]| | | |]; cbn [bind]; try reflexivity.
    destruct (if dbg then _ else _) as [b| | | |]; cbn [bind]; try reflexivity.
    destruct (dbg && negb b); reflexivity.
Qed.
Definition tq_run (one : bool) (fuel : nat) (s : rstate) : outcome jpoly := let '(js, q, T) := s in tq_loop one fuel false (-1) js q T.
Lemma tq_run_eq one fuel s : tq_run one (S fuel) s =
  do r <- tq_round one (S fuel) false (-1) s; match r with inl s' => tq_run one fuel s' | inr J => Ok J end.
Proof. destruct s as [[js q] T]. apply tq_loop_round. Qed.

Section P.
Variables (t : pos_order) (o : base_order) (n : nat) (G : list term -> Prop).
Hypothesis (Hn : (0 < n)%nat) (Ho : o <> OAlex).
Notation okq := (okq t o n G).
Notation okt := (okt t o n G).
Notation tinv := (tinv t o n G).

Definition rinv (s : rstate) : Prop := exists J, fst (fst s) = [J] /\ tinv J (snd s) /\ Forall okq (snd (fst s)).

Lemma rinv_mset s : rinv s -> mset n (leads s).
Proof.
  destruct s as [[js q] T]. intros (J & Ej & H & _). cbn [fst snd] in *. unfold leads. cbn [snd].
  split.
  - assert (X := tinv_nd t o n G J T H). assert (Gg := ti_good _ _ _ _ _ _ H). clear -X Gg.
    induction T as [|e T IH]; cbn [map]; [constructor|]. apply NoDup_cons_iff in X as [X1 X2]. constructor; [|apply IH; [exact X2|exact (Forall_inv_tail Gg)]].
    intro I. apply X1. rewrite map_map in I. apply in_map_iff in I as (e' & E & I). destruct (Forall_inv Gg) as [[A _] B].
    rewrite Forall_forall in Gg. destruct (Gg e' (or_intror I)) as [[A' _] B'].
    destruct (hd_mono t o n G _ _ A B) as [_ P]. destruct (hd_mono t o n G _ _ A' B') as [_ P']. apply in_map_iff. exists e'. split; [|exact I].
    destruct (fst e), (fst e'). cbn in *. congruence.
  - apply Forall_forall. intros v I. rewrite map_map in I. apply in_map_iff in I as (e & <- & I). apply (tinv_len t o n G J T e H I).
Qed.

Lemma leads_lms J T : tinv J T -> Permutation (lms (wraps (jroot J))) (map vars (map fst T)).
Proof.
  intro H. assert (P := Permutation_map vars (ti_perm _ _ _ _ _ _ H)). rewrite map_map in P. exact P.
Qed.

Definition shorter (s' s : rstate) : Prop := (length (snd (fst s')) < length (snd (fst s)))%nat.
Lemma shorter_wf : well_founded shorter.
Proof. unfold shorter. apply (well_founded_ltof _ (fun s : rstate => length (snd (fst s)))). Qed.

Lemma block_round_ok s : rinv s -> exists N r, (forall fuel, (N <= fuel)%nat -> block_round fuel false (-1) s = Ok r) /\
  match r with
  | inr _ => True
  | inl s' => rinv s' /\ ((Permutation (leads s') (leads s) /\ shorter s' s) \/ grows n (leads s') (leads s))
  end.
Proof.
  destruct s as [[js q] T]. intros (J & Ej & H & Q). cbn [fst snd] in *. subst js. cbn [block_round].
  destruct q as [|u q0] eqn:Eq; [exists 0%nat; eexists; split; [reflexivity|exact Logic.I]|]. rewrite <- Eq in *.
  assert (Hu : okq u) by (rewrite Eq in Q; exact (Forall_inv Q)). assert (Elm := lm_plm t o n G false u (proj1 Hu)). rewrite Elm. cbn [bind].
  destruct (take_block_ends t o n G Hn Ho J T (deg (plm u)) H q [] Q (Forall_nil _) (SSorted_nil _)) as (N1 & r & E1).
  assert (K1 := take_block_ok t o n G Hn Ho J T (deg (plm u)) N1 H q [] Q (Forall_nil _) (SSorted_nil _)). rewrite (E1 N1 (le_n _)) in K1. cbn [safe] in K1.
  destruct r as [[q1 tmp]|].
  2:{ exists N1. destruct Hu as ([(_ & (A1 & A2 & A3) & _) _] & _). rewrite A1, A2, A3. destruct (set_one_ok t o n G Hn (-1) K1) as (J' & Es & _).
      exists (inr J'). split; [|exact Logic.I]. intros fuel Hf. rewrite (E1 fuel Hf). cbn [bind]. rewrite Es. reflexivity. }
  destruct K1 as (Q1 & Tm & S1 & _). unfold assert_. cbn [andb].
  destruct tmp as [|x tmp'] eqn:Et.
  { exists N1, (inl ([J], q1, T)). split; [intros fuel Hf; rewrite (E1 fuel Hf); reflexivity|].
    split; [exists J; auto|]. left. split; [reflexivity|]. unfold shorter. cbn [fst snd]. rewrite Eq.
    specialize (E1 N1 (le_n _)). rewrite Eq in E1. apply (take_block_head n Hn _ _ _ _ _ _ _ _ Elm) in E1. cbn [length]. lia. }
  rewrite <- Et in *. assert (Ne : tmp <> []) by congruence.
  destruct (block_loop_ends t o n G Hn Ho J tmp q1 Ne Tm S1) as [(N2 & [[tmp2 q2] dg] & E2) K2].
  assert (K3 := block_loop_ok t o n G Hn J N2 tmp q1 Ne Tm S1 Q1). specialize (K2 N2). rewrite (E2 N2 (le_n _)) in K2, K3. cbn [safe] in K2, K3.
  destruct K2 as [Ne2 Dg]. destruct K3 as (O2 & S2 & Q2 & _).
  assert (Oq : Forall okq tmp2) by (eapply Forall_impl; [|exact O2]; intros v Hv; apply Hv).
  destruct (enter_ok t o n G Hn tmp2 J T H Oq S2) as (J2 & new & E3 & H2 & _).
  { intros v Iv X. rewrite Forall_forall in O2. destruct (O2 v Iv) as [[Gv _] Ir].
    apply (Ir (plm v) (hd_in _ _ (plm_hd t o n G v Gv)) (vars (plm v))). split; [exact X|]. split; [intros i _; lia|intros i _ Y; lia]. }
  assert (Enew := enter_new t o n G tmp2 _ _ _ Oq E3).
  destruct (merge_ends t o n G Hn Ho dg (length new + length T) J2 q2 [] new T H2 Q2 (le_n _)) as (N4 & [[js3 q3] T3] & E4).
  assert (K4 := merge_loop_ok t o n G Hn Ho N4 dg (length new + length T) J2 q2 [] new T H2 Q2). rewrite (E4 N4 (le_n _)) in K4. cbn [safe] in K4.
  destruct K4 as (J3 & -> & H3 & Q3 & _).
  exists (Nat.max N1 (Nat.max N2 N4)), (inl ([J3], q3, T3)). split.
  { intros fuel Hf. rewrite (E1 fuel) by lia. cbn [bind]. rewrite Et. rewrite <- Et. rewrite (E2 fuel) by lia. cbn [bind]. rewrite E3. cbn [bind].
    rewrite (E4 fuel) by lia. reflexivity. }
  split; [exists J3; auto|]. right. specialize (E4 N4 (le_n _)). apply merge_perm in E4. cbn [app] in E4.
  assert (Pl : Permutation (leads ([J3], q3, T3)) (map vars (map plm tmp2) ++ leads ([J], q, T))).
  { unfold leads. cbn [snd]. rewrite E4, map_app, Enew, map_app. reflexivity. }
  assert (X : grows n (map vars (map plm tmp2) ++ leads ([J], q, T)) (leads ([J], q, T))).
  { apply (block_grows n dg).
    - destruct tmp2; [congruence|discriminate].
    - clear -Hn S2 Oq. induction S2 as [|u l S IH F]; cbn [map]; [constructor|]. constructor; [|apply IH; exact (Forall_inv_tail Oq)].
      intro I. rewrite map_map in I. apply in_map_iff in I as (v & Ev & Iv). rewrite Forall_forall in F. apply (lt_neq t o n Hn u v (F v Iv)).
      rewrite Forall_forall in Oq. destruct (plm_mono t o n G u (proj1 (Oq u (or_introl eq_refl)))) as [_ P1].
      destruct (plm_mono t o n G v (proj1 (Oq v (or_intror Iv)))) as [_ P2]. destruct (plm u), (plm v). cbn in *. congruence.
    - rewrite Forall_map. eapply Forall_map. eapply Forall_impl; [|exact Dg]. intros v Dv. cbv beta in *. rewrite <- Dv. unfold deg. symmetry. apply degv_total.
    - rewrite map_map. apply Forall_map. rewrite Forall_forall in *. intros v Iv. destruct (O2 v Iv) as [[Gv _] Ir]. split.
      + apply (plm_mono t o n G v Gv).
      + intros w C. apply (Ir (plm v) (hd_in _ _ (plm_hd t o n G v Gv)) w). eapply jd_perm; [symmetry; apply leads_lms; exact H|exact C]. }
  apply clos_trans_t1n in X. apply clos_t1n_trans. destruct X as [y X|y z X X'].
  - constructor. destruct X as (k & C & P). exists k. split; [exact C|]. rewrite Pl. exact P.
  - eapply Relation_Operators.t1n_trans; [|exact X']. destruct X as (k & C & P). exists k. split; [exact C|]. rewrite Pl. exact P.
Qed.

Lemma block_ends (B : list (list nat) -> Prop) s : (forall U, B U \/ ~ B U) -> Acc (bigger n B) (leads s) -> rinv s ->
  ends (fun k => block_run k s) \/ exists s', rounds (fun k => block_round k false (-1)) s s' /\ rinv s' /\ ~ B (leads s').
Proof.
  intros Bd A I. apply (loop_ends n (fun k => block_round k false (-1)) block_run block_run_eq rinv shorter shorter_wf block_round_ok B Bd s A I).
Qed.

(* ------------------------------------------------------------------------------------------ *)
(** * algorithmTQ and algorithmTQ1 *)

Notation okh := (okh t o n G).
Notation good := (good t o n G).
Notation find1 J T := (find_poly false (-1) (Some [J]) T).
Notation MT := (clos_trans _ (MonomProofs.mlt t o n)).
Notation mle := (mle _ MT).
Notation mults := (MultisetProofs.mlt _ MT).

Lemma nf_le SS find : good_find false t o n SS find -> forall fuel p m r0 r k, pvalid p -> inring t o n p -> hd p m ->
  nf_loop fuel false find r0 p = Ok (r, k) -> forall m', hd r m' -> m' = m \/ MT m' m.
Proof.
  intro F. induction fuel as [|fuel IH]; intros p m r0 r k V I (c & l & E) X m' H'; cbn [nf_loop] in X; rewrite E in X.
  - destruct (find m) as [[a|]| | | |]; cbn [bind] in X; try discriminate. injection X as <- <-. destruct H' as (c' & l' & E'). left. congruence.
  - destruct (find m) as [[a|]| | | |] eqn:Ef; cbn [bind] in X; try discriminate.
    + destruct (nf_step false t o n SS find F p m c l a V I E Ef) as (q & Eq & Vq & Iq & B & _). rewrite Eq in X. cbn [bind] in X.
      assert (Mm : mono n m).
      { apply canonical_iff in V as (_ & M & _). rewrite E in M. destruct I as (Is & _). rewrite Is in M. exact (Forall_inv M). }
      destruct (terms q) as [|[m1 c1] l1] eqn:Etq.
      { destruct fuel; cbn [nf_loop] in X; rewrite Etq in X; injection X as <- <-; destruct H' as (c' & l' & E'); rewrite Etq in E'; discriminate. }
      assert (M1 : MonomProofs.mlt t o n m1 m).
      { split; [|split; [exact Mm|]].
        - apply canonical_iff in Vq as (_ & M & _). rewrite Etq in M. destruct Iq as (Is & _). rewrite Is in M. exact (Forall_inv M).
        - unfold below in B. exact (Forall_inv B). }
      right. destruct (IH q m1 (S r0) r k Vq Iq (ex_intro _ c1 (ex_intro _ l1 Etq)) X m' H') as [->|Y]; [constructor; exact M1|].
      eapply t_trans; [exact Y|constructor; exact M1].
    + injection X as <- <-. destruct H' as (c' & l' & E'). left. congruence.
Qed.

Lemma mle_one x y l : y = x \/ MT y x -> mle (y :: l) (x :: l).
Proof.
  intros [->|H]; [left; reflexivity|]. right. constructor. exists x, [y], l. split; [reflexivity|]. split; [reflexivity|]. constructor; [exact H|constructor].
Qed.

Lemma take_tq_ends J T dg : tinv J T -> forall q tmp, Forall okq q -> Forall (okh J) tmp ->
  ends (fun k => take_tq false k false (find1 J T) dg q tmp).
Proof.
  intro H. assert (GF := good_find_T t o n G Hn J T H).
  induction q as [|u q IH]; intros tmp Q Tm; cbn [take_tq]; [apply ends_ok|].
  assert (Hu := Forall_inv Q). assert (Q' := Forall_inv_tail Q). rewrite (lm_plm t o n G false u (proj1 Hu)). cbn [bind].
  destruct (deg (plm u) <=? dg)%nat; [|apply ends_ok].
  eapply ends_safe; [eapply (p_nf_ends t o n G Ho); [exact GF|apply Hu]|intro k; apply (nf_safe t o n G Hn (GT n G T) (GT_GM n G T) _ k (wpol u) GF); apply Hu|].
  intros [p c0] (Gp & _ & Dp). cbn [fst] in *. destruct (is_zero p) eqn:Zp; [apply IH; assumption|].
  destruct Dp as [Dp|(m & Hm & Fm)]; [unfold is_zero in Zp; rewrite Dp in Zp; discriminate|].
  assert (Gp' : good p) by (split; [exact Gp|eapply hd_nz; exact Hm]).
  rewrite (hd_lm false p m Hm). cbn [bind]. destruct (deg m =? 0)%nat; [apply ends_ok|]. cbn [bind fst snd].
  eapply ends_safe with (P := fun p3 => good p3 /\ hd p3 m).
  { destruct (c0 + 0 =? 0)%nat; [apply ends_ok|]. destruct (good_pp t o n G p m Gp' Hm) as (p3 & -> & _). apply ends_ok. }
  { intros _. destruct (c0 + 0 =? 0)%nat; [cbn [safe]; auto|]. destruct (good_pp t o n G p m Gp' Hm) as (p3 & -> & A & B & _). cbn [safe]. auto. }
  intros p3 (G3 & H3).
  assert (Ot : okh J (WP (wwrap u) p3)).
  { split; [split; [exact G3|]; apply Hu|]. unfold hirr. rewrite (plm_eq (WP (wwrap u) p3) m H3).
    destruct (hd_mono t o n G p3 m (proj1 G3) H3) as [Mm Pm]. exact (find_none_irr t o n G Hn J T m H Mm Pm Fm). }
  destruct (insert_w t o n G Hn false tmp (WP (wwrap u) p3)) as (tmp1 & -> & P1 & _); [exact G3|eapply okh_gw; exact Tm|]. cbn [bind].
  apply IH; [exact Q'|]. eapply Permutation_Forall; [apply Permutation_sym; exact P1|]. constructor; assumption.
Qed.

Lemma take_tq_le J T dg fuel : tinv J T -> forall q tmp q1 tmp1, Forall okq q -> Forall (okh J) tmp ->
  take_tq false fuel false (find1 J T) dg q tmp = Ok (Some (q1, tmp1)) -> mle (map plm (q1 ++ tmp1)) (map plm (q ++ tmp)) /\ (length q1 <= length q)%nat.
Proof.
  intro H. assert (GF := good_find_T t o n G Hn J T H).
  induction q as [|u q IH]; intros tmp q1 tmp1 Q Tm E; cbn [take_tq] in E; [injection E as <- <-; split; [left; reflexivity|lia]|].
  assert (Hu := Forall_inv Q). assert (Q' := Forall_inv_tail Q). rewrite (lm_plm t o n G false u (proj1 Hu)) in E. cbn [bind] in E.
  destruct (deg (plm u) <=? dg)%nat; [|injection E as <- <-; split; [left; reflexivity|lia]].
  assert (Nf := nf_safe t o n G Hn (GT n G T) (GT_GM n G T) (find1 J T) fuel (wpol u) GF (proj1 (proj1 Hu))).
  destruct (p_nf fuel false (find1 J T) (wpol u)) as [[p c0]| | | |] eqn:Ep; cbn [bind] in E; try discriminate. cbn [safe fst] in Nf.
  destruct Nf as (Gp & _ & Dp). cbn [map app length].
  destruct (is_zero p) eqn:Zp.
  { apply IH in E; [|exact Q'|exact Tm]. destruct E as [E L]. split; [|lia]. eapply mle_trans; [exact E|]. apply (mle_app_r _ _ _ [plm u]). }
  destruct Dp as [Dp|(m & Hm & Fm)]; [unfold is_zero in Zp; rewrite Dp in Zp; discriminate|].
  assert (Gp' : good p) by (split; [exact Gp|eapply hd_nz; exact Hm]).
  rewrite (hd_lm false p m Hm) in E. cbn [bind] in E. destruct (deg m =? 0)%nat; [discriminate|]. cbn [bind fst snd] in E.
  assert (Xp : exists p3, (if (c0 + 0 =? 0)%nat then Ok p else p_pp false p) = Ok p3 /\ good p3 /\ hd p3 m).
  { destruct (c0 + 0 =? 0)%nat; [eauto|]. destruct (good_pp t o n G p m Gp' Hm) as (p3 & -> & A & B & _). eauto. }
  destruct Xp as (p3 & Ep3 & G3 & H3). rewrite Ep3 in E. cbn [bind] in E.
  assert (Epl := plm_eq (WP (wwrap u) p3) m H3).
  assert (Ot : okh J (WP (wwrap u) p3)).
  { split; [split; [exact G3|]; apply Hu|]. unfold hirr. rewrite Epl.
    destruct (hd_mono t o n G p3 m (proj1 G3) H3) as [Mm Pm]. exact (find_none_irr t o n G Hn J T m H Mm Pm Fm). }
  destruct (insert_w t o n G Hn false tmp (WP (wwrap u) p3)) as (tmp2 & Ei & P1 & _); [exact G3|eapply okh_gw; exact Tm|].
  rewrite Ei in E. cbn [bind] in E. apply IH in E; [|exact Q'|eapply Permutation_Forall; [apply Permutation_sym; exact P1|constructor; assumption]].
  destruct E as [E L]. split; [|lia]. eapply mle_trans; [exact E|].
  eapply mle_trans with (b := m :: map plm (q ++ tmp)).
  - left. rewrite !map_app, (Permutation_map plm P1). cbn [map]. rewrite Epl. symmetry. apply Permutation_middle.
  - apply mle_one. destruct Hu as [[(V & I & _) _] _]. unfold p_nf in Ep.
    apply (nf_le _ _ GF fuel (wpol u) (plm u) 0%nat p c0 V I (plm_hd t o n G u (proj1 (Forall_inv Q))) Ep m Hm).
Qed.

Lemma take_tq_head J T fuel u q q1 : tinv J T -> Forall okq (u :: q) ->
  take_tq false fuel false (find1 J T) (deg (plm u)) (u :: q) [] = Ok (Some (q1, [])) -> mults (map plm q1) (map plm (u :: q)).
Proof.
  intros H Q E.
  assert (X : (length q1 <= length q)%nat).
  { assert (Hu := Forall_inv Q). assert (Q' := Forall_inv_tail Q). cbn [take_tq] in E. rewrite (lm_plm t o n G false u (proj1 Hu)) in E. cbn [bind] in E.
    rewrite Nat.leb_refl in E. destruct (p_nf _ _ _ _) as [[p c]| | | |]; cbn [bind] in E; try discriminate.
    assert (Z : forall tmp tmp1, take_tq false fuel false (find1 J T) (deg (plm u)) q tmp = Ok (Some (q1, tmp1)) -> (length q1 <= length q)%nat).
    { clear. revert q1. induction q as [|v q IH]; intros q1 tmp tmp1 E; cbn [take_tq] in E; [injection E as <- <-; cbn; lia|].
      destruct (p_lm false (wpol v)) as [m| | | |]; cbn [bind] in E; try discriminate.
      destruct (_ <=? _)%nat; [|injection E as <- <-; lia]. cbn [length].
      destruct (p_nf _ _ _ _) as [[p c]| | | |]; cbn [bind] in E; try discriminate.
      destruct (is_zero p); [apply IH in E; lia|]. destruct (p_lm false p) as [m'| | | |]; cbn [bind] in E; try discriminate.
      destruct (deg m' =? 0)%nat; [discriminate|]. cbn [bind fst snd] in E.
      destruct (if (c + 0 =? 0)%nat then _ else _) as [p3| | | |]; cbn [bind] in E; try discriminate.
      destruct (jp_insert _ _ _) as [tmp'| | | |]; cbn [bind] in E; try discriminate. apply IH in E. lia. }
    destruct (is_zero p); [eapply Z; exact E|]. destruct (p_lm false p) as [m'| | | |]; cbn [bind] in E; try discriminate.
    destruct (deg m' =? 0)%nat; [discriminate|]. cbn [bind fst snd] in E.
    destruct (if (c + 0 =? 0)%nat then _ else _) as [p3| | | |]; cbn [bind] in E; try discriminate.
    destruct (jp_insert _ _ _) as [tmp'| | | |]; cbn [bind] in E; try discriminate. eapply Z; exact E. }
  apply (take_tq_le J T _ fuel H) in E; [|exact Q|constructor]. destruct E as [[E|E] _]; rewrite !app_nil_r in E; [|exact E].
  apply Permutation_length in E. rewrite !map_length in E. cbn [length] in E. lia.
Qed.

Lemma tail_pp_ends J T p m : tinv J T -> good p -> hd p m -> ends (fun k => tail_pp k false (find1 J T) p).
Proof.
  intros H Gp Hp. unfold tail_pp. assert (GF := good_find_T t o n G Hn J T H).
  eapply ends_safe; [eapply (p_nft_ends t o n G Ho); [exact GF|exact Gp|exact Hp|auto]|
    intro k; apply (nft_safe t o n G (GT n G T) (GT_GM n G T) _ (find1 J T) k p m GF Gp Hp); auto|].
  intros [p2 c] (G2 & H2 & _). cbn [fst snd] in *. destruct (c =? 0)%nat; [apply ends_ok|].
  destruct (good_pp t o n G p2 m G2 H2) as (p3 & -> & _). apply ends_ok.
Qed.
Lemma tails_ends J T : tinv J T -> forall l, Forall (okh J) l -> ends (fun k => tails k false (find1 J T) l).
Proof.
  intro H. induction l as [|u l IH]; intro O; cbn [tails]; [apply ends_ok|]. assert (Hu := Forall_inv O).
  apply ends_bind; [apply (tail_pp_ends J T (wpol u) (plm u) H); [apply Hu|apply (plm_hd t o n G); apply Hu]|]. intros N p _.
  apply ends_bind; [apply IH; exact (Forall_inv_tail O)|]. intros N2 r _. apply ends_ok.
Qed.

Lemma red_eq_lt a : okq a -> forall l, Forall okq l -> Forall (fun u => plm u = plm a) l ->
  exists l', red_eq false (wpol a) l = Ok l' /\ Forall (fun y => MT y (plm a)) (map plm l').
Proof.
  intro Ha. induction l as [|u l IH]; intros O L; cbn [red_eq].
  - exists []. split; [reflexivity|]. constructor.
  - assert (Hu := Forall_inv O). assert (Eu := Forall_inv L). cbv beta in Eu.
    destruct (good_reduction t o n G Hn (wpol u) (wpol a) (plm a)) as (r & -> & Gr & _ & _ & Sm);
      [apply Hu|apply Ha|rewrite <- Eu; apply (plm_hd t o n G); apply Hu|apply (plm_hd t o n G); apply Ha|]. cbn [bind].
    destruct (IH (Forall_inv_tail O) (Forall_inv_tail L)) as (l' & -> & A). destruct (is_zero r) eqn:Zr.
    + exists l'. auto.
    + assert (Gr' : good r) by (split; [exact Gr|intro E; unfold is_zero in Zr; rewrite E in Zr; discriminate]).
      destruct (good_hd t o n G r Gr') as (m & Hm).
      destruct (good_pp t o n G r m Gr' Hm) as (p & -> & Gp & Hp & _). cbn [bind].
      exists (WP (wwrap u) p :: l'). split; [reflexivity|]. cbn [map]. constructor; [|exact A]. rewrite (plm_eq (WP (wwrap u) p) m Hp).
      constructor. apply Sm. eapply hd_in. exact Hm.
Qed.

Lemma walk_ends dg : forall cnt J q d w k, tinv J (d ++ opt w ++ k) -> Forall okq q -> (length (opt w) + length k <= cnt)%nat ->
  ends (fun f => walk cnt f false (-1) dg [J] q d w k).
Proof.
  induction cnt as [|cnt IH]; intros J q d w k H Q L; cbn [walk].
  { destruct w; cbn in L; [lia|]. destruct k; cbn in L; [|lia]. apply ends_ok. }
  assert (Redu : forall e w' k', Permutation (d ++ opt w ++ k) (e :: d ++ opt w' ++ k') -> (length (opt w') + length k' <= cnt)%nat ->
    ends (fun f => do e' <- tail_reduce f false (-1) [J] (d ++ opt w' ++ k') e;
        do r <- prolong_if false (-1) dg [J] e' q;
        walk cnt f false (-1) dg (fst r) (snd r) (d ++ [e']) w' k')).
  { intros e w' k' P Lc. eapply ends_safe; [eapply (tail_reduce_ends t o n G Hn Ho); eassumption|intro f; eapply (tail_reduce_ok t o n G Hn Ho); eassumption|].
    intros e' (_ & H' & _).
    destruct (prolong_if_ok t o n G Hn dg J _ e' q H') as (J1 & q1 & -> & H1 & Q1 & I1); [left; reflexivity|exact Q|].
    cbn [bind fst snd]. apply IH; [|exact Q1|exact Lc]. eapply tinv_perm; [exact H1|]. rewrite <- app_assoc. apply Permutation_middle. }
  destruct w as [e|]; destruct k as [|e' k]; cbn [length opt] in L.
  - apply (Redu e None []); [cbn [opt app]; rewrite app_nil_r; apply Permutation_sym, Permutation_cons_append|cbn [length opt]; lia].
  - assert (Gg := ti_good _ _ _ _ _ _ H). cbn [opt] in Gg. rewrite !Forall_app in Gg. destruct Gg as (_ & G1 & G2).
    destruct (Forall_inv G1) as [Ge He], (Forall_inv G2) as [Ge' He'].
    unfold p_cmp. rewrite (hd_lm false _ _ He), (hd_lm false _ _ He'). cbn [bind].
    match goal with |- context [if ?b then _ else _] => destruct b end.
    + apply (Redu e None (e' :: k)); [cbn [opt app]; apply Permutation_sym, Permutation_middle|cbn [length opt]; lia].
    + apply (Redu e' (Some e) k); [cbn [opt]; rewrite !app_assoc; apply Permutation_sym, Permutation_middle|cbn [length opt]; lia].
  - apply ends_ok.
  - apply (Redu e' None k); [cbn [opt app]; apply Permutation_sym, Permutation_middle|cbn [length opt]; lia].
Qed.

Lemma walk_perm fuel dg : forall cnt js q d w k js' q' T', walk cnt fuel false (-1) dg js q d w k = Ok (js', q', T') ->
  Permutation (map fst T') (map fst (d ++ opt w ++ k)).
Proof.
  induction cnt as [|cnt IH]; intros js q d w k js' q' T' E; cbn [walk] in E.
  { destruct w; [discriminate|]. destruct k; [|discriminate]. injection E as <- <- <-. cbn [opt app]. now rewrite app_nil_r. }
  assert (Redu : forall e w' k', Permutation (d ++ opt w ++ k) (e :: d ++ opt w' ++ k') ->
    (do e' <- tail_reduce fuel false (-1) js (d ++ opt w' ++ k') e;
        do r <- prolong_if false (-1) dg js e' q;
        walk cnt fuel false (-1) dg (fst r) (snd r) (d ++ [e']) w' k') = Ok (js', q', T') -> Permutation (map fst T') (map fst (d ++ opt w ++ k))).
  { intros e w' k' P X. destruct (tail_reduce _ _ _ _ _ _) as [e'| | | |] eqn:Et; cbn [bind] in X; try discriminate. apply tail_reduce_fst in Et.
    destruct (prolong_if _ _ _ _ _ _) as [[a b]| | | |]; cbn [bind fst snd] in X; try discriminate.
    apply IH in X. rewrite X, (Permutation_map fst P), <- app_assoc. cbn [app]. rewrite map_app. cbn [map]. rewrite Et, <- Permutation_middle, <- map_app. reflexivity. }
  destruct w as [e|]; destruct k as [|e' k].
  - apply (Redu e None []); [cbn [opt app]; rewrite app_nil_r; apply Permutation_sym, Permutation_cons_append|exact E].
  - destruct (p_cmp false (snd e) (snd e')) as [c| | | |]; cbn [bind] in E; try discriminate. destruct (c <? 0).
    + apply (Redu e None (e' :: k)); [cbn [opt app]; apply Permutation_sym, Permutation_middle|exact E].
    + apply (Redu e' (Some e) k); [cbn [opt]; rewrite !app_assoc; apply Permutation_sym, Permutation_middle|exact E].
  - injection E as <- <- <-. cbn [opt app]. now rewrite app_nil_r.
  - apply (Redu e' None k); [cbn [opt app]; apply Permutation_sym, Permutation_middle|exact E].
Qed.

Definition fewer (s' s : rstate) : Prop := mults (map plm (snd (fst s'))) (map plm (snd (fst s))).
Lemma fewer_wf : well_founded fewer.
Proof.
  unfold fewer. apply (wf_inverse_image _ _ mults (fun s : rstate => map plm (snd (fst s)))). apply mlt_wf'. apply wf_clos_trans. apply MonomProofs.mlt_wf. exact Ho.
Qed.

Lemma tq_round_ok one s : rinv s -> exists N r, (forall fuel, (N <= fuel)%nat -> tq_round one fuel false (-1) s = Ok r) /\
  match r with
  | inr _ => True
  | inl s' => rinv s' /\ ((Permutation (leads s') (leads s) /\ fewer s' s) \/ grows n (leads s') (leads s))
  end.
Proof.
  destruct s as [[js q] T]. intros (J & Ej & H & Q). cbn [fst snd] in *. subst js. cbn [tq_round].
  destruct q as [|u q0] eqn:Eq; [exists 0%nat; eexists; split; [reflexivity|exact Logic.I]|]. rewrite <- Eq in *.
  assert (Hu : okq u) by (rewrite Eq in Q; exact (Forall_inv Q)). assert (Elm := lm_plm t o n G false u (proj1 Hu)). rewrite Elm. cbn [bind].
  destruct (take_tq_ends J T (deg (plm u)) H q [] Q (Forall_nil _)) as (N1 & r & E1).
  assert (K1 := take_tq_ok t o n G Hn Ho false J T (deg (plm u)) N1 H q [] Q (Forall_nil _)). rewrite (E1 N1 (le_n _)) in K1. cbn [safe] in K1.
  destruct r as [[q1 tmp]|].
  2:{ exists N1. destruct Hu as ([(_ & (A1 & A2 & A3) & _) _] & _). rewrite A1, A2, A3. destruct (set_one_ok t o n G Hn (-1) K1) as (J' & Es & _).
      exists (inr J'). split; [|exact Logic.I]. intros fuel Hf. rewrite (E1 fuel Hf). cbn [bind]. rewrite Es. reflexivity. }
  destruct K1 as (Q1 & Tm & _). unfold assert_. cbn [andb].
  destruct tmp as [|w0 tmp0].
  { exists N1, (inl ([J], q1, T)). split; [intros fuel Hf; rewrite (E1 fuel Hf); reflexivity|].
    split; [exists J; auto|]. left. split; [reflexivity|]. unfold fewer. cbn [fst snd]. specialize (E1 N1 (le_n _)).
    rewrite Eq in *. eapply take_tq_head; eassumption. }
  assert (Le := proj1 (take_tq_le J T _ N1 H q [] q1 _ Q (Forall_nil _) (E1 N1 (le_n _)))). rewrite app_nil_r in Le.
  assert (H0 := Forall_inv Tm). assert (G0 := proj1 (proj1 H0)).
  destruct (plm_mono t o n G w0 G0) as [M0 P0].
  destruct (same_lm_ok t o n G (plm w0) M0 P0 tmp0) as (eqs & rest & Es & Et & El0 & _); [eapply okh_gw; exact (Forall_inv_tail Tm)|].
  subst tmp0. assert (Tm0 := Forall_inv_tail Tm). apply Forall_app in Tm0 as [Tm1 Tm2].
  assert (X1 : exists N w1, (forall fuel, (N <= fuel)%nat -> (if one then do p <- tail_pp fuel false (find1 J T) (wpol w0); Ok (WP (wwrap w0) p) else Ok w0) = Ok w1) /\
    okh J w1 /\ plm w1 = plm w0).
  { destruct one; [|exists 0%nat, w0; auto]. destruct (tail_pp_ends J T (wpol w0) (plm w0) H G0 (plm_hd t o n G w0 G0)) as (N & p & Ep).
    assert (Kp := tail_pp_ok t o n G Hn J T N (wpol w0) (plm w0) H G0 (plm_hd t o n G w0 G0)). rewrite (Ep N (le_n _)) in Kp. destruct Kp as (Gp & Hp & _).
    assert (Epl : plm (WP (wwrap w0) p) = plm w0) by (apply plm_eq; exact Hp).
    exists N, (WP (wwrap w0) p). split; [intros fuel Hf; rewrite (Ep fuel Hf); reflexivity|]. split; [|exact Epl].
    split; [split; [exact Gp|apply H0]|]. unfold hirr. rewrite Epl. apply H0. }
  destruct X1 as (N2 & w1 & E2 & O1 & Ew1).
  assert (X2 : exists N eqs1, (forall fuel, (N <= fuel)%nat -> (if one then tails fuel false (find1 J T) eqs else Ok eqs) = Ok eqs1) /\
    Forall (okh J) eqs1 /\ Forall (fun u => plm u = plm w0) eqs1 /\ length eqs1 = length eqs).
  { destruct one; [|exists 0%nat, eqs; auto]. destruct (tails_ends J T H eqs Tm1) as (N & l & El).
    assert (Kl := tails_ok t o n G Hn J T N (plm w0) H eqs Tm1 El0). rewrite (El N (le_n _)) in Kl. destruct Kl as (A & B & _).
    exists N, l. split; [exact El|]. split; [exact A|]. split; [exact B|]. specialize (El N (le_n _)). clear -El. revert l El.
    induction eqs as [|x eqs IH]; intros l E; cbn [tails] in E; [injection E as <-; reflexivity|].
    destruct (tail_pp _ _ _ _) as [p| | | |]; cbn [bind] in E; try discriminate. destruct (tails _ _ _ _) as [r| | | |]; cbn [bind] in E; try discriminate.
    injection E as <-. cbn [length]. f_equal. apply IH. reflexivity. }
  destruct X2 as (N3 & eqs1 & E3 & O2 & Ee & Len).
  assert (Ps := swap_min_perm eqs1 w1). destruct (swap_min w1 eqs1) as [w eqs2] eqn:Esw. cbn [fst snd] in Ps.
  assert (Ow : Forall (okh J) (w :: eqs2)) by (eapply Permutation_Forall; [exact Ps|constructor; assumption]).
  assert (El : Forall (fun u => plm u = plm w0) (w :: eqs2)) by (eapply Permutation_Forall; [exact Ps|constructor; assumption]).
  assert (Hw := Forall_inv Ow). assert (Hq := okh_okq t o n G _ _ (Forall_inv_tail Ow)). assert (Hr := okh_okq t o n G _ _ Tm2).
  assert (Ew := Forall_inv El). cbv beta in Ew.
  assert (Ealike : Forall (fun u => plm u = plm w) eqs2).
  { eapply Forall_impl; [|exact (Forall_inv_tail El)]. intros x Ex. cbv beta in *. congruence. }
  assert (Same : forall a b, Forall (fun u => plm u = plm w0) a -> Forall (fun u => plm u = plm w0) b -> length a = length b -> map plm a = map plm b).
  { clear. induction a as [|x a IH]; intros [|y b] A B L; try discriminate; [reflexivity|]. cbn [map].
    rewrite (Forall_inv A), (Forall_inv B). f_equal. apply IH; [exact (Forall_inv_tail A)|exact (Forall_inv_tail B)|]. cbn in L. lia. }
  assert (Lm2 : map plm (w :: eqs2) = map plm (w0 :: eqs)).
  { apply Same; [exact El|constructor; [reflexivity|exact El0]|]. apply Permutation_length in Ps. cbn [length] in *. lia. }
  destruct (one && negb (length eqs2 =? 0)%nat) eqn:Ev.
  - destruct (red_eq_ok t o n G Hn w (proj1 Hw) eqs2 Hq Ealike) as (eqs3 & E4 & O3 & _).
    destruct (red_eq_lt w (proj1 Hw) eqs2 Hq Ealike) as (eqs3' & E4' & Sm). rewrite E4 in E4'. injection E4' as <-.
    assert (Qr : Forall okq (rest ++ q1)) by (apply Forall_app; split; assumption).
    destruct (insert_w t o n G Hn false (rest ++ q1) w) as (q2 & E5 & P2 & _); [apply Hw|apply okq_gw; exact Qr|].
    assert (Q2 : Forall okq q2) by (eapply Permutation_Forall; [apply Permutation_sym; exact P2|constructor; [apply Hw|exact Qr]]).
    destruct (insert_all_ok t o n G Hn eqs3 q2 O3 Q2) as (q3 & E6 & P3).
    assert (Q3 : Forall okq q3) by (eapply Permutation_Forall; [apply Permutation_sym; exact P3|apply Forall_app; split; assumption]).
    exists (Nat.max N1 (Nat.max N2 N3)), (inl ([J], q3, T)). split.
    { intros fuel Hf. rewrite (E1 fuel) by lia. cbn [bind]. rewrite (lm_plm t o n G false w0 G0). cbn [bind]. rewrite Es. cbn [bind].
      rewrite (E2 fuel) by lia. cbn [bind]. rewrite (E3 fuel) by lia. cbn [bind]. rewrite Esw, Ev, E4. cbn [bind]. rewrite E5. cbn [bind]. rewrite E6. reflexivity. }
    split; [exists J; auto|]. left. split; [reflexivity|]. unfold fewer. cbn [fst snd].
    destruct eqs2 as [|y eqs2]; [rewrite andb_false_r in Ev; discriminate|].
    eapply mlt_mle; [|exact Le].
    eapply mlt_perm_l; [symmetry; rewrite (Permutation_map plm P3), map_app, (Permutation_map plm P2); reflexivity|].
    eapply mlt_perm_r with (l := plm y :: map plm eqs2 ++ map plm (w :: rest ++ q1)).
    + rewrite (map_app plm q1), (app_comm_cons eqs rest w0), (map_app plm (w0 :: eqs)), <- Lm2. cbn [map]. rewrite map_app.
      change (plm y :: map plm eqs2 ++ plm w :: map plm rest ++ map plm q1) with ((plm y :: map plm eqs2) ++ plm w :: map plm rest ++ map plm q1).
      rewrite <- Permutation_middle. cbn [app]. 
      rewrite (Permutation_app_comm (map plm q1)). rewrite !app_comm_cons, <- app_assoc. reflexivity.
    + apply mlt_replace. rewrite (Forall_inv Ealike). exact Sm.
  - assert (Q2 : Forall okq ((eqs2 ++ rest) ++ q1)) by (rewrite !Forall_app; auto).
    destruct (enter_w_ok t o n G Hn J T w H Hw) as (J2 & w' & E4 & Ew' & H2).
    assert (X3 : exists N js3 q3 T3, (forall fuel, (N <= fuel)%nat -> match T with
                             | [] => Ok ([J2], (eqs2 ++ rest) ++ q1, [(wlm w', wpol w)])
                             | _ => walk (S (length T)) fuel false (-1) (deg (plm u)) [J2] ((eqs2 ++ rest) ++ q1) [] (Some (wlm w', wpol w)) T
                             end = Ok (js3, q3, T3)) /\
        (exists J3, js3 = [J3] /\ tinv J3 T3 /\ Forall okq q3) /\ Permutation (map fst T3) (plm w :: map fst T)).
    { rewrite Ew'. destruct T as [|e0 T0].
      - exists 0%nat, [J2], ((eqs2 ++ rest) ++ q1), [(plm w, wpol w)]. split; [reflexivity|]. split; [exists J2; auto|reflexivity].
      - destruct (walk_ends (deg (plm u)) (S (length (e0 :: T0))) J2 _ [] (Some (plm w, wpol w)) (e0 :: T0) H2 Q2) as (N & [[js3 q3] T3] & E5); [cbn [opt length]; lia|].
        assert (K := walk_ok t o n G Hn Ho N (deg (plm u)) (S (length (e0 :: T0))) J2 _ [] (Some (plm w, wpol w)) (e0 :: T0) H2 Q2). rewrite (E5 N (le_n _)) in K. cbn [safe] in K.
        destruct K as (J3 & A & B & C & _). exists N, js3, q3, T3. split; [exact E5|]. split; [exists J3; auto|].
        specialize (E5 N (le_n _)). apply walk_perm in E5. exact E5. }
    destruct X3 as (N4 & js3 & q3 & T3 & E5 & (J3 & -> & H3 & Q3) & P3).
    exists (Nat.max N4 (Nat.max N1 (Nat.max N2 N3))), (inl ([J3], q3, T3)). split.
    { intros fuel Hf. rewrite (E1 fuel) by lia. cbn [bind]. rewrite (lm_plm t o n G false w0 G0). cbn [bind]. rewrite Es. cbn [bind].
      rewrite (E2 fuel) by lia. cbn [bind]. rewrite (E3 fuel) by lia. cbn [bind]. rewrite Esw, Ev, E4. cbn [bind]. rewrite (E5 fuel) by lia. reflexivity. }
    split; [exists J3; auto|]. right. constructor. exists (vars (plm w)). split.
    + split; [apply (plm_mono t o n G w (proj1 (proj1 Hw)))|]. intros v C. apply (proj2 Hw v). eapply jd_perm; [symmetry; apply leads_lms; exact H|exact C].
    + unfold leads. cbn [snd]. rewrite P3. reflexivity.
Qed.

Lemma tq_ends (B : list (list nat) -> Prop) one s : (forall U, B U \/ ~ B U) -> Acc (bigger n B) (leads s) -> rinv s ->
  ends (fun k => tq_run one k s) \/ exists s', rounds (fun k => tq_round one k false (-1)) s s' /\ rinv s' /\ ~ B (leads s').
Proof.
  intros Bd A I. apply (loop_ends n (fun k => tq_round one k false (-1)) (tq_run one) (tq_run_eq one) rinv fewer fewer_wf (tq_round_ok one) B Bd s A I).
Qed.
End P.
