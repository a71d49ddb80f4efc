(** One polynomial pushed: the only round there is. *)
From Coq Require Import ZArith List Bool Arith Lia Permutation Sorted.
From Verif Require Import Outcome MonomModel MonomSpec MonomProofs PolyModel PolySpec PolyProofs PolyNfProofs
  JanetModel JanetSpec JanetProofs JanetFindProofs CompletionProofs JanetPolyModel TQModel JanetPolySpec JanetPolyProofs
  TQProofs JanetTermSpec JanetTermMain ShapeProofs AncProofs LinProofs PrincSpec.
Import ListNotations.
Local Open Scope Z_scope.

Lemma prop_refl f : prop_to f f.
Proof. exists 1, 1. repeat split; lia. Qed.

Section P.
Variables (t : pos_order) (o : base_order) (n : nat).
Hypothesis (Hn : (0 < n)%nat) (Ho : o <> OAlex).
Notation A := (fun _ : list term => True).
Notation good := (good t o n A).
Notation okq := (okq t o n A).
Notation okh := (okh t o n A).
Notation tinv := (tinv t o n A).

Lemma no_divisor J m : tinv J [] -> mono n m -> find_poly false (-1) (Some [J]) [] m = Ok None.
Proof.
  intros H M. destruct (find_poly_ok t o n A Hn J [] m H M) as (w & -> & X). destruct w as [a|]; [|reflexivity]. destruct X as (k & [] & _).
Qed.
Lemma wt_terms p : with_terms p (terms p) = p.
Proof. destruct p; reflexivity. Qed.
Lemma nft_none J p r : tinv J [] -> forall rest fuel pre, monos n rest ->
  nft_loop fuel false (find_poly false (-1) (Some [J]) []) r p pre rest = Ok (with_terms p (pre ++ rest), r) \/
  nft_loop fuel false (find_poly false (-1) (Some [J]) []) r p pre rest = OutOfFuel /\ (fuel < length rest)%nat.
Proof.
  intro H. induction rest as [|[m c] rest IH]; intros fuel pre M.
  - left. rewrite app_nil_r. destruct fuel; reflexivity.
  - destruct fuel as [|fuel]; [right; split; [reflexivity|cbn; lia]|]. cbn [nft_loop]. rewrite (no_divisor J m H (Forall_inv M)). cbn [bind].
    destruct (IH fuel (pre ++ [(m, c)]) (Forall_inv_tail M)) as [X|[X L]]; rewrite X.
    + left. rewrite <- app_assoc. reflexivity.
    + right. split; [reflexivity|cbn; lia].
Qed.
Lemma good_monos p : good p -> monos n (terms p).
Proof. intros [(V & (E1 & E2 & E3) & _) _]. apply canonical_iff in V as (_ & M & _). rewrite E1 in M. exact M. Qed.
Lemma tail_none J p fuel : tinv J [] -> good p ->
  p_nfTail fuel false (find_poly false (-1) (Some [J]) []) p = Ok (p, 0%nat) \/
  p_nfTail fuel false (find_poly false (-1) (Some [J]) []) p = OutOfFuel /\ (fuel < length (terms p))%nat.
Proof.
  intros H G. assert (M := good_monos p G). unfold p_nfTail. destruct G as [_ N]. destruct (terms p) as [|x l] eqn:E; [congruence|].
  destruct (nft_none J p 0 H l fuel [x] (Forall_inv_tail M)) as [X|[X L]]; rewrite X; [left|right; split; [reflexivity|cbn; lia]].
  change ([x] ++ l) with (x :: l). rewrite <- E, wt_terms. reflexivity.
Qed.
Lemma head_none J p fuel : tinv J [] -> good p -> p_nf fuel false (find_poly false (-1) (Some [J]) []) p = Ok (p, 0%nat).
Proof.
  intros H G. assert (M := good_monos p G). unfold p_nf. destruct G as [_ N]. destruct (terms p) as [|[m c] l] eqn:E; [congruence|].
  destruct fuel; cbn [nf_loop]; rewrite E, (no_divisor J m H (Forall_inv M)); reflexivity.
Qed.

(** A tree with one element has no non-multiplicative variables. *)
Lemma prolong_one J e p q : tinv J [e] -> forall w, In w (wraps (jroot J)) -> forall cnt k, (k + cnt = n)%nat -> jp_prolong false (-1) cnt k [J] w p q = Ok ([J], q).
Proof.
  intros H w Iw. induction cnt as [|cnt IH]; intros k K; cbn [jp_prolong]; [reflexivity|].
  assert (Ow : okw n w) by (assert (O := ji_ok _ _ (ti_inv _ _ _ _ _ _ H)); rewrite Forall_forall in O; auto).
  destruct Ow as (O1 & O2 & O3 & O4). rewrite !(get_flag_ok n) by (assumption || lia). cbn [bind].
  destruct (nth k (wnm w) false) eqn:Nm; cbn [andb]; [exfalso|apply IH; lia].
  assert (Jn : janet_nm (lms (wraps (jroot J))) (lv w) k).
  { apply (flagsT_flags n 0 (jroot J)); [apply (ti_inv _ _ _ _ _ _ H)|intros; lia|apply (ti_inv _ _ _ _ _ _ H)|exact Iw|lia|lia|exact Nm]. }
  destruct Jn as (v & Iv & _ & Lv). unfold lms in Iv. apply in_map_iff in Iv as (u & <- & Iu).
  assert (P := ti_perm _ _ _ _ _ _ H). cbn [map] in P. apply Permutation_sym, Permutation_length_1_inv in P.
  destruct (wraps (jroot J)) as [|x [|y l]]; try discriminate. destruct Iw as [<-|[]]. destruct Iu as [<-|[]]. lia.
Qed.

Definition finished (f : poly) (s : rstate) : Prop := exists J e, s = ([J], [], [e]) /\ prop_to (snd e) f.
Definition first_round (u : wpoly) (R : nat -> outcome (rstate + jpoly)) : Prop :=
  exists r, match r with inl s => finished (wpol u) s | inr J => exists w, J = JP (Some w) [] [] (-1) None /\ total (vars (plm u)) = 0%nat end /\
  forall fuel, R fuel = Ok r \/ R fuel = OutOfFuel /\ (fuel <= length (terms (wpol u)))%nat.

Lemma set_one_is mpos : exists w, set_one false t o n mpos = Ok (JP (Some w) [] [] mpos None) /\ terms (wpol w) = [(Mon (-1) (repeat 0%nat n), 1)].
Proof. eexists. split; reflexivity. Qed.

Lemma lead_in_J J u : tinv J [] -> ~ In (vars (plm u)) (lms (wraps (jroot J))).
Proof.
  intros H I. assert (P := ti_perm _ _ _ _ _ _ H). cbn [map] in P. unfold lms in I. apply Permutation_sym, Permutation_nil in P. destruct (wraps (jroot J)); [destruct I|discriminate].
Qed.
Lemma first_okh J u : tinv J [] -> okq u -> okh J u.
Proof.
  intros H Hu. split; [exact Hu|]. intros v [I _]. assert (P := ti_perm _ _ _ _ _ _ H). cbn [map] in P. apply Permutation_sym, Permutation_nil in P. unfold lms in I.
  destruct (wraps (jroot J)); [destruct I|discriminate].
Qed.

Lemma ins1 u : jp_insert false [] u = Ok [u].
Proof. reflexivity. Qed.
Lemma block_first J u : tinv J [] -> okq u -> first_round u (fun fuel => block_round fuel false (-1) ([J], [u], [])).
Proof.
  intros H Hu. assert (G := proj1 Hu). unfold first_round.
  assert (Nz : is_zero (wpol u) = false) by (unfold is_zero; destruct G as [_ N]; destruct (terms (wpol u)); congruence).
  destruct (deg (plm u) =? 0)%nat eqn:Ed.
  { destruct (set_one_is (-1)) as (w & Es & _). exists (inr (JP (Some w) [] [] (-1) None)). split.
    { exists w. split; [reflexivity|]. apply Nat.eqb_eq in Ed. rewrite <- MonomProofs.degv_total. exact Ed. }
    intro fuel. left. unfold block_round. rewrite (lm_plm t o n A false u G). cbn [bind].
    cbn [take_block]. rewrite (lm_plm t o n A false u G). cbn [bind]. rewrite Nat.leb_refl, (head_none J _ fuel H G). cbn [bind fst]. rewrite Nz.
    rewrite (lm_plm t o n A false u G). cbn [bind]. rewrite Ed. cbn [bind]. destruct Hu as ([(_ & (A1 & A2 & A3) & _) _] & _). rewrite A1, A2, A3, Es. reflexivity. }
  destruct (enter_ok t o n A Hn [u] J [] H) as (J2 & new & E & H2 & _).
  { repeat constructor; apply Hu. }
  { repeat constructor. }
  { intros v [<-|[]]. apply lead_in_J. exact H. }
  assert (En : exists p, new = [(plm u, p)] /\ prop_to p (wpol u)).
  { assert (E' := E). cbn [enter] in E'. rewrite (lm_plm t o n A false u G) in E'. cbn [bind] in E'.
    destruct (p_pp_ok false (wpol u)) as (p & g & Ep & _ & _ & Ng & _ & Cg & _); [apply G|]. rewrite Ep in E'. cbn [bind] in E'. bnd E'. bnd E'. cbn [bind] in E'. injection E' as _ <-.
    exists p. split; [|exists g, 1; split; [exact Ng|split; [lia|intro m; rewrite Cg; lia]]].
    destruct (plm_mono t o n A u G) as [Mu Pu]. destruct (update_ok t o n A u (plm u) Hu Mu Pu) as (Ew & _ & _). rewrite Ew. reflexivity. }
  destruct En as (p & -> & Pp). rewrite app_nil_r in H2.
  exists (inl ([J2], [], [(plm u, p)])). split; [exists J2, (plm u, p); split; [reflexivity|exact Pp]|]. intro fuel.
  unfold block_round. rewrite (lm_plm t o n A false u G). cbn [bind].
  cbn [take_block]. rewrite (lm_plm t o n A false u G). cbn [bind]. rewrite Nat.leb_refl, (head_none J _ fuel H G). cbn [bind fst]. rewrite Nz.
  rewrite (lm_plm t o n A false u G). cbn [bind]. rewrite Ed.
  destruct (tail_none J _ fuel H G) as [X|[X L]]; rewrite X; cbn [bind]; [|right; split; [reflexivity|lia]].
  rewrite Nat.eqb_refl. cbn [bind]. replace (WP (wwrap u) (wpol u)) with u by (destruct u; reflexivity).
  rewrite ins1. cbn [bind take_block]. unfold assert_. cbn [andb].
  destruct fuel as [|fuel]; [right; split; [reflexivity|lia]|]. left. cbn [block_loop]. rewrite (lm_plm t o n A false u G). cbn [bind same_deg].
  cbn [app length scan]. rewrite (lm_plm t o n A false u G). unfold assert_. cbn [andb bind same_lm red_all scan app].
  rewrite E. cbn [bind].
  cbn [length Nat.add merge_loop bind]. unfold assert_. cbn [andb].
  unfold prolong_if. cbn [fst]. rewrite Nat.leb_refl. unfold prolong_entry.
  destruct (get_wrap_ok t o n A J2 [(plm u, p)] (plm u, p) H2 (or_introl eq_refl)) as (w & Eg & Iw & Ew). cbn [fst] in Eg. cbn [fst snd]. rewrite Eg.
  assert (Lw : size (wlm w) = n) by (rewrite Ew; cbn [fst]; destruct (plm_mono t o n A u G) as [[Mu _] _]; exact Mu).
  rewrite (prolong_one J2 (plm u, p) _ _ H2 w Iw) by (rewrite Lw; lia). reflexivity.
Qed.

Lemma tq_first v J u : tinv J [] -> okq u -> first_round u (fun fuel => tq_round v fuel false (-1) ([J], [u], [])).
Proof.
  intros H Hu. assert (G := proj1 Hu). unfold first_round.
  assert (Nz : is_zero (wpol u) = false) by (unfold is_zero; destruct G as [_ N]; destruct (terms (wpol u)); congruence).
  destruct (deg (plm u) =? 0)%nat eqn:Ed.
  { destruct (set_one_is (-1)) as (w & Es & _). exists (inr (JP (Some w) [] [] (-1) None)). split.
    { exists w. split; [reflexivity|]. apply Nat.eqb_eq in Ed. rewrite <- MonomProofs.degv_total. exact Ed. }
    intro fuel. left. unfold tq_round. rewrite (lm_plm t o n A false u G). cbn [bind].
    cbn [take_tq]. rewrite (lm_plm t o n A false u G). cbn [bind]. rewrite Nat.leb_refl, (head_none J _ fuel H G). cbn [bind fst]. rewrite Nz.
    rewrite (lm_plm t o n A false u G). cbn [bind]. rewrite Ed. cbn [bind]. destruct Hu as ([(_ & (A1 & A2 & A3) & _) _] & _). rewrite A1, A2, A3, Es. reflexivity. }
  destruct (enter_w_ok t o n A Hn J [] u H (first_okh J u H Hu)) as (J2 & w' & E & El & _).
  exists (inl ([J2], [], [(wlm w', wpol u)])). split; [exists J2, (wlm w', wpol u); split; [reflexivity|apply prop_refl]|]. intro fuel.
  unfold tq_round. rewrite (lm_plm t o n A false u G). cbn [bind].
  cbn [take_tq]. rewrite (lm_plm t o n A false u G). cbn [bind]. rewrite Nat.leb_refl, (head_none J _ fuel H G). cbn [bind fst]. rewrite Nz.
  rewrite (lm_plm t o n A false u G). cbn [bind]. rewrite Ed.
  cbn [bind fst snd Nat.add]. rewrite Nat.eqb_refl. cbn [bind]. replace (WP (wwrap u) (wpol u)) with u by (destruct u; reflexivity).
  rewrite ins1. cbn [bind take_tq]. unfold assert_. cbn [andb]. rewrite (lm_plm t o n A false u G). cbn [bind same_lm].
  destruct v; cbn [tails bind].
  - unfold tail_pp. destruct (tail_none J _ fuel H G) as [X|[X L]]; rewrite X; cbn [bind fst snd]; [|right; split; [reflexivity|lia]].
    rewrite Nat.eqb_refl. cbn [bind]. replace (WP (wwrap u) (wpol u)) with u by (destruct u; reflexivity). cbn [swap_min length Nat.eqb negb andb].
    left. rewrite E. reflexivity.
  - cbn [swap_min length Nat.eqb negb andb]. left. rewrite E. reflexivity.
Qed.
End P.
