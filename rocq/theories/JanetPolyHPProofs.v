(** JanetPolyInt::buildHP counts the monomials that nf leaves unchanged. *)
From Coq Require Import ZArith List Bool Arith QArith Lia Permutation.
From Verif Require Import Outcome MonomModel MonomSpec MonomProofs PolyModel PolySpec PolyProofs PolyRedProofs PolyNfProofs
  JanetModel JanetSpec JanetProofs JanetFindProofs JanetTopProofs GBProofs JanetPolyModel JanetPolySpec IdealProofs JanetPolyProofs JanetPolyTop
  HilbertModel HilbertSpec HilbertProofs InvolutiveProofs InvolutiveTop JanetPolyHPModel.
Import ListNotations.
Local Open Scope nat_scope.

Lemma count_cones n t s : jinv n t -> (forall u, In u (wraps t) -> total (lv u) <= s) ->
  exists k, number_of n s (fun m => forall u, ~ janet_divides n (lms (wraps t)) u m) k /\
    binom (s + n) n = k + sumn (map (fun u => binom (s - total (lv u) + multi u) (multi u)) (wraps t)).
Proof.
  intros J Hs. set (C := flat_map (ucone s) (wraps t)).
  set (L := filter (fun m => if in_dec (list_eq_dec Nat.eq_dec) m C then false else true) (all_upto n s)).
  assert (HC : forall m, In m C <-> length m = n /\ total m <= s /\ exists u, janet_divides n (lms (wraps t)) u m).
  { intro m. unfold C. rewrite in_flat_map. split.
    - intros (u & Iu & I). apply (ucone_in n t) in I; auto. destruct I as (A & B & D). split; [exact A|]. split; [exact B|]. exists (lv u). exact D.
    - intros (A & B & x & D). pose proof D as (Ix & _). apply in_map_iff in Ix as (u & <- & Iu). exists u. split; [exact Iu|]. apply (ucone_in n t); auto. }
  assert (HL : forall m, In m L <-> In m (all_upto n s) /\ ~ In m C).
  { intro m. unfold L. rewrite filter_In. destruct (in_dec (list_eq_dec Nat.eq_dec) m C); intuition congruence. }
  assert (NL : NoDup L) by (apply NoDup_filter, cone_nodup).
  exists (length L). split.
  - exists L. split; [exact NL|]. split; [reflexivity|]. intro m. rewrite HL, all_upto_in, HC. split.
    + intros ((A & B) & N). split; [exact A|]. split; [exact B|]. intros u D. apply N. eauto.
    + intros (A & B & N). split; [auto|]. intros (_ & _ & u & D). exact (N u D).
  - assert (P : Permutation (all_upto n s) (L ++ C)).
    { apply NoDup_Permutation.
      - apply cone_nodup.
      - apply NoDup_app_intro; [exact NL| |].
        + apply NoDup_flat; [eapply nodup_wraps; eauto|intros; apply cone_nodup|].
          intros a b m Ia Ib Ha Hb. apply (ucone_in n t) in Ha; auto. apply (ucone_in n t) in Hb; auto.
          destruct Ha as (Lm & _ & Ha). destruct Hb as (_ & _ & Hb). apply (nodup_lms_eq (wraps t)); auto; [apply J|].
          eapply (janet_unique n (lms (wraps t))); eauto. intros x Ix. eapply jinv_len; eauto.
        + intros m I1 I2. apply HL in I1. tauto.
      - intro m. rewrite in_app_iff, HL, HC, all_upto_in. destruct (in_dec (list_eq_dec Nat.eq_dec) m C) as [I|I].
        + assert (X := proj1 (HC m) I). tauto.
        + rewrite <- HC. tauto. }
    apply Permutation_length in P. unfold C in P. rewrite all_upto_len, app_length, flat_map_len in P. rewrite P. f_equal. f_equal.
    apply map_ext_in. intros u Iu. assert (O : okw n u) by (destruct J as [_ _ O _]; rewrite Forall_forall in O; auto). destruct O as (O1 & O2 & _).
    unfold ucone. rewrite cone_len by (unfold umask; rewrite map_length; lia). rewrite umask_true. reflexivity.
Qed.

Lemma sumq_perm a b : Permutation a b -> (sumq a == sumq b)%Q.
Proof.
  unfold sumq. induction 1; cbn [fold_right]; [reflexivity|rewrite IHPermutation; reflexivity| |rewrite IHPermutation1; exact IHPermutation2].
  ring.
Qed.
Lemma sumq_sumn (f : wrap -> Q) (g : wrap -> nat) l : (forall u, In u l -> (f u == inject_Z (Z.of_nat (g u)))%Q) ->
  (sumq (map f l) == inject_Z (Z.of_nat (sumn (map g l))))%Q.
Proof.
  induction l as [|u l IH]; intro H; cbn; [reflexivity|]. fold (sumq (map f l)). fold (sumn (map g l)).
  rewrite (H u (or_introl eq_refl)), IH by (intros; apply H; right; assumption). rewrite Nat2Z.inj_add, inject_Z_plus. reflexivity.
Qed.

Section S.
Variables (t : pos_order) (o : base_order) (n : nat).
Hypothesis Hn : 0 < n.
Let A : list term -> Prop := fun _ => True.

(** The loop is that of Janet::buildHP over the wraps of mT. *)
Lemma loop_list Ja T : tinv t o n A Ja T -> forall l, (forall e, In e l -> In e T) ->
  exists ws, map wlm ws = map fst l /\ (forall w, In w ws -> In w (wraps (jroot Ja))) /\
    forall h t, h <> [] -> (forall r h', hp_sub h r = Ok h' -> h' <> []) ->
      jp_hp_loop [Ja] l h t = do s <- build_list false ws (h, t); Ok (fst s).
Proof.
  intros H l. induction l as [|e l IH]; intro I.
  - exists []. split; [reflexivity|]. split; [intros w []|]. reflexivity.
  - destruct IH as (ws & E1 & E2 & E3); [intros; apply I; right; assumption|].
    destruct (get_wrap_ok t o n A Ja T e H (I e (or_introl eq_refl))) as (w & Ew & Iw & Em). exists (w :: ws). cbn [map]. rewrite Em, E1. split; [reflexivity|].
    split; [intros x [<-|X]; auto|]. intros h t' Nh Ns. cbn [jp_hp_loop build_list]. rewrite Ew. unfold build_one. rewrite Em.
    replace (match h with [] => _ | _ :: _ => Ok (h, t') end) with (@Ok (hp * hp) (h, t')) by (destruct h; [congruence|reflexivity]). cbn [bind].
    destruct (hp_binomial t' (Z.of_nat (multi w) - Z.of_nat (deg (fst e))) (multi w)) as [r| | | |]; cbn [bind]; auto.
    destruct (hp_sub h r) as [h1| | | |] eqn:E; cbn [bind]; auto. apply E3; [eapply Ns; exact E|].
    assert (N1 := Ns _ _ E). destruct h1 as [|x h1]; [congruence|]. intros r' h2 X. cbn in X. destruct r' as [|y r']; [discriminate|].
    destruct (hp_zip _ h1 r') ; cbn in X; try discriminate. injection X as <-. discriminate.
Qed.

Lemma build_hp_T Ja T dbg J : jone J = None -> jtrees J = Some [Ja] -> jpos J = (-1)%Z -> jt J = T -> T <> [] -> tinv t o n A Ja T ->
  exists h, jp_build_hp dbg J hp_none = Ok h /\ length h = S n /\ Forall lowest_terms h /\
    forall x, (peval h x == choose (x + inject_Z (Z.of_nat n)) n - sumq (map (uterm x) (wraps (jroot Ja))))%Q.
Proof.
  intros E1 E2 E3 E4 NT H. unfold jp_build_hp. rewrite E1, E2, E3, E4.
  destruct (loop_list Ja T H T (fun _ X => X)) as (ws & W1 & W2 & W3).
  assert (ND := tinv_nd t o n A Ja T H).
  assert (P : Permutation ws (wraps (jroot Ja))).
  { apply NoDup_Permutation_bis; [apply (NoDup_map_inv wlm); rewrite W1; exact ND| |exact W2].
    assert (X := Permutation_length (ti_perm _ _ _ _ _ _ H)). rewrite !map_length in X. apply (f_equal (@length _)) in W1. rewrite !map_length in W1. lia. }
  assert (O : Forall (okw n) (wraps (jroot Ja))) by apply (ti_inv _ _ _ _ _ _ H).
  assert (FM : Forall (fun u => multi u <= n) ws).
  { eapply Permutation_Forall; [apply Permutation_sym; exact P|]. eapply Forall_impl; [|exact O]. intros a (_ & L2 & _). unfold multi. rewrite <- L2. apply filter_le. }
  destruct T as [|e T']; [congruence|]. cbn [andb assert_]. unfold assert_. rewrite andb_false_r.
  assert (Sz : size (fst e) = n) by (destruct (tinv_len t o n A Ja (e :: T') e H (or_introl eq_refl)) as [X _]; exact X). rewrite Sz.
  unfold hp_setDim, assert_, hp_none. cbn [negb]. rewrite andb_false_r. cbn [bind].
  destruct (hp_binomial_ok (hp_new n) (Z.of_nat n) n) as (r & Er & Lr & Tr & Vr & _); [unfold hp_new; rewrite repeat_length; lia|].
  assert (Ln : length (hp_new n) = S n) by apply repeat_length. rewrite Ln in Lr. rewrite Er. cbn [bind].
  destruct (hp_mult_ok r (-1 + 2)) as (Lm & _ & Vm).
  assert (Nm : hp_mult r (-1 + 2) <> []) by (intro X; rewrite X in Lm; cbn in Lm; lia).
  rewrite W3.
  - destruct (build_list_ok false n ws (hp_mult r (-1 + 2)) (hp_new n)) as (h' & t' & E' & L' & T'' & V'); [lia|exact Ln|exact FM|].
    match goal with |- context [build_list false ws ?s] => replace (build_list false ws s) with (@Ok (hp * hp) (h', t')) by (symmetry; exact E') end.
    cbn [bind fst]. exists h'. split; [reflexivity|]. split; [exact L'|]. split.
    + apply T''. intro X. subst ws. discriminate.
    + intro x. rewrite V', Vm, Vr. rewrite (sumq_perm _ _ (Permutation_map (uterm x) P)). change (inject_Z (-1 + 2)) with 1%Q. ring.
  - exact Nm.
  - intros q h' X. destruct (hp_mult r (-1 + 2)) as [|a l]; [congruence|]. cbn in X. destruct q as [|y q]; [discriminate|].
    destruct (hp_zip _ l q); cbn in X; try discriminate. injection X as <-. discriminate.
Qed.

Hypothesis Ho : o <> OAlex.

Lemma c52_count dbg F J : jp_history false t o n F J -> jone J = None -> basis J <> [] ->
  exists h, jp_build_hp dbg J hp_none = Ok h /\ length h = S n /\ Forall lowest_terms h /\
    forall s, (forall g, In g (basis J) -> total (lead g) <= s) ->
      exists k, number_of n s (fun m => forall u, ~ janet_divides n (map lead (basis J)) u m) k /\
        (peval h (inject_Z (Z.of_nat s)) == inject_Z (Z.of_nat k))%Q.
Proof.
  intros H Eo NB. destruct (history_state t o n F J Hn Ho H) as (S0 & _).
  assert (S : jstate t o n A J) by (eapply jstate_G; [|exact S0]; intros; exact I).
  assert (EL := jstate_leads t o n A J S Eo). unfold basis in NB. rewrite Eo in NB.
  unfold jstate in S. rewrite Eo in S. destruct S as [_ [(D1 & D2 & D3)|(Ja & D1 & D2 & D3)]]; [rewrite D3 in NB; cbn in NB; congruence|].
  assert (NT : jt J <> []) by (intro X; rewrite X in NB; apply NB; reflexivity).
  destruct (build_hp_T Ja (jt J) dbg J Eo D1 D2 eq_refl NT D3) as (h & Eh & Lh & Th & V). exists h. split; [exact Eh|]. split; [exact Lh|]. split; [exact Th|].
  assert (P : Permutation (lms (wraps (jroot Ja))) (map lead (basis J))).
  { rewrite <- EL. assert (P := Permutation_map vars (ti_perm _ _ _ _ _ _ D3)). rewrite map_map in P. exact P. }
  intros s Hs. assert (Hs' : forall u, In u (wraps (jroot Ja)) -> total (lv u) <= s).
  { intros u Iu. assert (X : In (lv u) (map lead (basis J))) by (eapply Permutation_in; [exact P|apply in_map; exact Iu]).
    apply in_map_iff in X as (g & <- & Ig). apply Hs. exact Ig. }
  assert (Ji := ti_inv _ _ _ _ _ _ D3).
  destruct (count_cones n (jroot Ja) s Ji Hs') as (k & (L & L1 & L2 & L3) & C). exists k. split.
  - exists L. split; [exact L1|]. split; [exact L2|]. intro m. rewrite L3. split; intros (X & Y & Z); (split; [exact X|]; split; [exact Y|]); intros u D; apply (Z u); eapply perm_janet; try exact D; [apply Permutation_sym|]; exact P.
  - rewrite V. rewrite (sumq_sumn (uterm (inject_Z (Z.of_nat s))) (fun u => binom (s - total (lv u) + multi u) (multi u))).
    + rewrite <- inject_Z_plus, <- Nat2Z.inj_add, choose_binom. rewrite C, Nat2Z.inj_add, inject_Z_plus. ring.
    + intros u Iu. apply (uterm_binom n); [|apply Hs'; exact Iu]. assert (O : Forall (okw n) (wraps (jroot Ja))) by apply Ji. rewrite Forall_forall in O. apply O. exact Iu.
Qed.

Lemma shift_canonical u a : length u = n -> ring_poly a -> canonical t o n a -> canonical t o n (shift u a).
Proof.
  intros Lu Ra C. unfold ring_poly in Ra. apply canonical_iff in C as (S & M & Z). apply canonical_iff.
  assert (MS : monos n (shift u a)).
  { unfold monos, shift in *. apply Forall_map. apply Forall_forall. intros [x c] I. cbn [fst]. unfold monos in M. rewrite Forall_forall in M, Ra. destruct (M _ I) as [Lx Px]. cbn [fst] in *.
    split; [|exact Px]. unfold mprod. cbn [vars]. rewrite vsum_addv, addv_length; congruence. }
  split; [|split; [exact MS|]].
  - clear MS Z. induction a as [|[x c] a IH]; [constructor|]. cbn [shift map fst snd]. apply sorted_below in S as [S1 S2]. apply sorted_below. split.
    + unfold below in *. apply Forall_map. apply Forall_forall. intros [y d] Iy. cbn [fst]. change (Mon (-1) u) with (R u).
      unfold monos in M. rewrite Forall_forall in S1, M, Ra. rewrite (cmp1_shift t o n); auto.
      * apply (S1 _ Iy).
      * apply (M _ (or_introl eq_refl)).
      * apply (M _ (or_intror Iy)).
      * apply (Ra _ (or_introl eq_refl)).
      * apply (Ra _ (or_intror Iy)).
    + apply IH; [exact (Forall_inv_tail Ra)|exact S2|exact (Forall_inv_tail M)].
  - unfold nz, shift in *. apply Forall_map. eapply Forall_impl; [|exact Z]. intros [x c]; auto.
Qed.

(** Under the local test the irreducible monomials are those that lead no element of the ideal. *)
Lemma c52_ideal dbg F J : jp_history false t o n F J -> jq J = [] -> passes_local_test t o n J -> jone J = None -> basis J <> [] ->
  exists h, jp_build_hp dbg J hp_none = Ok h /\ length h = S n /\ Forall lowest_terms h /\
    forall s, (forall g, In g (basis J) -> total (lead g) <= s) ->
      exists k, number_of n s (fun m => ~ leading_in_ideal t o n F m) k /\
        (peval h (inject_Z (Z.of_nat s)) == inject_Z (Z.of_nat k))%Q.
Proof.
  intros H Q T Eo NB. destruct (c52_count dbg F J H Eo NB) as (h & Eh & Lh & Th & V). exists h. split; [exact Eh|]. split; [exact Lh|]. split; [exact Th|].
  intros s Hs. destruct (V s Hs) as (k & (L & L1 & L2 & L3) & E). exists k. split; [|exact E]. exists L. split; [exact L1|]. split; [exact L2|].
  intro m. rewrite L3. split; intros (X & Y & Z); (split; [exact X|]; split; [exact Y|]).
  - intros (f & Rf & Nf & Mf & El). destruct (c46_leading t o n Hn Ho F J f H Q T Rf Nf Mf) as (g & Ig & D). rewrite El in D. exact (Z _ D).
  - intros u D. apply Z. pose proof D as (Iu & Dd & _). apply in_map_iff in Iu as (g & <- & Ig).
    destruct (c39_members t o n F J g Hn Ho H Ig) as (Rg & Ng & Mg). set (v := subv m (lead g)).
    assert (Lg : length (lead g) = n).
    { unfold lead. destruct (terms g) as [|[y c] l] eqn:Eg; [congruence|]. assert (X' := ring_input_monos t o n g Rg). rewrite Eg in X'. apply (Forall_inv X'). }
    assert (Lv : length v = n) by (unfold v; rewrite subv_length; lia).
    exists (Poly t o n (shift v (terms g))). destruct Rg as (V1 & V2 & V3 & V4 & V5). unfold valid_poly in V1. rewrite V2, V3, V4 in V1.
    split; [split; [apply shift_canonical; assumption|split; [reflexivity|split; [reflexivity|split; [reflexivity|apply ring_shift; exact V5]]]]|].
    cbn [terms]. split; [destruct (terms g); [congruence|discriminate]|]. split; [apply mem_shift; assumption|].
    unfold lead in *. cbn [terms]. destruct (terms g) as [|[y c] l]; [congruence|]. cbn [shift map fst mprod vars]. rewrite vsum_addv.
    symmetry. apply (divides_split n); assumption.
Qed.
End S.
