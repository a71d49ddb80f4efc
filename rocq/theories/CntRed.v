(** reduction(): if algorithmTQ counts nothing, then nothing was reduced. *)
From Coq Require Import ZArith List Bool Arith Lia Permutation.
From Verif Require Import Outcome MonomModel MonomSpec JanetModel PolyModel PolySpec JanetPolyModel TQModel JanetPolySpec JanetPolyProofs AncProofs CntModel CntSpec CntProofs CntTop.
Import ListNotations.
Local Open Scope Z_scope.

Lemma nf_loop_0 dbg find : forall fuel r p p' r', nf_loop fuel dbg find r p = Ok (p', r') -> (r <= r')%nat /\ (r' = r -> p' = p).
Proof.
  induction fuel as [|fuel IH]; intros r p p' r' E; cbn [nf_loop] in E; (destruct (terms p) as [|[m z] l]; [injection E as <- <-; auto|]); bnd E; destruct v; try discriminate.
  1,3: injection E as <- <-; auto.
  bnd E. apply IH in E as [A _]. split; [lia|]. intro X. lia.
Qed.
Lemma nft_loop_0 dbg find p : forall fuel r pre rest p' r', nft_loop fuel dbg find r p pre rest = Ok (p', r') -> (r <= r')%nat /\ (r' = r -> p' = with_terms p (pre ++ rest)).
Proof.
  induction fuel as [|fuel IH]; intros r pre rest p' r' E; cbn [nft_loop] in E.
  { destruct rest as [|[m z] l]; [injection E as <- <-; rewrite app_nil_r; auto|discriminate]. }
  destruct rest as [|[m z] l]; [injection E as <- <-; rewrite app_nil_r; auto|]. bnd E. destruct v.
  - bnd E. destruct v as [pre' rest']. apply IH in E as [A _]. split; [lia|]. intro X. lia.
  - apply IH in E as [A B]. split; [exact A|]. intro X. rewrite (B X), <- app_assoc. reflexivity.
Qed.
Lemma nfTail_0 dbg find fuel p p' : p_nfTail fuel dbg find p = Ok (p', 0%nat) -> terms p' = terms p.
Proof.
  unfold p_nfTail. destruct (terms p) as [|x l] eqn:E; [intro X; injection X as <-; exact E|]. intro X. apply nft_loop_0 in X as [_ X]. rewrite X by reflexivity. reflexivity.
Qed.

Section P.
Variable M : list term -> Prop.
Hypothesis Mv : forall k l, M l -> M (map (fun x => (mul_var k (fst x), snd x)) l).
Notation MW := (Forall (fun u => M (terms (wpol u)))).
Notation ME := (Forall (fun e : entry => M (terms (snd e)))).

Lemma mul_var_terms dbg k p p' : p_mul_var dbg k p = Ok p' -> terms p' = map (fun x => (mul_var k (fst x), snd x)) (terms p).
Proof. unfold p_mul_var, checked. intro E. match type of E with (if ?b then _ else _) = _ => destruct b; [|try discriminate] | _ => idtac end; try (apply assert_inv in E); injection E as <-; reflexivity. Qed.

Lemma k_prolong_M dbg mpos p : M (terms p) -> forall cnt k js w q c r, MW q -> k_prolong dbg mpos cnt k js w p q c = Ok r -> MW (snd (fst r)).
Proof.
  intro Mp. induction cnt as [|cnt IH]; intros k js w q c r Q E; cbn [k_prolong] in E; [injection E as <-; exact Q|]. bnd E. bnd E. destruct (v && negb v0); [|eapply IH; eassumption].
  cbv zeta in E. bnd E.
  match type of E with (if ?b then _ else _) = _ => destruct b end; [bnd E; eapply IH; eassumption|].
  match type of E with (if ?b then _ else _) = _ => destruct b end; [bnd E; eapply IH; eassumption|].
  bnd E. destruct v2 as [nw w']. bnd E. bnd E. apply jp_insert_perm in Ev4. apply mul_var_terms in Ev3. eapply IH; [|exact E].
  eapply Permutation_Forall; [apply Permutation_sym; exact Ev4|]. constructor; [|exact Q]. cbn [wpol]. rewrite Ev3. apply Mv. exact Mp.
Qed.
Lemma k_prolong_if_M dbg mpos dg js e q c r : M (terms (snd e)) -> MW q -> k_prolong_if dbg mpos dg js e q c = Ok r -> MW (snd (fst r)).
Proof.
  intros Me Q. unfold k_prolong_if. destruct (deg (fst e) <=? dg)%nat; [|intro E; injection E as <-; exact Q]. destruct (get_wrap js (fst e)); [|discriminate]. apply k_prolong_M; assumption.
Qed.
Lemma red0 (k : nat) c : n_red (if (k =? 0)%nat then c else add_red k c) = 0%nat -> k = 0%nat /\ n_red c = 0%nat.
Proof. destruct (Nat.eqb_spec k 0) as [->|N]; [auto|]. cbn [add_red n_red]. lia. Qed.
Lemma nl0 c c' : no_less c c' -> n_red c' = 0%nat -> n_red c = 0%nat.
Proof. unfold no_less. lia. Qed.
Lemma k_tail_reduce_M fuel dbg mpos js others e c r : M (terms (snd e)) -> k_tail_reduce fuel dbg mpos js others e c = Ok r -> n_red (snd r) = 0%nat -> M (terms (snd (fst r))).
Proof.
  intros Me E Z. unfold k_tail_reduce in E. bnd E. destruct v as [p k]. bnd E. injection E as <-. cbn [fst snd] in *. apply red0 in Z as [-> _]. cbn in Ev0. injection Ev0 as <-.
  apply nfTail_0 in Ev. rewrite Ev. exact Me.
Qed.
Lemma k_take_M one fuel dbg find dg : forall q tmp c q1 tmp1 c1, MW q -> MW tmp -> k_take one fuel dbg find dg q tmp c = Ok (Some (q1, tmp1), c1) -> n_red c1 = 0%nat -> MW q1 /\ MW tmp1.
Proof.
  induction q as [|u q IH]; intros tmp c q1 tmp1 c1 Q Tm E Z; cbn [k_take] in E; [injection E as <- <- _; auto|]. bnd E. destruct (deg v <=? dg)%nat; [|injection E as <- <- _; auto].
  bnd E. destruct v0 as [p k]. assert (Q' := Forall_inv_tail Q). destruct (is_zero p); [eapply IH; [exact Q'|exact Tm|exact E|exact Z]|]. bnd E. destruct (deg v0 =? 0)%nat; [discriminate|].
  bnd E. bnd E. assert (Z0 : k = 0%nat).
  { assert (S := k_take_st _ _ _ _ _ _ _ _ _ E). destruct S as [S _]. apply nl0 in S; [|exact Z]. apply red0 in S. apply S. }
  subst k. cbn in Ev2. injection Ev2 as <-. apply nf_loop_0 in Ev0 as [_ Ep]. specialize (Ep eq_refl). subst p. apply jp_insert_perm in Ev3.
  eapply IH; [exact Q'| |exact E|exact Z]. eapply Permutation_Forall; [apply Permutation_sym; exact Ev3|]. constructor; [exact (Forall_inv Q)|exact Tm].
Qed.
Lemma Forall_snoc {A} (P : A -> Prop) l x : Forall P l -> P x -> Forall P (l ++ [x]).
Proof. intros. apply Forall_app. split; [assumption|constructor; [assumption|constructor]]. Qed.
Definition mo (w : option entry) : Prop := match w with Some e => M (terms (snd e)) | None => True end.
Lemma k_walk_M fuel dbg mpos dg : forall cnt js q d w k c js' q' T' c', MW q -> ME d -> mo w -> ME k -> k_walk cnt fuel dbg mpos dg js q d w k c = Ok (js', q', T', c') -> n_red c' = 0%nat -> MW q' /\ ME T'.
Proof.
  induction cnt as [|cnt IH]; intros js q d w k c js' q' T' c' Q D W K E Z; cbn [k_walk] in E.
  { destruct w; [discriminate|destruct k; [|discriminate]]. injection E as <- <- <- <-. auto. }
  cbv zeta in E.
  assert (Redu : forall e w' k', M (terms (snd e)) -> mo w' -> ME k' ->
    (do e' <- k_tail_reduce fuel dbg mpos js (d ++ match w' with Some x => [x] | None => [] end ++ k') e c;
     do r <- k_prolong_if dbg mpos dg js (fst e') q (snd e');
     k_walk cnt fuel dbg mpos dg (fst (fst r)) (snd (fst r)) (d ++ [fst e']) w' k' (snd r)) = Ok (js', q', T', c') -> MW q' /\ ME T').
  { intros e w' k' Me W' K' X. bnd X. bnd X. assert (S1 := k_walk_st _ _ _ _ _ _ _ _ _ _ _ _ X). destruct S1 as [S1 _]. apply nl0 in S1; [|exact Z].
    assert (S2 := k_prolong_if_st _ _ _ _ _ _ _ _ Ev0). destruct S2 as [S2 _]. apply nl0 in S2; [|exact S1].
    assert (M1 := k_tail_reduce_M _ _ _ _ _ _ _ _ Me Ev S2). assert (M2 := k_prolong_if_M _ _ _ _ _ _ _ _ M1 Q Ev0).
    eapply IH; [exact M2|apply Forall_snoc; [exact D|exact M1]|exact W'|exact K'|exact X|exact Z]. }
  destruct w as [e|], k as [|e' k].
  - eapply (Redu e None); [exact W|exact Logic.I|constructor|exact E].
  - bnd E. destruct (v <? 0); [eapply (Redu e None); [exact W|exact Logic.I|exact K|exact E]|eapply (Redu e' (Some e)); [exact (Forall_inv K)|exact W|exact (Forall_inv_tail K)|exact E]].
  - injection E as <- <- <- <-. auto.
  - eapply (Redu e' None); [exact (Forall_inv K)|exact Logic.I|exact (Forall_inv_tail K)|exact E].
Qed.
Lemma k_tq_M dbg mpos : forall fuel js q T c s, MW q -> ME T -> k_tq_loop false fuel dbg mpos js q T c = Ok s -> n_red (snd s) = 0%nat -> jone (fst s) = None -> MW (jq (fst s)) /\ ME (jt (fst s)).
Proof.
  induction fuel as [|fuel IH]; intros js q T c s Q K E Z O; destruct q as [|u q]; cbn [k_tq_loop] in E; try discriminate.
  1,2: injection E as <-; auto.
  cbv zeta in E. bnd E. bnd E. destruct v0 as [[[q1 tmp]|] c1].
  2:{ bnd E. injection E as <-. unfold set_one in Ev1. bnd Ev1. bnd Ev1. injection Ev1 as <-. discriminate. }
  apply assert_inv in E. destruct tmp as [|w0 tmp].
  { assert (S := k_tq_loop_st _ _ _ _ _ _ _ _ _ E). destruct S as [S _]. apply nl0 in S; [|exact Z].
    apply k_take_M in Ev0 as [A _]; [|exact Q|constructor|exact S]. eapply IH; eassumption. }
  bnd E. bnd E. destruct v1 as [eqs rest]. apply same_lm_app in Ev2. cbn [bind fst snd andb] in E. subst tmp.
  assert (Sm := swap_min_perm eqs w0). destruct (swap_min w0 eqs) as [w eqs2]. apply assert_inv in E. bnd E. destruct v1 as [js2 w']. bnd E. destruct v1 as [[[js3 q3] t3] c4]. bnd E. apply assert_inv in E.
  assert (S := k_tq_loop_st _ _ _ _ _ _ _ _ _ E). destruct S as [S _]. apply nl0 in S; [|exact Z].
  assert (S1 : n_red c1 = 0%nat).
  { assert (X : no_less c1 (max_equal (Datatypes.S (length eqs)) c1)) by apply nl_max. eapply nl0; [exact X|]. destruct T; [injection Ev3 as _ _ _ <-; exact S|].
    assert (Y := k_walk_st _ _ _ _ _ _ _ _ _ _ _ _ Ev3). destruct Y as [Y _]. eapply nl0; [exact Y|exact S]. }
  apply k_take_M in Ev0 as [A B]; [|exact Q|constructor|exact S1].
  assert (B' : MW (w :: eqs2 ++ rest)).
  { change (w :: eqs2 ++ rest) with ((w :: eqs2) ++ rest). apply Forall_app. change (w0 :: eqs ++ rest) with ((w0 :: eqs) ++ rest) in B. apply Forall_app in B as [B1 B2]. split; [|exact B2].
    eapply Permutation_Forall; [apply Permutation_sym; exact Sm|exact B1]. }
  assert (Q2 : MW ((eqs2 ++ rest) ++ q1)) by (apply Forall_app; split; [exact (Forall_inv_tail B')|exact A]).
  assert (X : MW q3 /\ ME t3).
  { destruct T as [|e0 T]; [injection Ev3 as <- <- <- <-; split; [exact Q2|constructor; [exact (Forall_inv B')|constructor]]|].
    eapply k_walk_M; [| | | |exact Ev3|exact S]; [exact Q2|constructor|exact (Forall_inv B')|exact K]. }
  destruct X as [X1 X2]. eapply IH; eassumption.
Qed.
End P.

Section H.
Variables (t : pos_order) (o : base_order) (n : nat).

Definition mult (F : list poly) (l : list term) : Prop :=
  exists f e, In f F /\ ring_input t o n f /\ length e = n /\ l = map (fun x => (Mon (pos (fst x)) (addv e (vars (fst x))), snd x)) (terms f).
Lemma incr_addv : forall e v k, incr k (addv e v) = addv (incr k e) v.
Proof. induction e as [|x e IH]; intros [|y v] [|k]; cbn [addv incr]; try reflexivity. f_equal. apply IH. Qed.
Lemma mult_var F k l : mult F l -> mult F (map (fun x => (mul_var k (fst x), snd x)) l).
Proof.
  intros (f & e & I & R & Le & ->). exists f, (incr k e). split; [exact I|]. split; [exact R|]. split; [rewrite incr_len; exact Le|]. rewrite map_map. apply map_ext. intros [m z]. unfold mul_var. cbn [fst snd pos vars]. rewrite incr_addv. reflexivity.
Qed.
Lemma mult_more F a l : mult F l -> mult (a :: F) l.
Proof. intros (f & e & I & X). exists f, e. split; [right; exact I|exact X]. Qed.
Lemma addv_0 v : addv (repeat 0%nat (length v)) v = v.
Proof. induction v; cbn [length repeat addv]; [reflexivity|]. f_equal. exact IHv. Qed.
Lemma mult_new F a : ring_input t o n a -> mult (a :: F) (terms a).
Proof.
  intro R. exists a, (repeat 0%nat n). split; [left; reflexivity|]. split; [exact R|]. split; [apply repeat_length|]. rewrite <- (map_id (terms a)) at 1. apply map_ext_in. intros [m z] I. cbn [fst snd].
  assert (L : length (vars m) = n).
  { destruct R as (V & E & _). unfold valid_poly, canonical in V. rewrite E in V. destruct V as (_ & V & _). rewrite Forall_forall in V. apply (V (m, z) I). }
  rewrite <- L, addv_0. destruct m; reflexivity.
Qed.

Theorem c88_reduction F s : k_history t o n (eq ATQ) F s -> n_red (snd s) = 0%nat ->
  forall p, In p (basis (fst s)) -> jone (fst s) = None -> exists f, In f F /\ monomial_multiple n f p.
Proof.
  intros H Z p Ip O.
  assert (G : Forall (fun u => mult F (terms (wpol u))) (jq (fst s)) /\ Forall (fun e => mult F (terms (snd e))) (jt (fst s))).
  { clear p Ip. induction H as [|F s a s' H IH R E|F s x fuel s' H IH Ax E].
    - split; constructor.
    - unfold k_push in E. bnd E. injection E as <-. cbn [fst snd] in *. unfold jp_push, assert_ in Ev. cbn [andb] in Ev.
      destruct (jone (fst s)) as [w|] eqn:Eo; [injection Ev as <-; congruence|]. destruct (IH Z eq_refl) as [I1 I2].
      assert (J1 : Forall (fun u => mult (a :: F) (terms (wpol u))) (jq (fst s))) by (eapply Forall_impl; [|exact I1]; intros; apply mult_more; assumption).
      assert (J2 : Forall (fun e : entry => mult (a :: F) (terms (snd e))) (jt (fst s))) by (eapply Forall_impl; [|exact I2]; intros; apply mult_more; assumption).
      destruct (is_zero a); [injection Ev as <-; auto|]. bnd Ev. bnd Ev. bnd Ev. injection Ev as <-. cbn [jq jt]. split; [|exact J2]. apply jp_insert_perm in Ev2.
      eapply Permutation_Forall; [apply Permutation_sym; exact Ev2|]. constructor; [|exact J1]. cbn [wpol]. unfold p_copy, checked in Ev1. rewrite map_id in Ev1.
      assert (X : terms v1 = terms a) by (match type of Ev1 with (if ?b then _ else _) = _ => destruct b; [|try discriminate] | _ => idtac end; try (apply assert_inv in Ev1); injection Ev1 as <-; reflexivity).
      rewrite X. apply mult_new. exact R.
    - subst x. assert (Z0 := nl0 _ _ (k_run_more _ _ _ _ _ E) Z). cbn [k_run] in E. unfold k_tq in E. destruct (jone (fst s)) as [w|] eqn:Eo; [injection E as <-; congruence|]. cbv zeta in E.
      destruct (IH Z0 eq_refl) as [I1 I2]. rewrite set_pos_t in E. assert (Eq : jq (set_pos (fst s)) = jq (fst s)) by (unfold set_pos; destruct (_ <? _); reflexivity). rewrite Eq in E.
      destruct (jtrees (set_pos (fst s))).
      + eapply k_tq_M; [intros k l0; apply mult_var|exact I1|exact I2|exact E|exact Z|exact O].
      + destruct (jq (fst s)) eqn:Ej; [injection E as <-; cbn [fst snd] in *; rewrite Eq, set_pos_t; auto|discriminate]. }
  destruct G as [_ G]. unfold basis in Ip. rewrite O in Ip. apply in_map_iff in Ip as (e & <- & Ie). rewrite Forall_forall in G. destruct (G e Ie) as (f & v & If & _ & Lv & Et).
  exists f. split; [exact If|]. exists v. auto.
Qed.
End H.
