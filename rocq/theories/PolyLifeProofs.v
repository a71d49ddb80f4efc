From Coq Require Import ZArith List Bool Arith Lia.
From Verif Require Import Outcome MonomModel MonomSpec PolyModel PolySpec PolyMemModel PolyMemSpec PolyMemProofs PolyLifeModel PolyLifeSpec PolyTopProofs.
Import ListNotations.
Local Open Scope Z_scope.

Lemma checked_ok dbg p r : checked dbg p = Ok r -> r = p.
Proof. unfold checked, assert_. destruct (dbg && _); [discriminate|]. intro H. injection H as <-. reflexivity. Qed.

Lemma p_mult_ok dbg p a r : p_mult dbg p a = Ok r ->
  res (mult_mem (pto p) (pbo p) (terms p) (terms a)) = terms r /\ pto r = pto p /\ pbo r = pbo p.
Proof.
  unfold p_mult, assert_. destruct (dbg && negb (comparable p a)); [discriminate|].
  destruct (mult_terms dbg (pto p) (pbo p) (terms p) (terms a)) as [l| | | |] eqn:E; cbn [bind]; try discriminate.
  intro H. apply checked_ok in H. subst r. cbn [terms with_terms pto pbo]. split; [|split; reflexivity].
  exact (mult_mem_res dbg _ _ _ _ _ E).
Qed.

Lemma mult_mem_one t o x a : (length x <= 1)%nat -> length a = 1%nat -> (length (res (mult_mem t o x a)) <= 1)%nat.
Proof.
  destruct x as [|[m c] [|y x]]; destruct a as [|[n d] [|b a]]; cbn [length]; intros Hx Ha; try lia; cbn [mult_mem clear_mem res map length]; lia.
Qed.

Lemma pow_loop_ok dbg p : forall k tmp r acc, pow_loop dbg k tmp p = Ok r -> res acc = terms tmp -> pto tmp = pto p -> pbo tmp = pbo p ->
  (length (terms p) = 1%nat -> (length (terms tmp) <= 1)%nat) ->
  taken acc = (length (res acc) + given acc)%nat ->
  let s := pow_loop_mem (pto p) (pbo p) k acc (terms p) in
  res s = terms r /\ taken s = (length (res s) + given s)%nat.
Proof.
  induction k as [|k IH]; intros tmp r acc E R Ht Ho L B; cbn [pow_loop pow_loop_mem] in *.
  - injection E as <-. auto.
  - destruct (p_mult dbg tmp p) as [tmp'| | | |] eqn:M; cbn [bind] in E; try discriminate.
    destruct (p_mult_ok _ _ _ _ M) as (R' & T' & O'). rewrite Ht, Ho in R'. rewrite <- R in R'.
    cbn zeta. apply (IH tmp' r _ E); cbn [res taken given].
    + exact R'.
    + congruence.
    + congruence.
    + intro One. rewrite <- R'. apply mult_mem_one; [rewrite R; exact (L One)|exact One].
    + assert (N : ~ (length (terms p) = 1%nat /\ (1 < length (res acc))%nat)) by (intros [One G]; specialize (L One); rewrite R in G; lia).
      pose proof (mult_mem_ok (pto p) (pbo p) (res acc) (terms p) N) as Q. lia.
Qed.

Lemma c42_pow dbg p k r : p_pow dbg p k = Ok r ->
  let c := pow_mem (pto p) (pbo p) (terms p) k in
  res c = terms r /\ (length (terms p) + taken c = length (terms r) + given c)%nat.
Proof.
  destruct k as [|[|k]]; unfold p_pow, pow_mem.
  - intro H. injection H as <-. cbn. split; [reflexivity|lia].
  - intro H. injection H as <-. cbn. split; [reflexivity|lia].
  - intro H. destruct (p_copy dbg p) as [tmp| | | |] eqn:C; cbn [bind] in H; try discriminate.
    unfold p_copy in C. apply checked_ok in C. rewrite map_id in C. subst tmp.
    assert (Q := pow_loop_ok dbg p (Datatypes.S k) _ r (new_mem (terms p)) H eq_refl eq_refl eq_refl).
    cbn [terms with_terms] in Q. specialize (Q (fun e => Nat.eq_le_incl _ _ e)).
    unfold new_mem in Q at 1 2 3. cbn [res taken given] in Q. specialize (Q ltac:(lia)). cbn zeta in Q |- *. destruct Q as [Q1 Q2].
    cbn [res taken given clear_mem]. split; [exact Q1|]. rewrite <- Q1. lia.
Qed.

Lemma c42_new dbg c r : obj_new dbg c r -> res c = terms r /\ taken c = (length (terms r) + given c)%nat.
Proof.
  intros [t o n|t o n z r' E|t o m r' E|a r' E|k a r' E]; cbn [new_mem res taken given].
  - split; reflexivity.
  - apply checked_ok in E. subst. cbn. split; reflexivity.
  - apply checked_ok in E. subst. cbn. split; reflexivity.
  - unfold p_copy in E. apply checked_ok in E. subst. rewrite map_id. cbn [terms with_terms]. split; [reflexivity|lia].
  - apply checked_ok in E. subst. cbn [terms with_terms]. split; [reflexivity|lia].
Qed.

Lemma div_terms_length dbg g : forall l r, div_terms dbg g l = Ok r -> length r = length l.
Proof.
  induction l as [|[m c] l IH]; intros r H; cbn [div_terms] in H; [injection H as <-; reflexivity|].
  destruct (int_div dbg c g); cbn [bind] in H; try discriminate.
  destruct (div_terms dbg g l) as [x| | | |] eqn:D; cbn [bind] in H; try discriminate.
  injection H as <-. cbn [length]. rewrite (IH x eq_refl). reflexivity.
Qed.
Lemma p_pp_length dbg p r : p_pp dbg p = Ok r -> length (terms r) = length (terms p).
Proof.
  unfold p_pp. destruct (terms p) as [|[m c] l] eqn:T; [intro H; injection H as <-; rewrite T; reflexivity|].
  destruct (Z.abs c =? 1); [intro H; injection H as <-; rewrite T; reflexivity|].
  destruct (gcd_loop dbg c l) as [[g|]| | | |]; cbn [bind]; try discriminate; [|intro H; injection H as <-; rewrite T; reflexivity].
  destruct (div_terms dbg g ((m, c) :: l)) as [x| | | |] eqn:D; cbn [bind]; try discriminate.
  destruct (p_isPp dbg (with_terms p x)); cbn [bind]; try discriminate.
  unfold assert_. destruct (dbg && _); [discriminate|]. intro H. injection H as <-. exact (div_terms_length _ _ _ _ D).
Qed.

Lemma c42_obj_call dbg p c y r : obj_call dbg p c y r ->
  res c = terms r /\ (length (terms p) + taken c = length (terms r) + given c + y)%nat.
Proof.
  intros [c' r' H|r' H|r' H|k r' H| |a r' H One G].
  - apply c42_call in H as [R L]. split; [exact R|lia].
  - unfold p_minus in H. apply checked_ok in H. subst. cbn. unfold neg_terms. rewrite map_length. split; [reflexivity|lia].
  - cbn. rewrite (p_pp_length _ _ _ H). split; [reflexivity|lia].
  - apply c42_pow in H as [R L]. split; [exact R|lia].
  - cbn. split; [reflexivity|lia].
  - apply p_mult_ok in H as (R & _ & _). split; [exact R|]. rewrite <- R. apply mult_mem_leak; assumption.
Qed.
Lemma c42_obj_life dbg k g x r : obj_life dbg k g x r -> k = (g + given (clear_mem (terms r)) + x)%nat.
Proof.
  cbn [clear_mem given]. induction 1 as [c r N|k g x p c y r _ IH C].
  - apply c42_new in N as [_ N]. lia.
  - apply c42_obj_call in C as [_ C]. lia.
Qed.
