(** Completion of monomial sets: the invariant shared by MCompletion (lex) and MJanet. *)
From Coq Require Import ZArith List Bool Arith Lia Permutation.
From Verif Require Import Outcome MonomModel MonomSpec MonomProofs JanetModel JanetSpec JanetProofs
  JanetInsProofs JanetFindProofs CompletionModel.
Import ListNotations.
Local Open Scope nat_scope.
Local Arguments Nat.ltb : simpl never.
Local Arguments Nat.leb : simpl never.
Local Arguments Nat.eqb : simpl never.
Local Arguments skipn : simpl never.
Local Arguments firstn : simpl never.

Definition bld (u : wrap) (k : nat) : bool := nth k (wbuild u) false.
Definition cntb (u : wrap) : nat := length (filter (fun b => b) (wbuild u)).
Definition sumb (l : list wrap) : nat := fold_right (fun u s => cntb u + s) 0 l.

(* ---------------- Janet division facts ---------------- *)

Lemma incr_expo' k v i : k < length v ->
  expo (incr k v) i = if Nat.eqb i k then S (expo v i) else expo v i.
Proof.
  intros H. rewrite incr_expo. destruct (Nat.ltb_spec k (length v)); [|lia]. now rewrite andb_true_r.
Qed.

Lemma lex_gt_irrefl u : ~ lex_gt u u.
Proof. intros (k & _ & _ & H). lia. Qed.

(** A Janet divisor of a non-multiplicative prolongation u*x_k is lex-larger than u. *)
Lemma divisor_lex_larger n U u k d :
  (forall x, In x U -> length x = n) -> In u U -> k < n -> janet_nm U u k ->
  janet_divides n U d (incr k u) -> lex_gt d u.
Proof.
  intros L Iu Hk NM (Id & D & M).
  assert (EX : forall i, expo (incr k u) i = if Nat.eqb i k then S (expo u i) else expo u i).
  { intros i. apply incr_expo'. rewrite L; auto. }
  (* first difference of d and u *)
  assert (FD : (forall i, i < n -> expo d i = expo u i) \/
               exists i, i < n /\ (forall j, j < i -> expo d j = expo u j) /\ expo d i <> expo u i).
  { assert (G : forall b, b <= n -> (forall i, i < b -> expo d i = expo u i) \/
               exists i, i < b /\ (forall j, j < i -> expo d j = expo u j) /\ expo d i <> expo u i).
    { induction b as [|b IH]; intros Hb; [left; intros; lia|].
      destruct (IH ltac:(lia)) as [A|(i & Hi & A & B)].
      - destruct (Nat.eq_dec (expo d b) (expo u b)) as [E|E].
        + left. intros i Hi. destruct (Nat.eq_dec i b) as [->|]; [auto|apply A; lia].
        + right. exists b. auto.
      - right. exists i. auto with arith. }
    apply (G n). lia. }
  assert (NMk : forall i, i <= k -> (forall j, j < i -> expo d j = expo u j) -> expo d i < expo u i -> i < n -> False).
  { intros i Hi A B Hn. apply (M i Hn).
    - rewrite EX. destruct (Nat.eqb i k); lia.
    - exists u. repeat split; auto. intros j Hj. symmetry. auto. }
  destruct FD as [A|(i & Hi & A & B)].
  - exfalso. apply (M k Hk).
    + rewrite EX, Nat.eqb_refl, A by auto. lia.
    + destruct NM as (w & Iw & W1 & W2). exists w. repeat split; auto.
      * intros j Hj. rewrite W1 by auto. rewrite A by lia. auto.
      * rewrite A by auto. auto.
  - destruct (Nat.lt_trichotomy i k) as [Hlt|[->|Hgt]].
    + exfalso. apply (NMk i); auto; try lia. specialize (D i Hi). rewrite EX in D.
      destruct (Nat.eqb_spec i k); lia.
    + destruct (Nat.lt_ge_cases (expo d k) (expo u k)); [exfalso; apply (NMk k); auto|].
      exists k. rewrite L by auto. repeat split; auto. lia.
    + exfalso. apply (M k Hk).
      * rewrite EX, Nat.eqb_refl, A by auto. lia.
      * destruct NM as (w & Iw & W1 & W2). exists w. repeat split; auto.
        -- intros j Hj. rewrite W1 by auto. rewrite A by lia. auto.
        -- rewrite A by auto. auto.
Qed.

Lemma lex_gt_lexv u v : length u = length v -> (lex_gt u v <-> lexv u v = 1%Z).
Proof. intros L. symmetry. apply lexv_spec. auto. Qed.

Lemma lex_gt_trans n u v w : length u = n -> length v = n -> length w = n ->
  lex_gt u v -> lex_gt v w -> lex_gt u w.
Proof.
  intros Lu Lv Lw. rewrite !lex_gt_lexv by congruence. intros A B.
  eapply lexv_trans; [| |exact A|exact B]; congruence.
Qed.

Lemma divides_dec n u m : {divides n u m} + {~ divides n u m}.
Proof.
  induction n as [|n IH]; [left; intros i Hi; lia|].
  destruct IH as [A|A].
  - destruct (le_dec (expo u n) (expo m n)) as [B|B].
    + left. intros i Hi. destruct (Nat.eq_dec i n) as [->|]; [auto|apply A; lia].
    + right. intros K. apply B, K. lia.
  - right. intros K. apply A. intros i Hi. apply K. lia.
Qed.

(** Among the divisors of m in U there is a lex-maximal one. *)
Lemma lex_max_divisor n (U : list (list nat)) m :
  (forall x, In x U -> length x = n) -> (exists u, In u U /\ divides n u m) ->
  exists u, In u U /\ divides n u m /\ forall v, In v U -> divides n v m -> ~ lex_gt v u.
Proof.
  intros L E.
  assert (G : (forall u, In u U -> ~ divides n u m) \/
     exists u, In u U /\ divides n u m /\ forall v, In v U -> divides n v m -> ~ lex_gt v u).
  { clear E. induction U as [|a U IH]; [left; intros u []|].
    assert (LU : forall x, In x U -> length x = n) by (intros; apply L; cbn; auto).
    destruct (IH LU) as [N|(v & Iv & Dv & Mv)]; destruct (divides_dec n a m) as [Da|Da].
    - right. exists a. split; [cbn; auto|]. split; [auto|].
      intros w [<-|Iw] Dw; [apply lex_gt_irrefl|exfalso; eapply N; eauto].
    - left. intros u [<-|Iu]; auto.
    - right. assert (La : length a = n) by (apply L; cbn; auto). assert (Lv : length v = n) by auto.
      destruct (Z.eq_dec (lexv a v) 1) as [E|E].
      + assert (Hav : lex_gt a v) by (apply lex_gt_lexv; [congruence|auto]).
        exists a. split; [cbn; auto|]. split; [auto|]. intros w [<-|Iw] Dw Hw; [eapply lex_gt_irrefl; eauto|].
        apply (Mv w Iw Dw). exact (lex_gt_trans n w a v (LU w Iw) La Lv Hw Hav).
      + exists v. split; [cbn; auto|]. split; [auto|]. intros w [<-|Iw] Dw Hw; [|apply (Mv w Iw Dw Hw)].
        apply E. apply lex_gt_lexv; [congruence|auto].
    - right. exists v. split; [cbn; auto|]. split; [auto|]. intros w [<-|Iw] Dw; [tauto|auto]. }
  destruct G as [N|G]; auto. destruct E as (u & Iu & Du). exfalso. eapply N; eauto.
Qed.

Lemma incr_divides n k u m : length u = n -> k < n -> divides n u m -> expo u k < expo m k -> divides n (incr k u) m.
Proof.
  intros L Hk D H i Hi. rewrite incr_expo' by lia. destruct (Nat.eqb_spec i k) as [->|]; [lia|].
  specialize (D i Hi). lia.
Qed.

(* ---------------- the invariant ---------------- *)
Record cinv (n : nat) (F : list (list nat)) (p : Z) (l : list wrap) : Prop := {
  ci_ok : Forall (okw n) l;
  ci_nd : NoDup (lms l);
  ci_fl : forall u i, In u l -> i < n -> (fl u i = true <-> janet_nm (lms l) (lv u) i);
  ci_in : incl F (lms l);
  ci_id : forall x, In x (lms l) -> in_ideal n F x;
  ci_box : forall B, (forall f, In f F -> divides n f B) -> forall x, In x (lms l) -> divides n x B;
  ci_pos : forall u, In u l -> pos (wlm u) = p }.

Definition qinv (n : nat) (p : Z) (l : list wrap) (w : wrap) : Prop :=
  okw n w /\ (forall i, i < n -> fl w i = false) /\ cntb w = 0 /\ pos (wlm w) = p /\
  exists u k, In u (lms l) /\ k < n /\ janet_nm (lms l) u k /\ lv w = incr k u.

Definition settled (n : nat) (l : list wrap) (u : list nat) (k : nat) : Prop :=
  exists d, In d (lms l) /\ divides n d (incr k u) /\ lex_gt d u.

Definition handled (n : nat) (l q : list wrap) : Prop :=
  forall u k, In u l -> k < n -> bld u k = true ->
    janet_nm (lms l) (lv u) k /\
    ((exists w, In w q /\ lv w = incr k (lv u)) \/ settled n l (lv u) k).

Lemma cinv_len n F p l x : cinv n F p l -> In x (lms l) -> length x = n.
Proof.
  intros C I. apply in_map_iff in I as (u & <- & Iu). pose proof (ci_ok _ _ _ _ C) as O.
  rewrite Forall_forall in O. apply O in Iu. apply Iu.
Qed.

Lemma handled_drop n F p l w q d :
  cinv n F p l -> handled n l (w :: q) -> janet_divides n (lms l) d (lv w) -> handled n l q.
Proof.
  intros C H D u k Iu Hk Hb. destruct (H u k Iu Hk Hb) as (NM & [(w' & [<-|Iw'] & E)|S]); split; auto.
  - right. rewrite E in D. pose proof D as (Id & Dd & Md). exists d. split; auto. split; auto.
    eapply divisor_lex_larger with (k := k); eauto; [intros; eapply cinv_len; eauto|now apply in_map].
  - left. eauto.
Qed.

Lemma settled_incl n l l' u k : incl (lms l) (lms l') -> settled n l u k -> settled n l' u k.
Proof. intros I (d & Id & D). exists d. auto. Qed.

Lemma cntb_zero_bld u k : cntb u = 0 -> bld u k = false.
Proof.
  unfold cntb, bld. revert k. induction (wbuild u) as [|b l IH]; intros k H; [destruct k; reflexivity|].
  cbn in H. destruct b; [cbn in H; lia|]. destruct k; [reflexivity|]. cbn. auto.
Qed.

Lemma sumb_perm l l' : Permutation (map wbuild l) (map wbuild l') -> sumb l = sumb l'.
Proof.
  intros P. assert (G : forall l, sumb l = fold_right (fun b s => length (filter (fun b => b) b) + s) 0 (map wbuild l)).
  { induction l0 as [|a l0 IH]; cbn; [reflexivity|]. unfold sumb in IH. rewrite IH. reflexivity. }
  rewrite !G. clear G. induction P; cbn; lia.
Qed.

Lemma incr_len k u : length (incr k u) = length u.
Proof. apply incr_length. Qed.

Lemma incr_neq k u n : length u = n -> k < n -> lex_gt (incr k u) u.
Proof.
  intros L Hk. exists k. rewrite incr_len, L. split; auto. split.
  - intros i Hi. rewrite incr_expo' by lia. destruct (Nat.eqb_spec i k); lia.
  - rewrite incr_expo' by lia. rewrite Nat.eqb_refl. lia.
Qed.

(** Inserting a queue element that has no Janet divisor yet. *)
Lemma insert_step n F p l l' w q :
  cinv n F p l -> Forall (qinv n p l) (w :: q) -> handled n l (w :: q) ->
  Permutation (map (er 0) l') (er 0 w :: map (er 0) l) ->
  Forall (okw n) l' -> NoDup (lms l') ->
  (forall u i, In u l' -> i < n -> (fl u i = true <-> janet_nm (lms l') (lv u) i)) ->
  cinv n F p l' /\ Forall (qinv n p l') q /\ handled n l' q /\ sumb l' = sumb l.
Proof.
  intros C Q H P O' ND' FL'.
  pose proof (perm_er_lms _ _ _ _ P) as PL.
  assert (INC : incl (lms l) (lms l')).
  { intros x I. eapply Permutation_in; [apply Permutation_sym, PL|]. cbn; auto. }
  assert (INV : forall u, In u l' -> er 0 u = er 0 w \/ exists u0, In u0 l /\ er 0 u = er 0 u0).
  { intros u I. pose proof (Permutation_map_In _ _ _ _ P I) as Iu. cbn [In] in Iu.
    destruct Iu as [Iu|Iu]; [left; auto|right]. apply in_map_iff in Iu as (u0 & E & I0). eauto. }
  destruct (Forall_inv Q) as (Ow & Fw & Bw & Pw & u0 & k0 & Iu0 & Hk0 & NM0 & E0).
  assert (Lu0 : length u0 = n) by (eapply cinv_len; eauto).
  assert (Iw' : In (lv w) (lms l')).
  { eapply Permutation_in; [apply Permutation_sym, PL|]. cbn; auto. }
  assert (XI : forall x, In x (lms l') -> x = lv w \/ In x (lms l)).
  { intros x I. eapply Permutation_in in I; [|exact PL]. destruct I; auto. }
  split; [|split; [|split]].
  - constructor; auto.
    + intros x I. apply INC. apply (ci_in _ _ _ _ C); auto.
    + intros x I. destruct (XI x I) as [->|I0]; [|apply (ci_id _ _ _ _ C); auto].
      rewrite E0. destruct (ci_id _ _ _ _ C u0 Iu0) as (f & If & Df). exists f. split; auto.
      intros i Hi. specialize (Df i Hi). rewrite incr_expo' by lia. destruct (Nat.eqb i k0); lia.
    + intros B HB x I. destruct (XI x I) as [->|I0]; [|eapply (ci_box _ _ _ _ C); eauto].
      rewrite E0. pose proof (ci_box _ _ _ _ C B HB) as HB'.
      destruct NM0 as (x & Ix & _ & G). apply incr_divides; auto.
      specialize (HB' x Ix k0 Hk0). lia.
    + intros u I. destruct (INV u I) as [E|(u1 & I1 & E)]; assert (E1 := f_equal wlm E); cbn in E1; rewrite E1.
      * auto.
      * apply (ci_pos _ _ _ _ C); auto.
  - apply Forall_inv_tail in Q. eapply Forall_impl; [|exact Q].
    intros a (A1 & A2 & A3 & A4 & u1 & k1 & I1 & Hk1 & NM1 & E1). repeat split; auto; try apply A1.
    exists u1, k1. repeat split; auto. eapply janet_nm_incl; eauto.
  - intros u k Iu Hk Hb. destruct (INV u Iu) as [E|(u1 & I1 & E)].
    + exfalso. assert (wbuild u = wbuild w) by (inversion E; auto). unfold bld in Hb. rewrite H0 in Hb.
      change (bld w k = true) in Hb. rewrite (cntb_zero_bld w k Bw) in Hb. discriminate.
    + assert (EL : lv u = lv u1) by (apply er_lv in E; auto).
      assert (EB : wbuild u = wbuild u1) by (inversion E; auto).
      assert (Hb1 : bld u1 k = true) by (unfold bld in *; now rewrite EB in Hb).
      destruct (H u1 k I1 Hk Hb1) as (NM & [(w' & [<-|Iw2] & E')|S]); rewrite EL; split.
      * eapply janet_nm_incl; eauto.
      * right. exists (lv w). split; auto. split.
        -- rewrite E'. intros i Hi. lia.
        -- rewrite E'. apply (incr_neq k (lv u1) n); auto. apply (cinv_len n F p l _ C). now apply in_map.
      * eapply janet_nm_incl; eauto.
      * left. eauto.
      * eapply janet_nm_incl; eauto.
      * right. eapply settled_incl; eauto.
  - assert (EQ : sumb l = sumb (w :: l)) by (unfold sumb; cbn [fold_right]; lia). rewrite EQ.
    apply sumb_perm. apply (Permutation_map wbuild) in P. rewrite map_map in P. cbn [map] in P. rewrite map_map in P. exact P.
Qed.

(* ---------------- prolong ---------------- *)
(** u after prolong *)
Definition pr (n : nat) (u u' : wrap) : Prop :=
  wlm u' = wlm u /\ wanc u' = wanc u /\ wnm u' = wnm u /\ wnmd u' = wnmd u /\ okw n u' /\
  (forall k, k < n -> bld u' k = (bld u k || fl u k)).

Definition newq (n : nat) (T : list wrap) (w : wrap) : Prop :=
  okw n w /\ (forall i, i < n -> fl w i = false) /\ cntb w = 0 /\
  exists u k, In u T /\ k < n /\ fl u k = true /\ wlm w = mul_var k (wlm u).

Lemma nth_repeat_false n i : nth i (repeat false n) false = false.
Proof. revert i; induction n; intros [|i]; cbn; auto. Qed.

Lemma cnt_repeat_false n : length (filter (fun b : bool => b) (repeat false n)) = 0.
Proof. induction n; cbn; auto. Qed.

Lemma set_at_cnt l i l' : set_at l i = Some l' -> nth i l false = false ->
  length (filter (fun b : bool => b) l') = S (length (filter (fun b : bool => b) l)).
Proof.
  revert i l'; induction l as [|b l IH]; intros [|i] l' E N; cbn in *; try discriminate.
  - injection E as <-. subst b. reflexivity.
  - destruct (set_at l i) as [r|] eqn:Er; [|discriminate]. injection E as <-. cbn.
    destruct b; cbn; rewrite (IH i r); auto.
Qed.

Lemma prolong_vars_ok dbg n k cnt u Q :
  okw n u -> k + cnt = n ->
  exists u' new, prolong_vars dbg k cnt u Q = Ok (u', new ++ Q) /\
    wlm u' = wlm u /\ wanc u' = wanc u /\ wnm u' = wnm u /\ wnmd u' = wnmd u /\ okw n u' /\
    (forall j, j < n -> bld u' j = (bld u j || (fl u j && Nat.leb k j))) /\
    Forall (newq n [u]) new /\
    (forall j, k <= j -> j < n -> fl u j = true -> bld u j = false -> exists w, In w new /\ wlm w = mul_var j (wlm u)) /\
    cntb u' = cntb u + length new.
Proof.
  revert k u Q; induction cnt as [|cnt IH]; intros k u Q O Hk; cbn [prolong_vars].
  - exists u, []. repeat split; auto; try apply O.
    + intros j Hj. destruct (Nat.leb_spec k j); [lia|]. rewrite andb_false_r, orb_false_r. auto.
    + intros; lia.
  - pose proof O as (L1 & L2 & L3 & L4).
    unfold get_flag. rewrite (nth_error_nth' (wnm u) false) by lia. cbn [bind].
    rewrite (nth_error_nth' (wbuild u) false) by lia. cbn [bind].
    change (nth k (wnm u) false) with (fl u k). change (nth k (wbuild u) false) with (bld u k).
    destruct (fl u k && negb (bld u k)) eqn:Ec.
    + apply andb_prop in Ec as (E1 & E2). apply negb_true_iff in E2.
      unfold prolong_wrap, get_flag. rewrite (nth_error_nth' (wnm u) false) by lia. cbn [bind].
      rewrite (nth_error_nth' (wnmd u) false) by lia. cbn [bind].
      rewrite (nth_error_nth' (wbuild u) false) by lia. cbn [bind].
      change (nth k (wnm u) false) with (fl u k). change (nth k (wbuild u) false) with (bld u k).
      unfold assert_. rewrite E1, E2. cbn [orb negb andb]. rewrite andb_false_r.
      unfold set_build. destruct (set_at_spec (wbuild u) k) as (l & El & Ll & Nl & _); [lia|].
      rewrite El. cbn [bind].
      set (u1 := Wrap (wlm u) (wanc u) (wnm u) (wnmd u) l).
      set (w := Wrap (mul_var k (wlm u)) (wanc u) (repeat false (size (wlm u))) (repeat false (size (wlm u)))
                     (repeat false (size (wlm u)))).
      assert (O1 : okw n u1) by (unfold okw, u1; cbn; repeat split; auto; lia).
      destruct (IH (S k) u1 (w :: Q)) as (u' & new & E & A1 & A2 & A3 & A4 & A5 & A6 & A7 & A8 & A9); auto; try lia.
      rewrite E. exists u', (new ++ [w]). rewrite <- app_assoc.
      assert (B1 : forall j, bld u1 j = if Nat.eqb j k then true else bld u j) by (intros; apply Nl).
      repeat split; auto; try apply A5.
      * intros j Hj. rewrite A6 by auto. rewrite B1. change (fl u1 j) with (fl u j).
        destruct (Nat.eqb_spec j k) as [->|].
        -- rewrite E1. rewrite Nat.leb_refl. cbn. now rewrite orb_true_r.
        -- destruct (Nat.leb_spec (S k) j), (Nat.leb_spec k j); try lia; auto.
      * apply Forall_app. split.
        { eapply Forall_impl; [|exact A7]. intros a (N1 & N2 & N3 & x & kx & [<-|[]] & N4).
          split; [auto|]. split; [auto|]. split; [auto|]. exists u, kx. cbn. auto. }
        constructor; [|constructor].
        assert (Sz : size (wlm u) = n) by (unfold size, lv in *; auto).
        unfold newq, okw, w, lv, fl, cntb; cbn. rewrite !repeat_length, incr_length.
        repeat split; auto.
        -- intros; apply nth_repeat_false.
        -- apply cnt_repeat_false.
        -- exists u, k. repeat split; auto. lia.
      * intros j Hj1 Hj2 Hj3 Hj4. destruct (Nat.eq_dec j k) as [->|].
        -- exists w. split; [apply in_or_app; right; cbn; auto|reflexivity].
        -- destruct (A8 j) as (w' & Iw & Ew); auto; try lia.
           { rewrite B1. destruct (Nat.eqb_spec j k); [lia|auto]. }
           exists w'. split; [apply in_or_app; auto|auto].
      * rewrite A9, app_length. cbn [length].
        assert (cntb u1 = S (cntb u)) by (unfold cntb, u1; cbn; eapply set_at_cnt; eauto). lia.
    + destruct (IH (S k) u Q) as (u' & new & E & A1 & A2 & A3 & A4 & A5 & A6 & A7 & A8 & A9); auto; try lia.
      rewrite E. exists u', new. repeat split; auto; try apply A5.
      * intros j Hj. rewrite A6 by auto. destruct (Nat.eq_dec j k) as [->|].
        -- destruct (fl u k), (bld u k); cbn in *; try discriminate; auto.
        -- destruct (Nat.leb_spec (S k) j), (Nat.leb_spec k j); try lia; auto.
      * intros j Hj1 Hj2 Hj3 Hj4. destruct (Nat.eq_dec j k) as [->|].
        -- rewrite Hj3, Hj4 in Ec. discriminate.
        -- apply A8; auto; lia.
Qed.

Lemma prolong_elem_ok dbg n u Q : okw n u ->
  exists u' new, prolong_elem dbg u Q = Ok (u', new ++ Q) /\ pr n u u' /\
    Forall (newq n [u]) new /\
    (forall j, j < n -> fl u j = true -> bld u j = false -> exists w, In w new /\ wlm w = mul_var j (wlm u)) /\
    cntb u' = cntb u + length new.
Proof.
  intros O. destruct (prolong_vars_ok dbg n 0 (size (wlm u)) u Q O) as
    (u' & new & E & A1 & A2 & A3 & A4 & A5 & A6 & A7 & A8 & A9); [cbn; apply O|].
  exists u', new. unfold prolong_elem, pr. repeat split; auto; try apply A5.
  - intros k Hk. rewrite A6 by auto. cbn. now rewrite andb_true_r.
  - intros j Hj. apply A8; auto; lia.
Qed.

Lemma newq_incl n T T' w : incl T T' -> newq n T w -> newq n T' w.
Proof. intros I (A & B & C & u & k & Iu & D). repeat split; auto; try apply A. exists u, k. split; auto; tauto. Qed.

Lemma prolong_list_ok dbg n T : forall Q, Forall (okw n) T ->
  exists T' new, prolong_list dbg T Q = Ok (T', new ++ Q) /\ Forall2 (pr n) T T' /\
    Forall (newq n T) new /\
    (forall u j, In u T -> j < n -> fl u j = true -> bld u j = false -> exists w, In w new /\ wlm w = mul_var j (wlm u)) /\
    sumb T' = sumb T + length new.
Proof.
  induction T as [|u T IH]; intros Q O; cbn [prolong_list].
  - exists [], []. repeat split; auto. intros u j [].
  - destruct (prolong_elem_ok dbg n u Q (Forall_inv O)) as (u' & new & E & A1 & A2 & A3 & A4).
    rewrite E; cbn [bind].
    destruct (IH (new ++ Q) (Forall_inv_tail O)) as (T' & new' & E' & B1 & B2 & B3 & B4).
    rewrite E'; cbn [bind]. exists (u' :: T'), (new' ++ new). rewrite app_assoc. split; [reflexivity|].
    split; [constructor; auto|]. split; [|split].
    + apply Forall_app; split; (eapply Forall_impl; [|eassumption]); intros a; apply newq_incl; intros x I; cbn in *; tauto.
    + intros v j [<-|Iv] Hj F1 F2.
      * destruct (A3 j Hj F1 F2) as (w & Iw & Ew). exists w. split; auto. apply in_or_app; auto.
      * destruct (B3 v j Iv Hj F1 F2) as (w & Iw & Ew). exists w. split; auto. apply in_or_app; auto.
    + cbn. rewrite app_length. unfold sumb in *. lia.
Qed.

(** Trees of the same shape with related elements. *)
Inductive trel (R : wrap -> wrap -> Prop) : tree -> tree -> Prop :=
| TNil : trel R Nil Nil
| TNode d ow ow' nd nd' nv nv' :
    match ow, ow' with Some u, Some u' => R u u' | None, None => True | _, _ => False end ->
    trel R nd nd' -> trel R nv nv' -> trel R (Node d ow nd nv) (Node d ow' nd' nv').

Lemma trel_wraps R t t' : trel R t t' -> Forall2 R (wraps t) (wraps t').
Proof.
  induction 1 as [|d ow ow' nd nd' nv nv' H _ IH1 _ IH2]; cbn; [constructor|].
  apply Forall2_app; [|apply Forall2_app; auto]. destruct ow, ow'; try tauto; repeat constructor; auto.
Qed.

Lemma Forall2_in_r {A B} (R : A -> B -> Prop) l l' y : Forall2 R l l' -> In y l' -> exists x, In x l /\ R x y.
Proof.
  induction 1 as [|a b l l' H _ IH]; [intros []|]. intros [<-|I]; [exists a; cbn; auto|].
  destruct (IH I) as (x & ? & ?). exists x. cbn; auto.
Qed.
Lemma Forall2_in_l {A B} (R : A -> B -> Prop) l l' x : Forall2 R l l' -> In x l -> exists y, In y l' /\ R x y.
Proof.
  induction 1 as [|a b l l' H _ IH]; [intros []|]. intros [<-|I]; [exists b; cbn; auto|].
  destruct (IH I) as (y & ? & ?). exists y. cbn; auto.
Qed.

Lemma pr_lms n l l' : Forall2 (pr n) l l' -> lms l' = lms l.
Proof. induction 1 as [|a b l l' (H & _) _ IH]; unfold lms in *; cbn [map]; [reflexivity|]. rewrite IH. unfold lv. now rewrite H. Qed.

Lemma trel_wf n v t t' : trel (pr n) t t' -> wf n v t -> wf n v t'.
Proof.
  intros T; revert v; induction T as [|d ow ow' nd nd' nv nv' H T1 IH1 T2 IH2]; intros v W; [exact I|].
  cbn [wf] in *. destruct W as (Hv & A & K & B & C & D & Wd & Wv).
  pose proof (trel_wraps _ _ _ T1) as F1. pose proof (trel_wraps _ _ _ T2) as F2.
  split; [auto|]. split; [|split; [|split; [|split; [|split; [|split; auto]]]]].
  - intros u' ->. destruct ow as [u|]; [|destruct H]. destruct H as (E & _). unfold lv. rewrite E. apply A; auto.
  - intros ->. destruct ow; [destruct H|]. specialize (K eq_refl). inversion T2; subst; [congruence|discriminate].
  - intros u' I. destruct (Forall2_in_r _ _ _ _ F2 I) as (u & Iu & E & _). unfold lv. rewrite E. apply B; auto.
  - intros u' I. destruct (Forall2_in_r _ _ _ _ F1 I) as (u & Iu & E & _). unfold lv. rewrite E. apply C; auto.
  - inversion T1; subst; auto.
Qed.

Lemma trel_flags n v t t' : trel (pr n) t t' -> flagsT n v t -> flagsT n v t'.
Proof.
  intros T; revert v; induction T as [|d ow ow' nd nd' nv nv' H T1 IH1 T2 IH2]; intros v W; [exact I|].
  cbn [flagsT] in *. destruct W as (A & B & C & D).
  pose proof (trel_wraps _ _ _ T2) as F2.
  assert (NN : nd <> Nil <-> nd' <> Nil) by (inversion T1; subst; split; congruence).
  assert (FE : forall u u' i, pr n u u' -> fl u' i = fl u i) by (intros u u' i (_ & _ & E & _); unfold fl; now rewrite E).
  split; [|split; [|split; auto]].
  - intros u' ->. destruct ow as [u|]; [|destruct H]. destruct (A u eq_refl) as (A1 & A2). rewrite (FE _ _ _ H), <- NN.
    split; auto. intros i Hi1 Hi2. rewrite (FE _ _ _ H), (A2 i Hi1 Hi2), (pr_lms _ _ _ F2).
    destruct H as (E & _). unfold lv. rewrite E. tauto.
  - intros u' I. destruct (Forall2_in_r _ _ _ _ F2 I) as (u & Iu & E). rewrite (FE _ _ _ E), <- NN. auto.
Qed.

Lemma prolong_list_app dbg T1 T2 : forall Q,
  prolong_list dbg (T1 ++ T2) Q =
  (do r <- prolong_list dbg T1 Q; let (T1', Q1) := r in
   do s <- prolong_list dbg T2 Q1; let (T2', Q2) := s in Ok (T1' ++ T2', Q2)).
Proof.
  induction T1 as [|u T1 IH]; intros Q; cbn [app prolong_list bind].
  - destruct (prolong_list dbg T2 Q) as [[T Q2]| | | |]; reflexivity.
  - destruct (prolong_elem dbg u Q) as [[u' Q1]| | | |]; cbn [bind]; try reflexivity.
    rewrite IH. destruct (prolong_list dbg T1 Q1) as [[T1' Q2]| | | |]; cbn [bind]; try reflexivity.
    destruct (prolong_list dbg T2 Q2) as [[T2' Q3]| | | |]; reflexivity.
Qed.

(** The tree version does to the elements what the list version does. *)
Lemma prolong_tree_ok dbg n t : forall Q, Forall (okw n) (wraps t) ->
  exists t' Q', prolong_tree dbg t Q = Ok (t', Q') /\ prolong_list dbg (wraps t) Q = Ok (wraps t', Q') /\
    trel (pr n) t t'.
Proof.
  induction t as [|dg ow nd IHd nv IHv]; intros Q O; cbn [prolong_tree wraps].
  - exists Nil, Q. repeat split. constructor.
  - cbn [wraps] in O. rewrite !Forall_app in O. destruct O as (O1 & O2 & O3).
    assert (S1 : exists ow' Q1, match ow with
              | Some u => do s <- prolong_elem dbg u Q; let (u', Q') := s in Ok (Some u', Q')
              | None => Ok (None, Q)
              end = Ok (ow', Q1) /\
              prolong_list dbg (match ow with Some u => [u] | None => [] end) Q =
                Ok (match ow' with Some u => [u] | None => [] end, Q1) /\
              match ow, ow' with Some u, Some u' => pr n u u' | None, None => True | _, _ => False end).
    { destruct ow as [u|].
      - destruct (prolong_elem_ok dbg n u Q (Forall_inv O1)) as (u' & new & E & A1 & _).
        cbn [prolong_list]. rewrite E. cbn [bind]. exists (Some u'), (new ++ Q). auto.
      - exists None, Q. auto. }
    destruct S1 as (ow' & Q1 & E1 & P1 & R1). rewrite E1; cbn [bind].
    destruct (IHv Q1 O2) as (nv' & Q2 & E2 & P2 & R2). rewrite E2; cbn [bind].
    destruct (IHd Q2 O3) as (nd' & Q3 & E3 & P3 & R3). rewrite E3; cbn [bind].
    exists (Node dg ow' nd' nv'), Q3. split; [reflexivity|]. split.
    + cbn [wraps]. rewrite prolong_list_app, P1. cbn [bind]. rewrite prolong_list_app, P2. cbn [bind].
      rewrite P3. cbn [bind]. reflexivity.
    + constructor; auto.
Qed.

(** prolong on the completion invariant (empty queue before). *)
Lemma prolong_step n F p T T' new :
  cinv n F p T -> handled n T [] -> Forall2 (pr n) T T' -> Forall (newq n T) new ->
  (forall u j, In u T -> j < n -> fl u j = true -> bld u j = false -> exists w, In w new /\ wlm w = mul_var j (wlm u)) ->
  cinv n F p T' /\ Forall (qinv n p T') new /\ handled n T' new /\
  (new = [] -> forall u k, In u (lms T') -> k < n -> janet_nm (lms T') u k -> settled n T' u k).
Proof.
  intros C H R NQ NC. pose proof (pr_lms _ _ _ R) as EL.
  assert (C' : cinv n F p T').
  { destruct C as [c1 c2 c3 c4 c5 c6 c7]. constructor; rewrite ?EL; auto.
    - apply Forall_forall. intros u' I. destruct (Forall2_in_r _ _ _ _ R I) as (u & _ & E). apply E.
    - intros u' i I Hi. destruct (Forall2_in_r _ _ _ _ R I) as (u & Iu & E1 & _ & E3 & _).
      unfold fl. rewrite E3. change (nth i (wnm u) false) with (fl u i). unfold lv. rewrite E1. apply c3; auto.
    - intros u' I. destruct (Forall2_in_r _ _ _ _ R I) as (u & Iu & E1 & _). rewrite E1. auto. }
  assert (LVW : forall w u k, wlm w = mul_var k (wlm u) -> lv w = incr k (lv u)).
  { intros w u k E. unfold lv. rewrite E. reflexivity. }
  assert (Hd : forall u k, In u T' -> k < n -> janet_nm (lms T') (lv u) k ->
      (exists w, In w new /\ lv w = incr k (lv u)) \/ settled n T' (lv u) k).
  { intros u' k I Hk NM. destruct (Forall2_in_r _ _ _ _ R I) as (u & Iu & E).
    assert (Elv : lv u' = lv u) by (destruct E as (E1 & _); unfold lv; now rewrite E1).
    rewrite Elv, EL in *. pose proof (proj2 (ci_fl _ _ _ _ C u k Iu Hk) NM) as Ef.
    destruct (bld u k) eqn:Eb.
    - destruct (H u k Iu Hk Eb) as (_ & [(w & [] & _)|S]). right. unfold settled in *. rewrite EL. exact S.
    - left. destruct (NC u k Iu Hk Ef Eb) as (w & Iw & Ew). exists w. split; auto. }
  split; [auto|]. split; [|split].
  - eapply Forall_impl; [|exact NQ]. intros w (A1 & A2 & A3 & u & k & Iu & Hk & Fk & Ew).
    repeat split; auto; try apply A1.
    + rewrite Ew. cbn. apply (ci_pos _ _ _ _ C); auto.
    + exists (lv u), k. rewrite EL. repeat split; auto; [now apply in_map|]. apply (ci_fl _ _ _ _ C); auto.
  - intros u k Iu Hk Hb.
    assert (NM : janet_nm (lms T') (lv u) k).
    { destruct (Forall2_in_r _ _ _ _ R Iu) as (u0 & I0 & E1 & _ & _ & _ & _ & E).
      assert (Elv : lv u = lv u0) by (unfold lv; now rewrite E1). rewrite Elv, EL.
      rewrite E in Hb by auto. apply orb_prop in Hb as [Hb|Hb].
      - apply (H u0 k I0 Hk Hb).
      - apply (ci_fl _ _ _ _ C); auto. }
    split; auto.
  - intros -> u k Iu Hk NM. apply in_map_iff in Iu as (w & <- & Iw).
    destruct (Hd w k Iw Hk NM) as [(x & [] & _)|S]; auto.
Qed.

(** All non-multiplicative prolongations settled: the set is a Janet basis. *)
Lemma settled_basis n F p T :
  cinv n F p T ->
  (forall u k, In u (lms T) -> k < n -> janet_nm (lms T) u k -> settled n T u k) ->
  janet_basis n F (lms T).
Proof.
  intros C H. split; [apply (ci_id _ _ _ _ C)|].
  intros m Lm (f & If & Df).
  destruct (lex_max_divisor n (lms T) m) as (u & Iu & Du & Mu).
  { intros x; apply (cinv_len n F p T x C). }
  { exists f. split; [apply (ci_in _ _ _ _ C); auto|auto]. }
  exists u. split; [auto|]. split; [auto|]. intros i Hi Hlt NM.
  destruct (H u i Iu Hi NM) as (d & Id & Dd & Gd).
  apply (Mu d Id); auto. intros j Hj. specialize (Dd j Hj).
  assert (Di : divides n (incr i u) m) by (apply incr_divides; auto; eapply cinv_len; eauto).
  specialize (Di j Hj). lia.
Qed.

(* ---------------- the box bound ---------------- *)
Fixpoint box (B : list nat) : list (list nat) :=
  match B with
  | [] => [[]]
  | b :: B' => flat_map (fun x => map (cons x) (box B')) (seq 0 (S b))
  end.

Lemma box_in B v : length v = length B -> (forall i, expo v i <= expo B i) -> In v (box B).
Proof.
  revert v; induction B as [|b B IH]; intros [|x v] L H; try discriminate; [cbn; auto|].
  cbn [box]. apply in_flat_map. exists x. split.
  - apply in_seq. specialize (H 0). cbn in H. lia.
  - apply in_map. apply IH; [auto|]. intros i. apply (H (S i)).
Qed.

Definition bound (n : nat) (F : list (list nat)) : list nat := fold_right maxv (repeat 0 n) F.

Lemma maxv_length a b : length a = length b -> length (maxv a b) = length a.
Proof. revert b; induction a as [|x a IH]; intros [|y b] L; try discriminate; cbn; auto. Qed.
Lemma maxv_expo a b i : length a = length b -> expo (maxv a b) i = Nat.max (expo a i) (expo b i).
Proof.
  revert b i; induction a as [|x a IH]; intros [|y b] i L; try discriminate.
  - destruct i; reflexivity.
  - destruct i; [reflexivity|]. cbn. apply IH. auto.
Qed.

Lemma bound_ok n F : (forall f, In f F -> length f = n) ->
  length (bound n F) = n /\ forall f, In f F -> divides n f (bound n F).
Proof.
  induction F as [|f F IH]; intros L; cbn.
  - split; [apply repeat_length|intros f []].
  - destruct IH as (A & B); [intros; apply L; cbn; auto|]. fold (bound n F).
    assert (Lf : length f = length (bound n F)) by (rewrite A; apply L; cbn; auto).
    split; [rewrite maxv_length by auto; lia|]. intros g [<-|I] i Hi; rewrite maxv_expo by auto; [lia|].
    specialize (B g I i Hi). lia.
Qed.

Lemma cnt_le (l : list bool) : length (filter (fun b => b) l) <= length l.
Proof. induction l as [|[] l IH]; cbn; lia. Qed.

Lemma sumb_bound n F p T : cinv n F p T -> (forall f, In f F -> length f = n) ->
  sumb T <= n * length (box (bound n F)).
Proof.
  intros C L. destruct (bound_ok n F L) as (LB & DB).
  assert (S : sumb T <= n * length T).
  { pose proof (ci_ok _ _ _ _ C) as O. clear - O. unfold sumb. induction O as [|u T (_ & _ & _ & Lb) _ IH]; cbn [fold_right length]; [lia|].
    pose proof (cnt_le (wbuild u)). unfold cntb at 1. rewrite Nat.mul_succ_r. lia. }
  assert (LT : length T <= length (box (bound n F))).
  { rewrite <- (map_length lv T). apply NoDup_incl_length; [apply (ci_nd _ _ _ _ C)|].
    intros x I. apply box_in.
    - rewrite LB. eapply cinv_len; eauto.
    - intros i. destruct (Nat.lt_ge_cases i n) as [Hi|Hi].
      + eapply (ci_box _ _ _ _ C); eauto.
      + rewrite expo_ge; [lia|]. rewrite (cinv_len n F p T x C I). auto. }
  nia.
Qed.
