(** Proofs about the Janet tree of pyginv (PyJanetModel.v). *)
From Coq Require Import ZArith List Bool Arith Lia Permutation.
From Verif Require Import Outcome MonomModel MonomSpec MonomProofs JanetSpec JanetProofs PyMonomModel PyPolyModel PyJanetModel.
Import ListNotations.
Local Open Scope nat_scope.

Definition ev (w : pwrap) (i : nat) : nat := expo (vars (pw_lm w)) i.
Definition nmf (w : pwrap) (i : nat) : bool := nth i (pw_nonmult w) false.
Definition wok (n : nat) (w : pwrap) : Prop := length (vars (pw_lm w)) = n /\ length (pw_nonmult w) = n.

Lemma telems_list l : telems (PList l) = relems l.
Proof. cbn [telems]. induction l as [|t l IH]; [reflexivity|]. cbn [relems]. rewrite <- IH. reflexivity. Qed.
Lemma relems_app r r' : relems (r ++ r') = relems r ++ relems r'.
Proof. induction r as [|t r IH]; [reflexivity|]. cbn [relems app]. rewrite IH. apply app_assoc. Qed.
Lemma relems_in r w : In w (relems r) <-> exists i t, nth_error r i = Some t /\ In w (telems t).
Proof.
  induction r as [|t r IH]; cbn [relems]; [split; [intros []|intros ([|i] & t & E & _); discriminate E]|].
  rewrite in_app_iff, IH. split.
  - intros [X|(i & t' & E & X)]; [exists 0, t; auto|exists (S i), t'; auto].
  - intros ([|i] & t' & E & X); [injection E as ->; now left|right; exists i, t'; auto].
Qed.

(** flags *)
Lemma set_flag_length l v b : length (set_flag l v b) = length l.
Proof. revert v. induction l as [|x l IH]; intros [|v]; cbn; auto. Qed.
Lemma set_flag_same l v b : v < length l -> nth v (set_flag l v b) false = b.
Proof. revert v. induction l as [|x l IH]; intros [|v] L; cbn in *; try lia; [reflexivity|]. apply IH. lia. Qed.
Lemma set_flag_other l v b i : i <> v -> nth i (set_flag l v b) false = nth i l false.
Proof. revert v i. induction l as [|x l IH]; intros [|v] [|i] N; cbn; try reflexivity; [lia|]. apply IH. lia. Qed.
Lemma nmf_same v b w : v < length (pw_nonmult w) -> nmf (set_nonmult v b w) v = b.
Proof. apply set_flag_same. Qed.
Lemma nmf_other v b w i : i <> v -> nmf (set_nonmult v b w) i = nmf w i.
Proof. apply set_flag_other. Qed.
Lemma wok_set n v b w : wok n w -> wok n (set_nonmult v b w).
Proof. intros [A B]. split; [exact A|]. cbn. rewrite set_flag_length. exact B. Qed.

(** everything but the flags nonmult from v on *)
Definition same_to (v : nat) (u w : pwrap) : Prop :=
  pw_id u = pw_id w /\ pw_poly u = pw_poly w /\ pw_anc u = pw_anc w /\ pw_lm u = pw_lm w /\ pw_prolong u = pw_prolong w /\
  length (pw_nonmult u) = length (pw_nonmult w) /\ forall i, i < v -> nmf u i = nmf w i.
Lemma same_refl v w : same_to v w w.
Proof. repeat split. Qed.
Lemma same_trans v a b c : same_to v a b -> same_to v b c -> same_to v a c.
Proof.
  intros (A1 & A2 & A3 & A4 & A5 & A6 & A7) (B1 & B2 & B3 & B4 & B5 & B6 & B7).
  repeat split; try congruence. intros i I. rewrite A7, B7 by exact I. reflexivity.
Qed.
Lemma same_le v v' a b : v <= v' -> same_to v' a b -> same_to v a b.
Proof. intros L (A1 & A2 & A3 & A4 & A5 & A6 & A7). repeat split; auto. intros i I. apply A7. lia. Qed.
Lemma same_set v v' b w : v' <= v -> same_to v' (set_nonmult v b w) w.
Proof. intro L. repeat split; try reflexivity; [apply set_flag_length|]. intros i I. apply nmf_other. lia. Qed.
Lemma same_ev v a b i : same_to v a b -> ev a i = ev b i.
Proof. intros (_ & _ & _ & A & _). unfold ev. rewrite A. reflexivity. Qed.
Lemma same_wok v a b n : same_to v a b -> wok n b -> wok n a.
Proof. intros (_ & _ & _ & A & _ & B & _) [C D]. split; [rewrite A; exact C|lia]. Qed.

(** two lists of Wraps, the same up to the order and the flags from v on *)
Definition like (v : nat) (l l' : list pwrap) : Prop := exists l0, Permutation l l0 /\ Forall2 (same_to v) l0 l'.
Lemma like_refl v l : like v l l.
Proof. exists l. split; [reflexivity|]. induction l; constructor; auto. apply same_refl. Qed.
Lemma like_in v l l' u : like v l l' -> In u l -> exists u', In u' l' /\ same_to v u u'.
Proof.
  intros (l0 & P & F) I. apply (Permutation_in _ P) in I. clear P l. induction F as [|a b l l' A F IH]; [destruct I|].
  destruct I as [<-|I]; [exists b; split; [now left|exact A]|]. destruct (IH I) as (u' & U & S). exists u'. split; [now right|exact S].
Qed.
Lemma like_le v v' l l' : v <= v' -> like v' l l' -> like v l l'.
Proof. intros L (l0 & P & F). exists l0. split; [exact P|]. clear P. induction F; constructor; auto. eapply same_le; eassumption. Qed.
Lemma like_app v a a' b b' : like v a a' -> like v b b' -> like v (a ++ b) (a' ++ b').
Proof. intros (x & P & F) (y & Q & G). exists (x ++ y). split; [apply Permutation_app; assumption|apply Forall2_app; assumption]. Qed.
Lemma like_perm_r v l l' l'' : like v l l' -> Permutation l' l'' -> like v l l''.
Proof.
  intros (l0 & P & F) Q. revert l0 P F. revert l. induction Q as [|x a b Q IH|x y a|a b c Q1 IH1 Q2 IH2]; intros l l0 P F.
  - exists l0. auto.
  - inversion F as [|u ? l1 ? U F1]; subst. destruct (IH l1 l1 (Permutation_refl _) F1) as (l2 & P2 & F2). exists (u :: l2). split; [|constructor; assumption].
    rewrite P. constructor. exact P2.
  - inversion F as [|u ? l1 ? U F1]; subst. inversion F1 as [|w ? l2 ? W F2]; subst. exists (w :: u :: l2). split; [rewrite P; constructor|]. constructor; [exact W|constructor; [exact U|exact F2]].
  - destruct (IH1 l l0 P F) as (l1 & P1 & F1). exact (IH2 l l1 P1 F1).
Qed.
Lemma like_perm_l v l l' l'' : Permutation l l' -> like v l' l'' -> like v l l''.
Proof. intros P (l0 & Q & F). exists l0. split; [rewrite P; exact Q|exact F]. Qed.
Lemma like_cons_same v u w l : same_to v u w -> like v (u :: l) (w :: l).
Proof. intro S. exists (u :: l). split; [reflexivity|]. constructor; [exact S|]. induction l; constructor; auto. apply same_refl. Qed.
Lemma like_trans v a b c : like v a b -> like v b c -> like v a c.
Proof.
  intros (x & P & F) (y & Q & G). destruct (like_perm_r v a b y (ex_intro _ x (conj P F)) Q) as (z & R & K).
  exists z. split; [exact R|]. clear - K G. revert z K. induction G as [|p q l l' E G IH]; intros z K; inversion K; subst; constructor; [eapply same_trans; eassumption|auto].
Qed.

(** the invariant of the lists at depth v, k variables remaining *)
Fixpoint rok (n k v : nat) (r : prow) : Prop :=
  match k with
  | O => r = []
  | S k' => forall i t, nth_error r i = Some t ->
      (forall u, In u (telems t) -> ev u v = i /\ nmf u v = Nat.ltb (S i) (length r) /\ wok n u) /\
      match t with
      | PWrap w => S i = length r /\ forall j, v < j -> ev w j = 0 /\ nmf w j = false
      | PList c => (S i = length r -> relems c <> []) /\ rok n k' (S v) c
      end
  end.
Lemma rok_nil n k v : rok n k v [].
Proof. destruct k; cbn; [reflexivity|]. intros i t E. destruct i; discriminate E. Qed.
Lemma rok_wok n k v r u : rok n k v r -> In u (relems r) -> wok n u.
Proof.
  destruct k; cbn [rok]; intros R I; [subst; destruct I|]. apply relems_in in I. destruct I as (i & t & E & U). apply (R i t E). exact U.
Qed.

(** nonmultiplicative among L, from variable v on *)
Definition lnm (v : nat) (L : list pwrap) (u : pwrap) (i : nat) : Prop :=
  exists w, In w L /\ (forall j, v <= j < i -> ev w j = ev u j) /\ ev u i < ev w i.

Lemma rok_last n k v r : rok n (S k) v r -> r <> [] -> exists u, In u (relems r) /\ S (ev u v) = length r.
Proof.
  intros R N. destruct (exists_last N) as (r0 & t & ->). pose proof (R (length r0) t) as E.
  rewrite nth_error_app2, Nat.sub_diag in E by lia. specialize (E eq_refl). rewrite app_length in E. cbn [length] in E.
  assert (X : exists u, In u (telems t)).
  { destruct E as [_ E]. destruct t as [w|c]; [exists w; now left|]. rewrite telems_list. destruct E as [E _].
    destruct (relems c) as [|u l]; [exfalso; apply E; [lia|reflexivity]|]. exists u. now left. }
  destruct X as [u U]. exists u. split; [rewrite relems_app, in_app_iff; right; cbn [relems]; rewrite app_nil_r; exact U|].
  destruct (proj1 E u U) as [-> _]. rewrite app_length. cbn [length]. lia.
Qed.
Lemma rok_bound n k v r u : rok n (S k) v r -> In u (relems r) -> S (ev u v) <= length r.
Proof.
  intros R I. apply relems_in in I. destruct I as (i & t & E & U). destruct (proj1 (R i t E) u U) as [-> _].
  apply nth_error_Some. rewrite E. discriminate.
Qed.
Lemma rok_child n k v r u i t : rok n (S k) v r -> nth_error r i = Some t -> In u (relems r) -> ev u v = i -> In u (telems t).
Proof.
  intros R E I V. apply relems_in in I. destruct I as (j & t' & E' & U). destruct (proj1 (R j t' E') u U) as [V' _]. rewrite V in V'. subst j.
  rewrite E in E'. injection E' as <-. exact U.
Qed.
Lemma lnm_first n k v r u : rok n (S k) v r -> In u (relems r) -> (lnm v (relems r) u v <-> S (ev u v) < length r).
Proof.
  intros R I. split.
  - intros (w & W & _ & L). pose proof (rok_bound _ _ _ _ _ R W). lia.
  - intro L. destruct (rok_last _ _ _ _ R) as (w & W & E); [intros ->; destruct I|]. exists w. split; [exact W|]. split; [intros j J; lia|lia].
Qed.
Lemma lnm_child n k v r i c u j : rok n (S k) v r -> nth_error r i = Some (PList c) -> In u (relems c) -> v < j ->
  (lnm v (relems r) u j <-> lnm (S v) (relems c) u j).
Proof.
  intros R E U J. assert (Ue : ev u v = i) by (apply (R i (PList c) E); rewrite telems_list; exact U). split.
  - intros (w & W & A & L). exists w. split; [|split; [intros x X; apply A; lia|exact L]].
    rewrite <- telems_list. apply (rok_child n k v r w i _ R E W). rewrite A by lia. exact Ue.
  - intros (w & W & A & L). exists w. split; [apply relems_in; exists i, (PList c); rewrite telems_list; auto|]. split; [|exact L].
    intros x X. destruct (Nat.eq_dec x v) as [->|]; [|apply A; lia]. rewrite Ue. apply (R i (PList c) E). rewrite telems_list. exact W.
Qed.
Lemma lnm_wrap n k v r i w j : rok n (S k) v r -> nth_error r i = Some (PWrap w) -> v < j -> ~ lnm v (relems r) w j.
Proof.
  intros R E J (u & U & A & L). destruct (R i _ E) as [P [_ Z0]].
  assert (We : ev w v = i) by (apply P; now left). pose proof (rok_child n k v r u i _ R E U) as X. rewrite A in X by lia. specialize (X We).
  destruct X as [<-|[]]. lia.
Qed.
Lemma rok_flags n : forall k v r u i, v + k = n -> rok n k v r -> In u (relems r) -> v <= i -> i < n -> (nmf u i = true <-> lnm v (relems r) u i).
Proof.
  induction k as [|k IH]; intros v r u i N R U Vi In0; [cbn in R; subst; destruct U|].
  destruct (Nat.eq_dec i v) as [->|Ni].
  - rewrite (lnm_first _ _ _ _ _ R U). apply relems_in in U. destruct U as (j & t & E & X). destruct (proj1 (R j t E) u X) as (-> & -> & _). apply Nat.ltb_lt.
  - pose proof U as U'. apply relems_in in U'. destruct U' as (j & t & E & X). destruct t as [w|c].
    + destruct X as [<-|[]]. destruct (R j _ E) as [_ [_ Z0]]. destruct (Z0 i) as [_ ->]; [lia|]. split; [discriminate|].
      intro L. exfalso. apply (lnm_wrap n k v r j w i R E); [lia|exact L].
    + rewrite telems_list in X. rewrite (lnm_child n k v r j c u i R E X) by lia. apply IH; [lia| |exact X|lia|exact In0]. apply (R j _ E).
Qed.

(** Janet divisors, from variable v on *)
Definition ljd (n v : nat) (L : list pwrap) (u : pwrap) (m : list nat) : Prop :=
  forall i, v <= i -> i < n -> ev u i <= expo m i /\ (ev u i < expo m i -> ~ lnm v L u i).

Lemma last_nth (r : prow) : r <> [] -> nth_error r (length r - 1) = Some (last r (PList [])).
Proof.
  intro N. destruct (exists_last N) as (r0 & t & ->). rewrite last_last, nth_error_app2; rewrite app_length; cbn [length]; [|lia].
  replace (length r0 + 1 - 1 - length r0) with 0 by lia. reflexivity.
Qed.

(** the last list entry is a Wrap of degree at most that of m: it is the divisor *)
Lemma wrap_ljd n k v r w m : v + S k = n -> rok n (S k) v r -> nth_error r (length r - 1) = Some (PWrap w) -> length r - 1 <= expo m v -> ljd n v (relems r) w m.
Proof.
  intros N R E L i Vi In0. destruct (R _ _ E) as [P [Q Z0]]. destruct (P w (or_introl eq_refl)) as [We _].
  destruct (Nat.eq_dec i v) as [->|Ni].
  - split; [lia|]. intros _ X. apply (lnm_first n k v r w R) in X; [lia|]. apply relems_in. exists (length r - 1), (PWrap w). split; [exact E|now left].
  - destruct (Z0 i) as [E0 _]; [lia|]. split; [lia|]. intros _. apply (lnm_wrap n k v r _ w i R E). lia.
Qed.

Lemma find_ok n m : length m = n -> forall k v r, v + k = n -> rok n k v r ->
  match p_find (skipn v m) r with
  | Ok (Some u) => In u (relems r) /\ ljd n v (relems r) u m
  | Ok None => forall u, In u (relems r) -> ~ ljd n v (relems r) u m
  | _ => False
  end.
Proof.
  intros Lm. induction k as [|k IH]; intros v r N R.
  - cbn in R. subst r. destruct (skipn v m); cbn; auto.
  - destruct r as [|t0 r0]; [destruct (skipn v m); cbn; auto|]. remember (t0 :: r0) as r eqn:Er. assert (Nr : r <> []) by (subst; discriminate).
    rewrite (skipn_cons m v) by lia. set (e := expo m v).
    assert (U : p_find (e :: skipn (S v) m) r =
      match (if Nat.leb (length r - 1) e then last_wrap r else None) with
      | Some w => Ok (Some w)
      | None => match nth (Nat.min (length r - 1) e) r (PList []) with PList r' => p_find (skipn (S v) m) r' | PWrap _ => Undef end
      end) by (rewrite Er; reflexivity).
    rewrite U. clear U. pose proof (last_nth r Nr) as El. unfold last_wrap.
    assert (Lr : 0 < length r) by (subst; cbn; lia).
    assert (Child : (if Nat.leb (length r - 1) e then last_wrap r else None) = None ->
      exists c, nth_error r (Nat.min (length r - 1) e) = Some (PList c)).
    { intro X. destruct (nth_error r (Nat.min (length r - 1) e)) as [[w|c]|] eqn:En; [|eauto|].
      - exfalso. destruct (R _ _ En) as [_ [Q _]]. destruct (Nat.leb (length r - 1) e) eqn:B; [|apply Nat.leb_gt in B; lia].
        replace (Nat.min (length r - 1) e) with (length r - 1) in En by lia. rewrite El in En. injection En as En. unfold last_wrap in X. rewrite En in X. discriminate X.
      - apply nth_error_None in En. lia. }
    fold (last_wrap r). destruct (if Nat.leb (length r - 1) e then last_wrap r else None) as [w|] eqn:F.
    + destruct (Nat.leb (length r - 1) e) eqn:B; [|discriminate F]. apply Nat.leb_le in B. unfold last_wrap in F. destruct (last r (PList [])) as [w'|]; [|discriminate F]. injection F as ->.
      split; [apply relems_in; exists (length r - 1), (PWrap w); split; [exact El|now left]|]. exact (wrap_ljd n k v r w m N R El B).
    + destruct (Child eq_refl) as [c Ec]. set (i0 := Nat.min (length r - 1) e) in *.
      rewrite (nth_error_nth _ _ (PList []) Ec). destruct (R _ _ Ec) as [P [_ Rc]]. rewrite telems_list in P.
      specialize (IH (S v) c ltac:(lia) Rc). destruct (p_find (skipn (S v) m) c) as [[u|]| | | |]; try contradiction.
      * destruct IH as [Uc D]. destruct (P u Uc) as (Ue & _). assert (Ur : In u (relems r)) by (apply relems_in; exists i0, (PList c); rewrite telems_list; auto).
        split; [exact Ur|]. intros i Vi In0. destruct (Nat.eq_dec i v) as [->|Ni].
        -- rewrite Ue. fold e. split; [lia|]. intros L X. apply (lnm_first n k v r u R Ur) in X. lia.
        -- destruct (D i) as [D1 D2]; [lia|exact In0|]. split; [exact D1|]. intros L X. apply (D2 L). apply (lnm_child n k v r i0 c u i R Ec Uc); [lia|exact X].
      * intros u Ur D. destruct (D v) as [D1 D2]; [lia|lia|]. pose proof (rok_bound _ _ _ _ _ R Ur) as B. fold e in D1, D2.
        destruct (Nat.eq_dec (ev u v) i0) as [Eu|Nu].
        -- pose proof (rok_child n k v r u i0 _ R Ec Ur Eu) as Uc. rewrite telems_list in Uc. apply (IH u Uc). intros i Vi In0. destruct (D i) as [D3 D4]; [lia|exact In0|].
           split; [exact D3|]. intros L X. apply (D4 L). apply (lnm_child n k v r i0 c u i R Ec Uc); [lia|exact X].
        -- apply D2; [lia|]. apply (lnm_first n k v r u R Ur). lia.
Qed.

(** insertion *)
Section TreeInd.
Variable P : ptree -> Prop.
Hypothesis Hw : forall w, P (PWrap w).
Hypothesis Hl : forall l, Forall P l -> P (PList l).
Fixpoint ptree_ind' (t : ptree) : P t :=
  match t with
  | PWrap w => Hw w
  | PList l => Hl l ((fix go (l : prow) : Forall P l := match l with [] => Forall_nil P | t' :: l' => Forall_cons t' (ptree_ind' t') (go l') end) l)
  end.
End TreeInd.

Lemma mark_elems v t : telems (t_mark v t) = map (set_nonmult v true) (telems t).
Proof.
  induction t as [w|l F] using ptree_ind'; [reflexivity|]. cbn [t_mark]. rewrite !telems_list. induction F as [|t l E F IH]; [reflexivity|].
  cbn [map relems]. rewrite map_app, E, IH. reflexivity.
Qed.
Lemma mark_relems v r : relems (map (t_mark v) r) = map (set_nonmult v true) (relems r).
Proof. induction r as [|t r IH]; [reflexivity|]. cbn [map relems]. rewrite map_app, mark_elems, IH. reflexivity. Qed.
Lemma nth_error_map_inv {A B} (f : A -> B) l i y : nth_error (map f l) i = Some y -> exists x, nth_error l i = Some x /\ y = f x.
Proof. rewrite nth_error_map. destruct (nth_error l i) as [x|]; cbn; [|discriminate]. intro E. injection E as <-. eauto. Qed.
Lemma rok_mark n v : forall k v' r, v < v' -> rok n k v' r -> rok n k v' (map (t_mark v) r).
Proof.
  induction k as [|k IH]; intros v' r L R; cbn [rok] in *; [subst; reflexivity|]. intros i t E. apply nth_error_map_inv in E. destruct E as (t0 & E & ->).
  destruct (R i t0 E) as [P Q]. split.
  - rewrite mark_elems. intros u U. apply in_map_iff in U. destruct U as (u0 & <- & U). destruct (P u0 U) as (A & B & D). rewrite map_length.
    split; [exact A|]. split; [rewrite nmf_other by lia; exact B|apply wok_set, D].
  - destruct t0 as [w|c]; cbn [t_mark].
    + destruct Q as [Q1 Q2]. rewrite map_length. split; [exact Q1|]. intros j J. destruct (Q2 j J) as [Q3 Q4]. split; [exact Q3|]. rewrite nmf_other by lia. exact Q4.
    + destruct Q as [Q1 Q2]. rewrite map_length. split; [|apply IH; [lia|exact Q2]]. intros X Y. apply (Q1 X). rewrite mark_relems in Y. apply map_eq_nil in Y. exact Y.
Qed.

Lemma set_nth_split r e t t' : nth_error r e = Some t -> r = firstn e r ++ t :: skipn (S e) r /\ set_nth r e t' = firstn e r ++ t' :: skipn (S e) r.
Proof.
  revert e. induction r as [|x r IH]; intros [|e] E; try discriminate E.
  - injection E as ->. split; reflexivity.
  - destruct (IH e E) as [A B]. cbn [firstn app set_nth]. change (skipn (S (S e)) (x :: r)) with (skipn (S e) r). split; f_equal; assumption.
Qed.
Lemma set_nth_length r e t : length (set_nth r e t) = length r.
Proof. revert e. induction r as [|x r IH]; intros [|e]; cbn; auto. Qed.
Lemma set_nth_same r e t : e < length r -> nth_error (set_nth r e t) e = Some t.
Proof. revert e. induction r as [|x r IH]; intros [|e] L; cbn in *; try lia; [reflexivity|]. apply IH. lia. Qed.
Lemma set_nth_other r e t i : i <> e -> nth_error (set_nth r e t) i = nth_error r i.
Proof. revert e i. induction r as [|x r IH]; intros [|e] [|i] N; cbn; try reflexivity; [lia|]. apply IH. lia. Qed.

Lemma relems_empty k : relems (repeat (PList []) k) = [].
Proof. induction k; [reflexivity|]. exact IHk. Qed.
Lemma nth_error_repeat_inv {A} (x : A) k i y : nth_error (repeat x k) i = Some y -> y = x.
Proof. intro E. apply nth_error_In, repeat_spec in E. exact E. Qed.

(** the list after lines 237-243 of janet.py *)
Definition ext (v e : nat) (r : prow) : prow := if Nat.ltb (length r) (S e) then map (t_mark v) r ++ repeat (PList []) (S e - length r) else r.

Section Ext.
Variables (n k v : nat) (r : prow) (m : list nat).
Hypothesis N : v + S k = n.
Hypothesis R : rok n (S k) v r.
Hypothesis NF : forall u, In u (relems r) -> ~ ljd n v (relems r) u m.
Let e := expo m v.
Let r1 := ext v e r.

Lemma ext_length : length r1 = Nat.max (S e) (length r).
Proof.
  unfold r1, ext. destruct (Nat.ltb (length r) (S e)) eqn:L; [apply Nat.ltb_lt in L|apply Nat.ltb_ge in L; lia].
  rewrite app_length, map_length, repeat_length. lia.
Qed.
Lemma ext_like : like v (relems r1) (relems r).
Proof.
  unfold r1, ext. destruct (Nat.ltb (length r) (S e)); [|apply like_refl]. rewrite relems_app, relems_empty, app_nil_r, mark_relems.
  exists (map (set_nonmult v true) (relems r)). split; [reflexivity|]. clear NF. induction (relems r) as [|a l IH]; cbn [map]; [constructor|]. constructor; [apply same_set; lia|exact IH].
Qed.
Lemma ext_no_wrap i w : nth_error r1 i = Some (PWrap w) -> e < i.
Proof.
  intro E. assert (X : exists w0, nth_error r i = Some (PWrap w0)).
  { unfold r1, ext in E. destruct (Nat.ltb (length r) (S e)); [|eauto]. destruct (lt_dec i (length r)) as [L|L].
    - rewrite nth_error_app1 in E by (rewrite map_length; exact L). apply nth_error_map_inv in E. destruct E as ([w0|c] & E & X); [eauto|discriminate X].
    - rewrite nth_error_app2 in E by (rewrite map_length; lia). apply nth_error_repeat_inv in E. discriminate E. }
  destruct X as [w0 E0]. destruct (R i _ E0) as [_ [Q _]]. destruct (le_lt_dec i e) as [L|L]; [exfalso|exact L].
  replace i with (length r - 1) in E0 by lia. apply (NF w0).
  - apply relems_in. exists (length r - 1), (PWrap w0). split; [exact E0|now left].
  - apply (wrap_ljd n k v r w0 m N R E0). fold e. lia.
Qed.
Lemma ext_child i c : nth_error r1 i = Some (PList c) ->
  (forall u, In u (relems c) -> ev u v = i /\ nmf u v = Nat.ltb (S i) (length r1) /\ wok n u) /\ rok n k (S v) c /\ (S i = length r1 -> i <> e -> relems c <> []).
Proof.
  pose proof ext_length as L1. unfold r1, ext. intro E. fold (ext v e r). fold r1. rewrite L1.
  destruct (Nat.ltb (length r) (S e)) eqn:L; [apply Nat.ltb_lt in L|apply Nat.ltb_ge in L].
  - destruct (lt_dec i (length r)) as [Li|Li].
    + rewrite nth_error_app1 in E by (rewrite map_length; exact Li). apply nth_error_map_inv in E. destruct E as ([w0|c0] & E & X); [discriminate X|]. injection X as ->.
      destruct (R i _ E) as [P [Q Rc]]. split; [|split; [apply rok_mark; [lia|exact Rc]|lia]]. rewrite mark_relems. intros u U. apply in_map_iff in U. destruct U as (u0 & <- & U).
      rewrite telems_list in P. destruct (P u0 U) as (A & B & D). split; [exact A|]. split; [|apply wok_set, D].
      rewrite nmf_same by (destruct D; lia). symmetry. apply Nat.ltb_lt. lia.
    + rewrite nth_error_app2 in E by (rewrite map_length; lia). apply nth_error_repeat_inv in E. injection E as ->.
      split; [intros u []|]. split; [apply rok_nil|]. lia.
  - replace (Nat.max (S e) (length r)) with (length r) by lia. destruct (R i _ E) as [P [Q Rc]]. rewrite telems_list in P. split; [exact P|]. split; [exact Rc|]. intros X _. exact (Q X).
Qed.
Lemma ext_at : exists c, nth_error r1 e = Some (PList c).
Proof.
  destruct (nth_error r1 e) as [[w|c]|] eqn:E; [apply ext_no_wrap in E; lia|eauto|]. apply nth_error_None in E. pose proof ext_length. lia.
Qed.
(** Janet divisors in the list we descend into *)
Lemma ext_nf c : nth_error r1 e = Some (PList c) -> forall u, In u (relems c) -> ~ ljd n (S v) (relems c) u m.
Proof.
  intros E u U D. unfold r1, ext in E. destruct (Nat.ltb (length r) (S e)) eqn:L; [apply Nat.ltb_lt in L|].
  - rewrite nth_error_app2 in E by (rewrite map_length; lia). apply nth_error_repeat_inv in E. injection E as ->. destruct U.
  - destruct (R e _ E) as [P _]. rewrite telems_list in P. destruct (P u U) as [Ue _].
    assert (Ur : In u (relems r)) by (apply relems_in; exists e, (PList c); rewrite telems_list; auto).
    apply (NF u Ur). intros i Vi In0. destruct (Nat.eq_dec i v) as [->|Ni]; [rewrite Ue; fold e; lia|]. destruct (D i) as [D1 D2]; [lia|exact In0|].
    split; [exact D1|]. intros L' X. apply (D2 L'). apply (lnm_child n k v r e c u i R E U); [lia|exact X].
Qed.
End Ext.

Lemma insert_ok n w : length (vars (pw_lm w)) = n -> forall k v r w1, v + k = n -> 0 < k -> rok n k v r ->
  (forall u, In u (relems r) -> ~ ljd n v (relems r) u (vars (pw_lm w))) ->
  pw_lm w1 = pw_lm w -> wok n w1 -> (forall i, v <= i -> nmf w1 i = false) ->
  exists r' rm kept, p_insert (skipn v (vars (pw_lm w))) v (fold_right Nat.add 0 (skipn v (vars (pw_lm w)))) w1 r = Ok (r', rm) /\
    rok n k v r' /\ r' <> [] /\ Permutation (relems r) (kept ++ rm) /\ like v (relems r') (w1 :: kept) /\
    (forall u, In u rm -> ljd n v (relems r') w (vars (pw_lm u))).
Proof.
  intros Lw. set (m := vars (pw_lm w)) in *. induction k as [|k IH]; intros v r w1 N K R NF Em Ow Fw; [lia|].
  rewrite (skipn_cons m v) by lia. set (e := expo m v). cbn [fold_right p_insert]. set (rest := skipn (S v) m).
  set (d := e + fold_right Nat.add 0 rest). fold (ext v e r). set (r1 := ext v e r).
  set (w2 := if Nat.ltb (S e) (length r) then set_nonmult v true w1 else w1).
  destruct (ext_at n k v r m N R NF) as [c Ec]. fold e in Ec. fold r1 in Ec. rewrite (nth_error_nth _ _ (PList []) Ec).
  pose proof (ext_length n k v r m N) as L1. fold e in L1. fold r1 in L1.
  pose proof (fun i c => ext_child n k v r m N R i c) as EC. fold e in EC. fold r1 in EC.
  pose proof (fun i w => ext_no_wrap n k v r m N R NF i w) as EW. fold e in EW. fold r1 in EW.
  pose proof (ext_like n k v r m N) as ER. fold e in ER. fold r1 in ER.
  assert (O2 : wok n w2) by (unfold w2; destruct (Nat.ltb (S e) (length r)); [apply wok_set|]; exact Ow).
  assert (F2 : nmf w2 v = Nat.ltb (S e) (length r1)).
  { rewrite L1. unfold w2. destruct (Nat.ltb (S e) (length r)) eqn:B.
    - rewrite nmf_same by (destruct Ow; lia). symmetry. apply Nat.ltb_lt. apply Nat.ltb_lt in B. lia.
    - rewrite Fw by lia. symmetry. apply Nat.ltb_ge. apply Nat.ltb_ge in B. lia. }
  assert (G2 : forall i, S v <= i -> nmf w2 i = false).
  { intros i I. unfold w2. destruct (Nat.ltb (S e) (length r)); [rewrite nmf_other by lia|]; apply Fw; lia. }
  assert (S2 : same_to v w2 w1) by (unfold w2; destruct (Nat.ltb (S e) (length r)); [apply same_set; lia|apply same_refl]).
  assert (Ev2 : forall i, ev w2 i = expo m i) by (intro i; rewrite (same_ev _ _ _ i S2); unfold ev; rewrite Em; reflexivity).
  (* the part of r1 before e *)
  assert (Before : forall i t, nth_error r1 i = Some t -> i < e -> exists c', t = PList c').
  { intros i [w0|c'] E L; [apply EW in E; lia|eauto]. }
  (* no extension when something is found below or removed *)
  assert (Old : relems r1 = relems r \/ (relems c = [] /\ relems (skipn e r1) = [])).
  { unfold r1, ext. destruct (Nat.ltb (length r) (S e)) eqn:L; [right|now left]. apply Nat.ltb_lt in L.
    unfold r1, ext in Ec. rewrite (proj2 (Nat.ltb_lt _ _) L) in Ec. rewrite nth_error_app2 in Ec by (rewrite map_length; lia). apply nth_error_repeat_inv in Ec. injection Ec as ->.
    split; [reflexivity|]. rewrite skipn_app, map_length, relems_app. rewrite skipn_all2 by (rewrite map_length; lia). cbn [relems app].
    replace (S e - length r) with ((e - length r) + 1) by lia. rewrite repeat_app, skipn_app, repeat_length, Nat.sub_diag, skipn_all2 by (rewrite repeat_length; lia). reflexivity. }
  destruct (Nat.ltb e d) eqn:B.
  - (* descend *)
    apply Nat.ltb_lt in B. destruct k as [|k].
    { exfalso. unfold d, rest in B. rewrite skipn_all2 in B by lia. cbn in B. lia. }
    destruct (EC e c Ec) as (Pc & Rc & _).
    destruct (IH (S v) c w2 ltac:(lia) ltac:(lia) Rc (ext_nf n _ v r m N R NF c Ec)) as (c' & rm & kept & E & Rc' & Nc' & Pm & Lk & Jd).
    { rewrite <- Em. destruct S2 as (_ & _ & _ & X & _). exact X. }
    { exact O2. } { exact G2. }
    fold rest in E. replace (d - e) with (fold_right Nat.add 0 rest) by (unfold d; lia). rewrite E. cbn [bind fst snd].
    destruct (set_nth_split r1 e (PList c) (PList c') Ec) as [Sp1 Sp2].
    set (A := firstn e r1) in *. set (Z0 := skipn (S e) r1) in *.
    assert (RE : relems r1 = relems A ++ relems c ++ relems Z0) by (rewrite Sp1, relems_app; cbn [relems]; rewrite telems_list; reflexivity).
    assert (RE' : relems (set_nth r1 e (PList c')) = relems A ++ relems c' ++ relems Z0) by (rewrite Sp2, relems_app; cbn [relems]; rewrite telems_list; reflexivity).
    assert (R' : rok n (S (S k)) v (set_nth r1 e (PList c'))).
    { intros i t Et. rewrite set_nth_length. destruct (Nat.eq_dec i e) as [->|Ni].
      - rewrite set_nth_same in Et by lia. injection Et as <-. rewrite telems_list. split.
        + intros u U. destruct (like_in _ _ _ _ Lk U) as (u' & U' & Su). rewrite (same_ev _ _ _ v Su).
          assert (Q : ev u' v = e /\ nmf u' v = Nat.ltb (S e) (length r1) /\ wok n u').
          { destruct U' as [<-|U']; [split; [apply Ev2|split; assumption]|]. apply Pc. apply (Permutation_in _ (Permutation_sym Pm)), in_app_iff. now left. }
          destruct Q as (Q1 & Q2 & Q3). split; [exact Q1|]. split; [|exact (same_wok _ _ _ _ Su Q3)].
          destruct Su as (_ & _ & _ & _ & _ & _ & X). rewrite X by lia. exact Q2.
        + split; [|exact Rc']. intros _ X. destruct c' as [|t0 c0]; [congruence|]. destruct (rok_last _ _ _ _ Rc' Nc') as (u & U & _). rewrite X in U. destruct U.
      - rewrite set_nth_other in Et by exact Ni. destruct t as [w0|c0].
        + assert (Li : e < i) by (apply (EW i w0 Et)). assert (X : r1 = r).
          { unfold r1, ext. destruct (Nat.ltb (length r) (S e)) eqn:L; [|reflexivity]. apply Nat.ltb_lt in L. exfalso.
            assert (i < length r1) by (apply nth_error_Some; rewrite Et; discriminate). lia. }
          rewrite X in Et |- *. exact (R i _ Et).
        + destruct (EC i c0 Et) as (P0 & R0 & L0). rewrite telems_list. split; [exact P0|]. split; [intro X; exact (L0 X Ni)|exact R0]. }
    exists (set_nth r1 e (PList c')), rm.
    assert (KK : exists kept0, Permutation (relems r) (kept0 ++ rm) /\ like v (relems A ++ kept ++ relems Z0) kept0).
    { destruct Old as [O|[O _]].
      - exists (relems A ++ kept ++ relems Z0). split; [|apply like_refl]. rewrite <- O, RE, Pm, <- !app_assoc. apply Permutation_app_head. apply Permutation_app_head. apply Permutation_app_comm.
      - rewrite O in Pm. apply Permutation_nil in Pm. apply app_eq_nil in Pm. destruct Pm as [-> ->]. exists (relems r). split; [rewrite app_nil_r; reflexivity|].
        cbn [app]. rewrite O in RE. cbn [app] in RE. rewrite <- RE. exact ER. }
    destruct KK as (kept0 & KP & KL). exists kept0. split; [reflexivity|]. split; [exact R'|]. split; [|split; [exact KP|split]].
    + intro X. apply (f_equal (@length _)) in X. rewrite set_nth_length in X. cbn in X. lia.
    + rewrite RE'. apply (like_trans v _ (relems A ++ (w1 :: kept) ++ relems Z0)).
      * apply like_app; [apply like_refl|]. apply like_app; [|apply like_refl]. apply (like_trans v _ (w2 :: kept)); [apply (like_le v (S v)); [lia|exact Lk]|apply like_cons_same, S2].
      * apply (like_perm_l v _ (w1 :: relems A ++ kept ++ relems Z0)); [symmetry; apply Permutation_middle|].
        change (w1 :: kept0) with ([w1] ++ kept0). change (w1 :: relems A ++ kept ++ relems Z0) with ([w1] ++ (relems A ++ kept ++ relems Z0)). apply like_app; [apply like_refl|exact KL].
    + intros u U i Vi In0. specialize (Jd u U).
      assert (Uc : In u (relems c)) by (apply (Permutation_in _ (Permutation_sym Pm)), in_app_iff; now right).
      destruct (Pc u Uc) as (Ue & _). destruct (Nat.eq_dec i v) as [->|Ni].
      * change (ev w v) with e. change (expo (vars (pw_lm u)) v) with (ev u v). rewrite Ue. split; lia.
      * destruct (Jd i) as [J1 J2]; [lia|exact In0|]. split; [exact J1|]. intros L X. apply (J2 L). destruct X as (x & X1 & X2 & X3). exists x. split; [|split; [intros j J; apply X2; lia|exact X3]].
        assert (Xv : ev x v = e) by (rewrite X2 by lia; reflexivity). rewrite <- telems_list.
        apply (rok_child n (S k) v _ x e _ R'); [apply set_nth_same; lia|exact X1|exact Xv].
  - (* the place is found *)
    apply Nat.ltb_ge in B. assert (D0 : fold_right Nat.add 0 rest = 0) by (unfold d in B; lia). assert (De : d = e) by (unfold d; lia).
    rewrite De, Nat.eqb_refl. cbn [assert_ andb negb].
    assert (Zero : forall j, v < j -> expo m j = 0) by (intros j J; apply (degv_skipn_zero m (S v)); [exact D0|lia]).
    set (w3 := set_nonmult v false w2). set (A := firstn e r1). exists (A ++ [PWrap w3]), (relems (skipn e r1)).
    assert (LA : length A = e) by (unfold A; rewrite firstn_length; lia).
    assert (R' : rok n (S k) v (A ++ [PWrap w3])).
    { intros i t Et. rewrite app_length, LA. cbn [length]. destruct (lt_dec i e) as [Li|Li].
      - rewrite nth_error_app1 in Et by lia. assert (Et1 : nth_error r1 i = Some t) by (rewrite <- (firstn_skipn e r1); rewrite nth_error_app1 by (fold A; lia); exact Et).
        destruct (Before i t Et1 Li) as [c0 ->]. destruct (EC i c0 Et1) as (P0 & R0 & _). rewrite telems_list. split; [|split; [lia|exact R0]].
        intros u U. destruct (P0 u U) as (Q1 & Q2 & Q3). split; [exact Q1|]. split; [|exact Q3]. rewrite Q2.
        rewrite (proj2 (Nat.ltb_lt (S i) (length r1))) by lia. symmetry. apply Nat.ltb_lt. lia.
      - rewrite nth_error_app2 in Et by lia. destruct (i - length A) as [|x] eqn:Ei; [|destruct x; discriminate Et]. injection Et as <-. assert (i = e) by lia. subst i. split.
        + intros u [<-|[]]. split; [exact (Ev2 v)|]. split; [|apply wok_set, O2]. unfold w3. rewrite nmf_same by (destruct O2; lia). symmetry. apply Nat.ltb_ge. lia.
        + split; [lia|]. intros j J. split; [change (ev w3 j) with (ev w2 j); rewrite Ev2; apply Zero, J|]. unfold w3. rewrite nmf_other by lia. apply G2. lia. }
    assert (KK : exists kept0, Permutation (relems r) (kept0 ++ relems (skipn e r1)) /\ like v (relems A) kept0).
    { pose proof (firstn_skipn e r1) as FS. apply (f_equal relems) in FS. rewrite relems_app in FS. fold A in FS. destruct Old as [O|[_ O]].
      - exists (relems A). split; [rewrite <- O, <- FS; reflexivity|apply like_refl].
      - rewrite O in *. rewrite app_nil_r in FS. exists (relems r). split; [rewrite app_nil_r; reflexivity|]. rewrite FS. exact ER. }
    destruct KK as (kept0 & KP & KL). exists kept0. split; [reflexivity|]. split; [exact R'|]. split; [destruct A; discriminate|]. split; [exact KP|]. split.
    + rewrite relems_app. cbn [relems telems app]. apply (like_perm_l v _ ([w3] ++ relems A)); [apply Permutation_app_comm|]. change (w1 :: kept0) with ([w1] ++ kept0).
      apply like_app; [|exact KL]. apply like_cons_same. apply (same_trans v _ w2); [apply same_set; lia|exact S2].
    + intros u U i Vi In0. assert (Ur : v < i -> expo m i = 0) by apply Zero.
      assert (W3 : In w3 (relems (A ++ [PWrap w3]))) by (rewrite relems_app, in_app_iff; right; now left).
      assert (F3 : nmf w3 i = false).
      { unfold w3. destruct (Nat.eq_dec i v) as [->|]; [apply nmf_same; destruct O2; lia|]. rewrite nmf_other by lia. apply G2. lia. }
      assert (NL : ~ lnm v (relems (A ++ [PWrap w3])) w i).
      { intro X. assert (Y : lnm v (relems (A ++ [PWrap w3])) w3 i).
        { destruct X as (x & X1 & X2 & X3). exists x. split; [exact X1|]. change (ev w3) with (ev w2). split; [intros j J; rewrite X2 by lia; symmetry; apply Ev2|]. rewrite Ev2. exact X3. }
        apply (rok_flags n (S k) v _ w3 i N R' W3 Vi In0) in Y. congruence. }
      split; [|intros _; exact NL]. destruct (Nat.eq_dec i v) as [->|Ni].
      * change (ev w v) with e. apply relems_in in U. destruct U as (j & t & Et & U). assert (Et1 : nth_error r1 (e + j) = Some t).
        { rewrite <- (firstn_skipn e r1), nth_error_app2 by (fold A; lia). fold A. rewrite LA. replace (e + j - e) with j by lia. exact Et. }
        assert (Ue : ev u v = e + j).
        { destruct t as [w0|c0]; [|rewrite telems_list in U; apply (EC _ c0 Et1), U].
          assert (X : r1 = r).
          { unfold r1, ext. destruct (Nat.ltb (length r) (S e)) eqn:L; [|reflexivity]. apply Nat.ltb_lt in L. exfalso. apply EW in Et1 as Y.
            assert (e + j < length r1) by (apply nth_error_Some; rewrite Et1; discriminate). lia. }
          rewrite X in Et1. apply (R _ _ Et1), U. }
        change (expo (vars (pw_lm u)) v) with (ev u v). lia.
      * change (ev w i) with (expo m i). rewrite Ur by lia. lia.
Qed.
