(** Janet trees of pyginv: the statements at the level of the methods. *)
From Coq Require Import ZArith List Bool Arith Lia Permutation.
From Verif Require Import Outcome MonomModel MonomSpec MonomProofs JanetSpec JanetProofs JanetFindProofs PyMonomModel PyPolyModel PyJanetModel PyJanetSpec PyJanetProofs.
Import ListNotations.
Local Open Scope nat_scope.

Lemma bind_ok {A B} (x : outcome A) (f : A -> outcome B) b : (do a <- x; f a) = Ok b -> exists a, x = Ok a /\ f a = Ok b.
Proof. destruct x as [a| | | |]; cbn [bind]; intro E; try discriminate E. eauto. Qed.

(** the marks "already prolonged" play no role for the structure *)
Fixpoint tmap (f : pwrap -> pwrap) (t : ptree) : ptree :=
  match t with PWrap w => PWrap (f w) | PList l => PList (map (tmap f) l) end.
Lemma tmap_elems f t : telems (tmap f t) = map f (telems t).
Proof.
  induction t as [w|l F] using ptree_ind'; [reflexivity|]. cbn [tmap]. rewrite !telems_list. induction F as [|t l E F IH]; [reflexivity|].
  cbn [map relems]. rewrite map_app, E, IH. reflexivity.
Qed.
Lemma tmap_relems f r : relems (map (tmap f) r) = map f (relems r).
Proof. induction r as [|t r IH]; [reflexivity|]. cbn [map relems]. rewrite map_app, tmap_elems, IH. reflexivity. Qed.
Definition keeps (f : pwrap -> pwrap) : Prop := forall w, pw_lm (f w) = pw_lm w /\ pw_nonmult (f w) = pw_nonmult w.
Lemma rok_tmap n f : keeps f -> forall k v r, rok n k v r -> rok n k v (map (tmap f) r).
Proof.
  intro K. induction k as [|k IH]; intros v r R; cbn [rok] in *; [subst; reflexivity|]. intros i t E. apply nth_error_map_inv in E. destruct E as (t0 & E & ->).
  destruct (R i t0 E) as [P Q].
  assert (Ev : forall u j, ev (f u) j = ev u j) by (intros u j; unfold ev; rewrite (proj1 (K u)); reflexivity).
  assert (Nm : forall u j, nmf (f u) j = nmf u j) by (intros u j; unfold nmf; rewrite (proj2 (K u)); reflexivity).
  rewrite map_length. split.
  - rewrite tmap_elems. intros u U. apply in_map_iff in U. destruct U as (u0 & <- & U). rewrite Ev, Nm. unfold wok. rewrite (proj1 (K u0)), (proj2 (K u0)). exact (P u0 U).
  - destruct t0 as [w|c]; cbn [tmap].
    + destruct Q as [Q1 Q2]. split; [exact Q1|]. intros j J. rewrite Ev, Nm. exact (Q2 j J).
    + destruct Q as [Q1 Q2]. split; [|apply IH, Q2]. intros X Y. apply (Q1 X). rewrite tmap_relems in Y. apply map_eq_nil in Y. exact Y.
Qed.

(** the prolongations *)
Definition marked (take : pwrap -> nat -> bool) (w : pwrap) : pwrap :=
  fold_left (fun w v => set_prolong v true w) (filter (take w) (w_pending w)) w.
Lemma fold_marks vs : forall w, pw_lm (fold_left (fun w v => set_prolong v true w) vs w) = pw_lm w /\ pw_nonmult (fold_left (fun w v => set_prolong v true w) vs w) = pw_nonmult w /\
  pw_id (fold_left (fun w v => set_prolong v true w) vs w) = pw_id w /\ pw_poly (fold_left (fun w v => set_prolong v true w) vs w) = pw_poly w /\
  pw_anc (fold_left (fun w v => set_prolong v true w) vs w) = pw_anc w.
Proof. induction vs as [|v vs IH]; intro w; cbn [fold_left]; [repeat split|]. destruct (IH (set_prolong v true w)) as (A & B & C & D & E). repeat split; assumption. Qed.
Lemma marked_keeps take : keeps (marked take).
Proof. intro w. unfold marked. destruct (fold_marks (filter (take w) (w_pending w)) w) as (A & B & _). split; assumption. Qed.

Lemma w_prolongs_marks o vs : forall w id w' new id', w_prolongs o vs w id = Ok (w', new, id') -> w' = fold_left (fun w v => set_prolong v true w) vs w.
Proof.
  induction vs as [|v vs IH]; intros w id w' new id' E; cbn [w_prolongs fold_left] in *; [now injection E as <- _ _|].
  apply bind_ok in E. destruct E as ([nw w1] & E1 & E). apply bind_ok in E. destruct E as ([[w2 new2] id2] & E2 & E). injection E as <- _ _. cbn [fst snd] in *.
  apply IH in E2. rewrite E2. f_equal. unfold w_of_prolong, assert_ in E1. destruct (nth v (pw_prolong w) true); cbn [negb andb] in E1; [discriminate E1|].
  destruct (nth v (pw_nonmult w) false); cbn [negb andb] in E1; [|discriminate E1]. apply bind_ok in E1. destruct E1 as (p & _ & E1).
  destruct p as [|[m c] p]; [discriminate E1|]. injection E1 as _ <-. reflexivity.
Qed.
Lemma t_prolongs_marks o take t : forall id t' new id', t_prolongs o take t id = Ok (t', new, id') -> t' = tmap (marked take) t.
Proof.
  induction t as [w|l F] using ptree_ind'; intros id t' new id' E; cbn [t_prolongs tmap] in *.
  - apply bind_ok in E. destruct E as ([[w1 n1] i1] & E & X). injection X as <- _ _. apply w_prolongs_marks in E. cbn [fst]. rewrite E. reflexivity.
  - apply bind_ok in E. destruct E as ([[l1 n1] i1] & E & X). injection X as <- _ _. cbn [fst]. f_equal. revert id l1 n1 i1 E. induction F as [|t l Ht F IH]; intros id l1 n1 i1 E.
    + injection E as <- _ _. reflexivity.
    + apply bind_ok in E. destruct E as ([[t2 n2] i2] & E1 & E). apply bind_ok in E. destruct E as ([[l3 n3] i3] & E2 & E). injection E as <- _ _. cbn [fst snd map] in *.
      rewrite (Ht _ _ _ _ E1), (IH _ _ _ _ E2). reflexivity.
Qed.
Lemma prolongs_root o take J id J' new id' : pj_prolongs o take J id = Ok (J', new, id') ->
  J' = PJ (map (tmap (marked take)) (pj_root J)) (pj_pos J) (pj_count J).
Proof.
  unfold pj_prolongs. intro E. apply bind_ok in E. destruct E as ([[t n1] i1] & E & X). injection X as <- _ _. apply t_prolongs_marks in E. cbn [fst]. rewrite E. reflexivity.
Qed.

(** invariant of the trees *)
Definition inv (n : nat) (J : pjanet) : Prop :=
  rok n n 0 (pj_root J) /\ (forall u, In u (elems J) -> pos (pw_lm u) = pj_pos J).

Lemma clean_wok n w : clean n w -> wok n w /\ forall i, nmf w i = false.
Proof.
  intros (A & B & _). split; [split; [exact A|rewrite B; apply repeat_length]|]. intro i. unfold nmf. rewrite B. clear. revert i. induction n; intros [|i]; cbn; auto.
Qed.

Lemma ljd_janet n J u m : In u (elems J) -> (ljd n 0 (elems J) u m <-> janet_divides n (tree_exps J) (exps u) m).
Proof.
  intro U.
  assert (L : forall i, lnm 0 (elems J) u i <-> janet_nm (tree_exps J) (exps u) i).
  { intro i. split.
    - intros (w & W & A & B). exists (exps w). split; [apply in_map, W|]. split; [intros j H; apply A; lia|exact B].
    - intros (x & X & A & B). apply in_map_iff in X. destruct X as (w & <- & W). exists w. split; [exact W|]. split; [intros j H; apply A; lia|exact B]. }
  split.
  - intro D. split; [apply in_map, U|]. split.
    + intros i I. apply (D i); lia.
    + intros i I E X. apply L in X. exact (proj2 (D i ltac:(lia) I) E X).
  - intros (_ & D & M) i _ I. split; [exact (D i I)|]. intros E X. apply L in X. exact (M i I E X).
Qed.
Lemma lnm_janet J u i : lnm 0 (elems J) u i <-> janet_nm (tree_exps J) (exps u) i.
Proof.
  split.
  - intros (w & W & A & B). exists (exps w). split; [apply in_map, W|]. split; [intros j H; apply A; lia|exact B].
  - intros (x & X & A & B). apply in_map_iff in X. destruct X as (w & <- & W). exists w. split; [exact W|]. split; [intros j H; apply A; lia|exact B].
Qed.

Lemma find_root n J m : inv n J -> length (vars m) = n -> pj_root J <> [] ->
  pj_findWrap J m = assert_ true (Z.eqb (pj_pos J) (pos m)) (p_find (skipn 0 (vars m)) (pj_root J)).
Proof. intros _ _ N. unfold pj_findWrap. destruct (pj_root J); [congruence|reflexivity]. Qed.

(** one call of __insert *)
Lemma insert1_ok n J w : 0 < n -> inv n J -> clean n w -> (pj_root J <> [] -> pos (pw_lm w) = pj_pos J) ->
  (forall u, In u (elems J) -> ~ janet_divides n (tree_exps J) (exps u) (exps w)) ->
  exists r' rm kept, pj_insert1 J w = Ok (PJ r' (pos (pw_lm w)) (pj_count J + 1)%Z, rm) /\ inv n (PJ r' (pos (pw_lm w)) (pj_count J + 1)%Z) /\ r' <> [] /\
    Permutation (elems J) (kept ++ rm) /\ like 0 (relems r') (w :: kept) /\
    forall u, In u rm -> ljd n 0 (relems r') w (exps u).
Proof.
  intros N I0 C Pw NF. pose proof I0 as [R P]. destruct (clean_wok n w C) as [Ow Fw]. destruct Ow as [Lw Ln].
  assert (NF' : forall u, In u (relems (pj_root J)) -> ~ ljd n 0 (relems (pj_root J)) u (vars (pw_lm w))).
  { intros u U D. apply (NF u U). apply ljd_janet; [exact U|exact D]. }
  assert (F : pj_findWrap J (pw_lm w) = Ok None).
  { destruct (pj_root J) as [|t r] eqn:Er; [unfold pj_findWrap; rewrite Er; reflexivity|].
    assert (Er' : pj_root J <> []) by (rewrite Er; discriminate).
    rewrite (find_root n J (pw_lm w) I0 Lw Er'). rewrite Pw by discriminate. rewrite Z.eqb_refl. cbn [assert_ andb negb].
    rewrite Er. pose proof (find_ok n (vars (pw_lm w)) Lw n 0 (t :: r) eq_refl R) as X.
    destruct (p_find (skipn 0 (vars (pw_lm w))) (t :: r)) as [[u|]| | | |]; try contradiction; [|reflexivity]. exfalso. destruct X as [X1 X2]. exact (NF' u X1 X2). }
  destruct (insert_ok n w Lw n 0 (pj_root J) w eq_refl N R NF' eq_refl (conj Lw Ln) (fun i _ => Fw i)) as (r' & rm & kept & E & R' & Nr & Pm & Lk & Jd).
  exists r', rm, kept. cbn [skipn] in E.
  assert (Ep : match pj_root J with [] => pos (pw_lm w) | _ :: _ => pj_pos J end = pos (pw_lm w)) by (destruct (pj_root J); [reflexivity|symmetry; apply Pw; discriminate]).
  split.
  - unfold pj_insert1. rewrite F. cbn [bind]. rewrite Ep, Z.eqb_refl. cbn [assert_ andb negb]. unfold w_degree, py_degree. rewrite E. reflexivity.
  - split; [split; [exact R'|]|split; [exact Nr|split; [exact Pm|split; [exact Lk|exact Jd]]]].
    intros u U. cbn [pj_pos]. unfold elems in U. cbn [pj_root] in U. destruct (like_in _ _ _ _ Lk U) as (u' & U' & S). destruct S as (_ & _ & _ & S & _). rewrite S.
    destruct U' as [<-|U']; [reflexivity|]. assert (In u' (elems J)) as I by (apply (Permutation_in _ (Permutation_sym Pm)), in_app_iff; now left).
    rewrite (P u' I). symmetry. apply Pw. intro X. unfold elems in I. rewrite X in I. destruct I.
Qed.
Lemma like_length v l l' : like v l l' -> length l = length l'.
Proof. intros (l0 & P & F). rewrite (Permutation_length P). clear P. induction F; cbn; congruence. Qed.

(** a call that succeeds *)
Lemma insert1_inv n J w J' rm : 0 < n -> inv n J -> clean n w -> pj_insert1 J w = Ok (J', rm) ->
  inv n J' /\ pj_count J' = (pj_count J + 1)%Z /\ length (elems J) + 1 = length (elems J') + length rm.
Proof.
  intros N I C E. assert (X : (pj_root J <> [] -> pos (pw_lm w) = pj_pos J) /\ forall u, In u (elems J) -> ~ janet_divides n (tree_exps J) (exps u) (exps w)).
  { unfold pj_insert1 in E. apply bind_ok in E. destruct E as (f & F & E). destruct f as [u|]; [discriminate E|].
    destruct (pj_root J) as [|t r] eqn:Er; [split; [intro X0; exfalso; apply X0; first [reflexivity|exact Er]|]; intros u U; unfold elems in U; rewrite Er in U; destruct U|].
    assert (Er' : pj_root J <> []) by (rewrite Er; discriminate). rewrite (find_root n J (pw_lm w) I (proj1 C) Er') in F. unfold assert_ in F. destruct (Z.eqb_spec (pj_pos J) (pos (pw_lm w))) as [Q|Q]; [|discriminate F].
    cbn [andb negb] in F. split; [intros _; symmetry; exact Q|]. intros u U D. apply ljd_janet in D; [|exact U].
    destruct C as [L _]. destruct I as [R _]. pose proof (find_ok n (vars (pw_lm w)) L n 0 (pj_root J) eq_refl R) as X. rewrite F in X. exact (X u U D). }
  destruct X as [Pw NF]. destruct (insert1_ok n J w N I C Pw NF) as (r' & rm' & kept & E' & I' & Nr & Pm & Lk & _).
  rewrite E' in E. injection E as <- <-. split; [exact I'|]. split; [reflexivity|]. apply Permutation_length in Pm. apply like_length in Lk. rewrite app_length in Pm. unfold elems in *. cbn [pj_root length] in *.
  lia.
Qed.
Lemma loop_inv n q : forall J lst J' lst', 0 < n -> inv n J -> Forall (clean n) q -> pj_insert_loop J q lst = Ok (J', lst') ->
  inv n J' /\ (pj_count J' = pj_count J + Z.of_nat (length q))%Z /\ length (elems J) + length q + length lst = length (elems J') + length lst'.
Proof.
  induction q as [|w q IH]; intros J lst J' lst' N I F E; cbn [pj_insert_loop] in E.
  - injection E as <- <-. split; [exact I|]. split; cbn [length]; lia.
  - apply bind_ok in E. destruct E as ([J1 rm] & E1 & E). cbn [fst snd] in E. inversion F as [|? ? C F']; subst. destruct (insert1_inv n J w J1 rm N I C E1) as (I1 & C1 & L1).
    destruct (IH J1 (lst ++ rm) J' lst' N I1 F' E) as (I2 & C2 & L2). split; [exact I2|]. rewrite app_length in L2. cbn [length]. split; lia.
Qed.
Lemma built_inv n J : 0 < n -> built n J -> inv n J /\ pj_count J = Z.of_nat (length (elems J)).
Proof.
  intros N B. induction B as [|J q J' lst B IH F E|o take J id J' new id' B IH E].
  - split; [|reflexivity]. split; [apply rok_nil|]. intros u [].
  - destruct IH as [I C]. unfold pj_insert in E. apply bind_ok in E. destruct E as ([J1 rm] & E1 & E). cbn [fst snd] in E. injection E as <- <-.
    destruct (loop_inv n q J [] J1 rm N I F E1) as (I1 & C1 & L1). split; [exact I1|]. cbn [pj_count]. unfold elems in *. cbn [pj_root length] in *. lia.
  - destruct IH as [[R P] C]. apply prolongs_root in E. subst J'. split; [split|].
    + cbn [pj_root]. apply rok_tmap; [apply marked_keeps|exact R].
    + unfold elems. cbn [pj_root pj_pos]. rewrite tmap_relems. intros u U. apply in_map_iff in U. destruct U as (u0 & <- & U). rewrite (proj1 (marked_keeps take u0)). exact (P u0 U).
    + cbn [pj_count]. unfold elems in *. cbn [pj_root]. rewrite tmap_relems, map_length. exact C.
Qed.

(** the elements have different leading monomials *)
Definition distinct (J : pjanet) : Prop := NoDup (tree_exps J).
Lemma like_exps v l l' : like v l l' -> Permutation (map exps l) (map exps l').
Proof.
  intros (l0 & P & F). rewrite P. clear P. induction F as [|a b l0 l' S F IH]; cbn [map]; [constructor|]. destruct S as (_ & _ & _ & S & _). unfold exps at 1 3. rewrite S. constructor. exact IH.
Qed.
Lemma self_divides n J u : In u (elems J) -> janet_divides n (tree_exps J) (exps u) (exps u).
Proof. intro U. split; [apply in_map, U|]. split; [intros i _; lia|]. intros i _ X. lia. Qed.
Lemma NoDup_app_l {A} (a b : list A) : NoDup (a ++ b) -> NoDup a.
Proof. induction a as [|x a IH]; intro N; [constructor|]. inversion N as [|? ? X N']; subst. constructor; [intro Y; apply X, in_app_iff; now left|exact (IH N')]. Qed.

(** conditions under which __insert accepts a Wrap *)
Lemma insert1_pre n J w J' rm : inv n J -> clean n w -> pj_insert1 J w = Ok (J', rm) ->
  (pj_root J <> [] -> pos (pw_lm w) = pj_pos J) /\ forall u, In u (elems J) -> ~ janet_divides n (tree_exps J) (exps u) (exps w).
Proof.
  intros I C E. unfold pj_insert1 in E. apply bind_ok in E. destruct E as (f & F & E). destruct f as [u|]; [discriminate E|].
  destruct (pj_root J) as [|t r] eqn:Er; [split; [intro X0; exfalso; apply X0; reflexivity|]; intros u U; unfold elems in U; rewrite Er in U; destruct U|].
  assert (Er' : pj_root J <> []) by (rewrite Er; discriminate). rewrite (find_root n J (pw_lm w) I (proj1 C) Er') in F.
  unfold assert_ in F. destruct (Z.eqb_spec (pj_pos J) (pos (pw_lm w))) as [Q|Q]; [|discriminate F].
  cbn [andb negb] in F. split; [intros _; symmetry; exact Q|]. intros u U D. apply ljd_janet in D; [|exact U].
  destruct C as [L _]. destruct I as [R _]. pose proof (find_ok n (vars (pw_lm w)) L n 0 (pj_root J) eq_refl R) as X. rewrite F in X. exact (X u U D).
Qed.

(** further facts kept by insertion *)
Definition allzero (n : nat) (w : pwrap) : Prop := forall i, i < n -> expo (exps w) i = 0.
Definition extra (n : nat) (J : pjanet) : Prop :=
  distinct J /\ (forall u, In u (elems J) -> length (pw_prolong u) = n) /\ (forall u, In u (elems J) -> allzero n u -> elems J = [u]).
Lemma zero_degree l : (forall i, i < length l -> expo l i = 0) -> fold_right Nat.add 0 l = 0.
Proof.
  induction l as [|x l IH]; intro Z0; [reflexivity|]. cbn [fold_right]. pose proof (Z0 0 ltac:(cbn; lia)) as X. cbn in X. rewrite IH; [cbn in *; lia|]. intros i I. exact (Z0 (S i) ltac:(cbn; lia)).
Qed.
Lemma insert1_extra n J w J' rm : 0 < n -> inv n J -> extra n J -> clean n w -> pj_insert1 J w = Ok (J', rm) -> extra n J'.
Proof.
  intros N I (D & Lp & Zr) C E. destruct (insert1_pre n J w J' rm I C E) as [Pw NF].
  destruct (insert1_ok n J w N I C Pw NF) as (r' & rm' & kept & E' & I' & Nr & Pm & Lk & _). pose proof E' as E0. rewrite E' in E. injection E as <- <-.
  set (J' := PJ r' (pos (pw_lm w)) (pj_count J + 1)%Z) in *.
  split; [|split].
  - unfold distinct, tree_exps. apply (Permutation_NoDup (Permutation_sym (like_exps _ _ _ Lk))). cbn [map]. constructor.
    + intro X. apply in_map_iff in X. destruct X as (u & Eu & U). assert (In u (elems J)) as U' by (apply (Permutation_in _ (Permutation_sym Pm)), in_app_iff; now left).
      apply (NF u U'). rewrite <- Eu. apply self_divides, U'.
    + apply (NoDup_app_l _ (map exps rm')). rewrite <- map_app. apply (Permutation_NoDup (Permutation_map exps Pm) D).
  - intros u U. destruct (like_in _ _ _ _ Lk U) as (u' & U' & S). destruct S as (_ & _ & _ & _ & S & _). rewrite S.
    destruct U' as [<-|U']; [apply C|]. apply Lp. apply (Permutation_in _ (Permutation_sym Pm)), in_app_iff. now left.
  - intros u U Z0. destruct (like_in _ _ _ _ Lk U) as (u' & U' & S). destruct U' as [<-|U'].
    + (* the unit is inserted: everything else is removed *)
      assert (Zw : allzero n w) by (intros i Hi; destruct S as (_ & _ & _ & S & _); unfold exps; rewrite <- S; exact (Z0 i Hi)).
      assert (X : exists w3, r' = [PWrap w3]).
      { unfold pj_insert1 in E0. apply bind_ok in E0. destruct E0 as (f & _ & E0). destruct f; [discriminate E0|]. unfold assert_ in E0.
        destruct (Z.eqb _ _); cbn [andb negb] in E0; [|discriminate E0]. apply bind_ok in E0. destruct E0 as ([r2 rm2] & E0 & X). injection X as <- _ _.
        destruct C as [L _]. unfold exps, allzero in *. unfold w_degree, py_degree in E0. rewrite (zero_degree (vars (pw_lm w))) in E0 by (rewrite L; exact Zw).
        destruct (vars (pw_lm w)) as [|e es] eqn:Ve; [cbn in L; lia|]. pose proof (Zw 0 N) as Z1. unfold exps in Z1. rewrite Ve in Z1. change (e = 0) in Z1. subst e. cbn [p_insert] in E0.
        set (r1 := if Nat.ltb (length (pj_root J)) 1 then map (t_mark 0) (pj_root J) ++ repeat (PList []) (1 - length (pj_root J)) else pj_root J) in E0.
        destruct (nth 0 r1 (PList [])); [discriminate E0|]. cbn [Nat.ltb Nat.leb Nat.eqb assert_ andb negb firstn app] in E0. injection E0 as <- _. eexists. reflexivity. }
      destruct X as [w3 ->]. unfold elems in U |- *. cbn [pj_root J' relems telems app] in U |- *. destruct U as [<-|[]]. reflexivity.
    + (* the unit was there: it divides w *)
      exfalso. assert (U2 : In u' (elems J)) by (apply (Permutation_in _ (Permutation_sym Pm)), in_app_iff; now left).
      assert (Z2 : allzero n u') by (intros i Hi; destruct S as (_ & _ & _ & S & _); unfold exps; rewrite <- S; exact (Z0 i Hi)).
      pose proof (Zr u' U2 Z2) as One. apply (NF u' U2). split; [apply in_map, U2|]. split; [intros i Hi; rewrite Z2 by exact Hi; lia|].
      intros i Hi _ (x & X & _ & X2). unfold tree_exps in X. rewrite One in X. destruct X as [<-|[]]. lia.
Qed.
Lemma fold_marks_length vs : forall w, length (pw_prolong (fold_left (fun w v => set_prolong v true w) vs w)) = length (pw_prolong w).
Proof. induction vs as [|v vs IH]; intro w; cbn [fold_left]; [reflexivity|]. rewrite IH. cbn. apply set_flag_length. Qed.
Lemma marked_exps take w : exps (marked take w) = exps w.
Proof. unfold exps. rewrite (proj1 (marked_keeps take w)). reflexivity. Qed.

Lemma built_extra n J : 0 < n -> built n J -> extra n J.
Proof.
  intros N B. induction B as [|J q J' lst B IH F E|o take J id J' new id' B IH E].
  - split; [constructor|]. split; intros u [].
  - destruct (built_inv n J N B) as [I _]. unfold pj_insert in E. apply bind_ok in E. destruct E as ([J1 rm] & E1 & E). cbn [fst snd] in E. injection E as <- <-. clear B.
    change (extra n J1). revert J rm I IH E1. generalize (@nil pwrap) as l0. induction F as [|w q C F IHq]; intros l0 J rm I IH E1; cbn [pj_insert_loop] in E1; [now injection E1 as <- _|].
    apply bind_ok in E1. destruct E1 as ([J2 rm2] & E2 & E1). cbn [fst snd] in E1. apply (IHq (l0 ++ rm2) J2 rm); [apply (insert1_inv n J w J2 rm2 N I C E2)|exact (insert1_extra n J w J2 rm2 N I IH C E2)|exact E1].
  - destruct IH as (D & Lp & Zr). apply prolongs_root in E. subst J'. assert (El : elems (PJ (map (tmap (marked take)) (pj_root J)) (pj_pos J) (pj_count J)) = map (marked take) (elems J)).
    { unfold elems. cbn [pj_root]. apply tmap_relems. }
    split; [|split].
    + unfold distinct, tree_exps. rewrite El, map_map, (map_ext _ _ (marked_exps take)). exact D.
    + rewrite El. intros u U. apply in_map_iff in U. destruct U as (u0 & <- & U). unfold marked. rewrite fold_marks_length. exact (Lp u0 U).
    + rewrite El. intros u U Z0. apply in_map_iff in U. destruct U as (u0 & <- & U). rewrite (Zr u0 U); [reflexivity|]. intros i Hi. rewrite <- (marked_exps take). exact (Z0 i Hi).
Qed.

(* ---------------------------------------------------------------- statements *)
Lemma same_exps_eq l u u' : NoDup (map exps l) -> In u l -> In u' l -> exps u = exps u' -> u = u'.
Proof.
  induction l as [|x l IH]; intros D U U' E; [destruct U|]. cbn [map] in D. inversion D as [|? ? X D']; subst.
  destruct U as [->|U], U' as [->|U']; auto.
  - exfalso. apply X. rewrite E. apply in_map, U'.
  - exfalso. apply X. rewrite <- E. apply in_map, U.
Qed.
Lemma tree_lengths n J x : inv n J -> In x (tree_exps J) -> length x = n.
Proof. intros [R _] X. apply in_map_iff in X. destruct X as (u & <- & U). apply (rok_wok n n 0 _ u R U). Qed.

Lemma pyj_find n J m : 0 < n -> built n J -> length (vars m) = n -> (forall u, In u (elems J) -> pos (pw_lm u) = pos m) ->
  (exists r, pj_findWrap J m = Ok r) /\
  (forall u, pj_findWrap J m = Ok (Some u) <-> In u (elems J) /\ janet_divides n (tree_exps J) (exps u) (vars m)) /\
  (pj_findWrap J m = Ok None <-> forall x, ~ janet_divides n (tree_exps J) x (vars m)).
Proof.
  intros N B L P. destruct (built_inv n J N B) as [I _]. destruct (built_extra n J N B) as [D _].
  assert (X : match pj_findWrap J m with
    | Ok (Some u) => In u (elems J) /\ janet_divides n (tree_exps J) (exps u) (vars m)
    | Ok None => forall x, ~ janet_divides n (tree_exps J) x (vars m)
    | _ => False end).
  { destruct (pj_root J) as [|t r] eqn:Er.
    - unfold pj_findWrap. rewrite Er. intros x [X _]. unfold tree_exps, elems in X. rewrite Er in X. destruct X.
    - assert (Er' : pj_root J <> []) by (rewrite Er; discriminate). rewrite (find_root n J m I L Er'). destruct I as [R Q].
      assert (E : pj_pos J = pos m).
      { destruct n as [|k]; [lia|]. destruct (rok_last (S k) k 0 (pj_root J) R Er') as (u & U & _). rewrite <- (Q u U). exact (P u U). }
      rewrite E, Z.eqb_refl. cbn [assert_ andb negb]. pose proof (find_ok n (vars m) L n 0 (pj_root J) eq_refl R) as X.
      destruct (p_find (skipn 0 (vars m)) (pj_root J)) as [[u|]| | | |]; try contradiction.
      + destruct X as [U X]. split; [exact U|]. apply ljd_janet; [exact U|exact X].
      + intros x Y. pose proof Y as [Yi _]. apply in_map_iff in Yi. destruct Yi as (u & <- & U). apply (X u U). apply ljd_janet; [exact U|exact Y]. }
  destruct (pj_findWrap J m) as [[u|]| | | |]; try contradiction; (split; [eauto|]); split.
  - intro u'. split; [intro E; injection E as <-; exact X|]. intros [U' Y]. f_equal. f_equal. destruct X as [U X]. apply (same_exps_eq (elems J)); auto.
    exact (janet_unique n _ _ _ _ (fun x => tree_lengths n J x I) X Y).
  - split; [discriminate|]. intro Y. exfalso. exact (Y _ (proj2 X)).
  - intro u. split; [discriminate|]. intros [_ Y]. exfalso. exact (X _ Y).
  - split; auto.
Qed.
Lemma pyj_find_position n J m u : 0 < n -> built n J -> In u (elems J) -> pos (pw_lm u) <> pos m -> pj_findWrap J m = AssertFail.
Proof.
  intros N B U P. destruct (built_inv n J N B) as [[R Q] _]. unfold pj_findWrap. destruct (pj_root J) as [|t r] eqn:Er; [unfold elems in U; rewrite Er in U; destruct U|].
  unfold assert_. destruct (Z.eqb_spec (pj_pos J) (pos m)) as [E|E]; [|reflexivity]. exfalso. apply P. rewrite (Q u U). exact E.
Qed.
Lemma pyj_flags n J u i : 0 < n -> built n J -> In u (elems J) -> i < n -> (nth i (pw_nonmult u) false = true <-> janet_nm (tree_exps J) (exps u) i).
Proof.
  intros N B U Hi. destruct (built_inv n J N B) as [[R _] _]. rewrite <- lnm_janet. exact (rok_flags n n 0 (pj_root J) u i eq_refl R U ltac:(lia) Hi).
Qed.
Lemma like_same l l' : like 0 l l' -> exists l0, Permutation l l0 /\ Forall2 same_wrap l0 l'.
Proof.
  intros (l0 & P & F). exists l0. split; [exact P|]. clear P. induction F as [|a b l0 l' S F IH]; constructor; [|exact IH]. destruct S as (A & B & C & D & E & _). repeat split; assumption.
Qed.
Lemma pyj_insert n J w : 0 < n -> built n J -> clean n w -> (forall u, In u (elems J) -> pos (pw_lm u) = pos (pw_lm w)) ->
  (forall x, ~ janet_divides n (tree_exps J) x (exps w)) ->
  exists J' lst kept, pj_insert J [w] = Ok (J', lst) /\ built n J' /\ Permutation (elems J) (kept ++ lst) /\
    (exists l, Permutation (elems J') l /\ Forall2 same_wrap l (w :: kept)) /\
    forall u, In u (elems J) -> (In u lst <-> janet_divides n (tree_exps J') (exps w) (exps u)).
Proof.
  intros N B C P NF. destruct (built_inv n J N B) as [I _]. destruct (built_extra n J N B) as [D _].
  assert (Pw : pj_root J <> [] -> pos (pw_lm w) = pj_pos J).
  { intro Er. destruct I as [R Q]. destruct n as [|k]; [lia|]. destruct (rok_last (S k) k 0 (pj_root J) R Er) as (u & U & _). rewrite <- (Q u U). symmetry. exact (P u U). }
  destruct (insert1_ok n J w N I C Pw (fun u _ => NF _)) as (r' & rm & kept & E & I' & Nr & Pm & Lk & Jd).
  set (J1 := PJ r' (pos (pw_lm w)) (pj_count J + 1)%Z) in *. set (J' := PJ r' (pos (pw_lm w)) (pj_count J + 1 - Z.of_nat (length rm))%Z).
  assert (E' : pj_insert J [w] = Ok (J', rm)) by (unfold pj_insert; cbn [pj_insert_loop]; rewrite E; cbn [bind fst snd app]; reflexivity).
  assert (B' : built n J') by (apply (built_insert n J [w] J' rm B); [constructor; [exact C|constructor]|exact E']).
  exists J', rm, kept. split; [exact E'|]. split; [exact B'|]. split; [exact Pm|]. split; [apply like_same, Lk|].
  assert (Xw : Permutation (tree_exps J') (exps w :: map exps kept)) by exact (like_exps _ _ _ Lk).
  intros u U. split.
  - intro Ur. specialize (Jd u Ur). assert (Ww : In (exps w) (tree_exps J')) by (apply (Permutation_in _ (Permutation_sym Xw)); now left).
    apply in_map_iff in Ww. destruct Ww as (w' & Ew & Ww). rewrite <- Ew. apply ljd_janet; [exact Ww|].
    assert (V : forall i, ev w' i = ev w i) by (intro i; unfold ev; change (expo (exps w') i = expo (exps w) i); rewrite Ew; reflexivity).
    intros i Vi Hi. rewrite V. destruct (Jd i Vi Hi) as [J2 J3]. split; [exact J2|]. intros Lt X. apply (J3 Lt). destruct X as (x & X1 & X2 & X3).
    exists x. split; [exact X1|]. split; [intros j Hj; rewrite X2 by exact Hj; apply V|rewrite <- V; exact X3].
  - intro Y. apply (Permutation_in _ Pm) in U. apply in_app_iff in U. destruct U as [Uk|Ur]; [exfalso|exact Ur].
    assert (Iu : In (exps u) (tree_exps J')) by (apply (Permutation_in _ (Permutation_sym Xw)); right; apply in_map, Uk).
    assert (Du : janet_divides n (tree_exps J') (exps u) (exps u)) by (split; [exact Iu|]; split; [intros i _; lia|]; intros i _ X; lia).
    pose proof (janet_unique n _ _ _ _ (fun x => tree_lengths n J1 x I') Y Du) as Eq.
    apply (NF (exps u)). rewrite Eq. apply self_divides. apply (Permutation_in _ (Permutation_sym Pm)), in_app_iff. now left.
Qed.
Lemma pyj_insert_fails n J w q : 0 < n -> built n J -> length (exps w) = n ->
  ((exists u, In u (elems J) /\ pos (pw_lm u) <> pos (pw_lm w)) \/ (exists x, janet_divides n (tree_exps J) x (exps w))) -> pj_insert J (w :: q) = AssertFail.
Proof.
  intros N B L H. assert (X : pj_insert1 J w = AssertFail); [|unfold pj_insert; cbn [pj_insert_loop]; rewrite X; reflexivity].
  destruct (built_inv n J N B) as [I _]. assert (Pd : (forall u, In u (elems J) -> pos (pw_lm u) = pos (pw_lm w)) \/ exists u, In u (elems J) /\ pos (pw_lm u) <> pos (pw_lm w)).
  { destruct (Z.eq_dec (pj_pos J) (pos (pw_lm w))) as [E|E].
    - left. intros u U. rewrite <- E. exact (proj2 I u U).
    - destruct (elems J) as [|u l] eqn:El; [left; intros u []|right]. exists u. split; [now left|]. rewrite (proj2 I u); [exact E|rewrite El; now left]. }
  unfold pj_insert1. destruct Pd as [P|(u & U & P)].
  - destruct H as [(u & U & H)|(x & H)]; [exfalso; exact (H (P u U))|]. destruct (pyj_find n J (pw_lm w) N B L P) as (_ & F & _).
    pose proof H as [Hi _]. apply in_map_iff in Hi. destruct Hi as (u & <- & U). rewrite (proj2 (F u) (conj U H)). reflexivity.
  - rewrite (pyj_find_position n J (pw_lm w) u N B U P). reflexivity.
Qed.
