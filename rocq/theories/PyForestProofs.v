(** Proofs about class Forest of pyginv. *)
From Coq Require Import ZArith List Bool Arith QArith Lia Permutation.
From Verif Require Import Outcome MonomModel MonomSpec MonomProofs PolySpec JanetSpec HilbertSpec HilbertProofs PyMonomModel PyMonomSpec PyPolyModel PyPolySpec PyJanetModel PyJanetSpec PyJanetProofs PyJanetTop PyJanetProlong
  PyHPModel PyHPSpec PyHPProofs PyForestModel PyForestSpec.
Import ListNotations.
Local Open Scope nat_scope.

(** tree i holds the Wraps of the unknown function i *)
Definition fits (n i : nat) (J : pjanet) : Prop := built n J /\ forall u, In u (elems J) -> pos (pw_lm u) = Z.of_nat i.
Definition finv (n k : nat) (F : pforest) : Prop := length F = k /\ forall i J, nth_error F i = Some J -> fits n i J.

Lemma index_ok len p : (0 <= p)%Z -> (p < Z.of_nat len)%Z -> py_index len p = Some (Z.to_nat p).
Proof. intros A B. unfold py_index. rewrite (proj2 (Z.leb_le 0 p) A), (proj2 (Z.ltb_lt p (Z.of_nat len)) B). reflexivity. Qed.
Lemma index_big len p : (Z.of_nat len <= p)%Z -> py_index len p = None.
Proof. intro A. unfold py_index. destruct (Z.leb_spec 0 p), (Z.ltb_spec p (Z.of_nat len)), (Z.ltb_spec p 0); cbn [andb]; try reflexivity; lia. Qed.
Lemma index_lt len p i : py_index len p = Some i -> (0 <= p)%Z -> i < len /\ p = Z.of_nat i.
Proof. unfold py_index. destruct (Z.leb_spec 0 p), (Z.ltb_spec p (Z.of_nat len)), (Z.ltb_spec p 0); cbn [andb]; intros E A; try discriminate E; try lia. injection E as <-. lia. Qed.

Lemma replace_nth F i J j : i < length F -> nth_error (replace F i J) j = if Nat.eqb j i then Some J else nth_error F j.
Proof. revert i j. induction F as [|x F IH]; intros [|i] [|j] L; cbn [length replace nth_error Nat.eqb] in *; try lia; try reflexivity. apply IH. lia. Qed.
Lemma replace_length F i J : length (replace F i J) = length F.
Proof. revert i. induction F as [|x F IH]; intros [|i]; cbn [length replace]; auto. Qed.
Lemma nth_some {A} (F : list A) i d : i < length F -> nth_error F i = Some (nth i F d).
Proof. revert i. induction F as [|x F IH]; intros [|i] L; cbn in *; try lia; [reflexivity|]. apply IH. lia. Qed.

(** one call of Janet.insert with one Wrap *)
Lemma insert_one n J w J' lst : 0 < n -> built n J -> clean n w -> pj_insert J [w] = Ok (J', lst) ->
  built n J' /\ (forall u, In u (elems J) -> pos (pw_lm u) = pos (pw_lm w)) /\ forall x, ~ janet_divides n (tree_exps J) x (exps w).
Proof.
  intros N B C E. split; [apply (built_insert n J [w] J' lst B); [constructor; [exact C|constructor]|exact E]|].
  unfold pj_insert in E. cbn [pj_insert_loop] in E. apply bind_ok in E. destruct E as ([J1 l1] & E & _). apply bind_ok in E. destruct E as ([J2 l2] & E & _).
  destruct (built_inv n J N B) as [I _]. destruct (insert1_pre n J w J2 l2 I C E) as [P NF]. split.
  - intros u U. rewrite P; [apply I, U|]. intro X. unfold elems in U. rewrite X in U. destruct U.
  - intros x X. pose proof X as [Xi _]. apply in_map_iff in Xi. destruct Xi as (u & <- & U). exact (NF u U X).
Qed.
Lemma fits_insert n i J w J' lst : 0 < n -> fits n i J -> clean n w -> pos (pw_lm w) = Z.of_nat i -> pj_insert J [w] = Ok (J', lst) -> fits n i J'.
Proof.
  intros N [B P] C Pw E. destruct (insert_one n J w J' lst N B C E) as (B' & Q & NF). split; [exact B'|].
  destruct (pyj_insert n J w N B C Q NF) as (J2 & l2 & kept & E2 & _ & Pm & (l & Pl & F2) & _). rewrite E in E2. injection E2 as <- <-.
  intros u U. apply (Permutation_in _ Pl) in U. assert (X : exists u', In u' (w :: kept) /\ pw_lm u = pw_lm u').
  { clear - F2 U. induction F2 as [|a b l l' S F IH]; [destruct U|]. destruct U as [<-|U]; [exists b; split; [now left|apply S]|]. destruct (IH U) as (u' & A & D). exists u'. split; [now right|exact D]. }
  destruct X as (u' & [<-|U'] & X); [rewrite X; exact Pw|]. rewrite X. apply P. apply (Permutation_in _ (Permutation_sym Pm)), in_app_iff. now left.
Qed.
Lemma built_same_lms n o take J id J' new id' : built n J -> pj_prolongs o take J id = Ok (J', new, id') -> built n J' /\ elems J' = map (marked take) (elems J).
Proof.
  intros B E. split; [exact (built_prolong n o take J id J' new id' B E)|]. apply prolongs_root in E. subst J'. unfold elems. cbn [pj_root]. apply tmap_relems.
Qed.

Lemma finv_replace n k F i J : finv n k F -> i < k -> fits n i J -> finv n k (replace F i J).
Proof.
  intros [L H] Li X. split; [rewrite replace_length; exact L|]. intros j Jj E. rewrite replace_nth in E by lia. destruct (Nat.eqb_spec j i) as [->|]; [injection E as <-; exact X|exact (H j Jj E)].
Qed.
Lemma finv_insert n k q : forall F lst F' lst', 0 < n -> finv n k F -> Forall (fun w => clean n w /\ (0 <= pos (pw_lm w))%Z) q -> pf_insert_loop F q lst = Ok (F', lst') -> finv n k F'.
Proof.
  induction q as [|w q IH]; intros F lst F' lst' N I Q E; cbn [pf_insert_loop] in E; [now injection E as <- _|]. inversion Q as [|? ? [C P] Q']; subst.
  destruct (py_index (length F) (pos (pw_lm w))) as [i|] eqn:X; [|discriminate E]. apply index_lt in X; [|exact P]. destruct X as [Li Pi].
  apply bind_ok in E. destruct E as ([J' l'] & E1 & E). cbn [fst snd] in E. refine (IH _ _ _ _ N _ Q' E). destruct I as [L H].
  apply finv_replace; [split; assumption|lia|]. exact (fits_insert n i _ w J' l' N (H i _ (nth_some F i pj_empty Li)) C Pi E1).
Qed.
Lemma finv_prolong n o take F : forall i id F' new id', (forall j J, nth_error F j = Some J -> fits n (i + j) J) -> pf_prolongs (pj_prolongs o take) F id = Ok (F', new, id') ->
  length F' = length F /\ forall j J, nth_error F' j = Some J -> fits n (i + j) J.
Proof.
  induction F as [|J F IH]; intros i id F' new id' H E; cbn [pf_prolongs] in E.
  - injection E as <- _ _. split; [reflexivity|]. intros [|j] J X; discriminate X.
  - apply bind_ok in E. destruct E as ([[J1 n1] i1] & E1 & E). apply bind_ok in E. destruct E as ([[F2 n2] i2] & E2 & E). injection E as <- _ _. cbn [fst snd] in *.
    destruct (IH (S i) _ _ _ _ (fun j J0 X => eq_rect _ (fun x => fits n x J0) (H (S j) J0 X) _ (Nat.add_succ_r i j)) E2) as [L2 H2].
    split; [cbn [length]; congruence|]. intros [|j] J0 X.
    + injection X as <-. destruct (H 0 J eq_refl) as [B P]. destruct (built_same_lms n o take J id J1 n1 i1 B E1) as [B1 El]. split; [exact B1|].
      rewrite El. intros u U. apply in_map_iff in U. destruct U as (u0 & <- & U). rewrite (proj1 (marked_keeps take u0)). exact (P u0 U).
    + rewrite Nat.add_succ_r. exact (H2 j J0 X).
Qed.
Lemma fbuilt_finv n k F : 0 < n -> fbuilt n k F -> finv n k F /\ 0 < k.
Proof.
  intros N B. induction B as [F E|F q F' lst B IH Q E|o take F id F' new id' B IH E].
  - unfold pf_new, assert_ in E. destruct (Nat.ltb_spec 0 k) as [K|K]; cbn [andb negb] in E; [|discriminate E]. injection E as <-. split; [|exact K]. split; [apply repeat_length|].
    intros i J X. apply nth_error_repeat_inv in X. subst J. split; [apply built_new|]. intros u [].
  - destruct IH as [I K]. split; [|exact K]. exact (finv_insert n k q F [] F' lst N I Q E).
  - destruct IH as [[L H] K]. split; [|exact K]. destruct (finv_prolong n o take F 0 id F' new id' H E) as [L' H']. split; [congruence|exact H'].
Qed.

(** the components *)
Lemma filter_none {A} (f : A -> bool) l : (forall x, In x l -> f x = false) -> filter f l = [].
Proof. induction l as [|x l IH]; intro H; cbn [filter]; [reflexivity|]. rewrite (H x) by now left. apply IH. intros y Y. apply H. now right. Qed.
Lemma filter_all {A} (f : A -> bool) l : (forall x, In x l -> f x = true) -> filter f l = l.
Proof. induction l as [|x l IH]; intro H; cbn [filter]; [reflexivity|]. rewrite (H x) by now left. f_equal. apply IH. intros y Y. apply H. now right. Qed.
Lemma filter_elems n F : forall i j, (forall j J, nth_error F j = Some J -> fits n (i + j) J) -> j < length F ->
  filter (fun w => Z.eqb (pos (pw_lm w)) (Z.of_nat (i + j))) (pf_elems F) = elems (nth j F pj_empty).
Proof.
  induction F as [|J F IH]; intros i j H L; cbn [length] in L; [lia|]. unfold pf_elems. cbn [flat_map]. rewrite filter_app. fold (pf_elems F). fold (elems J).
  destruct (H 0 J eq_refl) as [_ P]. destruct j as [|j].
  - cbn [nth]. rewrite filter_all by (intros u U; apply Z.eqb_eq; rewrite Nat.add_0_r in *; exact (P u U)). rewrite filter_none; [apply app_nil_r|].
    intros u U. unfold pf_elems in U. apply in_flat_map in U. destruct U as (J' & I & U). apply In_nth_error in I. destruct I as (j & I). destruct (H (S j) J' I) as [_ P']. apply Z.eqb_neq. rewrite (P' u U). lia.
  - cbn [nth]. rewrite filter_none by (intros u U; apply Z.eqb_neq; rewrite (P u U); lia). cbn [app]. rewrite <- (IH (S i) j); [|intros x J0 X; rewrite Nat.add_succ_l, <- Nat.add_succ_r; exact (H (S x) J0 X)|lia].
    replace (S i + j) with (i + S j) by lia. reflexivity.
Qed.
Lemma component_eq n k F i : finv n k F -> i < k -> component F (Z.of_nat i) = tree_exps (nth i F pj_empty).
Proof. intros [L H] Li. unfold component, tree_exps. f_equal. exact (filter_elems n F 0 i H ltac:(lia)). Qed.
Lemma elems_pos n k F i u : finv n k F -> i < k -> (In u (pf_elems F) /\ pos (pw_lm u) = Z.of_nat i <-> In u (elems (nth i F pj_empty))).
Proof.
  intros [L H] Li. rewrite <- (filter_elems n F 0 i H ltac:(lia)), filter_In, Z.eqb_eq. reflexivity.
Qed.
Lemma elems_tree n k F u : finv n k F -> In u (pf_elems F) -> exists i, i < k /\ pos (pw_lm u) = Z.of_nat i /\ In u (elems (nth i F pj_empty)).
Proof.
  intros [L H] U. unfold pf_elems in U. apply in_flat_map in U. destruct U as (J & I & U). apply In_nth_error in I. destruct I as (j & I). exists j.
  assert (Lj : j < length F) by (apply nth_error_Some; rewrite I; discriminate). split; [lia|]. destruct (H j J I) as [_ P]. split; [exact (P u U)|]. rewrite (nth_error_nth F j pj_empty I). exact U.
Qed.

Lemma Forall2_len {A C} (R : A -> C -> Prop) l r : Forall2 R l r -> length l = length r.
Proof. induction 1; cbn [length]; congruence. Qed.
Lemma nth_firstn' {A} (l : list A) d : forall p r, p < r -> nth p (firstn r l) d = nth p l d.
Proof. induction l as [|x l IH]; intros p r Hp; [rewrite firstn_nil; reflexivity|]. destruct r; [lia|]. destruct p; [reflexivity|]. cbn [firstn nth]. apply IH. lia. Qed.
Lemma same_wrap_refl z : Forall2 same_wrap z z.
Proof. induction z; constructor; auto; repeat split; reflexivity. Qed.

Section API.
Variables (n k : nat) (F : pforest).
Hypothesis N : 0 < n.
Hypothesis B : fbuilt n k F.
Let I : finv n k F := proj1 (fbuilt_finv n k F N B).

Lemma tree_fits i : i < k -> fits n i (nth i F pj_empty).
Proof. intro L. destruct I as [Lf H]. apply H. apply nth_some. lia. Qed.

Lemma pyf_find m : length (vars m) = n -> (0 <= pos m < Z.of_nat k)%Z ->
  (exists r, pf_findWrap F m = Ok r) /\
  (forall u, pf_findWrap F m = Ok (Some u) <-> In u (pf_elems F) /\ pos (pw_lm u) = pos m /\ janet_divides n (component F (pos m)) (exps u) (vars m)) /\
  (pf_findWrap F m = Ok None <-> forall x, ~ janet_divides n (component F (pos m)) x (vars m)).
Proof.
  intros L P. unfold pf_findWrap. rewrite (proj2 (Z.leb_le 0 (pos m))) by lia. destruct I as [Lf _]. rewrite index_ok by lia. set (i := Z.to_nat (pos m)).
  assert (Li : i < k) by (unfold i; lia). assert (Ep : pos m = Z.of_nat i) by (unfold i; lia). destruct (tree_fits i Li) as [Bi Pi].
  destruct (pyj_find n (nth i F pj_empty) m N Bi L) as (A & X & Y); [intros u U; rewrite Ep; exact (Pi u U)|].
  rewrite Ep, (component_eq n k F i I Li). split; [exact A|]. split; [|exact Y]. intro u. rewrite X, <- (elems_pos n k F i u I Li). tauto.
Qed.

Lemma pyf_flags u i : In u (pf_elems F) -> i < n -> (nth i (pw_nonmult u) false = true <-> janet_nm (component F (pos (pw_lm u))) (exps u) i).
Proof.
  intros U Hi. destruct (elems_tree n k F u I U) as (j & Lj & P & U'). rewrite P, (component_eq n k F j I Lj). destruct (tree_fits j Lj) as [Bj _]. exact (pyj_flags n _ u i N Bj U' Hi).
Qed.

Lemma elems_split G i J : i < length G -> exists X Y, pf_elems G = X ++ elems (nth i G pj_empty) ++ Y /\ pf_elems (replace G i J) = X ++ elems J ++ Y.
Proof.
  clear. revert i. induction G as [|J0 G IH]; intros i L; cbn [length] in L; [lia|]. destruct i as [|i]; cbn [nth replace].
  - exists [], (pf_elems G). split; reflexivity.
  - destruct (IH i ltac:(lia)) as (X & Y & E1 & E2). exists (elems J0 ++ X), Y. unfold pf_elems in *. cbn [flat_map]. rewrite E1, E2, <- !app_assoc. split; reflexivity.
Qed.
Lemma pyf_insert w : clean n w -> (0 <= pos (pw_lm w) < Z.of_nat k)%Z -> (forall x, ~ janet_divides n (component F (pos (pw_lm w))) x (exps w)) ->
  exists F' lst kept, pf_insert F [w] = Ok (F', lst) /\ fbuilt n k F' /\ Permutation (pf_elems F) (kept ++ lst) /\
    (exists l, Permutation (pf_elems F') l /\ Forall2 same_wrap l (w :: kept)) /\
    forall u, In u (pf_elems F) -> (In u lst <-> pos (pw_lm u) = pos (pw_lm w) /\ janet_divides n (component F' (pos (pw_lm w))) (exps w) (exps u)).
Proof.
  intros C P NF. set (i := Z.to_nat (pos (pw_lm w))). assert (Li : i < k) by (unfold i; lia). assert (Ep : pos (pw_lm w) = Z.of_nat i) by (unfold i; lia).
  rewrite Ep, (component_eq n k F i I Li) in NF. destruct (tree_fits i Li) as [Bi Pi]. pose proof I as [Lf _].
  destruct (pyj_insert n (nth i F pj_empty) w N Bi C) as (J' & lst & kept & E & BJ & Pm & (l & Pl & Fl) & Jd); [intros u U; rewrite Ep; exact (Pi u U)|exact NF|].
  assert (E' : pf_insert F [w] = Ok (replace F i J', lst)).
  { unfold pf_insert. cbn [pf_insert_loop]. rewrite index_ok by lia. fold i. rewrite E. reflexivity. }
  destruct (elems_split F i J' ltac:(lia)) as (X & Y & E1 & E2).
  assert (B' : fbuilt n k (replace F i J')) by (apply (fbuilt_insert n k F [w] _ lst B); [constructor; [split; [exact C|lia]|constructor]|exact E']).
  exists (replace F i J'), lst, (X ++ kept ++ Y). split; [exact E'|]. split; [exact B'|]. split; [|split].
  - rewrite E1, Pm, <- !app_assoc. apply Permutation_app_head, Permutation_app_head. apply Permutation_app_comm.
  - inversion Fl as [|a b l1 l2 S F1]; subst. exists (a :: X ++ l1 ++ Y). rewrite E2. split.
    + rewrite Pl. cbn [app]. symmetry. apply Permutation_middle.
    + constructor; [exact S|]. apply Forall2_app; [apply same_wrap_refl|]. apply Forall2_app; [exact F1|apply same_wrap_refl].
  - intros u U. rewrite Ep, (component_eq n k _ i (proj1 (fbuilt_finv n k _ N B')) Li).
    assert (En : nth i (replace F i J') pj_empty = J').
    { apply nth_error_nth. rewrite replace_nth by lia. rewrite Nat.eqb_refl. reflexivity. }
    rewrite En. split.
    + intro Ul. assert (U' : In u (elems (nth i F pj_empty))) by (apply (Permutation_in _ (Permutation_sym Pm)), in_app_iff; now right). split; [exact (Pi u U')|]. apply Jd; assumption.
    + intros [Pu D]. apply Jd; [|exact D]. apply (elems_pos n k F i u I Li). split; assumption.
Qed.
Lemma pyf_insert_fails w : clean n w -> (0 <= pos (pw_lm w))%Z ->
  ((Z.of_nat k <= pos (pw_lm w))%Z \/ exists x, janet_divides n (component F (pos (pw_lm w))) x (exps w)) -> forall F' lst, pf_insert F [w] <> Ok (F', lst).
Proof.
  intros C P H F' lst E. unfold pf_insert in E. cbn [pf_insert_loop] in E. destruct (py_index (length F) (pos (pw_lm w))) as [i|] eqn:X; [|discriminate E].
  apply index_lt in X; [|exact P]. destruct X as [Li Pi]. pose proof I as [Lf _]. destruct H as [H|(x & H)]; [lia|]. apply bind_ok in E. destruct E as ([J' l'] & E1 & _).
  destruct (tree_fits i ltac:(lia)) as [Bi _]. destruct (insert_one n _ w J' l' N Bi C E1) as (_ & _ & NF). rewrite Pi, (component_eq n k F i I ltac:(lia)) in H. exact (NF x H).
Qed.
Lemma pyf_count : pf_count F = Z.of_nat (length (pf_elems F)).
Proof.
  destruct I as [_ H]. assert (G : forall G, (forall J, In J G -> built n J) -> pf_count G = Z.of_nat (length (pf_elems G))).
  { clear - N. induction G as [|J G IH]; intro H; [reflexivity|]. unfold pf_count, pf_elems in *. cbn [map fold_right flat_map]. rewrite app_length, Nat2Z.inj_add, <- IH by (intros; apply H; now right).
    f_equal. destruct (built_inv n J N (H J (or_introl eq_refl))) as [_ C]. exact C. }
  apply G. intros J X. apply In_nth_error in X. destruct X as (j & X). exact (proj1 (H j J X)).
Qed.
Lemma pyf_distinct : NoDup (map pw_lm (pf_elems F)).
Proof.
  destruct I as [_ H]. assert (G : forall G i, (forall j J, nth_error G j = Some J -> fits n (i + j) J) -> NoDup (map pw_lm (pf_elems G))).
  { clear - N. induction G as [|J G IH]; intros i H; [constructor|]. unfold pf_elems in *. cbn [flat_map]. rewrite map_app. apply PyJanetProlong.NoDup_app_intro.
    - destruct (H 0 J eq_refl) as [B _]. destruct (built_extra n J N B) as [D _]. unfold distinct, tree_exps in D. apply (NoDup_map_inv vars). rewrite map_map. exact D.
    - apply (IH (S i)). intros j J0 X. rewrite Nat.add_succ_l, <- Nat.add_succ_r. exact (H (S j) J0 X).
    - intros m M1 M2. apply in_map_iff in M1, M2. destruct M1 as (u & <- & U), M2 as (v & E & V). apply in_flat_map in V. destruct V as (J' & X & V). apply In_nth_error in X. destruct X as (j & X).
      destruct (H 0 J eq_refl) as [_ P]. destruct (H (S j) J' X) as [_ P']. pose proof (P u U) as A. pose proof (P' v V) as C. rewrite E in C. lia. }
  exact (G F 0 H).
Qed.
Lemma pyf_degmin : ((forall w v, In w (pf_elems F) -> ~ pending w v) -> pf_degMinProlong F = 0) /\
  ((exists w v, In w (pf_elems F) /\ pending w v) ->
    (exists w v, In w (pf_elems F) /\ pending w v /\ fold_right Nat.add 0 (exps w) = pf_degMinProlong F) /\
    (forall w v, In w (pf_elems F) -> pending w v -> pf_degMinProlong F <= fold_right Nat.add 0 (exps w)) /\ 0 < pf_degMinProlong F).
Proof.
  unfold pf_degMinProlong. set (L := filter (Nat.ltb 0) (map pj_degMinProlong F)).
  assert (E : forall G d, fold_left (fun d J => let d1 := pj_degMinProlong J in if Nat.ltb 0 d1 then (if Nat.eqb d 0 then d1 else Nat.min d d1) else d) G d = fold_left minz (filter (Nat.ltb 0) (map pj_degMinProlong G)) d).
  { clear. induction G as [|J G IH]; intro d; [reflexivity|]. cbn [fold_left map filter]. cbv zeta. destruct (Nat.ltb 0 (pj_degMinProlong J)); cbn [fold_left]; apply IH. }
  rewrite E. fold L. assert (P : forall x, In x L -> 0 < x) by (intros x X; apply filter_In in X; apply Nat.ltb_lt, X). destruct (fold_minz L 0 P) as (A & Bd & C). clear E.
  assert (D : forall J, In J F -> built n J) by (destruct I as [_ H]; intros J X; apply In_nth_error in X; destruct X as (j & X); exact (proj1 (H j J X))).
  assert (S1 : forall x, In x L -> exists w v, In w (pf_elems F) /\ pending w v /\ fold_right Nat.add 0 (exps w) = x).
  { intros x X. apply filter_In in X. destruct X as [X X0]. apply Nat.ltb_lt in X0. apply in_map_iff in X. destruct X as (J & <- & J1). destruct (pyj_degmin n J N (D J J1)) as [Z0 Z1].
    destruct (existsb (fun w => existsb (fun v => nth v (pw_nonmult w) false && negb (nth v (pw_prolong w) true)) (seq 0 (length (pw_nonmult w)))) (elems J)) eqn:Ex.
    - apply existsb_exists in Ex. destruct Ex as (w & W & Ex). apply existsb_exists in Ex. destruct Ex as (v & _ & Ex). apply andb_true_iff in Ex. destruct Ex as [X1 X2]. apply negb_true_iff in X2.
      destruct Z1 as [(w1 & v1 & W1 & P1 & E1) _]; [exists w, v; split; [exact W|split; assumption]|]. exists w1, v1. split; [|split; assumption]. unfold pf_elems. apply in_flat_map. exists J. split; assumption.
    - exfalso. rewrite Z0 in X0; [lia|]. intros w v W [X1 X2]. assert (true = false) as T; [|discriminate T]. rewrite <- Ex. symmetry. apply existsb_exists. exists w. split; [exact W|]. apply existsb_exists. exists v. split.
      + apply in_seq. split; [lia|]. destruct (le_lt_dec (length (pw_nonmult w)) v) as [Y|Y]; [rewrite nth_overflow in X1 by exact Y; discriminate X1|exact Y].
      + rewrite X1, X2. reflexivity. }
  assert (S2 : forall w v, In w (pf_elems F) -> pending w v -> exists x, In x L /\ x <= fold_right Nat.add 0 (exps w)).
  { intros w v W Pd. unfold pf_elems in W. apply in_flat_map in W. destruct W as (J & J1 & W). destruct (pyj_degmin n J N (D J J1)) as [_ Z1]. destruct Z1 as (_ & Z2 & Z3); [exists w, v; split; assumption|].
    exists (pj_degMinProlong J). split; [|exact (Z2 w v W Pd)]. unfold L. apply filter_In. split; [apply in_map, J1|apply Nat.ltb_lt, Z3]. }
  split.
  - intro H. apply A. split; [reflexivity|]. destruct L as [|x L'] eqn:EL; [reflexivity|exfalso]. destruct (S1 x (or_introl eq_refl)) as (w & v & W & Pd & _). exact (H w v W Pd).
  - intros (w0 & v0 & W0 & P0). assert (Ne : fold_left minz L 0 <> 0).
    { intro X. apply A in X. destruct X as [_ X]. destruct (S2 w0 v0 W0 P0) as (x & Y & _). rewrite X in Y. destruct Y. }
    split; [|split; [|lia]].
    + destruct (C Ne) as [X|X]; [contradiction|]. apply S1, X.
    + intros w v W Pd. destruct (S2 w v W Pd) as (x & Y & Le). specialize (Bd x (or_introl Y)). lia.
Qed.

(** prolongations *)
Lemma step_app o kz id sel ws1 ws1' new1 ws2 ws2' new2 : (forall w, In w ws1 -> ~ In w ws2) ->
  prolong_step o n kz id sel ws1 ws1' new1 -> prolong_step o n kz (id + length new1) sel ws2 ws2' new2 -> prolong_step o n kz id sel (ws1 ++ ws2) (ws1' ++ ws2') (new1 ++ new2).
Proof.
  intros Dj (I1 & (j1 & D1 & J1 & F1) & E1) (I2 & (j2 & D2 & J2 & F2) & E2). split; [rewrite map_app, I1, I2, app_length, seq_app; reflexivity|]. split; [|apply Forall2_app; assumption].
  exists (j1 ++ j2). split; [|split; [|apply Forall2_app; assumption]].
  - apply PyJanetProlong.NoDup_app_intro; [exact D1|exact D2|]. intros [w v] A C. apply J1 in A. apply J2 in C. exact (Dj w (proj1 A) (proj1 C)).
  - intros w v. rewrite !in_app_iff, J1, J2. tauto.
Qed.
Lemma pyf_prolongs o kz step sel id : (0 <= kz)%Z ->
  (forall J i, In J F -> built n J -> prolongation o n kz J i sel (step J i)) ->
  exists F' new, pf_prolongs step F id = Ok (F', new, id + length new) /\ prolong_step o n kz id sel (pf_elems F) (pf_elems F') new.
Proof.
  intros K St. destruct I as [_ H].
  assert (G : forall G i id, (forall J i, In J G -> built n J -> prolongation o n kz J i sel (step J i)) -> (forall j J, nth_error G j = Some J -> fits n (i + j) J) ->
    exists F' new, pf_prolongs step G id = Ok (F', new, id + length new) /\ prolong_step o n kz id sel (pf_elems G) (pf_elems F') new).
  { clear - N. induction G as [|J G IH]; intros i id St H.
    - exists [], []. split; [cbn; f_equal; f_equal; lia|]. split; [reflexivity|]. split; [|constructor]. exists []. split; [constructor|]. split; [|constructor]. cbn. tauto.
    - destruct (H 0 J eq_refl) as [B P]. destruct (St J id (or_introl eq_refl) B) as (J' & n1 & E1 & _ & P1).
      assert (Hs : forall j J0, nth_error G j = Some J0 -> fits n (S i + j) J0) by (intros j J0 X; rewrite Nat.add_succ_l, <- Nat.add_succ_r; exact (H (S j) J0 X)).
      destruct (IH (S i) (id + length n1) (fun J0 x Y => St J0 x (or_intror Y)) Hs) as (F2 & n2 & E2 & P2).
      exists (J' :: F2), (n1 ++ n2). split; [cbn [pf_prolongs]; rewrite E1; cbn [bind fst snd]; rewrite E2; cbn [bind fst snd]; rewrite app_length, Nat.add_assoc; reflexivity|].
      unfold pf_elems in *. cbn [flat_map]. apply step_app; [|exact P1|exact P2]. intros w W X. apply in_flat_map in X. destruct X as (J0 & X & W0). apply In_nth_error in X. destruct X as (j & X).
      destruct (Hs j J0 X) as [_ P0]. pose proof (P w W). pose proof (P0 w W0). lia. }
  exact (G F 0 id St H).
Qed.
Section Prolong.
Variables (o : py_order) (kz : Z) (id : nat).
Hypothesis K : (0 <= kz)%Z.
Hypothesis H : forall w, In w (pf_elems F) -> leads w /\ py_canonical o n kz (pw_poly w).
Lemma pyf_prolong_gen take sel : (forall J i, In J F -> built n J -> prolongation o n kz J i sel (pj_prolongs o take J i)) ->
  fprolongation o n k kz F id sel (pf_prolongs (pj_prolongs o take) F id).
Proof.
  intro St. destruct (pyf_prolongs o kz _ sel id K St) as (F' & new & E & P). exists F', new. split; [exact E|]. split; [exact (fbuilt_prolong n k o take F id F' new _ B E)|exact P].
Qed.
Lemma tree_polys J : In J F -> forall w, In w (elems J) -> leads w /\ py_canonical o n kz (pw_poly w).
Proof. intros J1 w W. apply H. unfold pf_elems. apply in_flat_map. exists J. split; assumption. Qed.
Lemma pyf_prolongDeg d : fprolongation o n k kz F id (fun w _ => d = 0 \/ fold_right Nat.add 0 (exps w) = d) (pf_prolongDeg o F d id).
Proof. apply pyf_prolong_gen. intros J i J1 BJ. exact (pyj_prolongDeg o n kz J i N K BJ (tree_polys J J1) d). Qed.
Lemma pyf_prolongAll : fprolongation o n k kz F id (fun _ _ => True) (pf_prolongAll o F id).
Proof. apply pyf_prolong_gen. intros J i J1 BJ. exact (pyj_prolongAll o n kz J i N K BJ (tree_polys J J1)). Qed.
Lemma pyf_prolongMonom m : mono n m -> fprolongation o n k kz F id (fun w v => ~ py_greater o (Mon (pos (pw_lm w)) (incr v (vars (pw_lm w)))) m) (pf_prolongMonom o F m id).
Proof. intro M. apply pyf_prolong_gen. intros J i J1 BJ. exact (pyj_prolongMonom o n kz J i N K BJ (tree_polys J J1) m M). Qed.
End Prolong.

(** Hilbert polynomials *)
Lemma HP_loop verge G : forall j h, (forall J, In J G -> built n J) -> length h = S n ->
  exists h', pf_HP_loop n G j verge h = Ok h' /\ length h' = S n /\
    forall s, (forall w, In w (pf_elems (firstn (match (j <=? verge)%Z with true => Z.to_nat (verge - j) | false => length G end) G)) -> total (exps w) <= s) ->
      exists ks, Forall2 (fun J x => janet_free n (tree_exps J) s x) (firstn (match (j <=? verge)%Z with true => Z.to_nat (verge - j) | false => length G end) G) ks /\
        (py_subs h' (inject_Z (Z.of_nat s)) == py_subs h (inject_Z (Z.of_nat s)) + inject_Z (Z.of_nat (sumn ks)))%Q.
Proof.
  clear - N. induction G as [|J G IH]; intros j h D L; cbn [pf_HP_loop].
  - exists h. split; [reflexivity|]. split; [exact L|]. intros s _. exists []. rewrite firstn_nil. split; [constructor|]. cbn [sumn fold_right]. ring.
  - destruct (Z.eqb_spec j verge) as [->|Ne].
    + exists h. split; [reflexivity|]. split; [exact L|]. intros s _. exists []. rewrite Z.leb_refl, Z.sub_diag. split; [constructor|]. cbn [sumn fold_right]. ring.
    + destruct (pyj_HP n J N (D J (or_introl eq_refl))) as (p & Ep & Lp & Vp). rewrite Ep. cbn [bind]. destruct (hilbert_add_ok h p ltac:(congruence)) as (h1 & E1 & L1 & V1). rewrite E1. cbn [bind].
      destruct (IH (j + 1)%Z h1 (fun J0 X => D J0 (or_intror X)) ltac:(congruence)) as (h' & E' & L' & V'). exists h'. split; [exact E'|]. split; [exact L'|]. intros s Hs.
      assert (Ef : firstn (if (j <=? verge)%Z then Z.to_nat (verge - j) else length (J :: G)) (J :: G) = J :: firstn (if (j + 1 <=? verge)%Z then Z.to_nat (verge - (j + 1)) else length G) G).
      { destruct (Z.leb_spec j verge), (Z.leb_spec (j + 1) verge); try lia; [|reflexivity]. replace (Z.to_nat (verge - j)) with (S (Z.to_nat (verge - (j + 1)))) by lia. reflexivity. }
      rewrite Ef in Hs |- *. unfold pf_elems in Hs. cbn [flat_map] in Hs. destruct (Vp s) as (k1 & K1 & X1); [intros w W; apply Hs, in_app_iff; left; exact W|].
      destruct (V' s) as (ks & K2 & X2); [intros w W; apply Hs, in_app_iff; right; exact W|]. exists (k1 :: ks). split; [constructor; assumption|].
      rewrite X2, (py_subs_ok h1), V1, <- !py_subs_ok, X1. change (sumn (k1 :: ks)) with (k1 + sumn ks)%nat. rewrite Nat2Z.inj_add, inject_Z_plus. ring.
Qed.
Lemma zeros_value m x : (py_subs (repeat 0 m) x == 0)%Q.
Proof. rewrite py_subs_ok. induction m as [|m IH]; cbn [repeat peval]; [reflexivity|]. rewrite IH. ring. Qed.
Lemma pyf_HP verge : exists h, pf_HP n F verge = Ok h /\ length h = S n /\
  forall s, (forall w, In w (pf_elems F) -> total (exps w) <= s) ->
    exists ks, length ks = upto k verge /\ (forall p, p < upto k verge -> janet_free n (component F (Z.of_nat p)) s (nth p ks 0)) /\
      (py_subs h (inject_Z (Z.of_nat s)) == inject_Z (Z.of_nat (fold_right Nat.add 0%nat ks)))%Q.
Proof.
  pose proof I as [Lf H]. unfold pf_HP, hilbert_poly, assert_. destruct (Z.ltb_spec 0 (Z.of_nat n)); [|lia]. cbn [andb negb bind].
  assert (D : forall J, In J F -> built n J) by (intros J X; apply In_nth_error in X; destruct X as (j & X); exact (proj1 (H j J X))).
  destruct (HP_loop verge F 0 (repeat 0%Q (Z.to_nat (Z.of_nat n + 1))) D) as (h & E & L & V); [rewrite repeat_length; lia|]. exists h. split; [exact E|]. split; [exact L|]. intros s Hs.
  set (r := match (0 <=? verge)%Z with true => Z.to_nat (verge - 0) | false => length F end) in V.
  assert (R : upto k verge = Nat.min r k). { unfold upto, r. destruct (Z.leb_spec 0 verge), (Z.ltb_spec verge (Z.of_nat k)); cbn [andb]; lia. }
  destruct (V s) as (ks & K & X).
  { intros w W. apply Hs. unfold pf_elems in *. apply in_flat_map in W. destruct W as (J & J1 & W). apply in_flat_map. exists J. split; [|exact W]. rewrite <- (firstn_skipn r F). apply in_app_iff. now left. }
  exists ks. assert (Lk : length ks = upto k verge) by (rewrite <- (Forall2_len _ _ _ K), firstn_length, Lf; symmetry; exact R). split; [exact Lk|]. split.
  - intros p Hp. rewrite (component_eq n k F p I) by lia.
    assert (Q : forall G l p, Forall2 (fun J x => janet_free n (tree_exps J) s x) G l -> p < length l -> janet_free n (tree_exps (nth p G pj_empty)) s (nth p l 0)).
    { clear. intros G l p Fa. revert p. induction Fa as [|J x G l A Fa IH]; intros [|p] Hp; cbn [length nth] in *; try lia; [exact A|apply IH; lia]. }
    specialize (Q _ ks p K ltac:(lia)). replace (nth p F pj_empty) with (nth p (firstn r F) pj_empty); [exact Q|]. apply nth_firstn'. lia.
  - rewrite X, zeros_value. unfold sumn. ring.
Qed.
End API.
Lemma pyf_HP_basis n k F verge (Gs : nat -> list (list nat)) : 0 < n -> fbuilt n k F -> (forall p, p < upto k verge -> janet_basis n (Gs p) (component F (Z.of_nat p))) ->
  exists h, pf_HP n F verge = Ok h /\ length h = S n /\
  forall s, (forall w, In w (pf_elems F) -> total (exps w) <= s) ->
    exists ks, length ks = upto k verge /\ (forall p, p < upto k verge -> hilbert_function n (Gs p) s (nth p ks 0)) /\
      (py_subs h (inject_Z (Z.of_nat s)) == inject_Z (Z.of_nat (fold_right Nat.add 0%nat ks)))%Q.
Proof.
  intros N B Ba. destruct (pyf_HP n k F N B verge) as (h & E & L & V). exists h. split; [exact E|]. split; [exact L|]. intros s Hs. destruct (V s Hs) as (ks & Lk & K & X).
  exists ks. split; [exact Lk|]. split; [|exact X]. intros p Hp. exact (free_hilbert n (Gs p) _ s _ (Ba p Hp) (K p Hp)).
Qed.
Lemma pyf_find_outside F m : (Z.of_nat (length F) <= pos m)%Z -> pf_findWrap F m = Undef.
Proof. intro P. unfold pf_findWrap. rewrite (proj2 (Z.leb_le 0 (pos m))) by lia. rewrite index_big by exact P. reflexivity. Qed.
Lemma pyf_find_ring F m : (pos m < 0)%Z -> pf_findWrap F m = Ok None.
Proof. intro P. unfold pf_findWrap. destruct (Z.leb_spec 0 (pos m)); [lia|reflexivity]. Qed.
