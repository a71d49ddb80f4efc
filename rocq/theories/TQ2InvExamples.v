(** Checking the local test after algorithmTQ2. *)
From Coq Require Import ZArith List Bool Arith Lia.
From Verif Require Import Outcome MonomModel MonomSpec MonomProofs PolyModel PolySpec PolyProofs PolyNfProofs
  JanetModel JanetSpec JanetFindProofs CompletionProofs JanetPolyModel JanetPolySpec IdealProofs JanetPolyProofs JanetPolyTop JanetPolyExamples
  InvolutiveProofs InvolutiveTop InvolutiveExamples TQModel TQProofs TQExamples ClosedSpec ClosedExamples TQ2HPModel TQ2HPSpec TQ2HPExamples.
Import ListNotations.
Local Open Scope Z_scope.

Definition test2_b (fuel n : nat) (J : jpoly2) : bool :=
  let U := map lead (basis2 J) in
  forallb (fun g => forallb (fun i => negb (nm_b U (lead g) i) ||
    match p_mul_var false i g with
    | Ok x => match jp2_nf fuel false J x with Ok r => match terms r with [] => true | _ => false end | _ => false end
    | _ => false
    end) (seq 0 n)) (basis2 J).

Lemma test2_ok t o n fuel F J0 f0 J : (0 < n)%nat -> o <> OAlex -> jp_history false t o n F J0 -> jp_tq2 f0 false J0 = Ok J -> test2_b fuel n J = true -> passes_local_test2 t o n J.
Proof.
  intros Hn Ho H E0 T g i u x Ig Hi Nm [Lu Hu] Rx Ex. unfold test2_b in T. rewrite forallb_forall in T. specialize (T g Ig).
  rewrite forallb_forall in T. specialize (T i). rewrite (nm_b_ok _ _ _ Nm) in T. cbn [negb orb] in T.
  assert (I : In i (seq 0 n)) by (apply in_seq; lia). specialize (T I).
  destruct (proj1 (c53_tq2 t o n F J0 f0 J Hn Ho H E0) g Ig) as (Rg & Ng & _). assert (Gg := goodzA t o n g Rg).
  assert (Eu : u = e n i). { apply expo_ext; [rewrite e_len; exact Lu|]. intros j Hj. rewrite Lu in Hj. rewrite Hu, e_expo by lia. reflexivity. }
  destruct (good_hd t o n _ g (conj Gg Ng)) as (m & Hm).
  destruct (good_mul_var t o n _ Hn i g m Hi (conj Gg Ng) Hm) as (y & Ey & [Gy _] & _). rewrite Ey in T.
  assert (Ey' : terms y = shift (e n i) (terms g)).
  { unfold p_mul_var, checked, assert_ in Ey. cbn [andb] in Ey. injection Ey as <-. cbn [terms with_terms]. apply (shift_var t o n (fun _ => True)); [exact Hi|exact Gg]. }
  assert (x = y).
  { destruct Rx as (V & A1 & A2 & A3 & _). destruct Gy as (V' & (B1 & B2 & B3) & _). unfold pvalid, valid_poly in V, V'.
    assert (terms x = terms y). { apply (canonical_unique t o n); [congruence|congruence|]. intro z. rewrite Ex, Ey', Eu. reflexivity. }
    destruct x, y. cbn in *. congruence. }
  subst y. exists fuel. destruct (jp2_nf fuel false J x) as [r| | | |]; try discriminate. exists r. split; [reflexivity|]. destruct (terms r); [reflexivity|discriminate].
Qed.


Lemma th_tq2 : jp_tq2 60 false th_J0 = Ok th_J2.
Proof. vm_compute. reflexivity. Qed.
Lemma th_local : passes_local_test2 TOP ODegLex 2 th_J2.
Proof. destruct th_case as (A & _). eapply (test2_ok TOP ODegLex 2 40); [lia|discriminate|exact A|exact th_tq2|]. vm_compute. reflexivity. Qed.

(** lex, x > y: y^4 - x^2 and x^2. All elements are in the tree, x y^4 is not reduced. *)
Definition tl_f1 := pol OLex 2 [([2;0]%nat, -1); ([0;4]%nat, 1)].
Definition tl_f2 := pol OLex 2 [([2;0]%nat, 1)].
Definition tl_a := pol OLex 2 [([1;4]%nat, 1)].
Lemma tl_in : Forall (ring_input TOP OLex 2) [tl_f1; tl_f2].
Proof. repeat constructor; cbn; try lia; try discriminate. exists 0%nat. cbn. repeat split; lia. Qed.
Definition tl_J0 : jpoly := got (jp_push_all false jp_empty [tl_f1; tl_f2]).
Definition tl_J : jpoly2 := got2 (jp_tq2 60 false tl_J0).
Lemma tl_incomplete : exists (F : list poly) (J : jpoly) (J' : jpoly2) (a r : poly), jp_history false TOP OLex 2 F J /\ jp_tq2 60 false J = Ok J' /\ all_in_trees J' /\
  ring_input TOP OLex 2 a /\ rational_member 2 (among F) (terms a) /\ (exists fuel, jp2_nf fuel false J' a = Ok r) /\ terms r <> [].
Proof.
  exists [tl_f2; tl_f1], tl_J0, tl_J, tl_a, tl_a.
  split; [apply (history_push_all false TOP OLex 2 [tl_f1; tl_f2] [] jp_empty _ (hist_new _ _ _ _) tl_in); vm_compute; reflexivity|].
  split; [vm_compute; reflexivity|].
  split; [intros x Ix; vm_compute in Ix; repeat (destruct Ix as [<-|Ix]; [eexists; reflexivity|]); destruct Ix|].
  split; [repeat constructor; cbn; try lia; try discriminate|]. split; [|split; [exists 40%nat; vm_compute; reflexivity|discriminate]].
  assert (H := tl_in). rewrite Forall_forall in H.
  assert (M : forall f, In f [tl_f1; tl_f2] -> rational_member 2 (among [tl_f2; tl_f1]) (shift [1;0]%nat (terms f))).
  { intros f If. apply mem_shift; [reflexivity|]. apply (mem_among TOP OLex 2); [apply H; exact If|destruct If as [<-|[<-|[]]]; [right; left|left]; reflexivity]. }
  apply (mem_lin 2 _ (shift [1;0]%nat (terms tl_f1)) (shift [1;0]%nat (terms tl_f2)) _ 1 1); [apply M; left; reflexivity|apply M; right; left; reflexivity|].
  intro m. change (shift [1;0]%nat (terms tl_f1)) with [(Mon (-1) [3;0]%nat, -1); (Mon (-1) [1;4]%nat, 1)]. change (shift [1;0]%nat (terms tl_f2)) with [(Mon (-1) [3;0]%nat, 1)].
  change (terms tl_a) with [(Mon (-1) [1;4]%nat, 1)]. cbn [coef]. destruct (monom_eq_dec (Mon (-1) [3;0]%nat) m), (monom_eq_dec (Mon (-1) [1;4]%nat) m); lia.
Qed.

(** deglex: an element outside the tree is not reduced to 0. *)
Lemma td_incomplete : exists (F : list poly) (J : jpoly) (J' : jpoly2) (a r : poly), jp_history false TOP ODegLex 2 F J /\ jp_tq2 30 false J = Ok J' /\
  ring_input TOP ODegLex 2 a /\ rational_member 2 (among F) (terms a) /\ (exists fuel, jp2_nf fuel false J' a = Ok r) /\ terms r <> [].
Proof.
  destruct tq2_self as (F & J & J' & g & r & H & E & Ig & Er & Nr). exists F, J, J', g, r. split; [exact H|]. split; [exact E|].
  destruct (proj1 (c53_tq2 TOP ODegLex 2 F J 30 J' ltac:(lia) ltac:(discriminate) H E) g Ig) as (R & _ & M). auto.
Qed.
