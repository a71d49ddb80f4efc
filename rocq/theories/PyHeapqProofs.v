(** heapq keeps heaps and hands out least entries. *)
From Coq Require Import List Bool Arith Lia Permutation.
From Verif Require Import PyQueueModel PyQueueProofs PyHeapqSpec.
Import ListNotations.
Local Open Scope nat_scope.

Section Heap.
Context {A : Type} (P : A -> Prop) (lt : A -> A -> bool).
Hypothesis WO : weak_order P lt.
Let asym := proj1 WO.
Let trans := proj2 WO.
Notation get l i := (nth_error l i).
Definition child (p c : nat) : Prop := c = 2 * p + 1 \/ c = 2 * p + 2.
Definition fit (l : list A) (p c : nat) : Prop := forall x y, get l p = Some x -> get l c = Some y -> lt y x = false.
Lemma irr x : P x -> lt x x = false.
Proof. intro H. destruct (lt x x) eqn:E; [|reflexivity]. rewrite (asym x x H H E) in E. discriminate. Qed.

Lemma parent_child c : 0 < c -> child ((c - 1) / 2) c.
Proof. intro H. unfold child. pose proof (Nat.div_mod (c - 1) 2 ltac:(lia)). pose proof (Nat.mod_upper_bound (c - 1) 2 ltac:(lia)). lia. Qed.
Lemma child_parent p c : child p c -> (c - 1) / 2 = p.
Proof. intros [-> | ->]; symmetry; [apply (Nat.div_unique _ 2 p 0)|apply (Nat.div_unique _ 2 p 1)]; lia. Qed.

Lemma put_len (l : list A) i x : length (put l i x) = length l.
Proof. apply put_length. Qed.
Lemma get_swap (l : list A) i j k : i < length l -> j < length l -> i <> j ->
  get (swap l i j) k = if Nat.eqb k i then get l j else if Nat.eqb k j then get l i else get l k.
Proof.
  intros Hi Hj N. unfold swap. destruct (get l i) as [x|] eqn:Ex; [|apply nth_error_None in Ex; lia]. destruct (get l j) as [y|] eqn:Ey; [|apply nth_error_None in Ey; lia].
  destruct (Nat.eqb_spec k i) as [->|N1]; [rewrite put_other by lia; apply put_same; lia|].
  destruct (Nat.eqb_spec k j) as [->|N2]; [apply put_same; rewrite put_len; lia|]. rewrite !put_other by lia. reflexivity.
Qed.
Lemma swap_len (l : list A) i j : length (swap l i j) = length l.
Proof. apply Permutation_length, swap_perm. Qed.

(* ---- descendants ---- *)
Inductive desc (s : nat) : nat -> Prop := d_self : desc s s | d_child p c : desc s p -> child p c -> desc s c.
Lemma desc_le s p : desc s p -> s <= p.
Proof. induction 1 as [|p c D IH C]; [lia|]. destruct C; lia. Qed.
Lemma desc_parent s p : desc s p -> p = s \/ (s < p /\ desc s ((p - 1) / 2)).
Proof. intros [|q c D C]; [now left|right]. split; [pose proof (desc_le s q D); destruct C; lia|]. now rewrite (child_parent q c C). Qed.

(* ---- moving up ---- *)
Definition up_inv (l : list A) (s i : nat) : Prop :=
  (forall p c, s <= p -> child p c -> c <> i -> fit l p c) /\
  (forall p c, s <= p -> child p i -> child i c -> fit l p c).
Definition region (l : list A) (s : nat) : Prop := forall p c, s <= p -> child p c -> fit l p c.

Lemma before_false (l : list A) i j x y : before lt l i j = false -> get l i = Some x -> get l j = Some y -> lt x y = false.
Proof. unfold before. intros H E1 E2. rewrite E1, E2 in H. exact H. Qed.
Lemma sift_down_ok s : forall fuel l i, Forall P l -> desc s i -> i < length l -> i <= fuel -> up_inv l s i -> region (sift_down fuel lt l s i) s.
Proof.
  induction fuel as [|fuel IH]; intros l i Pl D Li Fu (I1 & I2); cbn [sift_down].
  - intros p c Hp C. apply I1; auto. destruct C; lia.
  - pose proof (proj1 (Forall_forall P l) Pl) as Pin. assert (Pg : forall a x, get l a = Some x -> P x) by (intros a x E; apply Pin, (nth_error_In l a E)).
    destruct (Nat.ltb_spec s i) as [Si|Si]; cbn [andb].
    2: { pose proof (desc_le s i D). assert (i = s) as -> by lia. intros p c Hp C. apply I1; auto. destruct C; lia. }
    destruct (desc_parent s i D) as [->|[_ Dq]]; [lia|]. set (q := (i - 1) / 2) in *. assert (Cq : child q i) by (apply parent_child; lia). assert (Lq : q < i) by (destruct Cq; lia).
    pose proof (desc_le s q Dq) as Sq. destruct (get l i) as [x|] eqn:Ex; [|apply nth_error_None in Ex; lia]. destruct (get l q) as [y|] eqn:Ey; [|apply nth_error_None in Ey; lia].
    destruct (before lt l i q) eqn:B.
    + assert (Lxy : lt x y = true) by (unfold before in B; rewrite Ex, Ey in B; exact B). pose proof (asym x y (Pg _ _ Ex) (Pg _ _ Ey) Lxy) as Lyx.
      assert (Gs : forall a, get (swap l i q) a = if Nat.eqb a i then Some y else if Nat.eqb a q then Some x else get l a) by (intro a; rewrite get_swap by lia; rewrite Ex, Ey; reflexivity).
      apply IH; [apply Forall_forall; intros a Ha; apply Pin, (Permutation_in a (swap_perm l i q) Ha)|exact Dq|rewrite swap_len; lia|lia|]. split.
      * intros p c Hp C Nc u v. rewrite !Gs. destruct (Nat.eqb_spec p i) as [->|N1].
        { destruct (Nat.eqb_spec c i) as [->|N2]; [destruct C; lia|]. destruct (Nat.eqb_spec c q) as [->|N3]; [destruct C; lia|]. intros [= <-] Ev. exact (I2 q c Sq Cq C y v Ey Ev). }
        destruct (Nat.eqb_spec p q) as [->|N4].
        { destruct (Nat.eqb_spec c i) as [->|N2]; [intros [= <-] [= <-]; exact Lyx|]. destruct (Nat.eqb_spec c q) as [->|N3]; [destruct C; lia|]. intros [= <-] Ev.
          apply (trans x y v); [apply (Pg _ _ Ex)|apply (Pg _ _ Ey)|apply (Pg _ _ Ev)|exact Lyx|]. exact (I1 q c Sq C N2 y v Ey Ev). }
        destruct (Nat.eqb_spec c i) as [->|N2]; [exfalso; apply N4; rewrite <- (child_parent p i C); reflexivity|]. destruct (Nat.eqb_spec c q) as [->|N3]; [congruence|]. intros Eu Ev. exact (I1 p c Hp C N2 u v Eu Ev).
      * intros p c Hp C1 C2 u v. rewrite !Gs. assert (Np : p < q) by (destruct C1; lia). destruct (Nat.eqb_spec p i) as [->|N1]; [lia|]. destruct (Nat.eqb_spec p q) as [->|N4]; [lia|].
        assert (Nq : q <> i) by lia. intros Eu. pose proof (I1 p q Hp C1 Nq u y Eu Ey) as Luy.
        destruct (Nat.eqb_spec c i) as [->|N2]; [intros [= <-]; exact Luy|]. destruct (Nat.eqb_spec c q) as [->|N3]; [destruct C2; lia|]. intro Ev.
        apply (trans u y v); [apply (Pg _ _ Eu)|apply (Pg _ _ Ey)|apply (Pg _ _ Ev)|exact Luy|]. exact (I1 q c Sq C2 N2 y v Ey Ev).
    + intros p c Hp C. destruct (Nat.eq_dec c i) as [->|N]; [|apply I1; auto]. assert (p = q) as -> by (unfold q; symmetry; apply child_parent; exact C).
      intros u v Eu Ev. rewrite Ey in Eu. injection Eu as <-. exact (before_false l i q v y B Ev Ey).
Qed.

(* ---- moving down ---- *)
Definition down_inv (l : list A) (s i : nat) : Prop :=
  (forall p c, s <= p -> child p c -> c <> i -> p <> i -> fit l p c) /\
  (forall p c, s <= p -> child p i -> child i c -> fit l p c).
Lemma sift_leaf_ok s : forall fuel l i, Forall P l -> desc s i -> i < length l -> length l <= i + fuel -> down_inv l s i ->
  let r := sift_leaf fuel lt l i in Forall P (fst r) /\ desc s (snd r) /\ snd r < length l /\ length (fst r) = length l /\ up_inv (fst r) s (snd r).
Proof.
  induction fuel as [|fuel IH]; intros l i Pl D Li Fu (I1 & I2); [lia|]. cbn [sift_leaf]. pose proof (proj1 (Forall_forall P l) Pl) as Pin. assert (Pg : forall a x, get l a = Some x -> P x) by (intros a x E; apply Pin, (nth_error_In l a E)).
  destruct (Nat.ltb_spec (2 * i + 1) (length l)) as [L1|L1].
  2: { cbn [fst snd]. split; [exact Pl|]. split; [exact D|]. split; [exact Li|]. split; [reflexivity|]. split; [|exact I2]. intros p c Hp C N. destruct (Nat.eq_dec p i) as [->|Np]; [|apply I1; auto].
       intros x y _ Ey. assert (c < length l) by (apply nth_error_Some; congruence). destruct C; lia. }
  set (c := if Nat.ltb (2 * i + 1 + 1) (length l) && negb (before lt l (2 * i + 1) (2 * i + 1 + 1)) then 2 * i + 1 + 1 else 2 * i + 1).
  assert (Cc : child i c /\ c < length l /\ forall d x y, child i d -> d <> c -> get l c = Some x -> get l d = Some y -> lt y x = false).
  { unfold c. destruct (Nat.ltb_spec (2 * i + 1 + 1) (length l)) as [L2|L2]; cbn [andb].
    - destruct (before lt l (2 * i + 1) (2 * i + 1 + 1)) eqn:B; cbn [negb].
      + split; [left; lia|]. split; [lia|]. intros d x y [-> | ->] N Ex Ey; [lia|]. replace (2 * i + 2) with (2 * i + 1 + 1) in Ey by lia. unfold before in B. rewrite Ex, Ey in B. apply asym; auto; eapply Pg; eassumption.
      + split; [right; lia|]. split; [lia|]. intros d x y [-> | ->] N Ex Ey; [|lia]. exact (before_false l _ _ y x B Ey Ex).
    - split; [left; lia|]. split; [lia|]. intros d x y [-> | ->] N Ex Ey; [lia|]. assert (2 * i + 2 < length l) by (apply nth_error_Some; congruence). lia. }
  clearbody c. destruct Cc as (Cc & Lc & Mc). assert (Lic : i < c) by (destruct Cc; lia).
  destruct (get l i) as [x|] eqn:Ex; [|apply nth_error_None in Ex; lia]. destruct (get l c) as [y|] eqn:Ey; [|apply nth_error_None in Ey; lia].
  assert (Gs : forall a, get (swap l i c) a = if Nat.eqb a i then Some y else if Nat.eqb a c then Some x else get l a) by (intro a; rewrite get_swap by lia; rewrite Ex, Ey; reflexivity).
  pose proof (desc_le s i D) as Si. rewrite <- (swap_len l i c) at 1 2. apply IH.
  - apply Forall_forall; intros a Ha; apply Pin, (Permutation_in a (swap_perm l i c) Ha).
  - apply (d_child s i c D Cc).
  - rewrite swap_len. exact Lc.
  - rewrite swap_len. lia.
  - split.
    + intros p d Hp C N1 N2 u v. rewrite !Gs. destruct (Nat.eqb_spec p i) as [->|N3].
      * destruct (Nat.eqb_spec d i) as [->|N4]; [destruct C; lia|]. destruct (Nat.eqb_spec d c) as [->|N5]; [lia|]. intros [= <-] Ev. exact (Mc d y v C N1 eq_refl Ev).
      * destruct (Nat.eqb_spec p c) as [->|N4]; [lia|]. destruct (Nat.eqb_spec d i) as [->|N5]; [intros Eu [= <-]; exact (I2 p c Hp C Cc u y Eu Ey)|]. destruct (Nat.eqb_spec d c) as [->|N6]; [lia|]. intros Eu Ev. exact (I1 p d Hp C N5 N3 u v Eu Ev).
    + intros p d Hp C1 C2 u v. assert (p = i) as -> by (rewrite <- (child_parent p c C1), <- (child_parent i c Cc); reflexivity). rewrite !Gs, Nat.eqb_refl.
      destruct (Nat.eqb_spec d i) as [->|N1]; [destruct C2; lia|]. destruct (Nat.eqb_spec d c) as [->|N2]; [destruct C2; lia|]. intros [= <-] Ev. apply (I1 c d ltac:(lia) C2 ltac:(lia) ltac:(lia) y v Ey Ev).
Qed.
Lemma sift_up_ok l s : Forall P l -> s < length l -> region l (Datatypes.S s) -> region (sift_up lt l s) s.
Proof.
  intros Pl L R. unfold sift_up. assert (I : down_inv l s s).
  { split; [intros p c Hp C N1 N2; apply R; [lia|exact C]|]. intros p c Hp C. destruct C; lia. }
  destruct (sift_leaf_ok s (length l) l s Pl (d_self s) L ltac:(lia) I) as (Q & D & B & E & U). apply sift_down_ok; [exact Q|exact D|rewrite E; exact B|lia|exact U].
Qed.

(* ---- the functions ---- *)
Lemma heap_region l : is_heap lt l <-> region l 0.
Proof.
  split.
  - intros H p c _ C x y Ex Ey. apply (H p x y Ex). destruct C as [-> | ->]; auto.
  - intros H k x y Ex [Ey|Ey]; [apply (H k (2 * k + 1) ltac:(lia) (or_introl eq_refl) x y Ex Ey)|apply (H k (2 * k + 2) ltac:(lia) (or_intror eq_refl) x y Ex Ey)].
Qed.
Lemma heapify_ok l : Forall P l -> is_heap lt (heapify lt l).
Proof.
  intro Pl. apply heap_region. unfold heapify. assert (H : forall k l, Forall P l -> k <= length l -> region l k -> region (fold_left (fun l i => sift_up lt l i) (rev (seq 0 k)) l) 0).
  { clear l Pl. induction k as [|k IH]; intros l Pl L R; [exact R|]. rewrite seq_S. rewrite rev_app_distr. cbn [rev app fold_left Nat.add]. apply IH.
    - apply Forall_forall. intros x X. apply (proj1 (Forall_forall P l) Pl), (Permutation_in x (sift_up_perm lt l k) X).
    - rewrite (Permutation_length (sift_up_perm lt l k)). lia.
    - apply sift_up_ok; [exact Pl|lia|exact R]. }
  pose proof (Nat.div_mod (length l) 2 ltac:(lia)) as Dm. pose proof (Nat.mod_upper_bound (length l) 2 ltac:(lia)) as Um. apply H; [exact Pl|lia|].
  intros p c Hp C x y _ Ey. assert (c < length l) by (apply nth_error_Some; congruence). destruct C; lia.
Qed.
Lemma heap_push_ok l x : Forall P (x :: l) -> is_heap lt l -> is_heap lt (heap_push lt l x).
Proof.
  intros Pl H. apply heap_region. unfold heap_push. assert (Pa : Forall P (l ++ [x])) by (apply Forall_app; inversion Pl; auto).
  apply sift_down_ok; [exact Pa| |rewrite app_length; cbn; lia|lia|].
  - assert (D : forall i, desc 0 i); [|apply D]. induction i as [i IH] using lt_wf_ind. destruct i as [|i]; [constructor|]. pose proof (parent_child (Datatypes.S i) ltac:(lia)) as C. assert (L : (Datatypes.S i - 1) / 2 < Datatypes.S i) by (destruct C; lia). exact (d_child 0 _ _ (IH _ L) C).
  - apply heap_region in H. split.
    + intros p c Hp C N u v Eu Ev. assert (Lc : c < length (l ++ [x])) by (apply nth_error_Some; congruence). rewrite app_length in Lc. cbn [length] in Lc. rewrite nth_error_app1 in Ev by lia. rewrite nth_error_app1 in Eu by (destruct C; lia). exact (H p c Hp C u v Eu Ev).
    + intros p c Hp C1 C2 u v Eu Ev. assert (Lc : c < length (l ++ [x])) by (apply nth_error_Some; congruence). rewrite app_length in Lc. cbn [length] in Lc. destruct C2; lia.
Qed.
Lemma heap_least x l : Forall P (x :: l) -> is_heap lt (x :: l) -> least lt x l.
Proof.
  intros Pl H. apply heap_region in H. assert (Q : forall i y, get (x :: l) i = Some y -> lt y x = false).
  { induction i as [i IH] using lt_wf_ind. intros y Ey. destruct (Nat.eq_dec i 0) as [->|N]; [injection Ey as <-; apply irr; now inversion Pl|].
    pose proof (parent_child i ltac:(lia)) as C. set (q := (i - 1) / 2) in *. assert (Lq : q < i) by (destruct C; lia). assert (Li : i < length (x :: l)) by (apply nth_error_Some; congruence).
    destruct (get (x :: l) q) as [z|] eqn:Ez; [|apply nth_error_None in Ez; lia]. assert (Pg : forall a u, get (x :: l) a = Some u -> P u) by (intros a u E; apply (proj1 (Forall_forall P _) Pl), (nth_error_In _ a E)).
    apply (trans x z y); [now inversion Pl|exact (Pg _ _ Ez)|exact (Pg _ _ Ey)|exact (IH q Lq z Ez)|exact (H q i ltac:(lia) C z y Ez Ey)]. }
  intros y Y. apply In_nth_error in Y. destruct Y as (i & Y). exact (Q (Datatypes.S i) y Y).
Qed.
Lemma heap_pop_ok l x h : Forall P l -> is_heap lt l -> heap_pop lt l = Some (x, h) -> least lt x h /\ is_heap lt h /\ hd_error l = Some x.
Proof.
  intros Pl H E. pose proof (heap_pop_perm lt l) as Pp. rewrite E in Pp. unfold heap_pop in E. destruct (rev l) as [|z r] eqn:Er; [discriminate|]. apply (f_equal (@rev A)) in Er. rewrite rev_involutive in Er. cbn [rev] in Er.
  destruct (rev r) as [|y l'] eqn:Fr.
  - injection E as <- <-. subst l. cbn [app] in *. split; [intros u []|]. split; [|reflexivity]. intros [|k] u v Eu; discriminate Eu.
  - injection E as <- Eh. subst l. cbn [app] in *. pose proof (heap_least y (l' ++ [z]) Pl H) as Le. split; [|split; [|reflexivity]].
    + intros u U. apply Le. apply Permutation_cons_inv in Pp. exact (Permutation_in u (Permutation_sym Pp) U).
    + subst h. apply heap_region, sift_up_ok; [|cbn; lia|].
      * rewrite Forall_forall in *. intros u U. apply Pl. right. apply in_app_iff. destruct U as [<-|U]; [right; now left|now left].
      * apply heap_region in H. intros p c Hp C u v Eu Ev. assert (Lc : c < length (z :: l')) by (apply nth_error_Some; congruence). cbn [length] in Lc.
        apply (H p c ltac:(lia) C); destruct p as [|p]; try lia; (destruct c as [|c]; [destruct C; lia|]); cbn [nth_error] in *; [rewrite nth_error_app1 by (destruct C; lia); exact Eu|rewrite nth_error_app1 by lia; exact Ev].
Qed.
Lemma pops_ok : forall fuel l, length l <= fuel -> Forall P l -> is_heap lt l -> Permutation (pops lt fuel l) l /\ in_order lt (pops lt fuel l).
Proof.
  induction fuel as [|fuel IH]; intros l L Pl H; [destruct l; [split; [reflexivity|exact I]|cbn in L; lia]|]. cbn [pops]. pose proof (heap_pop_perm lt l) as Pp. destruct (heap_pop lt l) as [[x h]|] eqn:E; [|subst l; split; [reflexivity|exact I]].
  destruct (heap_pop_ok l x h Pl H E) as (Le & Hh & _). pose proof (Permutation_length Pp) as Lp. cbn [length] in Lp.
  assert (Ph : Forall P h) by (apply Forall_forall; intros u U; apply (proj1 (Forall_forall P l) Pl), (Permutation_in u (Permutation_sym Pp)); now right).
  destruct (IH h ltac:(lia) Ph Hh) as [I1 I2]. split; [rewrite I1; symmetry; exact Pp|]. cbn [in_order]. split; [|exact I2]. intros u U. apply Le. exact (Permutation_in u I1 U).
Qed.
End Heap.
Lemma pop_ok : forall (A : Type) (P : A -> Prop) (lt : A -> A -> bool), weak_order P lt -> forall x l, Forall P (x :: l) -> is_heap lt (x :: l) ->
  exists h, heap_pop lt (x :: l) = Some (x, h) /\ least lt x h /\ is_heap lt h /\ Permutation h l.
Proof.
  intros A P lt W x l Pl H. pose proof (heap_pop_perm lt (x :: l)) as Pp. destruct (heap_pop lt (x :: l)) as [[y h]|] eqn:E; [|discriminate Pp]. destruct (heap_pop_ok P lt W _ y h Pl H E) as (L & Hh & Hd). injection Hd as <-. exists h. split; [reflexivity|]. split; [exact L|]. split; [exact Hh|].
  symmetry. exact (Permutation_cons_inv Pp).
Qed.
Lemma sort_ok : forall (A : Type) (P : A -> Prop) (lt : A -> A -> bool), weak_order P lt -> forall l, Forall P l ->
  Permutation (pops lt (length l) (heapify lt l)) l /\ in_order lt (pops lt (length l) (heapify lt l)).
Proof.
  intros A P lt W l Pl. pose proof (heapify_perm lt l) as Pm. destruct (pops_ok P lt W (length l) (heapify lt l)) as [I1 I2]; [rewrite (Permutation_length Pm); lia|apply Forall_forall; intros u U; apply (proj1 (Forall_forall P l) Pl), (Permutation_in u Pm U)|exact (heapify_ok P lt W l Pl)|].
  split; [rewrite I1; exact Pm|exact I2].
Qed.
