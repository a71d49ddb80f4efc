(** The queue of pyginv during ginvMin and ginvBlockLow. *)
From Coq Require Import ZArith List Bool Arith Lia Permutation.
From Verif Require Import Outcome MonomModel MonomSpec MonomProofs PolyModel PolySpec PolyProofs PolyNfProofs PolyRedProofs IdealProofs JanetSpec JanetPolySpec JanetPolyProofs CompletionProofs
  PyMonomModel PyMonomSpec PyMonomProofs PyPolyModel PyPolySpec PyPolyProofs PyRedProofs PyJanetModel PyJanetSpec PyJanetProofs PyJanetTop PyJanetProlong
  PyHPModel PyForestModel PyForestProofs PyQueueModel PyQueueProofs PyDivProofs PySpan PyGinvModel PyGinvSpec PyGinvBase PyGinvSweep PyGinvRound PyGinvCover PyInvolutive PyGinvMin PyGinvLoop PyGinvLow PyGinvTop
  PyHeapqSpec PyHeapqProofs.
Import ListNotations.
Local Open Scope nat_scope.

Definition nvars (n : nat) (w : pwrap) : Prop := mono n (pw_lm w).
Section Order.
Variables (o : py_order) (n : nat).
Lemma w_order : weak_order (nvars n) (w_lt o).
Proof.
  destruct (py_total o n) as (T1 & T2 & T3 & T4). assert (Lt : forall x y, nvars n x -> nvars n y -> w_lt o x y = true <-> (py_cmp o (pw_lm y) (pw_lm x) = 1%Z \/ (pw_lm x = pw_lm y /\ pw_id x < pw_id y))).
  { intros x y X Y. unfold w_lt. rewrite orb_true_iff, andb_true_iff, Z.ltb_lt, Z.eqb_eq, Nat.ltb_lt, (T2 _ _ X Y). pose proof (T3 _ _ X Y). pose proof (T1 _ _ X Y). pose proof (T1 _ _ Y X). intuition lia. }
  assert (Nl : forall x y, nvars n x -> nvars n y -> w_lt o x y = false <-> (py_cmp o (pw_lm x) (pw_lm y) = 1%Z \/ (pw_lm x = pw_lm y /\ pw_id y <= pw_id x))).
  { intros x y X Y. rewrite <- not_true_iff_false, (Lt x y X Y). pose proof (T3 _ _ X Y). pose proof (T1 _ _ X Y). pose proof (proj1 (T2 _ _ X Y)) as C1. pose proof (proj2 (T2 _ _ X Y)) as C2. intuition (try lia). }
  split.
  - intros x y X Y E. apply (Nl y x Y X). apply (Lt x y X Y) in E. destruct E as [E|[E L]]; [now left|right; split; [congruence|lia]].
  - intros x y z X Y Z E1 E2. apply (Nl z x Z X). apply (Nl y x Y X) in E1. apply (Nl z y Z Y) in E2. destruct E1 as [E1|[E1 I1]], E2 as [E2|[E2 I2]].
    + left. exact (T4 _ _ _ Z Y X E2 E1).
    + left. rewrite E2. exact E1.
    + left. rewrite <- E1. exact E2.
    + right. split; [congruence|lia].
Qed.
Lemma w_lt_false x y : nvars n x -> nvars n y -> w_lt o x y = false -> py_greater o (pw_lm x) (pw_lm y) \/ (pw_lm x = pw_lm y /\ pw_id y <= pw_id x).
Proof.
  destruct (py_total o n) as (T1 & T2 & T3 & T4). intros X Y E. unfold w_lt in E. rewrite <- (py_meaning o n _ _ X Y), <- (T2 _ _ X Y). apply orb_false_iff in E. destruct E as [E1 E2]. apply Z.ltb_ge in E1. pose proof (T1 _ _ X Y) as C.
  destruct (Z.eqb_spec (py_cmp o (pw_lm x) (pw_lm y)) 0) as [Q|Q]; [|left; lia]. right. split; [exact Q|]. cbn [andb] in E2. apply Nat.ltb_ge in E2. exact E2.
Qed.
Lemma least_lowest w l : Forall (nvars n) (w :: l) -> NoDup (map pw_id (w :: l)) -> least (w_lt o) w l -> lowest o w l.
Proof.
  intros Pl Nd L v V. inversion Pl as [|? ? Pw Pl']; subst. rewrite Forall_forall in Pl'. destruct (w_lt_false v w (Pl' v V) Pw (L v V)) as [G|[E Le]]; [now left|right]. split; [exact E|].
  cbn [map] in Nd. inversion Nd as [|? ? Nw _]; subst. assert (pw_id v <> pw_id w) by (intro Q; apply Nw; rewrite <- Q; now apply in_map). lia.
Qed.

Notation heap q := (is_heap (w_lt o) (pq_list q)).
Notation nv l := (Forall (nvars n) l).
Lemma nv_perm l l' : Permutation l l' -> nv l -> nv l'.
Proof. intros P H. rewrite Forall_forall in *. intros x X. apply H. exact (Permutation_in x (Permutation_sym P) X). Qed.
Lemma push_perm l : forall q q', q_push o q l = Ok q' -> Permutation (pq_list q') (l ++ pq_list q).
Proof.
  induction l as [|w l IH]; intros q q' E; cbn [q_push] in E; [injection E as <-; reflexivity|]. destruct (q_cancel o w); try discriminate E. cbn [bind] in E. rewrite (IH _ _ E). cbn [pq_list app]. rewrite (heap_push_perm (w_lt o) (pq_list q) w). symmetry. apply Permutation_middle.
Qed.
Lemma push_heap l : forall q q', q_push o q l = Ok q' -> nv (pq_list q') -> heap q -> heap q'.
Proof.
  induction l as [|w l IH]; intros q q' E Pl H; [cbn [q_push] in E; injection E as <-; exact H|]. pose proof (push_perm _ _ _ E) as Pm. cbn [q_push] in E. destruct (q_cancel o w); try discriminate E. cbn [bind] in E.
  apply (IH _ _ E Pl). cbn [pq_list]. apply (heap_push_ok (nvars n) (w_lt o) w_order); [|exact H]. apply (nv_perm _ _ Pm) in Pl. cbn [app] in Pl. inversion Pl as [|? ? A B]; subst. apply Forall_app in B. constructor; [exact A|apply B].
Qed.
Lemma new_heap l q : q_new o l = Ok q -> nv (pq_list q) -> heap q.
Proof.
  unfold q_new. intros E Pl. pose proof (heapify_perm (w_lt o) l) as Pm. destruct (q_cancels o (heapify (w_lt o) l)); try discriminate E. cbn [bind] in E. injection E as <-. cbn [pq_list] in *. apply (heapify_ok (nvars n) (w_lt o) w_order). exact (nv_perm _ _ Pm Pl).
Qed.
Lemma reduceAll_heap nf T q T2 q' r : q_reduceAll nf o T q = Ok (T2, q', r) -> nv (match r with Some w => w :: pq_list q' | None => pq_list q' end) ->
  heap q' /\ forall w, r = Some w -> least (w_lt o) w (pq_list q').
Proof.
  unfold q_reduceAll. destruct (q_reduce_loop nf o T (pq_list q)) as [[[[T0 q2] c1] c2]| | | |]; try discriminate. cbn [bind]. pose proof (heapify_perm (w_lt o) q2) as Ph. pose proof (heap_pop_perm (w_lt o) (heapify (w_lt o) q2)) as Pp.
  destruct (heap_pop (w_lt o) (heapify (w_lt o) q2)) as [[w h]|] eqn:E; intro Q; injection Q as <- <- <-; cbn [pq_list]; intro Pl.
  - assert (Pq : nv q2) by (apply (nv_perm (w :: h)); [rewrite <- Pp; exact Ph|exact Pl]). assert (Ph' : nv (heapify (w_lt o) q2)) by (apply (nv_perm _ _ (Permutation_sym Ph)); exact Pq).
    destruct (heap_pop_ok (nvars n) (w_lt o) w_order _ w h Ph' (heapify_ok (nvars n) (w_lt o) w_order q2 Pq) E) as (L & H & _). split; [exact H|]. intros x [= <-]. exact L.
  - split; [|discriminate]. intros [|i] x y X; discriminate X.
Qed.
Lemma get_min_least w0 l : nv (w0 :: l) -> forall v, In v (snd (get_min o w0 l)) -> w_gt o (fst (get_min o w0 l)) v = false.
Proof.
  intro Pl. pose proof (get_min_perm o w0 l) as Pm. destruct (py_total o n) as (T1 & T2 & T3 & T4).
  assert (Ng : forall x y, nvars n x -> nvars n y -> w_gt o x y = false <-> (py_cmp o (pw_lm y) (pw_lm x) = 1%Z \/ (pw_lm x = pw_lm y /\ pw_id x <= pw_id y))).
  { intros x y X Y. unfold w_gt. rewrite orb_false_iff, andb_false_iff, Z.ltb_ge, Z.eqb_neq, Nat.ltb_ge. pose proof (T3 _ _ X Y). pose proof (T1 _ _ X Y). pose proof (proj1 (T2 _ _ X Y)) as C1. pose proof (proj2 (T2 _ _ X Y)) as C2. intuition (try lia). }
  assert (Tr : forall x y z, nvars n x -> nvars n y -> nvars n z -> w_gt o x y = false -> w_gt o y z = false -> w_gt o x z = false).
  { intros x y z X Y Z E1 E2. apply (Ng x z X Z). apply (Ng x y X Y) in E1. apply (Ng y z Y Z) in E2. destruct E1 as [E1|[E1 I1]], E2 as [E2|[E2 I2]]; [left; exact (T4 _ _ _ Z Y X E2 E1)|left; rewrite <- E2; exact E1|left; rewrite E1; exact E2|right; split; [congruence|lia]]. }
  assert (Lo : forall x y, nvars n x -> nvars n y -> w_gt o x y = true -> w_gt o y x = false).
  { intros x y X Y E. apply (Ng y x Y X). unfold w_gt in E. rewrite orb_true_iff, andb_true_iff, Z.ltb_lt, Z.eqb_eq, Nat.ltb_lt, (T2 _ _ X Y) in E. pose proof (T1 _ _ X Y). destruct E as [E|[E L]]; [left; lia|right; split; [congruence|lia]]. }
  assert (Re : forall x, nvars n x -> w_gt o x x = false) by (intros x X; apply (Ng x x X X); right; split; [reflexivity|lia]).
  assert (Q : forall l best i j, nv (best :: l) -> w_gt o (snd (min_index o best i j l)) best = false /\ (forall v, In v l -> w_gt o (snd (min_index o best i j l)) v = false) /\ nvars n (snd (min_index o best i j l))).
  { clear Pm. induction l0 as [|x l0 IH]; intros best i j P0; cbn [min_index]; inversion P0 as [|? ? Pb P1]; subst; [cbn [snd]; split; [apply Re; exact Pb|split; [intros v []|exact Pb]]|]. inversion P1 as [|? ? Px P2]; subst.
    destruct (w_gt o best x) eqn:G.
    - destruct (IH x j (S j) P1) as (A & B & C). split; [apply (Tr _ x best); auto|]. split; [|exact C]. intros v [<-|V]; [exact A|exact (B v V)].
    - destruct (IH best i (S j) (Forall_cons _ Pb P2)) as (A & B & C). split; [exact A|]. split; [|exact C]. intros v [<-|V]; [apply (Tr _ best x); auto|exact (B v V)]. }
  destruct (Q l w0 0 1 Pl) as (A & B & _). intros v V. apply (in_cons (fst (get_min o w0 l))) in V. apply (Permutation_in v (Permutation_sym Pm)) in V. unfold get_min. cbn [fst]. destruct V as [<-|V]; [exact A|exact (B v V)].
Qed.
Lemma split_heap d : forall r q q2 res, auto_split o q d r = Ok (q2, res) -> nv (pq_list q2) -> heap q -> heap q2.
Proof.
  assert (Inc : forall d r q q2 res, auto_split o q d r = Ok (q2, res) -> incl (pq_list q) (pq_list q2)).
  { clear d. intros d. induction r as [|w r IH]; intros q q2 res E; cbn [auto_split] in E; [injection E as <- <-; apply incl_refl|]. destruct (Nat.eqb (w_degree w) d).
    - destruct (py_pp o (pw_poly w)); try discriminate E. cbn [bind] in E. destruct (auto_split o q d r) as [[qa qb]| | | |] eqn:E1; try discriminate E. cbn [bind fst snd] in E. injection E as <- <-. exact (IH _ _ _ E1).
    - destruct (q_push o q [w]) as [q1| | | |] eqn:E1; try discriminate E. cbn [bind] in E. intros x X. apply (IH _ _ _ E). apply (Permutation_in x (Permutation_sym (push_perm _ _ _ E1))). now right. }
  induction r as [|w r IH]; intros q q2 res E Pl H; cbn [auto_split] in E; [injection E as <- <-; exact H|]. destruct (Nat.eqb (w_degree w) d).
  - destruct (py_pp o (pw_poly w)); try discriminate E. cbn [bind] in E. destruct (auto_split o q d r) as [[qa qb]| | | |] eqn:E1; try discriminate E. cbn [bind fst snd] in E. injection E as <- <-. exact (IH _ _ _ E1 Pl H).
  - destruct (q_push o q [w]) as [q1| | | |] eqn:E1; try discriminate E. cbn [bind] in E. apply (IH _ _ _ E Pl). apply (push_heap _ _ _ E1); [|exact H]. rewrite Forall_forall in *. intros x X. apply Pl, (Inc _ _ _ _ _ E), X.
Qed.
End Order.
