(** Proofs about the list model. *)
From Coq Require Import List Bool Arith Lia.
From Verif Require Import Outcome RandPermModel RandPermProofs ListModel ListSpec.
Import ListNotations.
Local Open Scope nat_scope.

Lemma nth_upd {A} (l : list A) j y i : nth_error (upd l j y) i = if (i =? j) && (j <? length l) then Some y else nth_error l i.
Proof.
  revert j i; induction l as [|z a IHa]; intros [|j] [|i]; cbn [upd nth_error length]; try reflexivity.
  - rewrite andb_false_r. reflexivity.
  - rewrite IHa. cbn. destruct (Nat.eqb_spec i j), (Nat.ltb_spec j (length a)), (Nat.ltb_spec (S j) (S (length a))); cbn; try lia; reflexivity.
Qed.
Lemma nth_upd_same {A} (l : list A) j y x : nth_error l j = Some x -> nth_error (upd l j y) j = Some y.
Proof.
  intros H. rewrite nth_upd, Nat.eqb_refl. destruct (Nat.ltb_spec j (length l)) as [_|L]; [reflexivity|].
  apply nth_error_None in L. congruence.
Qed.
Lemma nth_upd_other {A} (l : list A) j y i : i <> j -> nth_error (upd l j y) i = nth_error l i.
Proof. intros H. rewrite nth_upd. destruct (Nat.eqb_spec i j); [lia|reflexivity]. Qed.
Lemma upd_id {A} (l : list A) j x : nth_error l j = Some x -> upd l j x = l.
Proof. revert j; induction l as [|y l IH]; intros [|j] H; cbn in *; try congruence. f_equal; auto. Qed.
Lemma upd_upd {A} (l : list A) j x y : upd (upd l j x) j y = upd l j y.
Proof. revert j; induction l as [|z l IH]; intros [|j]; cbn; try reflexivity. f_equal; auto. Qed.
Lemma put_upd {A} (l : list A) j x : put l j x = upd l j x.
Proof. reflexivity. Qed.
Lemma nth_lt {A} (l : list A) i x : nth_error l i = Some x -> i < length l.
Proof. intros H. apply nth_error_Some. congruence. Qed.
Lemma nth_new {A} (l : list A) x i y : nth_error l i = Some y -> nth_error (l ++ [x]) i = Some y.
Proof. intros H. rewrite nth_error_app1; [exact H|]. eapply nth_lt. exact H. Qed.

Section L.
Context {T : Type}.
Implicit Types (h : mem T) (s a b : list T) (p q : option nat) (ns na nb : list nat).

Lemma lseg_len h ns : forall p s q, lseg h p ns s q -> length ns = length s.
Proof. induction ns as [|n ns IH]; intros p [|x s] q H; cbn in *; try tauto; try reflexivity. destruct H as (_ & r & _ & H). f_equal. eauto. Qed.
Lemma lseg_app h na : forall p nb s q, lseg h p (na ++ nb) s q <-> exists a b r, s = a ++ b /\ lseg h p na a r /\ lseg h r nb b q.
Proof.
  induction na as [|n na IH]; intros p nb s q; cbn [app lseg].
  - split.
    + intros H. exists [], s, p. repeat split; auto.
    + intros (a & b & r & -> & H & H2). destruct a; [|tauto]. subst. exact H2.
  - destruct s as [|x s].
    + split; [tauto|]. intros (a & b & r & E & H & H2). destruct a; [tauto|discriminate].
    + split.
      * intros (-> & r & N & H). apply IH in H. destruct H as (a & b & r' & -> & H1 & H2).
        exists (x :: a), b, r'. split; [reflexivity|]. split; [|exact H2]. split; [reflexivity|]. exists r. auto.
      * intros (a & b & r & E & H & H2). destruct a as [|y a]; [tauto|]. injection E as -> ->. destruct H as (-> & r' & N & H).
        split; [reflexivity|]. exists r'. split; [exact N|]. apply IH. exists a, b, r. auto.
Qed.
Lemma lseg_split h p na nb a b q : length na = length a -> lseg h p (na ++ nb) (a ++ b) q -> exists r, lseg h p na a r /\ lseg h r nb b q.
Proof.
  intros L H. apply lseg_app in H. destruct H as (a' & b' & r & E & H1 & H2). exists r.
  pose proof (lseg_len _ _ _ _ _ H1). assert (a' = a /\ b' = b) as [-> ->]; [|auto].
  assert (length a = length a') by congruence. clear -E H0. revert a' H0 E; induction a as [|x a IH]; intros [|y a'] H E; cbn in *; try lia; auto.
  injection E as -> E. destruct (IH a') as [-> ->]; auto.
Qed.
Lemma lseg_ext h h' ns : forall p s q, (forall n, In n ns -> nth_error (heap h') n = nth_error (heap h) n) -> lseg h p ns s q -> lseg h' p ns s q.
Proof.
  induction ns as [|n ns IH]; intros p [|x s] q E H; cbn in *; try tauto. destruct H as (-> & r & N & H). split; [reflexivity|].
  exists r. split; [rewrite E; auto|]. apply IH; auto.
Qed.
Lemma lseg_live h ns : forall p s q n, lseg h p ns s q -> In n ns -> exists x, nth_error (heap h) n = Some (Some x).
Proof.
  induction ns as [|m ns IH]; intros p [|x s] q n H I; cbn in *; try tauto. destruct H as (-> & r & N & H). destruct I as [->|I]; eauto.
Qed.
Lemma lseg_chain h ns : forall p s, lseg h p ns s None -> chain h p s.
Proof. induction ns as [|m ns IH]; intros p [|x s] H; cbn in *; try tauto. destruct H as (-> & r & N & H). exists m, r. auto. Qed.

Definition link_of (l : nat) na : link := match rev na with [] => AtHead l | n :: _ => AtNode n end.
Lemma link_snoc l na n : link_of l (na ++ [n]) = AtNode n.
Proof. unfold link_of. rewrite rev_app_distr. reflexivity. Qed.

Lemma link_ok h l p len na a q : nth_error (lists h) l = Some (Lst p len) -> lseg h p na a q -> NoDup na ->
  read_link h (link_of l na) = Ok q /\
  forall q', exists p' h', write_link h (link_of l na) q' = Ok h' /\ lists h' = upd (lists h) l (Lst p' len) /\ lseg h' p' na a q' /\
    length (heap h') = length (heap h) /\ (forall n, ~ In n na -> nth_error (heap h') n = nth_error (heap h) n) /\
    (forall n, nth_error (heap h) n <> Some None -> nth_error (heap h') n <> Some None).
Proof.
  intros L H D. destruct na as [|n0 na0 IHna] using rev_ind.
  - destruct a; [|cbn in H; tauto]. cbn in H. subst q. unfold link_of. cbn [rev read_link write_link]. unfold get_list. rewrite (rd_ok _ _ _ L). cbn [bind mHead].
    split; [reflexivity|]. intros q'. exists q', (set_list h l (Lst q' len)). cbn. repeat split; auto.
  - clear IHna. rewrite link_snoc. cbn [read_link write_link]. pose proof (lseg_len _ _ _ _ _ H) as Len.
    rewrite app_length in Len. cbn in Len.
    apply lseg_app in H. destruct H as (a' & b' & r & -> & H1 & H2). destruct b' as [|x [|y b']]; cbn in H2; try tauto.
    2:{ destruct H2 as (_ & r1 & _ & H2). tauto. }
    destruct H2 as (-> & r1 & N & ->). unfold get_node. rewrite (rd_ok _ _ _ N). cbn [bind mNext mData]. split; [reflexivity|].
    intros q'. exists p, (set_node h n0 (Some (Node x q'))). split; [reflexivity|]. split; [cbn; symmetry; apply upd_id; exact L|].
    apply NoDup_remove in D. rewrite app_nil_r in D. destruct D as [D1 D2].
    split; [|split; [cbn; apply upd_len|split]].
    + apply lseg_app. exists a', [x], (Some n0). split; [reflexivity|]. split.
      * eapply lseg_ext; [|exact H1]. intros n I. cbn. apply nth_upd_other. intros ->. tauto.
      * cbn. split; [reflexivity|]. exists q'. split; [|reflexivity]. eapply nth_upd_same. exact N.
    + intros n I. cbn. apply nth_upd_other. intros ->. apply I. apply in_or_app. cbn. auto.
    + intros n I. cbn. rewrite nth_upd. destruct ((n =? n0) && (n0 <? length (heap h))); [discriminate|exact I].
Qed.

Lemma det_live h D d n : det_ok h D d -> In n D -> exists x, nth_error (heap h) n = Some (Some x).
Proof. destruct D as [|m [|? ?]], d as [|x [|? ?]]; cbn; try tauto. intros [q Q] [->|[]]. eauto. Qed.
Lemma det_ext h h' D d : det_ok h D d -> (forall n, In n D -> nth_error (heap h') n = nth_error (heap h) n) -> det_ok h' D d.
Proof. destruct D as [|m [|? ?]], d as [|x [|? ?]]; cbn; try tauto. intros [q Q] E. exists q. rewrite E; auto. Qed.
Lemma owned_lt h ss A D d l n : inv h ss A D d -> l < length ss -> In n (A l) -> n < length (heap h).
Proof.
  intros I L N. destruct (nth_error ss l) eqn:E; [|apply nth_error_None in E; lia].
  destruct (i_seg _ _ _ _ _ I l _ E) as (p & _ & H). destruct (lseg_live _ _ _ _ _ _ H N) as [x X]. eapply nth_lt. exact X.
Qed.
Lemma det_lt h ss A D d n : inv h ss A D d -> In n D -> n < length (heap h).
Proof. intros I N. destruct (det_live _ _ _ _ (i_det _ _ _ _ _ I) N) as [x X]. eapply nth_lt. exact X. Qed.

Definition setA (A : nat -> list nat) (l : nat) ns : nat -> list nat := fun k => if k =? l then ns else A k.
Lemma setA_same A l ns : setA A l ns l = ns.
Proof. unfold setA. rewrite Nat.eqb_refl. reflexivity. Qed.
Lemma setA_other A l ns k : k <> l -> setA A l ns k = A k.
Proof. unfold setA. intros H. destruct (Nat.eqb_spec k l); [lia|reflexivity]. Qed.

Lemma inv_step h ss A D d l s h' s' ns' D' d' p' :
  inv h ss A D d -> nth_error ss l = Some s ->
  lists h' = upd (lists h) l (Lst p' (length s')) -> lseg h' p' ns' s' None -> NoDup ns' -> det_ok h' D' d' ->
  (forall n, In n D' -> ~ In n ns') ->
  (forall n, In n ns' \/ In n D' -> In n (A l) \/ In n D \/ length (heap h) <= n) ->
  (forall n, ~ In n (A l) -> ~ In n D -> n < length (heap h) -> nth_error (heap h') n = nth_error (heap h) n) ->
  (forall n x, nth_error (heap h') n = Some (Some x) -> In n (A l) \/ In n D \/ length (heap h) <= n -> In n ns' \/ In n D') ->
  inv h' (upd ss l s') (setA A l ns') D' d'.
Proof.
  intros I E L H N Dt Dd Own Fr Lv. pose proof (nth_lt _ _ _ E) as Ll.
  assert (Disj : forall k n, k <> l -> k < length ss -> In n (A k) -> ~ In n (A l) /\ ~ In n D /\ n < length (heap h)).
  { intros k n K Lk X. split; [|split].
    - apply (i_dis _ _ _ _ _ I k l); assumption.
    - intros Y. apply (i_ddis _ _ _ _ _ I n k Y); assumption.
    - eapply owned_lt; eauto. }
  split.
  - rewrite L, !upd_len. apply (i_len _ _ _ _ _ I).
  - intros k t K. destruct (Nat.eq_dec k l) as [->|Nk].
    + rewrite (nth_upd_same _ _ _ _ E) in K. injection K as <-. rewrite setA_same. exists p'. split; [|exact H].
      rewrite L. destruct (i_seg _ _ _ _ _ I l s E) as (p0 & P0 & _). eapply nth_upd_same. exact P0.
    + rewrite nth_upd_other in K by exact Nk. rewrite setA_other by exact Nk. destruct (i_seg _ _ _ _ _ I k t K) as (p0 & P0 & S0).
      exists p0. split; [rewrite L, nth_upd_other by exact Nk; exact P0|]. eapply lseg_ext; [|exact S0].
      intros n X. destruct (Disj k n Nk (nth_lt _ _ _ K) X) as (X1 & X2 & X3). auto.
  - intros k. rewrite upd_len. intros K. destruct (Nat.eq_dec k l) as [->|Nk]; [rewrite setA_same; exact N|rewrite setA_other by exact Nk; apply (i_nd _ _ _ _ _ I); exact K].
  - intros k k' n. rewrite upd_len. intros Nk K K' X Y. destruct (Nat.eq_dec k l) as [->|Nkl].
    + rewrite setA_same in X. rewrite setA_other in Y by lia. destruct (Disj k' n ltac:(lia) K' Y) as (X1 & X2 & X3).
      destruct (Own n (or_introl X)) as [?|[?|?]]; [tauto|tauto|lia].
    + rewrite setA_other in X by exact Nkl. destruct (Disj k n Nkl K X) as (X1 & X2 & X3). destruct (Nat.eq_dec k' l) as [->|Nkl'].
      * rewrite setA_same in Y. destruct (Own n (or_introl Y)) as [?|[?|?]]; [tauto|tauto|lia].
      * rewrite setA_other in Y by exact Nkl'. exact (i_dis _ _ _ _ _ I k k' n Nk K K' X Y).
  - exact Dt.
  - intros n k X. rewrite upd_len. intros K Y. destruct (Nat.eq_dec k l) as [->|Nkl].
    + rewrite setA_same in Y. exact (Dd n X Y).
    + rewrite setA_other in Y by exact Nkl. destruct (Disj k n Nkl K Y) as (X1 & X2 & X3).
      destruct (Own n (or_intror X)) as [?|[?|?]]; [tauto|tauto|lia].
  - intros n x X. rewrite upd_len.
    assert (C : (In n (A l) \/ In n D \/ length (heap h) <= n) \/ (~ In n (A l) /\ ~ In n D /\ n < length (heap h))).
    { destruct (in_dec Nat.eq_dec n (A l)); [tauto|]. destruct (in_dec Nat.eq_dec n D); [tauto|]. destruct (Nat.le_gt_cases (length (heap h)) n); [tauto|right; auto]. }
    destruct C as [C|(C1 & C2 & C3)].
    + destruct (Lv n x X C) as [Y|Y]; [right; exists l; rewrite setA_same; auto|left; exact Y].
    + rewrite Fr in X by assumption. destruct (i_live _ _ _ _ _ I n x X) as [Y|(k & K & Y)]; [tauto|]. right. exists k. split; [exact K|].
      destruct (Nat.eq_dec k l) as [->|Nk]; [tauto|]. rewrite setA_other by exact Nk. exact Y.
Qed.

Lemma nodup_app {X} (u v : list X) : NoDup (u ++ v) <-> NoDup u /\ NoDup v /\ (forall n, In n u -> ~ In n v).
Proof.
  induction u as [|x u IH]; cbn [app].
  - split; [intros H; split; [constructor|split; auto]|intros (_ & H & _); exact H].
  - rewrite !NoDup_cons_iff, IH, in_app_iff. split.
    + intros (N & A & B & C). repeat split; auto. intros n [->|I]; auto.
    + intros ((N & A) & B & C). repeat split; auto.
      * intros [I|I]; [auto|]. exact (C x (or_introl eq_refl) I).
      * intros n I. apply C. cbn; auto.
Qed.

Record cursor h (ss : list (list T)) A D d l na nb a b : Prop := {
  c_inv : inv h ss A D d;
  c_seq : nth_error ss l = Some (a ++ b);
  c_adr : A l = na ++ nb;
  c_len : length na = length a }.

(** the facts the iterator operations need *)
Lemma cursor_facts h ss A D d l na nb a b : cursor h ss A D d l na nb a b -> exists p q,
  nth_error (lists h) l = Some (Lst p (length (a ++ b))) /\ lseg h p na a q /\ lseg h q nb b None /\
  NoDup na /\ NoDup nb /\ (forall n, In n na -> ~ In n nb) /\ read_link h (link_of l na) = Ok q.
Proof.
  intros [I E R L]. destruct (i_seg _ _ _ _ _ I l _ E) as (p & P & S). rewrite R in S. destruct (lseg_split _ _ _ _ _ _ _ L S) as (q & S1 & S2).
  pose proof (i_nd _ _ _ _ _ I l (nth_lt _ _ _ E)) as N. rewrite R in N. apply nodup_app in N. destruct N as (N1 & N2 & N3).
  exists p, q. repeat split; auto. apply (link_ok h l p _ na a q P S1 N1).
Qed.

Lemma bool_ok h ss A D d l na nb a b : cursor h ss A D d l na nb a b ->
  it_bool h (Iter l (link_of l na)) = Ok (match b with [] => false | _ => true end).
Proof.
  intros C. destruct (cursor_facts _ _ _ _ _ _ _ _ _ _ C) as (p & q & P & S1 & S2 & _ & _ & _ & R). unfold it_bool. cbn [mLink]. rewrite R. cbn [bind].
  destruct nb as [|n nb], b as [|x b]; cbn in S2; try tauto; [subst; reflexivity|]. destruct S2 as (-> & _). reflexivity.
Qed.
Lemma next_ok h ss A D d l na nb a b x : cursor h ss A D d l na nb a (x :: b) -> exists n nb', nb = n :: nb' /\
  it_next h (Iter l (link_of l na)) = Ok (Iter l (link_of l (na ++ [n]))) /\ it_data h (Iter l (link_of l na)) = Ok x /\
  cursor h ss A D d l (na ++ [n]) nb' (a ++ [x]) b.
Proof.
  intros C. destruct (cursor_facts _ _ _ _ _ _ _ _ _ _ C) as (p & q & P & S1 & S2 & _ & _ & _ & R). destruct nb as [|n nb]; [cbn in S2; tauto|].
  cbn in S2. destruct S2 as (-> & r & N & S2). exists n, nb. split; [reflexivity|]. unfold it_next, it_data, get_node. cbn [mLink mList].
  rewrite R. cbn [bind deref]. rewrite (rd_ok _ _ _ N), link_snoc. cbn [bind].
  split; [reflexivity|]. split; [reflexivity|]. destruct C as [I E Ad L]. split; [exact I|rewrite <- app_assoc; exact E|rewrite <- app_assoc; exact Ad|].
  rewrite !app_length, L. reflexivity.
Qed.

Lemma add_length_ok h l p k f : nth_error (lists h) l = Some (Lst p k) ->
  add_length h l f = Ok (Mem (heap h) (upd (lists h) l (Lst p (f k)))).
Proof. intros H. unfold add_length, get_list. rewrite (rd_ok _ _ _ H). reflexivity. Qed.

Lemma cursor_make h ss A D d l na nb a b a0 : inv h (upd ss l (a ++ b)) (setA A l (na ++ nb)) D d -> nth_error ss l = Some a0 -> length na = length a ->
  cursor h (upd ss l (a ++ b)) (setA A l (na ++ nb)) D d l na nb a b.
Proof. intros I E L. split; auto; [eapply nth_upd_same; exact E|apply setA_same]. Qed.

Lemma insert_ok h ss A D d l na nb a b x : cursor h ss A D d l na nb a b ->
  exists h', it_insert h (Iter l (link_of l na)) x = Ok h' /\ length (heap h') = S (length (heap h)) /\
    cursor h' (upd ss l (a ++ x :: b)) (setA A l (na ++ length (heap h) :: nb)) D d l na (length (heap h) :: nb) a (x :: b).
Proof.
  intros C. destruct (cursor_facts _ _ _ _ _ _ _ _ _ _ C) as (p & q & P & S1 & S2 & N1 & N2 & N3 & R).
  pose proof (c_inv _ _ _ _ _ _ _ _ _ _ C) as I. pose proof (c_seq _ _ _ _ _ _ _ _ _ _ C) as E. pose proof (c_adr _ _ _ _ _ _ _ _ _ _ C) as Ad.
  assert (Old : forall n, In n na \/ In n nb -> n < length (heap h)).
  { intros n X. eapply owned_lt; [exact I|eapply nth_lt; exact E|]. rewrite Ad. apply in_or_app. exact X. }
  unfold it_insert. cbn [mLink mList]. rewrite R. cbn [bind new_node]. set (h1 := Mem (heap h ++ [Some (Node x q)]) (lists h)).
  assert (H1 : forall n, n < length (heap h) -> nth_error (heap h1) n = nth_error (heap h) n) by (intros n X; cbn; apply nth_error_app1; exact X).
  assert (H1n : nth_error (heap h1) (length (heap h)) = Some (Some (Node x q))) by (cbn; rewrite nth_error_app2, Nat.sub_diag by lia; reflexivity).
  assert (S1' : lseg h1 p na a q) by (eapply lseg_ext; [|exact S1]; intros n X; apply H1, Old; auto).
  destruct (proj2 (link_ok h1 l p _ na a q P S1' N1) (Some (length (heap h)))) as (p' & h2 & W & L2 & S3 & Len & Fr & Al).
  rewrite W. cbn [bind]. rewrite (add_length_ok h2 l p' (length (a ++ b))) by (rewrite L2; eapply nth_upd_same; exact P).
  eexists. split; [reflexivity|]. cbn [heap]. split; [rewrite Len; cbn; rewrite app_length; cbn; lia|].
  apply (cursor_make _ _ _ _ _ _ _ _ _ _ (a ++ b)); [|exact E|apply C].
  eapply (inv_step h ss A D d l (a ++ b) _ _ _ D d p' I E).
  - cbn [lists]. rewrite L2, upd_upd. cbn. rewrite !app_length. cbn. rewrite Nat.add_succ_r. reflexivity.
  - apply lseg_app. exists a, (x :: b), (Some (length (heap h))). split; [reflexivity|]. split; [eapply lseg_ext; [|exact S3]; reflexivity|]. cbn [lseg heap]. split; [reflexivity|].
    exists q. split.
    + rewrite Fr; [exact H1n|]. intros X. specialize (Old _ (or_introl X)). lia.
    + eapply lseg_ext; [|exact S2]. intros n X. cbn [heap]. rewrite Fr; [apply H1, Old; auto|]. intros Y. exact (N3 n Y X).
  - apply nodup_app. split; [exact N1|]. split.
    + constructor; [intros X; specialize (Old _ (or_intror X)); lia|exact N2].
    + intros n X [Y|Y]; [subst; specialize (Old _ (or_introl X)); lia|exact (N3 n X Y)].
  - eapply det_ext; [apply (i_det _ _ _ _ _ I)|]. intros n X. cbn [heap]. rewrite Fr; [apply H1; eapply det_lt; eauto|].
    intros Y. apply (i_ddis _ _ _ _ _ I n l X (nth_lt _ _ _ E)). rewrite Ad. apply in_or_app; auto.
  - intros n X. rewrite in_app_iff. intros [Y|[Y|Y]].
    + apply (i_ddis _ _ _ _ _ I n l X (nth_lt _ _ _ E)). rewrite Ad. apply in_or_app; auto.
    + subst. pose proof (det_lt _ _ _ _ _ _ I X). lia.
    + apply (i_ddis _ _ _ _ _ I n l X (nth_lt _ _ _ E)). rewrite Ad. apply in_or_app; auto.
  - intros n. rewrite in_app_iff, Ad, in_app_iff. cbn. intros [[X|[X|X]]|X]; auto. right. right. lia.
  - intros n X Y Z. cbn [heap]. rewrite Fr; [apply H1; exact Z|]. intros W'. apply X. rewrite Ad. apply in_or_app; auto.
  - intros n y X. cbn [heap] in X. assert (n < S (length (heap h))) by (rewrite <- (Nat.add_1_r (length (heap h))); apply nth_lt in X; rewrite Len in X; cbn in X; rewrite app_length in X; cbn in X; lia).
    rewrite Ad, !in_app_iff. cbn. intros [[Y|Y]|[Y|Y]]; auto. left. right. left. lia.
Qed.

Lemma free_ok h n x : nth_error (heap h) n = Some (Some x) -> free_node h n = Ok (set_node h n None).
Proof. intros H. unfold free_node, get_node. rewrite (rd_ok _ _ _ H). reflexivity. Qed.

Lemma del_ok h ss A D d l na nb a b x : cursor h ss A D d l na nb a (x :: b) -> exists n nb' h', nb = n :: nb' /\
  it_del h (Iter l (link_of l na)) = Ok h' /\ length (heap h') = length (heap h) /\
  cursor h' (upd ss l (a ++ b)) (setA A l (na ++ nb')) D d l na nb' a b.
Proof.
  intros C. destruct (cursor_facts _ _ _ _ _ _ _ _ _ _ C) as (p & q & P & S1 & S2 & N1 & N2 & N3 & R).
  destruct nb as [|n nb]; [cbn in S2; tauto|]. cbn in S2. destruct S2 as (-> & r & N & S2). exists n, nb.
  pose proof (c_inv _ _ _ _ _ _ _ _ _ _ C) as I. pose proof (c_seq _ _ _ _ _ _ _ _ _ _ C) as E. pose proof (c_adr _ _ _ _ _ _ _ _ _ _ C) as Ad.
  apply NoDup_cons_iff in N2. destruct N2 as [N2n N2]. assert (Nn : ~ In n na) by (intros X; apply (N3 n X); cbn; auto).
  unfold it_del. cbn [mLink mList]. rewrite R. cbn [bind deref]. unfold get_node at 1. rewrite (rd_ok _ _ _ N). cbn [bind mNext].
  destruct (proj2 (link_ok h l p _ na a _ P S1 N1) r) as (p' & h1 & W & L1 & S3 & Len & Fr & Al). rewrite W. cbn [bind].
  rewrite (free_ok h1 n (Node x r)) by (rewrite Fr; [exact N|exact Nn]). cbn [bind].
  rewrite (add_length_ok _ l p' (length (a ++ x :: b))) by (cbn [set_node lists]; rewrite L1; eapply nth_upd_same; exact P).
  eexists. split; [reflexivity|]. split; [reflexivity|]. cbn [heap set_node]. split; [rewrite upd_len; exact Len|].
  assert (Fr2 : forall m, m <> n -> nth_error (upd (heap h1) n None) m = nth_error (heap h1) m) by (intros m X; apply nth_upd_other; exact X).
  apply (cursor_make _ _ _ _ _ _ _ _ _ _ (a ++ x :: b)); [|exact E|apply C].
  eapply (inv_step h ss A D d l (a ++ x :: b) _ _ _ D d p' I E).
  - cbn [lists set_node]. rewrite L1, upd_upd. rewrite !app_length. cbn. rewrite Nat.add_succ_r. reflexivity.
  - apply lseg_app. exists a, b, r. split; [reflexivity|]. split.
    + eapply lseg_ext; [|exact S3]. intros m X. cbn [heap]. apply Fr2. intros ->. tauto.
    + eapply lseg_ext; [|exact S2]. intros m X. cbn [heap]. rewrite Fr2 by (intros ->; tauto). apply Fr. intros Y. apply (N3 m Y). cbn; auto.
  - apply nodup_app. split; [exact N1|]. split; [exact N2|]. intros m X Y. apply (N3 m X). cbn; auto.
  - eapply det_ext; [apply (i_det _ _ _ _ _ I)|]. intros m X. cbn [heap].
    assert (Y : ~ In m (na ++ n :: nb)) by (rewrite <- Ad; apply (i_ddis _ _ _ _ _ I m l X (nth_lt _ _ _ E))). rewrite in_app_iff in Y. cbn in Y.
    rewrite Fr2 by (intros ->; tauto). apply Fr. tauto.
  - intros m X Y. apply (i_ddis _ _ _ _ _ I m l X (nth_lt _ _ _ E)). rewrite Ad. rewrite in_app_iff in *. cbn. tauto.
  - intros m. rewrite Ad, !in_app_iff. cbn. tauto.
  - intros m X Y Z. rewrite Ad, in_app_iff in X. cbn in X. cbn [heap]. rewrite Fr2 by (intros ->; tauto). apply Fr. tauto.
  - intros m y X. cbn [heap] in X. destruct (Nat.eq_dec m n) as [->|Nm].
    + erewrite nth_upd_same in X by (rewrite Fr; [exact N|exact Nn]). discriminate.
    + apply nth_lt in X. rewrite upd_len, Len in X. rewrite Ad, !in_app_iff. cbn. intros [[Y|[Y|Y]]|[Y|Y]]; auto; [congruence|lia].
Qed.

Lemma get_ok h ss A l na nb a b x : cursor h ss A [] [] l na nb a (x :: b) -> exists n nb' h', nb = n :: nb' /\
  it_get h (Iter l (link_of l na)) = Ok (h', Some n) /\
  cursor h' (upd ss l (a ++ b)) (setA A l (na ++ nb')) [n] [x] l na nb' a b.
Proof.
  intros C. destruct (cursor_facts _ _ _ _ _ _ _ _ _ _ C) as (p & q & P & S1 & S2 & N1 & N2 & N3 & R).
  destruct nb as [|n nb]; [cbn in S2; tauto|]. cbn in S2. destruct S2 as (-> & r & N & S2). exists n, nb.
  pose proof (c_inv _ _ _ _ _ _ _ _ _ _ C) as I. pose proof (c_seq _ _ _ _ _ _ _ _ _ _ C) as E. pose proof (c_adr _ _ _ _ _ _ _ _ _ _ C) as Ad.
  apply NoDup_cons_iff in N2. destruct N2 as [N2n N2]. assert (Nn : ~ In n na) by (intros X; apply (N3 n X); cbn; auto).
  unfold it_get. cbn [mLink mList]. rewrite R. cbn [bind deref]. unfold get_node at 1. rewrite (rd_ok _ _ _ N). cbn [bind mNext].
  destruct (proj2 (link_ok h l p _ na a _ P S1 N1) r) as (p' & h1 & W & L1 & S3 & Len & Fr & Al). rewrite W. cbn [bind].
  assert (N' : nth_error (heap h1) n = Some (Some (Node x r))) by (rewrite Fr; [exact N|exact Nn]).
  unfold get_node. rewrite (rd_ok _ _ _ N'). cbn [bind mData].
  rewrite (add_length_ok _ l p' (length (a ++ x :: b))) by (cbn [set_node lists]; rewrite L1; eapply nth_upd_same; exact P).
  cbn [bind]. eexists. split; [reflexivity|]. split; [reflexivity|]. cbn [heap set_node].
  assert (Fr2 : forall m, m <> n -> nth_error (upd (heap h1) n (Some (Node x None))) m = nth_error (heap h1) m) by (intros m X; apply nth_upd_other; exact X).
  apply (cursor_make _ _ _ _ _ _ _ _ _ _ (a ++ x :: b)); [|exact E|apply C].
  eapply (inv_step h ss A [] [] l (a ++ x :: b) _ _ _ [n] [x] p' I E).
  - cbn [lists set_node]. rewrite L1, upd_upd. rewrite !app_length. cbn. rewrite Nat.add_succ_r. reflexivity.
  - apply lseg_app. exists a, b, r. split; [reflexivity|]. split.
    + eapply lseg_ext; [|exact S3]. intros m X. cbn [heap]. apply Fr2. intros ->. tauto.
    + eapply lseg_ext; [|exact S2]. intros m X. cbn [heap]. rewrite Fr2 by (intros ->; tauto). apply Fr. intros Y. apply (N3 m Y). cbn; auto.
  - apply nodup_app. split; [exact N1|]. split; [exact N2|]. intros m X Y. apply (N3 m X). cbn; auto.
  - cbn. exists None. eapply nth_upd_same. exact N'.
  - intros m [<-|[]]. rewrite in_app_iff. tauto.
  - intros m. rewrite Ad, !in_app_iff. cbn. tauto.
  - intros m X Y Z. rewrite Ad, in_app_iff in X. cbn in X. cbn [heap]. rewrite Fr2 by (intros ->; tauto). apply Fr. tauto.
  - intros m y X. cbn [heap] in X. apply nth_lt in X. rewrite upd_len, Len in X. rewrite Ad, !in_app_iff. cbn. intros [[Y|[Y|Y]]|[Y|Y]]; auto; try tauto; try lia.
Qed.

Lemma relink_ok h ss A D l na nb a b x : cursor h ss A D [x] l na nb a b -> exists n h', D = [n] /\
  it_link h (Iter l (link_of l na)) (Some n) = Ok h' /\
  cursor h' (upd ss l (a ++ x :: b)) (setA A l (na ++ n :: nb)) [] [] l na (n :: nb) a (x :: b).
Proof.
  intros C. destruct (cursor_facts _ _ _ _ _ _ _ _ _ _ C) as (p & q & P & S1 & S2 & N1 & N2 & N3 & R).
  pose proof (c_inv _ _ _ _ _ _ _ _ _ _ C) as I. pose proof (c_seq _ _ _ _ _ _ _ _ _ _ C) as E. pose proof (c_adr _ _ _ _ _ _ _ _ _ _ C) as Ad.
  pose proof (i_det _ _ _ _ _ I) as Dt. destruct D as [|n [|? ?]]; cbn in Dt; try tauto. destruct Dt as [q0 N]. exists n.
  assert (Dn : ~ In n (na ++ nb)) by (rewrite <- Ad; apply (i_ddis _ _ _ _ _ I n l); [cbn; auto|eapply nth_lt; exact E]). rewrite in_app_iff in Dn.
  unfold it_link. cbn [mLink mList deref bind]. rewrite R. cbn [bind]. unfold get_node at 1. rewrite (rd_ok _ _ _ N). cbn [bind mData].
  set (h1 := set_node h n (Some (Node x q))).
  assert (H1 : forall m, m <> n -> nth_error (heap h1) m = nth_error (heap h) m) by (intros m X; cbn; apply nth_upd_other; exact X).
  assert (H1n : nth_error (heap h1) n = Some (Some (Node x q))) by (cbn; eapply nth_upd_same; exact N).
  assert (L1 : length (heap h1) = length (heap h)) by (cbn; apply upd_len).
  assert (S1' : lseg h1 p na a q) by (eapply lseg_ext; [|exact S1]; intros m X; apply H1; intros ->; tauto).
  destruct (proj2 (link_ok h1 l p _ na a q P S1' N1) (Some n)) as (p' & h2 & W & L2 & S3 & Len & Fr & Al).
  rewrite W. cbn [bind]. rewrite (add_length_ok h2 l p' (length (a ++ b))) by (rewrite L2; eapply nth_upd_same; exact P).
  eexists. split; [reflexivity|]. split; [reflexivity|].
  apply (cursor_make _ _ _ _ _ _ _ _ _ _ (a ++ b)); [|exact E|apply C].
  eapply (inv_step h ss A [n] [x] l (a ++ b) _ _ _ [] [] p' I E).
  - cbn [lists]. rewrite L2, upd_upd. cbn. rewrite !app_length. cbn. rewrite Nat.add_succ_r. reflexivity.
  - apply lseg_app. exists a, (x :: b), (Some n). split; [reflexivity|]. split; [eapply lseg_ext; [|exact S3]; reflexivity|]. cbn [lseg heap]. split; [reflexivity|].
    exists q. split.
    + rewrite Fr by tauto. exact H1n.
    + eapply lseg_ext; [|exact S2]. intros m X. cbn [heap]. rewrite Fr; [apply H1; intros ->; tauto|]. intros Y. exact (N3 m Y X).
  - apply nodup_app. split; [exact N1|]. split.
    + constructor; [tauto|exact N2].
    + intros m X [Y|Y]; [subst; tauto|exact (N3 m X Y)].
  - exact Logic.I.
  - intros m [].
  - intros m. rewrite in_app_iff, Ad, in_app_iff. cbn. tauto.
  - intros m X Y Z. rewrite Ad, in_app_iff in X. cbn in Y. cbn [heap]. rewrite Fr by tauto. apply H1. intros ->. tauto.
  - intros m y X. cbn [heap] in X. apply nth_lt in X. rewrite Len, L1 in X. rewrite Ad, !in_app_iff. cbn. intros [[Y|Y]|[[Y|[]]|Y]]; auto; try tauto; lia.
Qed.

Lemma owned_count h ss A D d l : inv h ss A D d -> l < length ss -> length (A l) <= length (heap h).
Proof.
  intros I L. rewrite <- (seq_length (length (heap h)) 0). apply NoDup_incl_length; [apply (i_nd _ _ _ _ _ I); exact L|].
  intros n X. apply in_seq. pose proof (owned_lt _ _ _ _ _ _ _ I L X). lia.
Qed.
Lemma clear_loop_ok : forall b fuel h ss A D d l na nb a, cursor h ss A D d l na nb a b -> length b < fuel ->
  exists h' A', it_clear_loop fuel h (Iter l (link_of l na)) = Ok h' /\ cursor h' (upd ss l a) A' D d l na [] a [].
Proof.
  induction b as [|x b IH]; intros [|fuel] h ss A D d l na nb a C F; cbn [length] in F; try lia; cbn [it_clear_loop]; rewrite (bool_ok _ _ _ _ _ _ _ _ _ _ C); cbn [bind].
  - exists h, A. split; [reflexivity|]. pose proof (c_seq _ _ _ _ _ _ _ _ _ _ C) as E. rewrite app_nil_r in E. rewrite (upd_id _ _ _ E).
    destruct (cursor_facts _ _ _ _ _ _ _ _ _ _ C) as (p & q & _ & _ & S2 & _). destruct nb; [exact C|cbn in S2; tauto].
  - destruct (del_ok _ _ _ _ _ _ _ _ _ _ _ C) as (n & nb' & h' & -> & W & _ & C'). rewrite W. cbn [bind].
    destruct (IH fuel h' _ _ _ _ _ _ _ _ C' ltac:(lia)) as (h2 & A2 & E & C2). rewrite upd_upd in C2. eauto.
Qed.
Lemma clear_ok dbg h ss A D d l na nb b : cursor h ss A D d l na nb [] b ->
  exists h' A', it_clear dbg h (Iter l (link_of l na)) = Ok h' /\ na = [] /\ cursor h' (upd ss l []) A' D d l [] [] [] [].
Proof.
  intros C. destruct na; [|pose proof (c_len _ _ _ _ _ _ _ _ _ _ C); discriminate]. unfold it_clear.
  destruct (clear_loop_ok b (S (length (heap h))) h ss A D d l [] nb [] C) as (h' & A' & E & C').
  { destruct (cursor_facts _ _ _ _ _ _ _ _ _ _ C) as (p & q & _ & _ & S2 & _). rewrite <- (lseg_len _ _ _ _ _ S2).
    pose proof (owned_count _ _ _ _ _ l (c_inv _ _ _ _ _ _ _ _ _ _ C) (nth_lt _ _ _ (c_seq _ _ _ _ _ _ _ _ _ _ C))) as X.
    rewrite (c_adr _ _ _ _ _ _ _ _ _ _ C) in X. cbn in X. lia. }
  rewrite E. cbn [bind mList]. destruct (cursor_facts _ _ _ _ _ _ _ _ _ _ C') as (p & q & P & _). unfold get_list. rewrite (rd_ok _ _ _ P).
  cbn [bind mLength]. unfold assert_. cbn. rewrite andb_false_r. eauto.
Qed.

Lemma begin_cursor h ss A D d l s : inv h ss A D d -> nth_error ss l = Some s -> cursor h ss A D d l [] (A l) [] s.
Proof. intros I E. split; auto. Qed.

Lemma push_eq h l x p k : nth_error (lists h) l = Some (Lst p k) -> l_push h l x = it_insert h (it_begin l) x.
Proof.
  intros P. unfold l_push, it_insert, it_begin. cbn [mLink mList read_link]. unfold get_list at 1 2. rewrite (rd_ok _ _ _ P). cbn [bind mHead mLength new_node write_link].
  unfold get_list at 1. cbn [lists]. rewrite (rd_ok _ _ _ P). cbn [bind mLength].
  rewrite (add_length_ok _ l (Some (length (heap h))) k) by (cbn; eapply nth_upd_same; exact P). cbn. rewrite upd_upd. reflexivity.
Qed.
Lemma push_ok h ss A D d l s x : inv h ss A D d -> nth_error ss l = Some s ->
  exists h' A', l_push h l x = Ok h' /\ inv h' (upd ss l (x :: s)) A' D d.
Proof.
  intros I E. destruct (i_seg _ _ _ _ _ I l s E) as (p & P & _). rewrite (push_eq _ _ _ _ _ P).
  destruct (insert_ok _ _ _ _ _ _ _ _ _ _ x (begin_cursor _ _ _ _ _ _ _ I E)) as (h' & W & _ & C). eauto using c_inv.
Qed.
Lemma pop_ok dbg h ss A D d l s x : inv h ss A D d -> nth_error ss l = Some (x :: s) ->
  exists h' A', l_pop dbg h l = Ok (h', x) /\ l_head dbg h l = Ok x /\ inv h' (upd ss l s) A' D d.
Proof.
  intros I E. destruct (i_seg _ _ _ _ _ I l _ E) as (p & P & S).
  destruct (del_ok _ _ _ _ _ _ _ _ _ _ _ (begin_cursor _ _ _ _ _ _ _ I E)) as (n & nb & h' & EA & W & _ & C).
  rewrite EA in S. cbn in S. destruct S as (-> & r & N & S). exists h', (setA A l ([] ++ nb)). 
  revert W. unfold it_del, l_pop, l_head. change (link_of l []) with (AtHead l). cbn [mLink mList read_link]. unfold get_list. rewrite (rd_ok _ _ _ P).
  cbn [bind mHead deref mLength write_link]. unfold get_node. rewrite (rd_ok _ _ _ N). cbn [bind mNext mData]. unfold get_list. rewrite (rd_ok _ _ _ P). cbn [bind mLength].
  unfold assert_. cbn [negb]. rewrite andb_false_r. destruct (free_node _ n) as [h1| | | |]; cbn [bind]; try discriminate. intros ->. cbn [bind].
  split; [reflexivity|]. split; [reflexivity|]. apply C.
Qed.

Lemma hd_lseg h p ns s : lseg h p ns s None -> p = hd_error ns.
Proof. destruct ns, s; cbn; try tauto. Qed.
Lemma copy_loop_ok : forall s2 fuel h ss A D d l na a src s1 n1 n2, cursor h ss A D d l na [] a [] -> src <> l ->
  nth_error ss src = Some (s1 ++ s2) -> A src = n1 ++ n2 -> length n1 = length s1 -> length s2 <= fuel ->
  exists h' A', l_copy_loop fuel h (Iter l (link_of l na)) (hd_error n2) = Ok h' /\ inv h' (upd ss l (a ++ s2)) A' D d.
Proof.
  induction s2 as [|x s2 IH]; intros fuel h ss A D d l na a src s1 n1 n2 C Ns E Ad L F;
    destruct (i_seg _ _ _ _ _ (c_inv _ _ _ _ _ _ _ _ _ _ C) src _ E) as (p & P & S); rewrite Ad in S;
    destruct (lseg_split _ _ _ _ _ _ _ L S) as (q & S1 & S2); destruct n2 as [|n n2]; cbn in S2; try tauto.
  - exists h, A. destruct fuel; (split; [reflexivity|]); rewrite (upd_id _ _ _ (c_seq _ _ _ _ _ _ _ _ _ _ C)); apply C.
  - destruct fuel as [|fuel]; [cbn in F; lia|]. destruct S2 as (-> & r & N & S2). cbn [hd_error l_copy_loop].
    unfold ci_data, get_node. cbn [deref bind]. rewrite (rd_ok _ _ _ N). cbn [bind mData].
    destruct (insert_ok _ _ _ _ _ _ _ _ _ _ x C) as (h1 & W & _ & C1). rewrite W. cbn [bind].
    assert (E1 : nth_error (upd ss l (a ++ [x])) src = Some ((s1 ++ [x]) ++ s2)) by (rewrite nth_upd_other, <- app_assoc by exact Ns; exact E).
    assert (Ad1 : setA A l (na ++ [length (heap h)]) src = (n1 ++ [n]) ++ n2) by (rewrite setA_other, <- app_assoc by exact Ns; exact Ad).
    assert (R : ci_next h1 (Some n) = Ok (hd_error n2)).
    { destruct (i_seg _ _ _ _ _ (c_inv _ _ _ _ _ _ _ _ _ _ C1) src _ E1) as (p' & P' & S'). rewrite Ad1, <- !app_assoc in S'. cbn in S'.
      destruct (lseg_split _ _ _ _ _ _ _ L S') as (q' & S1' & S2'). cbn in S2'. destruct S2' as (_ & r' & N' & S2').
      unfold ci_next, get_node. cbn [deref bind]. rewrite (rd_ok _ _ _ N'). cbn [bind mNext]. f_equal. eapply hd_lseg. exact S2'. }
    rewrite R. cbn [bind]. destruct (next_ok _ _ _ _ _ _ _ _ _ _ _ C1) as (m & nb & Em & W2 & _ & C2). injection Em as <- <-. rewrite W2. cbn [bind].
    destruct (IH fuel h1 _ _ _ _ l _ _ src _ _ _ C2 Ns E1 Ad1) as (h' & A' & W3 & I3); [rewrite !app_length, L; reflexivity|cbn in F; lia|].
    exists h', A'. split; [exact W3|]. rewrite upd_upd, <- app_assoc in I3. exact I3.
Qed.

Lemma new_ok h ss A D d : inv h ss A D d -> inv (l_new h) (ss ++ [[]]) (setA A (length ss) []) D d.
Proof.
  intros I. pose proof (i_len _ _ _ _ _ I) as Len. split.
  - cbn. rewrite !app_length. cbn. lia.
  - intros l s E. destruct (Nat.lt_ge_cases l (length ss)) as [L|L].
    + rewrite nth_error_app1 in E by exact L. rewrite setA_other by lia. destruct (i_seg _ _ _ _ _ I l s E) as (p & P & S). exists p.
      split; [cbn; apply nth_new; exact P|]. eapply lseg_ext; [|exact S]; reflexivity.
    + pose proof (nth_lt _ _ _ E) as X. rewrite app_length in X. cbn in X. assert (l = length ss) by lia. subst l.
      rewrite nth_error_app2, Nat.sub_diag in E by lia. injection E as <-. rewrite setA_same. exists None. split; [|reflexivity].
      cbn. rewrite <- Len, nth_error_app2, Nat.sub_diag by lia. reflexivity.
  - intros l. rewrite app_length. cbn. intros L. destruct (Nat.eq_dec l (length ss)) as [->|N]; [rewrite setA_same; constructor|].
    rewrite setA_other by exact N. apply (i_nd _ _ _ _ _ I). lia.
  - intros l l' n N. rewrite app_length. cbn. intros L L' X Y. destruct (Nat.eq_dec l (length ss)) as [->|Nl]; [rewrite setA_same in X; destruct X|].
    destruct (Nat.eq_dec l' (length ss)) as [->|Nl']; [rewrite setA_same in Y; destruct Y|]. rewrite setA_other in X, Y by assumption.
    apply (i_dis _ _ _ _ _ I l l' n); auto; lia.
  - eapply det_ext; [apply (i_det _ _ _ _ _ I)|]. reflexivity.
  - intros n l X. rewrite app_length. cbn. intros L Y. destruct (Nat.eq_dec l (length ss)) as [->|Nl]; [rewrite setA_same in Y; destruct Y|].
    rewrite setA_other in Y by assumption. apply (i_ddis _ _ _ _ _ I n l X); [lia|exact Y].
  - intros n x X. destruct (i_live _ _ _ _ _ I n x X) as [Y|(l & L & Y)]; [auto|]. right. exists l. rewrite app_length. cbn. split; [lia|].
    rewrite setA_other by lia. exact Y.
Qed.
Lemma copy_ok h ss A D d (a : nat) s : inv h ss A D d -> nth_error ss a = Some s -> exists h' A', l_copy h a = Ok h' /\ inv h' (ss ++ [s]) A' D d.
Proof.
  intros I E. pose proof (new_ok _ _ _ _ _ I) as J. pose proof (nth_lt _ _ _ E) as L. unfold l_copy, get_list.
  pose proof (nth_new _ [] _ _ E) as E'. destruct (i_seg _ _ _ _ _ J a s E') as (p & P & S). rewrite (rd_ok _ _ _ P). cbn [bind mLength mHead].
  rewrite setA_other in S by lia. rewrite (hd_lseg _ _ _ _ S), (i_len _ _ _ _ _ I).
  destruct (copy_loop_ok s (Datatypes.S (length s)) (l_new h) _ _ _ _ (length ss) [] [] a [] [] (A a)
      (ltac:(split; [exact J|cbn; rewrite nth_error_app2, Nat.sub_diag by lia; reflexivity|apply setA_same|reflexivity]))
      ltac:(lia) E' ltac:(apply setA_other; lia) eq_refl ltac:(lia)) as (h' & A' & W & I').
  exists h', A'. split; [exact W|]. cbn [app] in I'. rewrite (upd_appn ss [] []) in I' by reflexivity. exact I'.
Qed.
Lemma assign_ok dbg h ss A D d l (a : nat) s t : inv h ss A D d -> l <> a -> nth_error ss l = Some t -> nth_error ss a = Some s ->
  exists h' A', l_assign dbg h l a = Ok h' /\ inv h' (upd ss l s) A' D d.
Proof.
  intros I N El Ea. unfold l_assign, assert_. destruct (Nat.eqb_spec l a); [lia|]. cbn [negb]. rewrite andb_false_r.
  destruct (clear_ok dbg _ _ _ _ _ _ _ _ _ (begin_cursor _ _ _ _ _ _ _ I El)) as (h1 & A1 & W & _ & C). change (link_of l []) with (AtHead l) in W.
  unfold it_begin. rewrite W. cbn [bind]. pose proof (c_inv _ _ _ _ _ _ _ _ _ _ C) as J.
  assert (E' : nth_error (upd ss l []) a = Some ([] ++ s)) by (rewrite nth_upd_other by lia; exact Ea).
  destruct (i_seg _ _ _ _ _ J a s E') as (p & P & S). unfold get_list. rewrite (rd_ok _ _ _ P). cbn [bind mLength mHead].
  rewrite (hd_lseg _ _ _ _ S). destruct (copy_loop_ok s (Datatypes.S (length s)) h1 _ _ _ _ l [] [] a [] [] (A1 a) C ltac:(lia) E' eq_refl eq_refl ltac:(lia)) as (h' & A' & W2 & I').
  rewrite upd_upd in I'. eauto.
Qed.
Lemma swap_ok h ss A D d l (a : nat) s t : inv h ss A D d -> nth_error ss l = Some s -> nth_error ss a = Some t ->
  exists h' A', l_swap h l a = Ok h' /\ inv h' (upd (upd ss l t) a s) A' D d.
Proof.
  intros I El Ea. destruct (i_seg _ _ _ _ _ I l s El) as (p & P & S). destruct (i_seg _ _ _ _ _ I a t Ea) as (q & Q & S').
  unfold l_swap, get_list. rewrite (rd_ok _ _ _ P), (rd_ok _ _ _ Q). cbn [bind]. eexists. exists (fun k => if k =? a then A l else if k =? l then A a else A k). split; [reflexivity|].
  set (B := fun k => if k =? a then A l else if k =? l then A a else A k). set (h' := set_list _ a _).
  assert (Own : forall k, k < length ss -> exists k', k' < length ss /\ B k = A k' /\ k = (if k' =? a then l else if k' =? l then a else k')).
  { intros k K. unfold B. destruct (Nat.eqb_spec k a) as [->|N1]; [exists l|destruct (Nat.eqb_spec k l) as [->|N2]; [exists a|exists k]];
    repeat (split; [eauto using nth_lt|]).
    - destruct (Nat.eqb_spec l a); [auto|]. rewrite Nat.eqb_refl. reflexivity.
    - rewrite Nat.eqb_refl. reflexivity.
    - destruct (Nat.eqb_spec k a); [lia|]. destruct (Nat.eqb_spec k l); [lia|reflexivity]. }
  pose proof (nth_lt _ _ _ El) as Ll. pose proof (nth_lt _ _ _ Ea) as La. pose proof (i_len _ _ _ _ _ I) as Len. split.
  - cbn. rewrite !upd_len. exact Len.
  - intros k u E. rewrite !nth_upd in E. cbn. rewrite !nth_upd, !upd_len in *. rewrite Len. unfold B.
    destruct (Nat.ltb_spec a (length ss)); [|lia]. destruct (Nat.ltb_spec l (length ss)); [|lia].
    rewrite andb_true_r in *. rewrite ?andb_true_r in *.
    destruct (Nat.eqb_spec k a) as [->|N1]; cbn [andb] in *.
    + injection E as <-. exists p. split; [reflexivity|]. eapply lseg_ext; [|exact S]; reflexivity.
    + destruct (Nat.eqb_spec k l) as [->|N2]; cbn [andb] in *.
      * injection E as <-. exists q. split; [reflexivity|]. eapply lseg_ext; [|exact S']; reflexivity.
      * destruct (i_seg _ _ _ _ _ I k u E) as (r & R & S2). exists r. split; [exact R|]. eapply lseg_ext; [|exact S2]; reflexivity.
  - intros k. rewrite !upd_len. intros K. destruct (Own k K) as (k' & K' & -> & _). apply (i_nd _ _ _ _ _ I). exact K'.
  - intros k1 k2 n. rewrite !upd_len. intros N K1 K2. destruct (Own k1 K1) as (m1 & M1 & -> & E1). destruct (Own k2 K2) as (m2 & M2 & -> & E2).
    apply (i_dis _ _ _ _ _ I m1 m2); auto. intros ->. congruence.
  - eapply det_ext; [apply (i_det _ _ _ _ _ I)|]. reflexivity.
  - intros n k X. rewrite !upd_len. intros K. destruct (Own k K) as (k' & K' & -> & _). apply (i_ddis _ _ _ _ _ I); auto.
  - intros n x X. rewrite !upd_len. destruct (i_live _ _ _ _ _ I n x X) as [Y|(k & K & Y)]; [auto|]. right. unfold B.
    destruct (Nat.eq_dec k l) as [->|N1]; [exists a; rewrite Nat.eqb_refl; auto|]. destruct (Nat.eq_dec k a) as [->|N2].
    + exists l. split; [exact Ll|]. destruct (Nat.eqb_spec l a); [lia|]. rewrite Nat.eqb_refl. exact Y.
    + exists k. split; [exact K|]. destruct (Nat.eqb_spec k a); [lia|]. destruct (Nat.eqb_spec k l); [lia|exact Y].
Qed.

(* ---- whole programs ---- *)
Definition optl (o : option T) : list T := match o with Some x => [x] | None => [] end.
Definition simulates (st : state T) (v : view T) : Prop := exists A D, inv (smem st) (seqs v) A D (optl (det v)) /\ sdet st = hd_error D /\
  forall l a b, cur v = Some (l, a, b) -> exists na nb, sit st = Some (Iter l (link_of l na)) /\ cursor (smem st) (seqs v) A D (optl (det v)) l na nb a b.

Lemma sim_make st v A D : inv (smem st) (seqs v) A D (optl (det v)) -> sdet st = hd_error D -> cur v = None -> simulates st v.
Proof. intros I E N. exists A, D. split; [exact I|]. split; [exact E|]. rewrite N. discriminate. Qed.
Lemma sim_cur h i ss l na nb a b A D d j : cursor h ss A D (optl d) l na nb a b -> i = Iter l (link_of l na) -> j = hd_error D ->
  simulates (State h (Some i) j) (View ss (Some (l, a, b)) d).
Proof. intros C -> ->. exists A, D. split; [apply C|]. split; [reflexivity|]. cbn. intros l' a' b' E. injection E as <- <- <-. eauto. Qed.

Lemma step_ok dbg st v o v' x : simulates st v -> vstep v o = Some (v', x) -> exists st', lstep dbg st o = Ok (st', x) /\ simulates st' v'.
Proof.
  intros (A & D & I & SD & CC) E. destruct st as [h it dt]. destruct v as [ss cu de]. cbn [smem sit sdet seqs cur det] in *.
  destruct o as [|l y|l|l|l|l a|a|l a|l|l| | | |y| | | |]; cbn [vstep seqs cur det] in E; unfold lstep, with_it; cbn [smem sit sdet].
  - injection E as <- <-. eexists. split; [reflexivity|]. exists (setA A (length ss) []), D. cbn [smem sit sdet seqs cur det].
    pose proof (new_ok _ _ _ _ _ I) as J. split; [exact J|]. split; [exact SD|].
    intros l a b Ec. destruct (CC l a b Ec) as (na & nb & -> & C). exists na, nb. split; [reflexivity|]. destruct C as [C1 C2 C3 C4]. split; auto.
    + apply nth_new. exact C2.
    + rewrite setA_other; [exact C3|]. apply nth_lt in C2. lia.
  - destruct (nth_error ss l) as [s|] eqn:El; [|discriminate]. injection E as <- <-. rewrite put_upd.
    destruct (push_ok _ _ _ _ _ _ _ y I El) as (h' & A' & W & J). rewrite W. cbn [bind]. eexists. split; [reflexivity|]. eapply sim_make; cbn; eauto.
  - destruct (nth_error ss l) as [[|y s]|] eqn:El; try discriminate. injection E as <- <-. rewrite put_upd.
    destruct (pop_ok dbg _ _ _ _ _ _ _ _ I El) as (h' & A' & W & _ & J). rewrite W. cbn [bind]. eexists. split; [reflexivity|]. eapply sim_make; cbn; eauto.
  - destruct (nth_error ss l) as [[|y s]|] eqn:El; try discriminate. injection E as <- <-.
    destruct (pop_ok dbg _ _ _ _ _ _ _ _ I El) as (h' & A' & _ & W & J). rewrite W. cbn [bind]. eexists. split; [reflexivity|].
    exists A, D. cbn. auto.
  - destruct (nth_error ss l) as [s|] eqn:El; [|discriminate]. injection E as <- <-. destruct (i_seg _ _ _ _ _ I l s El) as (p & P & _).
    unfold l_length, get_list. rewrite (rd_ok _ _ _ P). cbn [bind mLength]. eexists. split; [reflexivity|]. exists A, D. cbn. auto.
  - destruct (nth_error ss l) as [s|] eqn:El; [|discriminate]. destruct (nth_error ss a) as [t|] eqn:Ea; [|discriminate]. injection E as <- <-. rewrite !put_upd.
    destruct (swap_ok _ _ _ _ _ _ _ _ _ I El Ea) as (h' & A' & W & J). rewrite W. cbn [bind]. eexists. split; [reflexivity|]. eapply sim_make; cbn; eauto.
  - destruct (nth_error ss a) as [s|] eqn:Ea; [|discriminate]. injection E as <- <-.
    destruct (copy_ok _ _ _ _ _ _ _ I Ea) as (h' & A' & W & J). rewrite W. cbn [bind]. eexists. split; [reflexivity|]. eapply sim_make; cbn; eauto.
  - destruct (Nat.eqb_spec l a); [discriminate|]. destruct (nth_error ss l) as [t|] eqn:El; [|discriminate]. destruct (nth_error ss a) as [s|] eqn:Ea; [|discriminate].
    injection E as <- <-. rewrite put_upd. destruct (assign_ok dbg _ _ _ _ _ _ _ _ _ I n El Ea) as (h' & A' & W & J). rewrite W. cbn [bind].
    eexists. split; [reflexivity|]. eapply sim_make; cbn; eauto.
  - destruct (nth_error ss l) as [s|] eqn:El; [|discriminate]. injection E as <- <-. rewrite put_upd.
    destruct (clear_ok dbg _ _ _ _ _ _ _ _ _ (begin_cursor _ _ _ _ _ _ _ I El)) as (h' & A' & W & _ & C). unfold l_clear. change (it_begin l) with (Iter l (link_of l [])).
    rewrite W. cbn [bind]. eexists. split; [reflexivity|]. eapply sim_make; cbn; eauto using c_inv.
  - destruct (nth_error ss l) as [s|] eqn:El; [|discriminate]. injection E as <- <-. rewrite put_upd. cbn [app]. rewrite (upd_id _ _ _ El).
    eexists. split; [reflexivity|]. eapply sim_cur; [apply begin_cursor; eauto|reflexivity|exact SD].
  - destruct cu as [[[l a] b]|]; [|discriminate]. injection E as <- <-. destruct (CC l a b eq_refl) as (na & nb & -> & C).
    rewrite (bool_ok _ _ _ _ _ _ _ _ _ _ C). cbn [bind]. eexists. split; [reflexivity|]. eapply sim_cur; eauto.
  - destruct cu as [[[l a] [|y b]]|]; try discriminate. injection E as <- <-. destruct (CC l a _ eq_refl) as (na & nb & -> & C).
    destruct (next_ok _ _ _ _ _ _ _ _ _ _ _ C) as (n & nb' & -> & W & _ & C'). rewrite W. cbn [bind]. eexists. split; [reflexivity|].
    rewrite put_upd, (upd_id _ _ _ (c_seq _ _ _ _ _ _ _ _ _ _ C')). eapply sim_cur; eauto.
  - destruct cu as [[[l a] [|y b]]|]; try discriminate. injection E as <- <-. destruct (CC l a _ eq_refl) as (na & nb & -> & C).
    destruct (next_ok _ _ _ _ _ _ _ _ _ _ _ C) as (n & nb' & -> & _ & W & C'). rewrite W. cbn [bind]. eexists. split; [reflexivity|]. eapply sim_cur; eauto.
  - destruct cu as [[[l a] b]|]; [|discriminate]. injection E as <- <-. destruct (CC l a b eq_refl) as (na & nb & -> & C).
    destruct (insert_ok _ _ _ _ _ _ _ _ _ _ y C) as (h' & W & _ & C'). rewrite W. cbn [bind]. eexists. split; [reflexivity|]. rewrite put_upd. eapply sim_cur; eauto.
  - destruct cu as [[[l a] [|y b]]|]; try discriminate. injection E as <- <-. destruct (CC l a _ eq_refl) as (na & nb & -> & C).
    destruct (del_ok _ _ _ _ _ _ _ _ _ _ _ C) as (n & nb' & h' & -> & W & _ & C'). rewrite W. cbn [bind]. eexists. split; [reflexivity|]. rewrite put_upd. eapply sim_cur; eauto.
  - destruct cu as [[[l a] [|y b]]|]; try discriminate. destruct de as [|]; [discriminate|]. injection E as <- <-. destruct (CC l a _ eq_refl) as (na & nb & -> & C).
    assert (D = []) as -> by (pose proof (i_det _ _ _ _ _ I) as X; destruct D as [|? [|? ?]]; cbn in X; tauto).
    destruct (get_ok _ _ _ _ _ _ _ _ _ C) as (n & nb' & h' & -> & W & C'). rewrite W. cbn [bind]. eexists. split; [reflexivity|]. rewrite put_upd. eapply sim_cur; eauto.
  - destruct cu as [[[l a] b]|]; [|discriminate]. destruct de as [y|]; [|discriminate]. injection E as <- <-. destruct (CC l a b eq_refl) as (na & nb & -> & C).
    destruct (relink_ok _ _ _ _ _ _ _ _ _ _ C) as (n & h' & -> & W & C'). rewrite SD. cbn [hd_error]. rewrite W. cbn [bind]. eexists. split; [reflexivity|].
    rewrite put_upd. eapply sim_cur; eauto.
  - destruct cu as [[[l [|? ?]] b]|]; try discriminate. injection E as <- <-. destruct (CC l [] b eq_refl) as (na & nb & -> & C).
    destruct (clear_ok dbg _ _ _ _ _ _ _ _ _ C) as (h' & A' & W & -> & C'). rewrite W. cbn [bind]. eexists. split; [reflexivity|]. rewrite put_upd. eapply sim_cur; eauto.
Qed.

Lemma run_ok dbg os : forall st v v' xs, simulates st v -> vrun v os = Some (v', xs) -> exists st', lrun dbg st os = Ok (st', xs) /\ simulates st' v'.
Proof.
  induction os as [|o os IH]; intros st v v' xs S E; cbn [vrun lrun] in *.
  - injection E as <- <-. eauto.
  - destruct (vstep v o) as [[v1 x]|] eqn:E1; [|discriminate]. destruct (vrun v1 os) as [[v2 ys]|] eqn:E2; [|discriminate]. injection E as <- <-.
    destruct (step_ok dbg _ _ _ _ _ S E1) as (st1 & -> & S1). cbn [bind]. destruct (IH _ _ _ _ S1 E2) as (st2 & -> & S2). cbn [bind]. eauto.
Qed.

(** number of live nodes *)
Lemma concat_nodup (A : nat -> list nat) k : forall i, (forall l, i <= l < i + k -> NoDup (A l)) ->
  (forall l l' n, l <> l' -> i <= l < i + k -> i <= l' < i + k -> In n (A l) -> ~ In n (A l')) -> NoDup (concat (map A (seq i k))).
Proof.
  induction k as [|k IH]; intros i N D; cbn; [constructor|]. apply nodup_app. split; [apply N; lia|]. split.
  - apply IH; [intros l L; apply N; lia|]. intros l l' n X L L'. apply D; lia.
  - intros n X Y. apply in_concat in Y. destruct Y as (u & U & Y). apply in_map_iff in U. destruct U as (l & <- & U). apply in_seq in U.
    apply (D i l n); auto; lia.
Qed.
Lemma concat_len h ss A D d : inv h ss A D d -> length (concat (map A (seq 0 (length ss)))) = length (concat ss).
Proof.
  intros I. assert (X : forall l s, nth_error ss l = Some s -> length (A l) = length s).
  { intros l s E. destruct (i_seg _ _ _ _ _ I l s E) as (p & _ & S). eapply lseg_len. exact S. }
  clear I. revert A X. induction ss as [|s ss IH]; intros A X; [reflexivity|]. cbn [length seq map concat]. rewrite !app_length. f_equal; [apply (X 0); reflexivity|].
  rewrite <- seq_shift, map_map. apply (IH (fun k => A (S k))). intros l t E. apply (X (S l)). exact E.
Qed.
Lemma filter_idx (hp : list (option (node T))) : forall i,
  length (filter (fun x => match x with Some _ => true | None => false end) hp) =
  length (filter (fun n => match nth_error hp (n - i) with Some (Some _) => true | _ => false end) (seq i (length hp))).
Proof.
  induction hp as [|x hp IH]; intros i; [reflexivity|]. cbn [length seq filter]. rewrite Nat.sub_diag. cbn [nth_error].
  rewrite (filter_ext_in _ (fun n => match nth_error hp (n - S i) with Some (Some _) => true | _ => false end) (seq (S i) (length hp))).
  - destruct x; cbn [length]; rewrite (IH (S i)); reflexivity.
  - intros n N. apply in_seq in N. replace (n - i) with (S (n - S i)) by lia. reflexivity.
Qed.
Lemma used_ok h ss A D d : inv h ss A D d -> used h = length (concat ss) + length d.
Proof.
  intros I. unfold used. rewrite (filter_idx (heap h) 0).
  set (live := filter _ _). rewrite <- (concat_len _ _ _ _ _ I).
  assert (LD : length d = length D) by (pose proof (i_det _ _ _ _ _ I) as X; destruct D as [|? [|? ?]], d as [|? [|? ?]]; cbn in X; tauto). rewrite LD, <- app_length.
  apply Permutation.Permutation_length, Permutation.NoDup_Permutation.
  - apply NoDup_filter, seq_NoDup.
  - apply nodup_app. split; [|split].
    + apply concat_nodup; [intros l L; apply (i_nd _ _ _ _ _ I); lia|]. intros l l' n N L L'. apply (i_dis _ _ _ _ _ I); lia.
    + pose proof (i_det _ _ _ _ _ I) as X; destruct D as [|n [|? ?]], d as [|? [|? ?]]; cbn in X; try tauto; repeat constructor; auto.
    + intros n X Y. apply in_concat in X. destruct X as (u & U & X). apply in_map_iff in U. destruct U as (l & <- & U). apply in_seq in U.
      apply (i_ddis _ _ _ _ _ I n l Y ltac:(lia) X).
  - intros n. unfold live. rewrite filter_In, in_seq, in_app_iff, Nat.sub_0_r. split.
    + intros [L X]. destruct (nth_error (heap h) n) as [[y|]|] eqn:E; try discriminate. destruct (i_live _ _ _ _ _ I n y E) as [Y|(l & Ll & Y)]; [auto|].
      left. apply in_concat. exists (A l). split; [apply in_map_iff; exists l; split; [reflexivity|apply in_seq; lia]|exact Y].
    + intros [X|X].
      * apply in_concat in X. destruct X as (u & U & X). apply in_map_iff in U. destruct U as (l & <- & U). apply in_seq in U.
        destruct (nth_error ss l) as [s|] eqn:E; [|apply nth_error_None in E; lia]. destruct (i_seg _ _ _ _ _ I l s E) as (p & _ & S).
        destruct (lseg_live _ _ _ _ _ _ S X) as [y Y]. rewrite Y. split; [apply nth_lt in Y; lia|reflexivity].
      * destruct (det_live _ _ _ _ (i_det _ _ _ _ _ I) X) as [y Y]. rewrite Y. split; [apply nth_lt in Y; lia|reflexivity].
Qed.

Lemma c29 dbg os (v : view T) xs : vrun vstart os = Some (v, xs) ->
  exists st, lrun dbg lstart os = Ok (st, xs) /\
    (forall l s, nth_error (seqs v) l = Some s -> exists p, nth_error (lists (smem st)) l = Some (Lst p (length s)) /\ chain (smem st) p s) /\
    used (smem st) = length (concat (seqs v)) + (match det v with Some _ => 1 | None => 0 end) /\
    (det v = None -> lists_are (smem st) (seqs v)).
Proof.
  intros E. destruct (run_ok dbg os lstart vstart v xs) as (st & R & (A & D & I & SD & _)); [|exact E|].
  - exists (fun _ => []), []. cbn. split; [|split; [reflexivity|discriminate]]. split; cbn; try tauto; try lia.
    + intros [|l] s X; discriminate.
    + intros [|n] x X; discriminate.
  - exists st. split; [exact R|]. split.
    + intros l s El. destruct (i_seg _ _ _ _ _ I l s El) as (p & P & S). eauto using lseg_chain.
    + split; [rewrite (used_ok _ _ _ _ _ I); destruct (det v); reflexivity|]. intros Ed. rewrite Ed in I. exists A.
      pose proof (i_det _ _ _ _ _ I) as X. destruct D as [|? [|? ?]]; cbn in X; [exact I|tauto|tauto].
Qed.
End L.
Lemma c29_clear_tail :
  (exists st, lrun false lstart [New; Push 0 7; Push 0 8; Begin 0; Next; ClearHere; Length 0] = Ok (st, [ONone; ONone; ONone; ONone; ONone; ONone; OLen 1])) /\
  lrun true lstart [New; Push 0 7; Push 0 8; Begin 0; Next; ClearHere; Length 0] = AssertFail.
Proof. split; [eexists|]; reflexivity. Qed.
