(** PolyInt::add / sub on the heap. *)
From Coq Require Import ZArith List Bool Arith Lia.
From Verif Require Import Outcome MonomModel MonomProofs PolyModel RandPermModel RandPermProofs ListModel ListSpec ListProofs PolyHeapModel PolyHeapSpec.
Import ListNotations.
Local Open Scope nat_scope.

Definition copied (minus : bool) (x : term) : term := if minus then (fst x, - snd x)%Z else x.
Definition op_terms (minus : bool) := if minus then sub_terms else add_terms.

Lemma op_nil minus t o a : op_terms minus t o [] a = map (copied minus) a.
Proof.
  destruct minus; cbn [op_terms copied].
  - induction a as [|[n d] a IH]; [reflexivity|]. cbn. f_equal. exact IH.
  - rewrite map_id. destruct a; reflexivity.
Qed.
Lemma op_nil_r minus t o p : op_terms minus t o p [] = p.
Proof. destruct minus, p as [|[m c] p]; reflexivity. Qed.
Lemma op_cons minus t o x p y a : op_terms minus t o (x :: p) (y :: a) =
  (let c := cmp1 t o (fst x) (fst y) in
   if c =? 1 then x :: op_terms minus t o p (y :: a)
   else if c =? -1 then copied minus y :: op_terms minus t o (x :: p) a
   else let z := if minus then snd x - snd y else snd x + snd y in
        if z =? 0 then op_terms minus t o p a else (fst x, z) :: op_terms minus t o p a)%Z.
Proof. destruct minus, x as [m c], y as [n d]; reflexivity. Qed.

Lemma Forall2_len {X Y} (R : X -> Y -> Prop) a b : Forall2 R a b -> length a = length b.
Proof. induction 1; cbn; congruence. Qed.
Lemma values_ext h h' ps ts : values h ps ts -> (forall n, In n ps -> nth_error (objs h') n = nth_error (objs h) n) -> values h' ps ts.
Proof.
  intros V. induction V as [|n x ps ts N V IH]; intros E; [constructor|]. constructor; [rewrite E; [exact N|left; reflexivity]|].
  apply IH. intros m M. apply E. right. exact M.
Qed.
Lemma values_lt h ps ts n : values h ps ts -> In n ps -> n < length (objs h).
Proof. intros V. induction V as [|m x ps ts N V IH]; intros []; subst; eauto using nth_lt. Qed.
Lemma values_app h ps ts qs us : values h ps ts -> values h qs us -> values h (ps ++ qs) (ts ++ us).
Proof. apply Forall2_app. Qed.

(** state of the loops *)
Record running (h : pmem) (ss : list (list nat)) (l a : nat) (na nb n2 : list nat) (dn rs p1 p2 : list nat) (td tr t1 t2 : list term) A n1 : Prop := {
  r_cur : cursor (lsts h) ss A [] [] l na nb dn rs;
  r_ne : a <> l;
  r_src : nth_error ss a = Some (p1 ++ p2);
  r_adr : A a = n1 ++ n2;
  r_len : length n1 = length p1;
  r_d : values h dn td;
  r_r : values h rs tr;
  r_1 : values h p1 t1;
  r_2 : values h p2 t2;
  r_nd : NoDup ((dn ++ rs) ++ (p1 ++ p2)) }.

Lemma src_node (h : mem nat) ss A (D d : list nat) a p1 x p2 n1 n2 : inv h ss A D d -> nth_error ss a = Some (p1 ++ x :: p2) -> A a = n1 ++ n2 -> length n1 = length p1 ->
  exists m n2', n2 = m :: n2' /\ ci_data h (hd_error n2) = Ok x /\ ci_next h (hd_error n2) = Ok (hd_error n2').
Proof.
  intros I E Ad L. destruct (i_seg _ _ _ _ _ I a _ E) as (p & P & S). rewrite Ad in S. destruct (lseg_split _ _ _ _ _ _ _ L S) as (q & S1 & S2).
  destruct n2 as [|m n2]; cbn in S2; [tauto|]. destruct S2 as (-> & r & N & S2). exists m, n2. split; [reflexivity|].
  unfold ci_data, ci_next, get_node. cbn [hd_error deref bind]. rewrite (rd_ok _ _ _ N). cbn [bind mData mNext]. split; [reflexivity|].
  f_equal. eapply hd_lseg. exact S2.
Qed.
Lemma src_done (h : mem nat) ss A (D d : list nat) a p1 n1 n2 : inv h ss A D d -> nth_error ss a = Some (p1 ++ []) -> A a = n1 ++ n2 -> length n1 = length p1 -> n2 = [].
Proof.
  intros I E Ad L. destruct (i_seg _ _ _ _ _ I a _ E) as (p & P & S). rewrite Ad in S. apply lseg_len in S. rewrite !app_length in S. cbn in S.
  destruct n2; [reflexivity|cbn in S; lia].
Qed.

Lemma get_term_ok h n x : nth_error (objs h) n = Some (Some x) -> get_term h n = Ok x.
Proof. intros H. unfold get_term. rewrite (rd_ok _ _ _ H). reflexivity. Qed.

Ltac nodup := repeat match goal with H : NoDup (_ ++ _) |- _ => apply nodup_app in H; destruct H as (? & ? & ?) end.

Lemma nodup_move {X} (u v w : list X) x : NoDup ((u ++ x :: v) ++ w) -> NoDup (((u ++ [x]) ++ v) ++ w).
Proof. rewrite <- (app_assoc u [x] v). auto. Qed.

(** copying one term *)
Lemma copy_term_ok minus h ss l a na nb n2 dn rs p1 x p2 td tr t1 y t2 A n1 :
  running h ss l a na nb n2 dn rs p1 (x :: p2) td tr t1 (y :: t2) A n1 ->
  exists h' m n A' n2', h_copy_term minus h (Iter l (link_of l na)) (hd_error n2) = Ok (h', Iter l (link_of l (na ++ [n])), hd_error n2') /\
    running h' (upd ss l (dn ++ m :: rs)) l a (na ++ [n]) nb n2' (dn ++ [m]) rs (p1 ++ [x]) p2 (td ++ [copied minus y]) tr (t1 ++ [y]) t2 A' (n1 ++ firstn 1 n2) /\
    ~ In m (dn ++ rs) /\ nth_error (objs h) m = None /\ kept (objs h) (objs h') (dn ++ rs) (dn ++ m :: rs).
Proof.
  intros [C Ne E Ad L Vd Vr V1 V2 N].
  destruct (src_node _ _ _ _ _ _ _ _ _ _ _ (c_inv _ _ _ _ _ _ _ _ _ _ C) E Ad L) as (k & n2' & -> & Da & Nx).
  inversion V2 as [|? ? ? ? Y V2' e1 e2]; subst. unfold h_copy_term. rewrite Da. cbn [bind]. rewrite (get_term_ok _ _ _ Y). cbn [bind new_term].
  set (m := length (objs h)).
  destruct (insert_ok _ _ _ _ _ _ _ _ _ _ m C) as (l1 & W & _ & C1). cbn [lsts]. rewrite W. cbn [bind objs lsts].
  destruct (next_ok _ _ _ _ _ _ _ _ _ _ _ C1) as (n & nb' & En & W2 & D2 & C2). injection En as <- <-.
  assert (E1 : nth_error (upd ss l (dn ++ m :: rs)) a = Some (p1 ++ x :: p2)) by (rewrite nth_upd_other by exact Ne; exact E).
  assert (Ad1 : setA A l (na ++ length (heap (lsts h)) :: nb) a = n1 ++ k :: n2') by (rewrite setA_other by exact Ne; exact Ad).
  destruct (src_node _ _ _ _ _ _ _ _ _ _ _ (c_inv _ _ _ _ _ _ _ _ _ _ C2) E1 Ad1 L) as (k' & n3 & En & _ & Nx1). injection En as <- <-.
  assert (Hm : nth_error (objs h ++ [Some y]) m = Some (Some y)) by (unfold m; rewrite nth_error_app2, Nat.sub_diag by lia; reflexivity).
  assert (R : exists h3, (if minus then do k0 <- it_data l1 (Iter l (link_of l na)); do y0 <- get_term (PMem (objs h ++ [Some y]) l1) k0; Ok (set_term (PMem (objs h ++ [Some y]) l1) k0 (Some (fst y0, - snd y0)%Z))
                          else Ok (PMem (objs h ++ [Some y]) l1)) = Ok h3 /\ lsts h3 = l1 /\ nth_error (objs h3) m = Some (Some (copied minus y)) /\
     length (objs h3) = S m /\ forall j, j < m -> nth_error (objs h3) j = nth_error (objs h) j).
  { assert (O : forall j, j < m -> nth_error (objs h ++ [Some y]) j = nth_error (objs h) j) by (intros j J; apply nth_error_app1; exact J).
    assert (Le : length (objs h ++ [Some y]) = S m) by (rewrite app_length; cbn; unfold m; lia).
    destruct minus; cbn [copied].
    - rewrite D2. cbn [bind]. rewrite (get_term_ok _ m y) by exact Hm. cbn [bind]. eexists. split; [reflexivity|]. cbn [set_term objs lsts].
      split; [reflexivity|]. split; [eapply nth_upd_same; exact Hm|]. split; [rewrite upd_len; exact Le|]. intros j J. rewrite nth_upd_other by lia. auto.
    - eexists. split; [reflexivity|]. cbn [objs lsts]. auto. }
  destruct R as (h3 & -> & L3 & M3 & Len3 & Old). cbn [bind]. rewrite L3, W2. cbn [bind]. rewrite Nx1. cbn [bind].
  assert (Lt : forall j, In j ((dn ++ rs) ++ p1 ++ x :: p2) -> j < m).
  { intros j J. rewrite !in_app_iff in J. destruct J as [[J|J]|[J|J]]; [exact (values_lt _ _ _ _ Vd J)|exact (values_lt _ _ _ _ Vr J)|exact (values_lt _ _ _ _ V1 J)|exact (values_lt _ _ _ _ V2 J)]. }
  assert (Vx : forall ps ts, values h ps ts -> (forall j, In j ps -> In j ((dn ++ rs) ++ p1 ++ x :: p2)) -> values h3 ps ts).
  { intros ps ts V S. eapply values_ext; [exact V|]. intros j J. apply Old. auto. }
  assert (Fm : ~ In m ((dn ++ rs) ++ p1 ++ x :: p2)) by (intros J; apply Lt in J; lia).
  exists h3, m, (length (heap (lsts h))), (setA A l (na ++ length (heap (lsts h)) :: nb)), n2'. split; [reflexivity|]. split; [|split; [|split]].
  - split; auto.
    + rewrite L3. exact C2.
    + rewrite <- app_assoc. exact E1.
    + rewrite <- app_assoc. cbn. exact Ad1.
    + rewrite !app_length. cbn. lia.
    + apply values_app; [apply Vx; [exact Vd|intros j J; rewrite !in_app_iff; auto]|]. constructor; [exact M3|constructor].
    + apply Vx; [exact Vr|intros j J; rewrite !in_app_iff; auto].
    + apply Vx; [apply values_app; [exact V1|constructor; [exact Y|constructor]]|]. intros j J. rewrite !in_app_iff in *. cbn in *. tauto.
    + apply Vx; [exact V2'|intros j J; rewrite !in_app_iff; cbn; auto].
    + replace ((dn ++ [m]) ++ rs) with (dn ++ m :: rs) by (rewrite <- app_assoc; reflexivity).
      replace ((p1 ++ [x]) ++ p2) with (p1 ++ x :: p2) by (rewrite <- app_assoc; reflexivity).
      rewrite <- app_assoc in *. cbn [app]. apply NoDup_Add with (a := m) (l := dn ++ rs ++ p1 ++ x :: p2); [apply Add_app|]. split; assumption.
  - intros J. apply Fm. apply in_or_app. auto.
  - apply nth_error_None. unfold m. lia.
  - split.
    + intros j z J Z. rewrite Old; [exact Z|]. eapply nth_lt. exact Z.
    + intros j z Z. pose proof (nth_lt _ _ _ Z) as J. rewrite Len3 in J. destruct (Nat.eq_dec j m) as [->|Nj]; [left; apply in_elt|].
      rewrite Old in Z by lia. destruct (in_dec Nat.eq_dec j (dn ++ rs)) as [K|K]; [left|right; auto]. rewrite in_app_iff in *. cbn. tauto.
Qed.

Lemma kept_trans o o' o'' pl pl' pl'' : (forall n, In n pl' -> In n pl \/ nth_error o n = None) ->
  kept o o' pl pl' -> kept o' o'' pl' pl'' -> kept o o'' pl pl''.
Proof.
  intros S [K1 K2] [K3 K4]. split.
  - intros n x N X. apply K3; [|apply K1; assumption]. intros Y. destruct (S n Y) as [Z|Z]; [tauto|congruence].
  - intros n x X. destruct (K4 n x X) as [Y|[Y Z]]; [left; exact Y|]. destruct (K2 n x Z) as [U|[U V]]; [tauto|right; auto].
Qed.
Lemma kept_refl o pl : kept o o pl pl.
Proof. split; [auto|]. intros n x X. destruct (in_dec Nat.eq_dec n pl); auto. Qed.

Definition finished (minus : bool) (t : pos_order) (o : base_order) (h h' : pmem) (ss : list (list nat)) (l : nat) (old p : list nat) (res tp : list term) : Prop :=
  exists pl', lists_are (lsts h') (upd ss l pl') /\ values h' pl' res /\ values h' p tp /\ NoDup (pl' ++ p) /\ kept (objs h) (objs h') old pl'.

Lemma tail_ok minus t o : forall t2 fuel h ss l a na nb n2 dn rs p1 p2 td t1 A n1,
  running h ss l a na nb n2 dn rs p1 p2 td [] t1 t2 A n1 -> length t2 <= fuel ->
  exists h', h_tail minus fuel h (Iter l (link_of l na)) (hd_error n2) = Ok h' /\
    finished minus t o h h' ss l (dn ++ rs) (p1 ++ p2) (td ++ map (copied minus) t2) (t1 ++ t2).
Proof.
  induction t2 as [|y t2 IH]; intros fuel h ss l a na nb n2 dn rs p1 p2 td t1 A n1 R F.
  - pose proof R as [C Ne E Ad L Vd Vr V1 V2 N]. inversion V2; subst. rewrite (src_done _ _ _ _ _ _ _ _ _ (c_inv _ _ _ _ _ _ _ _ _ _ C) E Ad L).
    exists h. split; [destruct fuel; reflexivity|]. inversion Vr; subst. rewrite !app_nil_r in *. exists dn. cbn [map]. rewrite ?app_nil_r.
    pose proof (c_seq _ _ _ _ _ _ _ _ _ _ C) as Es. rewrite app_nil_r in Es. rewrite (upd_id _ _ _ Es).
    split; [exists A; apply C|]. split; [exact Vd|]. split; [exact V1|]. split; [exact N|]. apply kept_refl.
  - destruct fuel as [|fuel]; [cbn in F; lia|]. pose proof R as [C Ne E Ad L Vd Vr V1 V2 N]. inversion V2 as [|x ? p2' ? Y V2' e1 e2]; subst.
    destruct (src_node _ _ _ _ _ _ _ _ _ _ _ (c_inv _ _ _ _ _ _ _ _ _ _ C) E Ad L) as (k & n3 & -> & _).
    destruct (copy_term_ok minus _ _ _ _ _ _ _ _ _ _ _ _ _ _ _ _ _ _ _ R) as (h' & m & n & A' & n2' & W & R' & Fm & Nm & K).
    cbn [hd_error] in *. cbn [h_tail]. rewrite W. cbn [bind].
    destruct (IH fuel _ _ _ _ _ _ _ _ _ _ _ _ _ _ _ R') as (h2 & W2 & (pl' & X1 & X2 & X3 & X4 & X5)); [cbn in F; lia|].
    exists h2. split; [exact W2|]. exists pl'. rewrite upd_upd in X1. split; [exact X1|]. rewrite <- !app_assoc in *. cbn in X2, X3, X4, X5 |- *.
    repeat (split; [assumption|]). eapply kept_trans; [|exact K|exact X5].
    intros j. rewrite in_app_iff. cbn. rewrite in_app_iff. intros [J|[J|J]]; [auto|subst; auto|auto].
Qed.

Lemma merge_ok minus t o : forall fuel h ss l a na nb n2 dn rs p1 p2 td tr t1 t2 A n1,
  running h ss l a na nb n2 dn rs p1 p2 td tr t1 t2 A n1 -> length tr + length t2 < fuel ->
  exists h', h_merge t o minus fuel h (Iter l (link_of l na)) (hd_error n2) = Ok h' /\
    finished minus t o h h' ss l (dn ++ rs) (p1 ++ p2) (td ++ op_terms minus t o tr t2) (t1 ++ t2).
Proof.
  induction fuel as [|fuel IH]; intros h ss l a na nb n2 dn rs p1 p2 td tr t1 t2 A n1 R F; [lia|].
  pose proof R as [C Ne E Ad L Vd Vr V1 V2 N]. pose proof (c_inv _ _ _ _ _ _ _ _ _ _ C) as I.
  cbn [h_merge]. rewrite (bool_ok _ _ _ _ _ _ _ _ _ _ C). cbn [bind].
  destruct tr as [|x tr].
  { inversion Vr; subst. rewrite op_nil.
    destruct (tail_ok minus t o t2 fuel h ss l a na nb n2 dn [] p1 p2 td t1 A n1 R) as (h' & W & X); [cbn in F; lia|]. exists h'. split; [exact W|exact X]. }
  inversion Vr as [|px ? rs' ? Hx Vr' e1 e2]; subst. destruct t2 as [|y t2].
  { inversion V2; subst. rewrite (src_done _ _ _ _ _ _ _ _ _ I E Ad L). cbn [hd_error]. exists h. split; [destruct fuel; reflexivity|].
    rewrite op_nil_r. exists (dn ++ px :: rs'). rewrite (upd_id _ _ _ (c_seq _ _ _ _ _ _ _ _ _ _ C)). split; [exists A; exact I|]. split; [apply values_app; assumption|].
    rewrite !app_nil_r in *. split; [exact V1|]. split; [exact N|]. apply kept_refl. }
  inversion V2 as [|py ? p2' ? Hy V2' e1 e2]; subst.
  destruct (src_node _ _ _ _ _ _ _ _ _ _ _ I E Ad L) as (k & n3 & -> & Da & Nx). cbn [hd_error] in Da, Nx |- *.
  destruct (next_ok _ _ _ _ _ _ _ _ _ _ _ C) as (nx & nb' & -> & W1 & D1 & C1).
  rewrite D1. cbn [bind]. rewrite (get_term_ok _ _ _ Hx). cbn [bind]. rewrite Da. cbn [bind]. rewrite (get_term_ok _ _ _ Hy). cbn [bind]. rewrite op_cons. cbv zeta.
  destruct (cmp1 t o (fst x) (fst y) =? 1)%Z.
  { rewrite W1. cbn [bind]. assert (R' : running h ss l a (na ++ [nx]) nb' (k :: n3) (dn ++ [px]) rs' p1 (py :: p2') (td ++ [x]) tr t1 (y :: t2) A n1).
    { split; auto; [apply values_app; [exact Vd|constructor; [exact Hx|constructor]]|]. apply nodup_move. exact N. }
    destruct (IH _ _ _ _ _ _ _ _ _ _ _ _ _ _ _ _ _ R') as (h' & W & (pl' & X1 & X2 & X3 & X4 & X5)); [cbn in F |- *; lia|]. exists h'. split; [exact W|].
    exists pl'. rewrite <- !app_assoc in *. cbn in X2, X5 |- *. auto. }
  destruct (cmp1 t o (fst x) (fst y) =? -1)%Z.
  { destruct (copy_term_ok minus _ _ _ _ _ _ _ _ _ _ _ _ _ _ _ _ _ _ _ R) as (h' & m & n & A' & n2' & W & R' & Fm & Nm & K).
    cbn [hd_error] in W. rewrite W. cbn [bind].
    destruct (IH _ _ _ _ _ _ _ _ _ _ _ _ _ _ _ _ _ R') as (h2 & W2 & (pl' & X1 & X2 & X3 & X4 & X5)); [cbn in F |- *; lia|].
    exists h2. split; [exact W2|]. exists pl'. rewrite upd_upd in X1. split; [exact X1|]. rewrite <- !app_assoc in *. cbn in X2, X3, X4, X5 |- *.
    repeat (split; [assumption|]). eapply kept_trans; [|exact K|exact X5].
    intros j. rewrite in_app_iff. cbn. rewrite in_app_iff. cbn. intros [J|[J|J]]; [auto|subst; auto|auto]. }
  set (z := (if minus then snd x - snd y else snd x + snd y)%Z). set (h1 := set_term h px (Some (fst x, z))).
  assert (Px : ~ In px (dn ++ rs') /\ ~ In px (p1 ++ py :: p2') /\ NoDup ((dn ++ rs') ++ p1 ++ py :: p2')).
  { rewrite <- app_assoc in N. cbn in N. apply NoDup_remove in N. destruct N as [N1 N2]. rewrite app_assoc, in_app_iff in N2. rewrite <- app_assoc. tauto. }
  destruct Px as (Px1 & Px2 & N').
  assert (O1 : forall j, j <> px -> nth_error (objs h1) j = nth_error (objs h) j) by (intros j J; cbn; apply nth_upd_other; exact J).
  assert (O1x : nth_error (objs h1) px = Some (Some (fst x, z))) by (cbn; eapply nth_upd_same; exact Hx).
  assert (Vx : forall g ps ts, (forall j, j <> px -> nth_error (objs g) j = nth_error (objs h) j) -> values h ps ts -> (forall j, In j ps -> In j (dn ++ rs') \/ In j (p1 ++ py :: p2')) -> values g ps ts).
  { intros g ps ts O V S. eapply values_ext; [exact V|]. intros j J. apply O. intros ->. destruct (S px J); tauto. }
  destruct (Z.eqb_spec z 0) as [Z0|Z0]; cbn [negb].
  - unfold free_term. rewrite (get_term_ok _ _ _ O1x). cbn [bind lsts set_term h1].
    destruct (del_ok _ _ _ _ _ _ _ _ _ _ _ C) as (nx' & nb2 & l2 & En & W2 & _ & C2). injection En as <- <-. rewrite W2. cbn [bind objs lsts].
    assert (E1 : nth_error (upd ss l (dn ++ rs')) a = Some (p1 ++ py :: p2')) by (rewrite nth_upd_other by exact Ne; exact E).
    assert (Ad1 : setA A l (na ++ nb') a = n1 ++ k :: n3) by (rewrite setA_other by exact Ne; exact Ad).
    destruct (src_node _ _ _ _ _ _ _ _ _ _ _ (c_inv _ _ _ _ _ _ _ _ _ _ C2) E1 Ad1 L) as (k' & n4 & En & _ & Nx1). injection En as <- <-.
    cbn [hd_error] in Nx1. rewrite Nx1. cbn [bind]. match goal with |- context [PMem ?x l2] => set (h2 := PMem x l2) end.
    assert (O2 : forall j, j <> px -> nth_error (objs h2) j = nth_error (objs h) j) by (intros j J; cbn; rewrite !nth_upd_other by exact J; reflexivity).
    assert (O2x : nth_error (objs h2) px = Some None) by (cbn; erewrite nth_upd_same; [reflexivity|]; exact O1x).
    assert (R' : running h2 (upd ss l (dn ++ rs')) l a na nb' n3 dn rs' (p1 ++ [py]) p2' td tr (t1 ++ [y]) t2 (setA A l (na ++ nb')) (n1 ++ [k])).
    { split; auto.
      - rewrite <- app_assoc. exact E1.
      - rewrite <- app_assoc. exact Ad1.
      - rewrite !app_length, L. reflexivity.
      - apply Vx; auto. intros j J. rewrite !in_app_iff. auto.
      - apply Vx; auto. intros j J. rewrite !in_app_iff. auto.
      - apply Vx; auto; [apply values_app; [exact V1|constructor; [exact Hy|constructor]]|]. intros j. rewrite !in_app_iff. cbn. tauto.
      - apply Vx; auto. intros j J. rewrite !in_app_iff. cbn. auto.
      - rewrite <- (app_assoc p1). exact N'. }
    destruct (IH _ _ _ _ _ _ _ _ _ _ _ _ _ _ _ _ _ R') as (h' & W & (pl' & X1 & X2 & X3 & X4 & X5)); [cbn in F |- *; lia|]. exists h'. split; [exact W|].
    exists pl'. rewrite upd_upd in X1. split; [exact X1|]. rewrite <- !(app_assoc _ [_]) in *. cbn in X3, X4 |- *.
    split; [exact X2|]. split; [exact X3|]. split; [exact X4|]. eapply (kept_trans _ (objs h2) _ _ (dn ++ rs')); [| |exact X5].
    + intros j. rewrite !in_app_iff. cbn. tauto.
    + split.
      * intros j w J Wj. rewrite O2; [exact Wj|]. intros ->. apply J. apply in_elt.
      * intros j w Wj. destruct (Nat.eq_dec j px) as [->|Nj]; [congruence|].
        rewrite O2 in Wj by exact Nj. destruct (in_dec Nat.eq_dec j (dn ++ rs')) as [Q|Q]; [auto|]. right. split; [|exact Wj].
        rewrite in_app_iff in *. cbn. intros [?|[?|?]]; [tauto|congruence|tauto].
  - cbn [lsts h1 set_term]. rewrite W1. cbn [bind]. cbn [lsts h1 set_term]. rewrite Nx. cbn [bind].
    assert (R' : running h1 ss l a (na ++ [nx]) nb' n3 (dn ++ [px]) rs' (p1 ++ [py]) p2' (td ++ [(fst x, z)]) tr (t1 ++ [y]) t2 A (n1 ++ [k])).
    { split; auto.
      - rewrite <- app_assoc. exact E.
      - rewrite <- app_assoc. exact Ad.
      - rewrite !app_length, L. reflexivity.
      - apply values_app; [apply Vx; auto; intros j J; rewrite !in_app_iff; auto|]. constructor; [exact O1x|constructor].
      - apply Vx; auto. intros j J. rewrite !in_app_iff. auto.
      - apply Vx; auto; [apply values_app; [exact V1|constructor; [exact Hy|constructor]]|]. intros j. rewrite !in_app_iff. cbn. tauto.
      - apply Vx; auto. intros j J. rewrite !in_app_iff. cbn. auto.
      - rewrite <- (app_assoc p1). apply nodup_move. exact N. }
    destruct (IH _ _ _ _ _ _ _ _ _ _ _ _ _ _ _ _ _ R') as (h' & W & (pl' & X1 & X2 & X3 & X4 & X5)); [cbn in F |- *; lia|]. exists h'. split; [exact W|].
    exists pl'. split; [exact X1|]. rewrite <- !(app_assoc _ [_]) in *. cbn in X2, X3, X4, X5 |- *.
    split; [exact X2|]. split; [exact X3|]. split; [exact X4|]. eapply (kept_trans _ (objs h1)); [| |exact X5].
    + auto.
    + split.
      * intros j w J Wj. rewrite O1; [exact Wj|]. intros ->. apply J. apply in_elt.
      * intros j w Wj. destruct (Nat.eq_dec j px) as [->|Nj]; [left; apply in_elt|]. rewrite O1 in Wj by exact Nj.
        destruct (in_dec Nat.eq_dec j (dn ++ px :: rs')) as [Q|Q]; auto.
Qed.

Lemma c10_heap minus t o h ss l a pl pa tl ta : lists_are (lsts h) ss -> l <> a -> nth_error ss l = Some pl -> nth_error ss a = Some pa ->
  values h pl tl -> values h pa ta -> NoDup (pl ++ pa) ->
  exists h' pl', h_arith minus t o h l a = Ok h' /\ lists_are (lsts h') (upd ss l pl') /\
    values h' pl' (if minus then sub_terms t o tl ta else add_terms t o tl ta) /\ values h' pa ta /\ NoDup (pl' ++ pa) /\ kept (objs h) (objs h') pl pl'.
Proof.
  intros [A I] Ne El Ea Vl Va N. destruct (i_seg _ _ _ _ _ I l pl El) as (p & P & S). destruct (i_seg _ _ _ _ _ I a pa Ea) as (q & Q & S').
  unfold h_arith, get_list. rewrite (rd_ok _ _ _ P), (rd_ok _ _ _ Q). cbn [bind mLength mHead].
  assert (R : running h ss l a [] (A l) (A a) [] pl [] pa [] tl [] ta A []).
  { split; auto; try constructor; auto. }
  destruct (merge_ok minus t o (Datatypes.S (length pl + length pa)) _ _ _ _ _ _ _ _ _ _ _ _ _ _ _ _ _ R) as (h' & W & (pl' & X1 & X2 & X3 & X4 & X5)).
  { apply Forall2_len in Vl, Va. lia. }
  change (it_begin l) with (Iter l (link_of l [])). rewrite (hd_lseg _ _ _ _ S'). exists h', pl'. split; [exact W|]. cbn [app] in *.
  split; [exact X1|]. split; [destruct minus; exact X2|]. auto.
Qed.

(** p.add(p) *)
Lemma double_loop t o : forall tr fuel h ss A l na nb dn rs td, cursor (lsts h) ss A [] [] l na nb dn rs -> values h dn td -> values h rs tr ->
  NoDup (dn ++ rs) -> Forall (fun x => snd x <> 0%Z) tr -> length tr < fuel ->
  exists h', h_merge t o false fuel h (Iter l (link_of l na)) (hd_error nb) = Ok h' /\ lsts h' = lsts h /\
    values h' (dn ++ rs) (td ++ map (fun x => (fst x, (snd x + snd x)%Z)) tr) /\ kept (objs h) (objs h') (dn ++ rs) (dn ++ rs).
Proof.
  induction tr as [|x tr IH]; intros [|fuel] h ss A l na nb dn rs td C Vd Vr N NZ F; cbn [length] in F; try lia; cbn [h_merge]; rewrite (bool_ok _ _ _ _ _ _ _ _ _ _ C); cbn [bind].
  - inversion Vr; subst. destruct (cursor_facts _ _ _ _ _ _ _ _ _ _ C) as (p & q & _ & _ & S2 & _). destruct nb; [|cbn in S2; tauto].
    exists h. split; [destruct fuel; reflexivity|]. split; [reflexivity|]. cbn [map]. rewrite !app_nil_r. split; [exact Vd|]. apply kept_refl.
  - inversion Vr as [|px ? rs' ? Hx Vr' e1 e2]; subst. apply Forall_cons_iff in NZ. destruct NZ as [NZ NZ'].
    destruct (next_ok _ _ _ _ _ _ _ _ _ _ _ C) as (n & nb' & -> & W & Dt & C').
    assert (Src : nth_error ss l = Some (dn ++ px :: rs')) by apply C.
    destruct (src_node _ _ _ _ _ l dn px rs' na (n :: nb') (c_inv _ _ _ _ _ _ _ _ _ _ C) Src (c_adr _ _ _ _ _ _ _ _ _ _ C) (c_len _ _ _ _ _ _ _ _ _ _ C)) as (m & n2' & Em & Da & Nx).
    injection Em as <- <-. cbn [hd_error] in *. rewrite Dt. cbn [bind]. rewrite (get_term_ok _ _ _ Hx). cbn [bind]. rewrite Da. cbn [bind]. rewrite (get_term_ok _ _ _ Hx). cbn [bind].
    rewrite (proj2 (cmp1_eq t o (fst x) (fst x) eq_refl) eq_refl). change (0 =? 1)%Z with false. change (0 =? -1)%Z with false. cbv iota.
    destruct (Z.eqb_spec (snd x + snd x) 0); [lia|]. cbn [negb bind lsts set_term]. rewrite W. cbn [bind lsts set_term]. rewrite Nx. cbn [bind].
    set (h1 := set_term h px (Some (fst x, (snd x + snd x)%Z))).
    assert (O1 : forall j, j <> px -> nth_error (objs h1) j = nth_error (objs h) j) by (intros j J; cbn; apply nth_upd_other; exact J).
    pose proof (NoDup_remove _ _ _ N) as [_ Np]. rewrite in_app_iff in Np.
    destruct (IH fuel h1 ss A l (na ++ [n]) nb' (dn ++ [px]) rs' (td ++ [(fst x, (snd x + snd x)%Z)])) as (h' & W' & L' & V' & K'); auto.
    + apply values_app; [eapply values_ext; [exact Vd|]; intros j J; apply O1; intros ->; tauto|]. constructor; [|constructor]. cbn. eapply nth_upd_same. exact Hx.
    + eapply values_ext; [exact Vr'|]. intros j J. apply O1. intros ->. tauto.
    + rewrite <- app_assoc. exact N.
    + lia.
    + exists h'. split; [exact W'|]. split; [exact L'|]. rewrite <- !(app_assoc _ [_]) in *. cbn in V', K' |- *. split; [exact V'|].
      eapply (kept_trans _ (objs h1)); [| |exact K']; [auto|]. split.
      * intros j w J Wj. rewrite O1; [exact Wj|]. intros ->. apply J, in_elt.
      * intros j w Wj. destruct (Nat.eq_dec j px) as [->|Nj]; [left; apply in_elt|]. rewrite O1 in Wj by exact Nj.
        destruct (in_dec Nat.eq_dec j (dn ++ px :: rs')) as [Q|Q]; auto.
Qed.
Lemma c10_double t o h ss l pl tl : lists_are (lsts h) ss -> nth_error ss l = Some pl -> values h pl tl -> NoDup pl -> Forall (fun x => snd x <> 0%Z) tl ->
  exists h', h_add t o h l l = Ok h' /\ lists_are (lsts h') ss /\ values h' pl (map (fun x => (fst x, (snd x + snd x)%Z)) tl) /\ kept (objs h) (objs h') pl pl.
Proof.
  intros [A I] El Vl N NZ. destruct (i_seg _ _ _ _ _ I l pl El) as (p & P & S).
  unfold h_add, h_arith, get_list. rewrite (rd_ok _ _ _ P). cbn [bind mLength mHead].
  destruct (double_loop t o tl (Datatypes.S (length pl + length pl)) h ss A l [] (A l) [] pl []) as (h' & W & L & V & K); auto.
  - apply begin_cursor; assumption.
  - constructor.
  - apply Forall2_len in Vl. lia.
  - change (it_begin l) with (Iter l (link_of l [])). rewrite (hd_lseg _ _ _ _ S). exists h'. split; [exact W|]. rewrite L. split; [exists A; exact I|]. auto.
Qed.

(** p.sub(p) *)
Lemma c10_sub_self t o h ss l px pl x tl : lists_are (lsts h) ss -> nth_error ss l = Some (px :: pl) -> values h (px :: pl) (x :: tl) ->
  h_sub t o h l l = Undef.
Proof.
  intros [A I] El Vl. destruct (i_seg _ _ _ _ _ I l _ El) as (p & P & S). inversion Vl as [|? ? ? ? Hx Vl' e1 e2]; subst.
  unfold h_sub, h_arith, get_list. rewrite (rd_ok _ _ _ P). cbn [bind mLength mHead].
  pose proof (begin_cursor _ _ _ _ _ _ _ I El) as C. change (it_begin l) with (Iter l (link_of l [])). rewrite (hd_lseg _ _ _ _ S).
  cbn [h_merge]. rewrite (bool_ok _ _ _ _ _ _ _ _ _ _ C). cbn [bind].
  destruct (next_ok _ _ _ _ _ _ _ _ _ _ _ C) as (n & nb' & En & _ & Dt & _).
  destruct (src_node _ _ _ _ _ l [] px pl [] (A l) I El eq_refl eq_refl) as (m & n2' & Em & Da & Nx). rewrite En in *. injection Em as <- <-. cbn [hd_error] in *.
  rewrite Dt. cbn [bind]. rewrite (get_term_ok _ _ _ Hx). cbn [bind]. rewrite Da. cbn [bind]. rewrite (get_term_ok _ _ _ Hx). cbn [bind].
  rewrite (proj2 (cmp1_eq t o (fst x) (fst x) eq_refl) eq_refl). change (0 =? 1)%Z with false. change (0 =? -1)%Z with false. cbv iota.
  rewrite Z.sub_diag. cbn [Z.eqb negb].
  unfold free_term. erewrite get_term_ok by (cbn; eapply nth_upd_same; exact Hx). cbn [bind lsts set_term].
  cbn in S. destruct S as (-> & r & Nn & S).
  unfold it_del. change (link_of l []) with (AtHead l). cbn [mLink mList read_link]. unfold get_list. rewrite (rd_ok _ _ _ P). cbn [bind mHead deref].
  unfold get_node. rewrite (rd_ok _ _ _ Nn). cbn [bind mNext write_link]. unfold get_list. rewrite (rd_ok _ _ _ P). cbn [bind mLength].
  erewrite free_ok by (cbn; exact Nn). cbn [bind]. erewrite add_length_ok by (cbn; eapply nth_upd_same; exact P). cbn [bind lsts set_node heap set_list].
  unfold ci_next, get_node. cbn [deref bind heap]. unfold rd. erewrite nth_upd_same by exact Nn. reflexivity.
Qed.

Lemma made (os : list (op nat)) v xs st xs' : vrun vstart os = Some (v, xs) -> lrun false lstart os = Ok (st, xs') -> det v = None -> lists_are (smem st) (seqs v).
Proof. intros E R N. destruct (c29 false os v xs E) as (st' & R' & _ & _ & X). rewrite R in R'. injection R' as <- _. auto. Qed.
Lemma c10_sub_self_witness : exists h : pmem, lists_are (lsts h) [[0; 1]] /\
  values h [0; 1] [(Mon (-1) [1], 3%Z); (Mon (-1) [0], 2%Z)] /\ h_sub TOP OLex h 0 0 = Undef.
Proof.
  destruct (lrun false lstart [New; Push 0 1; Push 0 0]) as [[st xs]| | | |] eqn:E; try (vm_compute in E; discriminate).
  pose proof (made _ _ _ _ _ (eq_refl : vrun vstart [New; Push 0 1; Push 0 0] = Some (View [[0; 1]] None None, [ONone; ONone; ONone])) E eq_refl) as L.
  set (h := PMem [Some (Mon (-1) [1], 3%Z); Some (Mon (-1) [0], 2%Z)] (smem st)).
  assert (V : values h [0; 1] [(Mon (-1) [1], 3%Z); (Mon (-1) [0], 2%Z)]) by (repeat constructor).
  exists h. split; [exact L|]. split; [exact V|]. eapply c10_sub_self; [exact L|reflexivity|exact V].
Qed.
Lemma c10_heap_ex : exists h h' : pmem, lists_are (lsts h) [[0; 1]; [2; 3]] /\
  values h [0; 1] [(Mon (-1) [2], 3%Z); (Mon (-1) [1], 2%Z)] /\ values h [2; 3] [(Mon (-1) [1], 2%Z); (Mon (-1) [0], 7%Z)] /\
  h_sub TOP OLex h 0 1 = Ok h' /\ values h' [0; 4] [(Mon (-1) [2], 3%Z); (Mon (-1) [0], (-7)%Z)].
Proof.
  destruct (lrun false lstart [New; New; Push 0 1; Push 0 0; Push 1 3; Push 1 2]) as [[st xs]| | | |] eqn:E; try (vm_compute in E; discriminate).
  pose proof (made _ _ _ _ _ (eq_refl : vrun vstart [New; New; Push 0 1; Push 0 0; Push 1 3; Push 1 2] = Some (View [[0; 1]; [2; 3]] None None, [ONone; ONone; ONone; ONone; ONone; ONone])) E eq_refl) as L.
  exists (PMem [Some (Mon (-1) [2], 3%Z); Some (Mon (-1) [1], 2%Z); Some (Mon (-1) [1], 2%Z); Some (Mon (-1) [0], 7%Z)] (smem st)).
  vm_compute in E. injection E as <- <-. eexists. split; [exact L|]. split; [repeat constructor|]. split; [repeat constructor|].
  split; [vm_compute; reflexivity|]. repeat constructor.
Qed.
