(** Proofs about PolyMemModel. *)
From Coq Require Import ZArith List Bool Arith Lia.
From Verif Require Import Outcome MonomModel MonomSpec MonomProofs PolyModel PolySpec PolyProofs PolyRedProofs PolyMemModel.
Import ListNotations.
Local Open Scope Z_scope.

(** The operation computes [l] from the [old] terms and the terms taken minus the terms given back are
    exactly those needed: nothing is lost. *)
Definition balanced (c : counted) (old l : list term) : Prop :=
  res c = l /\ (length old + taken c = length (res c) + given c)%nat.

Lemma add_mem_ok t o p a : balanced (add_mem t o p a) p (add_terms t o p a).
Proof.
  revert p a. refine (merge_ind _ _ _ _); intros.
  - destruct a; split; try reflexivity. cbn. lia.
  - destruct p as [|[m c] p]; split; reflexivity.
  - destruct x as [m c], y as [u d]. rewrite add_terms_cons.
    change (add_mem t o ((m, c) :: p) ((u, d) :: a)) with
      (if cmp1 t o m u =? 1 then push_res (m, c) (add_mem t o p ((u, d) :: a))
        else if cmp1 t o m u =? -1 then take1 (push_res (u, d) (add_mem t o ((m, c) :: p) a))
        else if c + d =? 0 then give1 (add_mem t o p a)
        else push_res (m, c + d) (add_mem t o p a)).
    destruct H as [R L], H0 as [R0 L0], H1 as [R1 L1]. unfold balanced.
    destruct (cmp1 t o m u =? 1); [|destruct (cmp1 t o m u =? -1); [|destruct (c + d =? 0)]];
      cbn [push_res take1 give1 res taken given length] in *; split; try lia; congruence.
Qed.

Lemma merge_mem_ok t o p a : res (merge_mem t o p a) = add_terms t o p a /\ taken (merge_mem t o p a) = 0%nat /\
  (length p + length a = length (add_terms t o p a) + given (merge_mem t o p a))%nat.
Proof.
  revert p a. refine (merge_ind _ _ _ _); intros.
  - rewrite add_terms_nil_l. destruct a; split; [reflexivity|split; [reflexivity|cbn; lia]|reflexivity|split; [reflexivity|cbn; lia]].
  - rewrite add_terms_nil_r. destruct p as [|[m c] p]; split; [reflexivity|split; [reflexivity|cbn; lia]|reflexivity|split; [reflexivity|cbn; lia]].
  - destruct x as [m c], y as [u d]. rewrite add_terms_cons.
    change (merge_mem t o ((m, c) :: p) ((u, d) :: a)) with
      (if cmp1 t o m u =? 1 then push_res (m, c) (merge_mem t o p ((u, d) :: a))
        else if cmp1 t o m u =? -1 then push_res (u, d) (merge_mem t o ((m, c) :: p) a)
        else if c + d =? 0 then give1 (give1 (merge_mem t o p a))
        else give1 (push_res (m, c + d) (merge_mem t o p a))).
    destruct H as (R & T & L), H0 as (R0 & T0 & L0), H1 as (R1 & T1 & L1).
    destruct (cmp1 t o m u =? 1); [|destruct (cmp1 t o m u =? -1); [|destruct (c + d =? 0)]];
      cbn [push_res take1 give1 res taken given length] in *; split; try (split; lia); congruence.
Qed.

Lemma mult_loop_mem_ok t o a : forall p acc, 
  (taken acc = length (res acc) + given acc)%nat ->
  (taken (mult_loop_mem t o acc p a) = length (res (mult_loop_mem t o acc p a)) + given (mult_loop_mem t o acc p a))%nat.
Proof.
  induction p as [|[m c] p IH]; intros acc H; cbn [mult_loop_mem]; [exact H|]. apply IH. cbn [res taken given].
  destruct (merge_mem_ok t o (res acc) (map (fun x => (mul (fst x) m, snd x * c)) a)) as (R & T & L). rewrite R, T. lia.
Qed.

Lemma mult_loop_mem_res t o dbg a : forall p acc r, mult_loop dbg t o (res acc) p a = Ok r -> res (mult_loop_mem t o acc p a) = r.
Proof.
  induction p as [|[m c] p IH]; intros acc r; cbn [mult_loop mult_loop_mem].
  - intro H. injection H as ->. reflexivity.
  - intro H. apply IH. cbn [res].
    rewrite (proj1 (merge_mem_ok t o (res acc) (map (fun x => (mul (fst x) m, snd x * c)) a))).
    assert (E : forall l, mulmon dbg m c a = Ok l -> l = map (fun x => (mul (fst x) m, snd x * c)) a).
    { clear. induction a as [|[u d] a IH]; cbn [mulmon map fst snd]; intros l H; [injection H as ->; reflexivity|].
      unfold mul_, assert_ in H. destruct (dbg && _); cbn [bind] in H; [discriminate|].
      destruct (mulmon dbg m c a) as [l'| | | |] eqn:X; cbn [bind] in H; try discriminate. injection H as <-.
      rewrite (IH l' eq_refl). reflexivity. }
    destruct (mulmon dbg m c a) as [l| | | |]; cbn [bind] in H; try discriminate. rewrite <- (E l eq_refl). exact H.
Qed.

Lemma mulmon_map dbg m c a : forall l, mulmon dbg m c a = Ok l -> l = map (fun x => (mul (fst x) m, snd x * c)) a.
Proof.
  induction a as [|[u d] a IH]; cbn [mulmon map fst snd]; intros l H; [injection H as ->; reflexivity|].
  unfold mul_, assert_ in H. destruct (dbg && _); cbn [bind] in H; [discriminate|].
  destruct (mulmon dbg m c a) as [l'| | | |] eqn:X; cbn [bind] in H; try discriminate. injection H as <-.
  rewrite (IH l' eq_refl). reflexivity.
Qed.

(** The counting version computes the same terms as mult. *)
Lemma mult_mem_res dbg t o p a r : mult_terms dbg t o p a = Ok r -> res (mult_mem t o p a) = r.
Proof.
  destruct p as [|[m c] p]; [intro H; injection H as <-; reflexivity|].
  destruct a as [|[u d] a]; [cbn [mult_terms mult_mem]; intro H; destruct p; injection H as <-; reflexivity|].
  destruct p as [|x p].
  { intro H. symmetry. apply (mulmon_map dbg). exact H. }
  destruct a as [|y a].
  { intro H. symmetry. apply (mulmon_map dbg). exact H. }
  intro H. change (mult_loop dbg t o [] ((m, c) :: x :: p) ((u, d) :: y :: a) = Ok r) in H.
  exact (mult_loop_mem_res t o dbg _ _ (Cnt [] 0 0) r H).
Qed.

Lemma mult_mem_ok t o p a : ~ (length a = 1%nat /\ (1 < length p)%nat) ->
  (length p + taken (mult_mem t o p a) = length (res (mult_mem t o p a)) + given (mult_mem t o p a))%nat.
Proof.
  destruct p as [|[m c] p]; [reflexivity|].
  destruct a as [|[u d] a]; [intros _; cbn [mult_mem]; destruct p; cbn [clear_mem res taken given length]; lia|].
  destruct p as [|x p]; [intros _; cbn [mult_mem res taken given]; cbn [length]; lia|].
  destruct a as [|y a]; [cbn [length]; lia|]. intros _.
  change (mult_mem t o ((m, c) :: x :: p) ((u, d) :: y :: a)) with
    (let s := mult_loop_mem t o (Cnt [] 0 0) ((m, c) :: x :: p) ((u, d) :: y :: a) in
     Cnt (res s) (taken s) (given s + length ((m, c) :: x :: p))). cbn zeta. cbn [res taken given].
  assert (H := mult_loop_mem_ok t o ((u, d) :: y :: a) ((m, c) :: x :: p) (Cnt [] 0 0) eq_refl). lia.
Qed.

Lemma mult_mem_leak t o p a : length a = 1%nat -> (1 < length p)%nat ->
  (length p + taken (mult_mem t o p a) = length (res (mult_mem t o p a)) + given (mult_mem t o p a) + (length p - 1))%nat.
Proof.
  destruct a as [|[u d] [|y a]]; cbn [length]; try lia. intros _.
  destruct p as [|[m c] [|x p]]; cbn [length]; try lia. intros _.
  change (mult_mem t o ((m, c) :: x :: p) [(u, d)]) with
    (let r := map (fun x => (mul (fst x) u, snd x * d)) ((m, c) :: x :: p) in Cnt r (length r) 1).
  cbn zeta. cbn [res taken given]. rewrite map_length. cbn [length]. lia.
Qed.

Lemma mulmon_length dbg m c : forall l r, mulmon dbg m c l = Ok r -> length r = length l.
Proof.
  induction l as [|[u d] l IH]; intros r E; cbn [mulmon] in E; [injection E as <-; reflexivity|].
  destruct (mul_ dbg u m); cbn [bind] in E; try discriminate. destruct (mulmon dbg m c l) as [r'| | | |]; cbn [bind] in E; try discriminate.
  injection E as <-. cbn [length]. f_equal. apply IH. reflexivity.
Qed.
Lemma red_mem_ok dbg t o k1 k2 m2 : forall p a l, red_terms dbg t o k1 k2 m2 p a = Ok l -> exists c, red_mem dbg t o k1 k2 m2 p a = Ok c /\ balanced c p l.
Proof.
  refine (merge_ind _ _ _ _).
  - intros a l E. destruct a as [|[n d] a]; cbn [red_terms red_mem] in *.
    + injection E as <-. eexists. split; [reflexivity|]. split; reflexivity.
    + rewrite E. cbn [bind]. eexists. split; [reflexivity|]. split; [reflexivity|]. apply mulmon_length in E. cbn [res taken given]. rewrite E. cbn. lia.
  - intros p l E. assert (X : red_terms dbg t o k1 k2 m2 p [] = Ok (scale k1 p)) by (destruct p as [|[m c] p]; reflexivity). rewrite X in E. injection E as <-.
    exists (Cnt (scale k1 p) 0 0). split; [destruct p as [|[m c] p]; reflexivity|]. split; [reflexivity|]. cbn [res taken given]. unfold scale. rewrite map_length. lia.
  - intros [m c] p [n d] a H1 H2 H3 l E.
    change (red_terms dbg t o k1 k2 m2 ((m, c) :: p) ((n, d) :: a)) with
      (do r <- cmp2_ dbg t o m n m2;
        if r =? 1 then do l <- red_terms dbg t o k1 k2 m2 p ((n, d) :: a); Ok ((m, c * k1) :: l)
        else if r =? -1 then do w <- mul_ dbg n m2; do l <- red_terms dbg t o k1 k2 m2 ((m, c) :: p) a; Ok ((w, d * k2) :: l)
        else do l <- red_terms dbg t o k1 k2 m2 p a;
             if c * k1 + d * k2 =? 0 then Ok l else Ok ((m, c * k1 + d * k2) :: l)) in E.
    change (red_mem dbg t o k1 k2 m2 ((m, c) :: p) ((n, d) :: a)) with
      (do r <- cmp2_ dbg t o m n m2;
        if r =? 1 then do l <- red_mem dbg t o k1 k2 m2 p ((n, d) :: a); Ok (push_res (m, c * k1) l)
        else if r =? -1 then do w <- mul_ dbg n m2; do l <- red_mem dbg t o k1 k2 m2 ((m, c) :: p) a; Ok (take1 (push_res (w, d * k2) l))
        else do l <- red_mem dbg t o k1 k2 m2 p a;
             if c * k1 + d * k2 =? 0 then Ok (give1 l) else Ok (push_res (m, c * k1 + d * k2) l)).
    destruct (cmp2_ dbg t o m n m2) as [r| | | |]; cbn [bind] in *; try discriminate. destruct (r =? 1); [|destruct (r =? -1)].
    + destruct (red_terms dbg t o k1 k2 m2 p ((n, d) :: a)) as [l'| | | |] eqn:E'; cbn [bind] in E; try discriminate. injection E as <-.
      destruct (H1 _ eq_refl) as (x & -> & R & L) || destruct (H2 _ eq_refl) as (x & -> & R & L) || destruct (H3 _ eq_refl) as (x & -> & R & L).
      cbn [bind]. eexists. split; [reflexivity|]. split; cbn [push_res res taken given length] in *; [congruence|lia].
    + destruct (mul_ dbg n m2) as [w| | | |]; cbn [bind] in *; try discriminate.
      destruct (red_terms dbg t o k1 k2 m2 ((m, c) :: p) a) as [l'| | | |] eqn:E'; cbn [bind] in E; try discriminate. injection E as <-.
      destruct (H1 _ eq_refl) as (x & -> & R & L) || destruct (H2 _ eq_refl) as (x & -> & R & L) || destruct (H3 _ eq_refl) as (x & -> & R & L).
      cbn [bind]. eexists. split; [reflexivity|]. split; cbn [push_res take1 res taken given length] in *; [congruence|lia].
    + destruct (red_terms dbg t o k1 k2 m2 p a) as [l'| | | |] eqn:E'; cbn [bind] in E; try discriminate.
      destruct (H1 _ eq_refl) as (x & -> & R & L) || destruct (H2 _ eq_refl) as (x & -> & R & L) || destruct (H3 _ eq_refl) as (x & -> & R & L).
      cbn [bind]. destruct (c * k1 + d * k2 =? 0); injection E as <-; (eexists; split; [reflexivity|]; split; cbn [push_res give1 res taken given length] in *; [congruence|lia]).
Qed.

Lemma red_tail_mem_ok dbg p pre rest a x y : red_tail dbg p pre rest a = Ok (x, y) ->
  exists c, red_tail_mem dbg p pre rest a = Ok c /\ balanced c (pre ++ rest) (x ++ y).
Proof.
  unfold red_tail, red_tail_mem, assert_. destruct (dbg && negb (comparable p a)); [discriminate|].
  destruct rest as [|[m c] p']; [destruct dbg; discriminate|]. destruct (terms a) as [|[n d] a']; [destruct dbg; discriminate|].
  destruct (red_factors dbg m c n d) as [[[m2 k1] k2]| | | |]; cbn [bind]; try discriminate.
  destruct (red_terms dbg (pto p) (pbo p) k1 k2 m2 p' a') as [l| | | |] eqn:E; cbn [bind]; try discriminate.
  destruct (checked dbg _) as [q| | | |]; cbn [bind]; try discriminate. intro X. injection X as <- <-.
  destruct (red_mem_ok _ _ _ _ _ _ _ _ _ E) as (z & -> & R & L). cbn [bind]. eexists. split; [reflexivity|].
  split; cbn [res taken given]; [congruence|]. unfold scale. rewrite !app_length, map_length. cbn [length]. lia.
Qed.
Lemma reduction_mem_ok dbg p a r : p_reduction dbg p a = Ok r -> exists c, reduction_mem dbg p a = Ok c /\ balanced c (terms p) (terms r).
Proof.
  unfold p_reduction, reduction_mem, red_tail_mem, assert_. destruct (dbg && negb (comparable p a)); [discriminate|].
  destruct (terms p) as [|[m c] p']; [destruct dbg; discriminate|]. destruct (terms a) as [|[n d] a']; [destruct dbg; discriminate|].
  destruct (red_factors dbg m c n d) as [[[m2 k1] k2]| | | |]; cbn [bind]; try discriminate.
  destruct (red_terms dbg (pto p) (pbo p) k1 k2 m2 p' a') as [l| | | |] eqn:E; cbn [bind]; try discriminate.
  unfold checked, assert_. destruct (dbg && _); [discriminate|]. intro X. injection X as <-.
  destruct (red_mem_ok _ _ _ _ _ _ _ _ _ E) as (z & -> & R & L). cbn [bind]. eexists. split; [reflexivity|].
  split; cbn [res taken given scale map app terms with_terms]; [congruence|]. cbn [length]. lia.
Qed.
Lemma skip_gt_split t o m : forall rest pre x y, skip_gt t o m pre rest = (x, y) -> x ++ y = pre ++ rest.
Proof.
  induction rest as [|z rest IH]; intros pre x y E; cbn [skip_gt] in E; [injection E as <- <-; reflexivity|].
  destruct (0 <? cmp1 t o (fst z) m); [|injection E as <- <-; reflexivity]. rewrite (IH _ _ _ E), <- app_assoc. reflexivity.
Qed.
Lemma redMaybe_mem_ok dbg p a r : p_redMaybe dbg p a = Ok r -> terms a <> [] -> exists c, redMaybe_mem dbg p a = Ok c /\ balanced c (terms p) (terms r).
Proof.
  unfold p_redMaybe, redMaybe_mem. intros E Na. destruct (terms a) as [|[n d] a'] eqn:Ea; [congruence|].
  destruct (terms p) as [|x0 p0] eqn:Ep.
  { destruct dbg; [discriminate|]. injection E as <-. cbn [skip_gt]. eexists. split; [reflexivity|]. rewrite Ep. split; [reflexivity|]. reflexivity. }
  rewrite <- Ep in *. destruct (skip_gt (pto p) (pbo p) n [] (terms p)) as [pre rest] eqn:Es. apply skip_gt_split in Es. cbn [app] in Es.
  assert (K : forall q : poly, Ok p = Ok q -> exists c, Ok (Cnt (terms p) 0 0) = Ok c /\ balanced c (terms p) (terms q)).
  { intros q X. injection X as <-. eexists. split; [reflexivity|]. split; [reflexivity|]. cbn [res taken given]. lia. }
  destruct rest as [|[m c] rest]; [exact (K r E)|]. destruct (eqm m n); [|exact (K r E)].
  destruct (red_tail dbg p pre ((m, c) :: rest) a) as [[x y]| | | |] eqn:Er; cbn [bind] in E; try discriminate. injection E as <-.
  destruct (red_tail_mem_ok _ _ _ _ _ _ _ Er) as (z & Ez & B). rewrite Es in B. exists z. split; [exact Ez|]. exact B.
Qed.
Lemma assign_mem_ok p a : balanced (assign_mem p a) p a.
Proof. split; [reflexivity|]. cbn. lia. Qed.
Lemma mult_const_mem_ok dbg p c r : p_mult_const dbg p c = Ok r -> balanced (mult_const_mem (terms p) c) (terms p) (terms r).
Proof.
  unfold p_mult_const, mult_const_mem, checked, assert_. destruct (terms p) as [|x l] eqn:E; [|destruct (c =? 0)]; (destruct (dbg && _); [discriminate|]); intro X; injection X as <-.
  - rewrite E. split; reflexivity.
  - split; [reflexivity|]. cbn. lia.
  - split; [reflexivity|]. cbn [res taken given]. unfold scale. rewrite map_length. lia.
Qed.
Lemma sub_mem_ok t o p a : balanced (sub_mem t o p a) p (sub_terms t o p a).
Proof.
  revert p a. refine (merge_ind _ _ _ _).
  - induction a as [|[n d] a IH]; [split; reflexivity|]. destruct IH as [R L]. split; cbn [sub_mem sub_terms take1 push_res res taken given length] in *; [f_equal; exact R|lia].
  - intros [|[m c] p]; split; try reflexivity.
  - intros [m c] p [u d] a H H0 H1.
    change (sub_mem t o ((m, c) :: p) ((u, d) :: a)) with
      (if cmp1 t o m u =? 1 then push_res (m, c) (sub_mem t o p ((u, d) :: a))
        else if cmp1 t o m u =? -1 then take1 (push_res (u, - d) (sub_mem t o ((m, c) :: p) a))
        else if c - d =? 0 then give1 (sub_mem t o p a)
        else push_res (m, c - d) (sub_mem t o p a)).
    change (sub_terms t o ((m, c) :: p) ((u, d) :: a)) with
      (if cmp1 t o m u =? 1 then (m, c) :: sub_terms t o p ((u, d) :: a)
        else if cmp1 t o m u =? -1 then (u, - d) :: sub_terms t o ((m, c) :: p) a
        else if c - d =? 0 then sub_terms t o p a
        else (m, c - d) :: sub_terms t o p a).
    destruct H as [R L], H0 as [R0 L0], H1 as [R1 L1]. unfold balanced.
    destruct (cmp1 t o m u =? 1); [|destruct (cmp1 t o m u =? -1); [|destruct (c - d =? 0)]];
      cbn [push_res take1 give1 res taken given length] in *; split; try lia; congruence.
Qed.
Lemma sub_const_mem_ok n l c : balanced (sub_const_mem n l c) l (sub_const_terms n l c).
Proof.
  induction l as [|[m d] l IH]; cbn [sub_const_mem sub_const_terms]; [split; reflexivity|].
  destruct IH as [R L]. destruct (_ || _); [|destruct (_ =? 0)]; split; cbn [push_res res taken given length] in *; try lia; congruence.
Qed.

Lemma add_const_mem_ok n l c : balanced (add_const_mem n l c) l (add_const_terms n l c).
Proof.
  induction l as [|[m d] l IH]; cbn [add_const_mem add_const_terms]; [split; reflexivity|].
  destruct IH as [R L]. destruct (_ || _); [|destruct (_ =? 0)]; split; cbn [push_res res taken given length] in *; try lia; congruence.
Qed.
