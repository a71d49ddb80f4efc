(** Janet::insert keeps the tree invariant. *)
From Coq Require Import ZArith List Bool Arith Lia Permutation.
From Verif Require Import Outcome MonomModel MonomSpec MonomProofs JanetModel JanetSpec JanetProofs.
Import ListNotations.
Local Arguments skipn : simpl never.
Local Arguments firstn : simpl never.
Local Open Scope nat_scope.
Local Arguments Nat.ltb : simpl never.
Local Arguments Nat.leb : simpl never.
Local Arguments Nat.eqb : simpl never.

Lemma build_chain_ok dbg n w d v next :
  okw n w -> v < n -> d = degv (skipn v (lv w)) -> (v = 0 \/ 0 < d) ->
  wf n v next -> flagsT n v next ->
  (forall u, In u (wraps next) -> expo (lv w) v < expo (lv u) v) ->
  match next with Node dn _ _ _ => expo (lv w) v < dn | Nil => True end ->
  (fl w v = true <-> next <> Nil) -> (forall i, v < i -> i < n -> fl w i = false) ->
  exists ow nv, build_chain dbg w d (skipn v (vars (wlm w))) next = Ok (Node (expo (lv w) v) ow next nv) /\
    wraps (Node (expo (lv w) v) ow next nv) = w :: wraps next /\
    wf n v (Node (expo (lv w) v) ow next nv) /\ flagsT n v (Node (expo (lv w) v) ow next nv).
Proof.
  intros OKW. destruct OKW as (L1 & L2 & L3 & L4).
  remember (n - v) as k eqn:Ek.
  revert d v next Ek; induction k as [|k IH]; intros d v next Ek Hv Ed Dv W F Hnx Hdn Fv Fi; [lia|].
  change (vars (wlm w)) with (lv w).
  rewrite skipn_cons by lia. cbn [build_chain].
  rewrite degv_skipn in Ed by lia.
  destruct (Nat.ltb_spec (expo (lv w) v) d) as [Hd|Hd].
  - assert (Sv : S v < n).
    { destruct (Nat.lt_ge_cases (S v) n); auto. rewrite degv_skipn_ge in Ed; lia. }
    destruct (IH (d - expo (lv w) v) (S v) Nil) as (ow & nv & E & Wr & W' & F');
      try exact I; auto; try lia.
    { intros u []. }
    { split; [|congruence]. intros H; rewrite Fi in H; [discriminate|lia|lia]. }
    { intros i Hi1 Hi2. apply Fi; lia. }
    change (vars (wlm w)) with (lv w) in E. rewrite E. cbn [bind].
    do 2 eexists. split; [reflexivity|].
    cbn [wraps] in Wr |- *.
    split; [now rewrite Wr|]. split.
    + cbn [wf]. split; [auto|]. split; [discriminate|]. split; [discriminate|].
      split; [|split; [auto|split; [auto|split; [auto|apply W']]]].
      cbn [wraps]. rewrite Wr. cbn. intros u [<-|[]]; reflexivity.
    + cbn [flagsT]. split; [discriminate|]. split; [|split; [apply F'|auto]].
      cbn [wraps]. rewrite Wr. intros u [<-|[]]; auto.
  - assert (Z : degv (skipn (S v) (lv w)) = 0) by lia.
    do 2 eexists. split; [reflexivity|]. cbn [wraps app]. split; [reflexivity|]. split.
    + cbn [wf]. repeat split; auto; try congruence.
      * intros i Hi. injection H as <-. eapply degv_skipn_zero; [exact Z|lia].
      * intros; destruct Dv; lia.
      * intros u [].
    + cbn [flagsT]. repeat split; auto.
      * injection H as <-. tauto.
      * injection H as <-. tauto.
      * injection H as <-. intros C. rewrite Fi in C by lia. discriminate.
      * intros C. exfalso. eapply janet_nm_nil. exact C.
Qed.

Lemma build_at_ok dbg n w d v next :
  okw n w -> v < n -> d = degv (skipn v (lv w)) -> (v = 0 \/ 0 < d) ->
  wf n v next -> flagsT n v next ->
  (forall u, In u (wraps next) -> expo (lv w) v < expo (lv u) v) ->
  match next with Node dn _ _ _ => expo (lv w) v < dn | Nil => True end ->
  (fl w v = true <-> next <> Nil) -> (forall i, v < i -> i < n -> fl w i = false) ->
  exists ow nv, build_at dbg w d v next = Ok (Node (expo (lv w) v) ow next nv) /\
    wraps (Node (expo (lv w) v) ow next nv) = w :: wraps next /\
    wf n v (Node (expo (lv w) v) ow next nv) /\ flagsT n v (Node (expo (lv w) v) ow next nv).
Proof.
  intros OKW Hv Ed Dv W F Hnx Hdn Fv Fi.
  destruct (build_chain_ok dbg n w d v next) as (ow & nv & E & R); auto.
  exists ow, nv. split; auto. unfold build_at.
  destruct OKW as (L1 & _). rewrite mget_ok by (unfold lv in L1; lia). cbn [bind].
  change (vars (wlm w)) with (lv w) in *. rewrite E. cbn [bind].
  rewrite degv_skipn in Ed by lia.
  unfold assert_. destruct (Nat.leb_spec (expo (lv w) v) d); [|lia]. rewrite andb_false_r.
  destruct next; auto. destruct (Nat.ltb_spec (expo (lv w) v) d0); [|lia]. now rewrite andb_false_r.
Qed.

(* -------- setNM on a whole subtree -------- *)
Lemma set_nm_tree_ok dbg n v t :
  v < n -> Forall (okw n) (wraps t) ->
  exists t', set_nm_tree dbg t v = Ok t' /\
    Forall (okw n) (wraps t') /\
    Forall2 (fun u u' => wlm u' = wlm u /\ er v u' = er v u /\
                         (forall j, fl u' j = if Nat.eqb j v then true else fl u j)) (wraps t) (wraps t') /\
    (t = Nil <-> t' = Nil) /\
    (match t, t' with
     | Node d _ _ _, Node d' _ _ _ => d = d'
     | _, _ => True
     end) /\
    (forall v', v < v' -> wf n v' t -> wf n v' t') /\
    (forall v', v < v' -> flagsT n v' t -> flagsT n v' t').
Proof.
  intros Hv. induction t as [|dg ow nd IHd nv IHv]; intros O.
  - exists Nil. cbn. repeat split; auto.
  - cbn [wraps] in O. rewrite !Forall_app in O. destruct O as (O1 & O2 & O3).
    destruct (IHv O2) as (nv' & E2 & O2' & P2 & N2 & D2 & W2 & F2).
    destruct (IHd O3) as (nd' & E3 & O3' & P3 & N3 & D3 & W3 & F3).
    clear IHv IHd.
    set (R := fun u u' => wlm u' = wlm u /\ er v u' = er v u /\
             (forall j, fl u' j = if Nat.eqb j v then true else fl u j)) in *.
    assert (X : exists ow', opt_set_nm dbg ow v = Ok ow' /\
       Forall (okw n) (match ow' with Some u => [u] | None => [] end) /\
       Forall2 R (match ow with Some u => [u] | None => [] end)
                 (match ow' with Some u => [u] | None => [] end)).
    { destruct ow as [u|]; cbn [opt_set_nm]; [|exists None; repeat split; constructor].
      inversion O1; subst.
      destruct (set_nm_spec dbg n u v) as (u' & E & K & A & _ & _ & _ & B & C); auto.
      rewrite E. cbn. exists (Some u'). split; [reflexivity|]. split; [constructor; auto|].
      constructor; [|constructor]. split; [auto|]. split; [apply C; lia|auto]. }
    destruct X as (ow' & E1 & O1' & P1).
    cbn [set_nm_tree]. rewrite E2; cbn [bind]. rewrite E1; cbn [bind]. rewrite E3; cbn [bind].
    assert (LV : forall l l', Forall2 R l l' -> lms l = lms l').
    { induction 1 as [|x y l l' (H & _) _ IH]; unfold lms in *; cbn [map]; [reflexivity|]. rewrite IH. unfold lv. now rewrite H. }
    assert (INV : forall l l', Forall2 R l l' -> forall u', In u' l' -> exists u, In u l /\ R u u').
    { induction 1 as [|x y l l' H _ IH]; cbn; [tauto|]. intros u' [<-|I].
      - exists x; auto.
      - destruct (IH u' I) as (u & ? & ?). exists u; auto. }
    assert (SO : forall u', ow' = Some u' -> exists u, ow = Some u /\ R u u').
    { intros u' ->. destruct ow; inversion P1; subst. eauto. }
    eexists; split; [reflexivity|]. cbn [wraps].
    split; [rewrite !Forall_app; auto|].
    split; [auto using Forall2_app|].
    split; [split; discriminate|]. split; [reflexivity|].
    split.
    + intros v' Hv' (W0 & A & K & B & C & D & Wd & Wv). cbn [wf].
      repeat split; auto; try tauto.
      * destruct (SO _ H) as (u0 & Eu & Ru & _). destruct (A _ Eu) as (A1 & _). unfold lv in *. now rewrite Ru.
      * intros i Hi. destruct (SO _ H) as (u0 & Eu & Ru & _). destruct (A _ Eu) as (_ & A2 & _).
        unfold lv in *. rewrite Ru. auto.
      * intros. destruct (SO _ H) as (u0 & Eu & Ru & _). destruct (A _ Eu) as (_ & _ & A3). auto.
      * intros H. destruct ow'; [discriminate|]. destruct ow; [inversion P1|].
        intros C'. apply K; auto. tauto.
      * intros u I. destruct (INV _ _ P2 _ I) as (u0 & I0 & Ru & _). specialize (B _ I0). unfold lv in *. now rewrite Ru.
      * intros u I. destruct (INV _ _ P3 _ I) as (u0 & I0 & Ru & _). specialize (C _ I0). unfold lv in *. now rewrite Ru.
      * destruct nd, nd'; auto; [destruct N3; exfalso; intuition discriminate|lia].
    + intros v' Hv' (A & B & C & D). cbn [flagsT].
      assert (NN : nd <> Nil <-> nd' <> Nil) by tauto.
      assert (RF : forall u u' i, R u u' -> v < i -> fl u' i = fl u i).
      { intros u u' i (_ & _ & J) Hi. rewrite J. destruct (Nat.eqb_spec i v); [lia|auto]. }
      repeat split; auto.
      * intros Hf. destruct (SO _ H) as (u0 & Eu & Ru). rewrite (RF _ _ _ Ru) in Hf by lia.
        apply NN. apply (proj1 (A _ Eu)). auto.
      * intros Hf. destruct (SO _ H) as (u0 & Eu & Ru). rewrite (RF _ _ _ Ru) by lia.
        apply (proj1 (A _ Eu)). tauto.
      * intros Hf. destruct (SO _ H) as (u0 & Eu & Ru). rewrite (RF _ _ _ Ru) in Hf by lia.
        rewrite <- (LV _ _ P2). destruct Ru as (Ru & _). unfold lv. rewrite Ru. apply (proj2 (A _ Eu)); auto.
      * intros Hf. destruct (SO _ H) as (u0 & Eu & Ru). rewrite (RF _ _ _ Ru) by lia.
        apply (proj2 (A _ Eu)); auto. destruct Ru as (Ru & _). unfold lv in *. rewrite Ru in Hf.
        rewrite <- (LV _ _ P2) in Hf. auto.
      * intros Hf. destruct (INV _ _ P2 _ H) as (u0 & I0 & Ru). rewrite (RF _ _ _ Ru) in Hf by lia.
        apply NN. apply (B _ I0); auto.
      * intros Hf. destruct (INV _ _ P2 _ H) as (u0 & I0 & Ru). rewrite (RF _ _ _ Ru) by lia.
        apply (B _ I0). tauto.
Qed.

(* -------- walk -------- *)
Lemma walk_ok dbg n w v t :
  okw n w -> wf n v t -> 0 < v -> Forall (okw n) (wraps t) ->
  (forall u, In u (wraps t) -> forall j, j < v -> expo (lv u) j = expo (lv w) j) ->
  (forall i, v <= i -> expo (lv w) i = 0) -> (forall i, v <= i -> i < n -> fl w i = false) ->
  exists w', walk dbg w v t = Ok w' /\ okw n w' /\ er v w' = er v w /\
    (forall i, v <= i -> i < n -> (fl w' i = true <-> janet_nm (lms (wraps t)) (lv w) i)).
Proof.
  revert v w; induction t as [|dg ow nd IHd nv IHv]; intros v w O W P OT AG Z FZ.
  - exists w. cbn. repeat split; auto; try apply O.
    + intros H'; rewrite FZ in H' by lia; discriminate.
    + intros H'; exfalso; eapply janet_nm_nil; exact H'.
  - assert (Hnd : nd <> Nil -> wraps nd <> []) by (intros; eapply wf_nonempty; [apply W|auto]).
    assert (Hnv : nv <> Nil -> wraps nv <> []) by (intros; eapply wf_nonempty; [apply W|auto]).
    cbn [wf] in W. destruct W as (Hv & A & K & B & C & D & Wd & Wv).
    cbn [wraps] in *. cbn [walk]. rewrite !Forall_app in OT. destruct OT as (O1 & O2 & O3).
    set (OL := match ow with Some u0 => [u0] | None => [] end) in *.
    assert (OK : forall x, In x OL -> ow = Some x).
    { unfold OL; destruct ow; cbn; intros x []; [now subst|destruct H]. }
    (* is v non-multiplicative for w? *)
    assert (NV : janet_nm (lms (OL ++ wraps nv ++ wraps nd)) (lv w) v <-> (0 < dg \/ nd <> Nil)).
    { assert (AG' : forall u, In u (OL ++ wraps nv ++ wraps nd) -> 0 < expo (lv u) v ->
                janet_nm (lms (OL ++ wraps nv ++ wraps nd)) (lv w) v).
      { intros u Iu Hu. exists (lv u). split; [now apply in_map|].
        split; [intros; apply AG; auto|]. rewrite Z; auto. }
      split.
      - intros (y & Iy & _ & G). apply in_map_iff in Iy as (u & <- & Iu). rewrite Z in G by lia.
        apply in_app_or in Iu as [Iu|Iu]; [|apply in_app_or in Iu as [Iu|Iu]].
        + apply OK, A in Iu as (E & _). left; lia.
        + apply B in Iu. left; lia.
        + right. intros ->. destruct Iu.
      - intros [H|H].
        + destruct ow as [u0|].
          * apply (AG' u0); [cbn; auto|]. destruct (A _ eq_refl) as (E & _). lia.
          * specialize (Hnv (K eq_refl)). destruct (wraps nv) as [|y r] eqn:E; [congruence|].
            apply (AG' y); [cbn; auto|]. rewrite (B y); cbn; auto.
        + specialize (Hnd H). destruct (wraps nd) as [|y r] eqn:E; [congruence|].
          apply (AG' y); [apply in_or_app; right; apply in_or_app; right; cbn; auto|].
          specialize (C y (or_introl eq_refl)). lia. }
    assert (ND : forall i, v < i -> 0 < dg -> ~ janet_nm (lms (OL ++ wraps nv ++ wraps nd)) (lv w) i).
    { intros i Hi Hd. apply janet_nm_irr_ne with (v := v); [lia|]. intros y Iy. rewrite Z by lia.
      apply in_map_iff in Iy as (u & <- & Iu).
      apply in_app_or in Iu as [Iu|Iu]; [|apply in_app_or in Iu as [Iu|Iu]].
      + apply OK, A in Iu as (E & _). lia.
      + apply B in Iu. lia.
      + apply C in Iu. lia. }
    assert (ND0 : forall i, v < i -> dg = 0 -> janet_nm (lms (OL ++ wraps nv ++ wraps nd)) (lv w) i <->
                                   janet_nm (lms (wraps nv)) (lv w) i).
    { intros i Hi Hd. unfold lms. rewrite !map_app, !janet_nm_app. split; [|tauto].
      intros [H|[H|H]]; auto; exfalso.
      - destruct H as (y & Iy & _). apply in_map_iff in Iy as (u & _ & Iu). apply OK, A in Iu as (_ & _ & E). lia.
      - revert H. apply janet_nm_irr_ne with (v := v); [lia|]. intros y Iy. rewrite Z by lia.
        apply in_map_iff in Iy as (u & <- & Iu). apply C in Iu. lia. }
    (* the step at v *)
    assert (S1 : exists w1, (if Nat.ltb 0 dg || negb (is_nil nd) then set_nm dbg w v else Ok w) = Ok w1 /\
              okw n w1 /\ wlm w1 = wlm w /\ er v w1 = er v w /\
              (fl w1 v = true <-> (0 < dg \/ nd <> Nil)) /\ (forall i, v < i -> fl w1 i = fl w i)).
    { destruct (Nat.ltb 0 dg || negb (is_nil nd)) eqn:E.
      - destruct (set_nm_spec dbg n w v) as (w1 & E1 & O1' & L & _ & _ & _ & J & R); auto.
        exists w1. repeat split; auto; try apply O1'.
        + intros _. apply orb_prop in E as [E|E]; [left; now apply Nat.ltb_lt in E|right].
          destruct nd; [discriminate|congruence].
        + intros _. rewrite J. now rewrite Nat.eqb_refl.
        + intros i Hi. rewrite J. destruct (Nat.eqb_spec i v); [lia|auto].
      - exists w. repeat split; auto; try apply O.
        + intros H. rewrite FZ in H by lia. discriminate.
        + intros H. apply orb_false_elim in E as (E1 & E2). apply Nat.ltb_ge in E1.
          destruct H; [lia|]. destruct nd; [congruence|discriminate]. }
    destruct S1 as (w1 & E1 & Ow1 & L1 & R1 & Fv1 & Fi1). rewrite E1. cbn [bind].
    assert (Elv1 : lv w1 = lv w) by (unfold lv; now rewrite L1).
    destruct (Nat.eqb_spec dg 0) as [Ed|Ed].
    + destruct (IHv (S v) w1) as (w2 & E2 & Ow2 & R2 & F2); auto; try lia.
      * intros u Iu j Hj. rewrite Elv1. destruct (Nat.eq_dec j v) as [->|].
        -- rewrite (B u Iu). symmetry. rewrite Ed. apply Z. lia.
        -- apply AG; [apply in_or_app; right; apply in_or_app; auto|lia].
      * intros i Hi. rewrite Elv1. apply Z. lia.
      * intros i Hi1 Hi2. rewrite Fi1 by lia. apply FZ; lia.
      * exists w2. repeat split; auto; try apply Ow2.
        -- rewrite <- R1. rewrite <- (er_er v (S v) w2), <- (er_er v (S v) w1) by lia. now rewrite R2.
        -- intros H'. destruct (Nat.eq_dec i v) as [->|].
           ++ apply NV. apply Fv1. rewrite <- H'. symmetry. apply (er_fl (S v)); [auto|lia].
           ++ apply ND0; [lia|auto|]. apply F2 in H'; try lia. rewrite Elv1 in H'. exact H'.
        -- intros H'. destruct (Nat.eq_dec i v) as [->|].
           ++ rewrite (er_fl (S v) w2 w1) by (auto; lia). apply Fv1. apply NV. auto.
           ++ apply F2; try lia. rewrite Elv1. apply ND0; auto; lia.
    + exists w1. repeat split; auto; try apply Ow1.
      * intros H'. destruct (Nat.eq_dec i v) as [->|].
        -- apply NV, Fv1; auto.
        -- rewrite Fi1, FZ in H' by lia. discriminate.
      * intros H'. destruct (Nat.eq_dec i v) as [->|].
        -- apply Fv1, NV; auto.
        -- exfalso. apply (ND i); auto; lia.
Qed.

(* -------- first_gt / first_nz -------- *)
Lemma first_nz_ok dbg (a : list nat) k : 0 < degv a ->
  exists i, first_nz dbg a k = Ok (k + i) /\ i < length a /\ 0 < expo a i /\ (forall j, j < i -> expo a j = 0).
Proof.
  revert k; induction a as [|x a IH]; intros k H; [cbn in H; lia|]. cbn [first_nz].
  destruct (Nat.eqb_spec x 0) as [->|N].
  - destruct (IH (S k)) as (i & E & L & P & Q); [cbn in *; auto|].
    exists (S i). rewrite E. split; [f_equal; lia|]. cbn. repeat split; auto; try lia.
    intros [|j] Hj; [reflexivity|]. apply Q; lia.
  - exists 0. split; [f_equal; lia|]. cbn. repeat split; try lia.
Qed.

Lemma first_gt_spec (a b : list nat) k : length a = length b ->
  match first_gt a b k with
  | Some i => exists j, i = k + j /\ j < length a /\ expo b j < expo a j /\ (forall j', j' < j -> expo a j' <= expo b j')
  | None => forall j, expo a j <= expo b j
  end.
Proof.
  revert b k; induction a as [|x a IH]; intros [|y b] k L; try discriminate; cbn [first_gt].
  - intros j. destruct j; cbn; lia.
  - injection L as L. destruct (Nat.ltb_spec y x).
    + exists 0. cbn. repeat split; try lia.
    + specialize (IH b (S k) L). destruct (first_gt a b (S k)) as [i|].
      * destruct IH as (j & -> & Hj & G & Q). exists (S j). cbn. repeat split; try lia; auto.
        intros [|j'] Hj'; cbn; [lia|]. apply Q; lia.
      * intros [|j]; cbn; [lia|]. apply IH.
Qed.

Lemma expo_skipn l k i : expo (skipn k l) i = expo l (k + i).
Proof.
  revert l; induction k as [|k IH]; intros [|x l]; cbn; auto.
  - destruct i; reflexivity.
  - apply IH.
Qed.

Lemma Permutation_map_In {A B} (f : A -> B) l (l' : list B) x :
  Permutation (map f l) l' -> In x l -> In (f x) l'.
Proof. intros P I. eapply Permutation_in; [exact P|]. now apply in_map. Qed.

(* -------- insert -------- *)
Lemma ins_loop_ok dbg n w d v t :
  okw n w -> wf n v t -> flagsT n v t -> Forall (okw n) (wraps t) ->
  (forall u, In u (wraps t) -> forall j, j < v -> expo (lv u) j = expo (lv w) j) ->
  v < n -> d = degv (skipn v (lv w)) -> (v = 0 \/ 0 < d) -> (dbg = true -> t <> Nil -> 0 < d) ->
  ~ In (lv w) (lms (wraps t)) -> (forall i, v <= i -> i < n -> fl w i = false) ->
  exists t', ins_loop dbg w d v t = Ok t' /\ t' <> Nil /\ wf n v t' /\ flagsT n v t' /\
    Forall (okw n) (wraps t') /\
    Permutation (map (er v) (wraps t')) (er v w :: map (er v) (wraps t)) /\
    match t, t' with
    | Node dg _ _ _, Node dg' _ _ _ => dg' = dg \/ dg' = expo (lv w) v
    | _, _ => True
    end.
Proof.
  revert d v w; induction t as [|dg ow nd IHd nv IHv]; intros d v w OW W F OT AG Hv Ed Dv Db ND FZ.
  - (* empty link: build *)
    cbn [ins_loop].
    destruct (build_at_ok dbg n w d v Nil) as (ow & nv & E & Wr & W' & F'); auto.
    { intros u []. }
    { split; [|congruence]. intros H; rewrite FZ in H by lia; discriminate. }
    { intros; apply FZ; lia. }
    exists (Node (expo (lv w) v) ow Nil nv). rewrite Wr. cbn [map wraps].
    split; [auto|]. split; [discriminate|]. split; [auto|]. split; [auto|].
    split; [auto|]. split; auto.
  - pose proof W as W0. cbn [wf] in W. destruct W as (_ & A & K & B & C & D & Wd & Wv).
    pose proof F as F0. cbn [flagsT] in F. destruct F as (F1 & F2 & F3 & F4).
    pose proof OT as OT0. cbn [wraps] in OT. rewrite !Forall_app in OT. destruct OT as (O1 & O2 & O3).
    pose proof OW as OW0. destruct OW0 as (L1 & L2 & L3 & L4).
    cbn [ins_loop].
    assert (Dpos : assert_ dbg (Nat.ltb 0 d) = @id (outcome tree)).
    { unfold assert_, id. destruct dbg; [|reflexivity]. specialize (Db eq_refl).
      destruct (Nat.ltb_spec 0 d); [reflexivity|]. assert (0 < d) by (apply Db; discriminate). lia. }
    rewrite Dpos. unfold id. rewrite mget_ok by (unfold lv in L1; lia). cbn [bind].
    change (vars (wlm w)) with (lv w). set (x := expo (lv w) v) in *.
    destruct (Nat.ltb_spec dg x) as [H1|H1]; cbn [andb].
    + destruct nd as [|dn own ndn nvn] eqn:End.
      * (* last node of the chain, smaller degree *)
        cbn [is_nil negb]. destruct (Nat.ltb_spec x dg); [lia|].
        assert (SO : exists ow', opt_set_nm dbg ow v = Ok ow' /\
          (forall u', ow' = Some u' -> exists u, ow = Some u /\ okw n u' /\ wlm u' = wlm u /\
             er v u' = er v u /\ (forall j, fl u' j = if Nat.eqb j v then true else fl u j)) /\
          (ow' = None -> ow = None) /\
          map (er v) (match ow' with Some u => [u] | None => [] end) =
          map (er v) (match ow with Some u => [u] | None => [] end) /\
          Forall (okw n) (match ow' with Some u => [u] | None => [] end)).
        { destruct ow as [u|]; cbn [opt_set_nm].
          - pose proof (Forall_inv O1) as Ou0.
            destruct (set_nm_spec dbg n u v) as (u' & E & Ou & L & _ & _ & _ & J & R); auto.
            rewrite E; cbn [bind]. exists (Some u'). repeat split; try discriminate.
            + intros u1 Eu; injection Eu as <-. exists u. auto 10.
            + cbn. rewrite R; auto.
            + auto.
          - exists None. repeat split; auto; discriminate. }
        destruct SO as (ow' & E1 & S1 & S2 & S3 & S4). rewrite E1; cbn [bind].
        destruct (set_nm_tree_ok dbg n v nv) as (nv' & E2 & O2' & P2 & N2 & D2 & W2 & F2'); auto.
        rewrite E2; cbn [bind].
        destruct (build_at_ok dbg n w d v Nil) as (own & nvn & E & Wr & W' & F'); auto.
        { intros u []. }
        { split; [|congruence]. intros H'; rewrite FZ in H' by lia; discriminate. }
        { intros; apply FZ; lia. }
        rewrite E; cbn [bind].
        set (R := fun u u' => wlm u' = wlm u /\ er v u' = er v u /\
             (forall j, fl u' j = if Nat.eqb j v then true else fl u j)) in *.
        assert (INV : forall l l', Forall2 R l l' -> forall u', In u' l' -> exists u, In u l /\ R u u').
        { induction 1 as [|y z l l' Hy _ IH]; cbn; [tauto|]. intros u' [<-|I].
          - exists y; auto.
          - destruct (IH u' I) as (u & ? & ?). exists u; auto. }
        assert (LV : forall l l', Forall2 R l l' -> lms l = lms l').
        { induction 1 as [|y z l l' (Hy & _) _ IH]; unfold lms in *; cbn [map]; [reflexivity|]. rewrite IH. unfold lv. now rewrite Hy. }
        assert (EV : forall l l', Forall2 R l l' -> map (er v) l = map (er v) l').
        { induction 1 as [|y z l l' (_ & Hy & _) _ IH]; cbn; [reflexivity|]. now rewrite IH, Hy. }
        exists (Node dg ow' (Node (expo (lv w) v) own Nil nvn) nv').
        split; [reflexivity|]. split; [discriminate|].
        split; [|split; [|split; [|split]]].
        -- cbn [wf]. split; [auto|].
           split; [|split; [|split; [|split; [|split; [auto|split; [apply W'|auto]]]]]].
           ++ intros u Hu. destruct (S1 _ Hu) as (u0 & Eu & _ & Lu & _). unfold lv. rewrite Lu. apply (A _ Eu).
           ++ intros Hn. specialize (K (S2 Hn)). tauto.
           ++ intros u I. destruct (INV _ _ P2 _ I) as (u0 & I0 & Ru & _). unfold lv. rewrite Ru. apply B; auto.
           ++ rewrite Wr. cbn. intros u [<-|[]]. auto.
        -- cbn [flagsT]. split; [|split; [|split]]; auto.
           ++ intros u' Hu. destruct (S1 _ Hu) as (u0 & Eu & _ & Lu & _ & Ju). split.
              ** rewrite Ju, Nat.eqb_refl. split; [discriminate|auto].
              ** intros i Hi1 Hi2. rewrite Ju. destruct (Nat.eqb_spec i v); [lia|].
                 destruct (F1 _ Eu) as (_ & G). rewrite (G i Hi1 Hi2).
                 rewrite (LV _ _ P2). unfold lv. now rewrite Lu.
           ++ intros u' Hu. destruct (INV _ _ P2 _ Hu) as (u0 & I0 & _ & _ & Ju).
              rewrite Ju, Nat.eqb_refl. split; [discriminate|auto].
        -- cbn [wraps] in Wr |- *. rewrite Wr. rewrite !Forall_app. repeat split; auto.
        -- cbn [wraps] in Wr |- *. rewrite Wr. cbn [wraps]. rewrite app_nil_r, !map_app, S3, <- (EV _ _ P2). cbn [map].
           rewrite app_assoc. symmetry. apply Permutation_cons_append.
        -- auto.
      * (* go on in the degree chain *)
        cbn [is_nil negb].
        rewrite <- End in *. assert (NN : nd <> Nil) by (rewrite End; discriminate).
        destruct (IHd d v w) as (nd' & E & N' & W' & F' & O' & P' & M'); auto.
        { intros u Iu. apply AG. cbn [wraps]. apply in_or_app; right; apply in_or_app; auto. }
        { intros Hdb _. apply Db; [auto|discriminate]. }
        { intros I. apply ND. cbn [wraps]. unfold lms. rewrite !map_app. apply in_or_app; right; apply in_or_app; auto. }
        rewrite E; cbn [bind]. exists (Node dg ow nd' nv).
        split; [reflexivity|]. split; [discriminate|].
        split; [|split; [|split; [|split]]].
        -- cbn [wf]. split; [auto|].
           split; [auto|split; [auto|split; [auto|split; [|split; [|split; [auto|auto]]]]]].
           ++ intros u I. pose proof (Permutation_map_In _ _ _ _ P' I) as Iu.
              cbn in Iu. destruct Iu as [Iu|Iu].
              ** apply er_lv in Iu. rewrite <- Iu. auto.
              ** apply in_map_iff in Iu as (u0 & Eu & I0). apply er_lv in Eu. rewrite <- Eu. auto.
           ++ destruct nd' as [|dn' ? ? ?]; auto.
              destruct M' as [->| ->]; auto.
        -- cbn [flagsT]. split; [|split; [|split]]; auto.
           ++ intros u Hu. destruct (F1 _ Hu) as (G1 & G2). split; [tauto|auto].
           ++ intros u Hu. specialize (F2 _ Hu). tauto.
        -- cbn [wraps]. rewrite !Forall_app. auto.
        -- cbn [wraps]. rewrite !map_app. rewrite P'.
           rewrite !app_assoc. symmetry. apply Permutation_middle.
        -- auto.
    + destruct (Nat.ltb_spec x dg) as [H2|H2].
      * (* new first node *)
        destruct (set_nm_spec dbg n w v) as (w' & E & Ow' & L & _ & _ & _ & J & R); auto.
        rewrite E; cbn [bind].
        assert (Elv : lv w' = lv w) by (unfold lv; now rewrite L).
        destruct (build_at_ok dbg n w' d v (Node dg ow nd nv)) as (ow' & nv' & E' & Wr & W' & F'); auto.
        { now rewrite Elv. }
        { rewrite Elv. fold x. cbn [wraps]. intros u Iu.
          apply in_app_or in Iu as [Iu|Iu]; [|apply in_app_or in Iu as [Iu|Iu]].
          - destruct ow as [u0|]; [|destruct Iu]. destruct Iu as [<-|[]]. destruct (A _ eq_refl) as (-> & _); lia.
          - rewrite (B _ Iu); lia.
          - specialize (C _ Iu); lia. }
        { rewrite Elv. auto. }
        { rewrite J, Nat.eqb_refl. split; [discriminate|auto]. }
        { intros i Hi1 Hi2. rewrite J. destruct (Nat.eqb_spec i v); [lia|]. apply FZ; lia. }
        rewrite E'. eexists; split; [reflexivity|]. split; [discriminate|].
        split; [auto|]. split; [auto|].
        split; [rewrite Wr; constructor; auto|]. split.
        -- rewrite Wr. cbn [map]. rewrite R by lia. apply Permutation_refl.
        -- rewrite Elv. auto.
      * (* same degree *)
        assert (Ex : x = dg) by lia. clear H1 H2.
        rewrite degv_skipn in Ed by lia. fold x in Ed.
        destruct (Nat.ltb_spec d x); [lia|].
        assert (S1 : exists w1, (if is_nil nd then Ok w else set_nm dbg w v) = Ok w1 /\ okw n w1 /\
            wlm w1 = wlm w /\ er v w1 = er v w /\ (fl w1 v = true <-> nd <> Nil) /\
            (forall i, v < i -> fl w1 i = fl w i)).
        { destruct nd as [|dn own ndn nvn]; cbn [is_nil].
          - exists w. repeat split; auto; try congruence. intros Hf; rewrite FZ in Hf by lia; discriminate.
          - destruct (set_nm_spec dbg n w v) as (w' & E & Ow' & L & _ & _ & _ & J & R); auto.
            exists w'. repeat split; auto; try discriminate; try apply Ow'.
            + intros _. now rewrite J, Nat.eqb_refl.
            + intros i Hi. rewrite J. destruct (Nat.eqb_spec i v); [lia|auto]. }
        destruct S1 as (w1 & E1 & Ow1 & Lw1 & Rw1 & Fv1 & Fi1). rewrite E1; cbn [bind].
        assert (Elv1 : lv w1 = lv w) by (unfold lv; now rewrite Lw1).
        destruct (Nat.eqb_spec (d - x) 0) as [D0|D0].
        -- (* wrap belongs to this node *)
           assert (Zw : degv (skipn (S v) (lv w)) = 0) by lia.
           assert (Eow : ow = None).
           { destruct ow as [u|]; auto. exfalso. apply ND. cbn [wraps]. left.
             destruct (A _ eq_refl) as (A1 & A2 & _). destruct (Forall_inv O1) as (Lu & _).
             apply expo_ext; [lia|]. intros i _.
             destruct (Nat.lt_trichotomy i v) as [Hi|[->|Hi]].
             - apply AG; [cbn [wraps]; apply in_or_app; left; cbn; auto|auto].
             - unfold x in *; lia.
             - rewrite A2 by lia. symmetry. eapply degv_skipn_zero; [exact Zw|lia]. }
           subst ow. cbn [bind].
           destruct (walk_ok dbg n w1 (S v) nv) as (w2 & E2 & Ow2 & Rw2 & F2'); auto; try lia.
           { intros u Iu j Hj. rewrite Elv1. destruct (Nat.eq_dec j v) as [->|].
             - rewrite (B _ Iu). auto.
             - apply AG; [cbn [wraps]; cbn; apply in_or_app; auto|lia]. }
           { intros i Hi. rewrite Elv1. eapply degv_skipn_zero; [exact Zw|lia]. }
           { intros i Hi1 Hi2. rewrite Fi1 by lia. apply FZ; lia. }
           rewrite E2; cbn [bind].
           assert (Elv2 : lv w2 = lv w) by (apply er_lv in Rw2; congruence).
           exists (Node dg (Some w2) nd nv). split; [reflexivity|]. split; [discriminate|].
           split; [|split; [|split; [|split]]].
           ++ cbn [wf]. repeat split; auto; try discriminate.
              ** injection H0 as <-. rewrite Elv2. auto.
              ** injection H0 as <-. intros i Hi. rewrite Elv2. eapply degv_skipn_zero; [exact Zw|lia].
              ** intros Pv. destruct Dv; lia.
           ++ cbn [flagsT]. split; [|split; [|split]]; auto.
              intros u Hu. injection Hu as <-. split.
              ** rewrite <- Fv1. rewrite (er_fl (S v) w2 w1) by (auto; lia). tauto.
              ** intros i Hi1 Hi2. rewrite F2' by lia. rewrite Elv1, Elv2. tauto.
           ++ cbn [wraps]. rewrite !Forall_app. repeat split; auto.
           ++ cbn [wraps app map]. rewrite <- (er_er v (S v) w2) by lia. rewrite Rw2.
              rewrite (er_er v (S v) w1) by lia. rewrite Rw1. apply Permutation_refl.
           ++ auto.
        -- (* go down *)
           assert (Sv : S v < n).
           { destruct (Nat.lt_ge_cases (S v) n); auto. rewrite degv_skipn_ge in Ed by lia. lia. }
           destruct (first_nz_ok dbg (skipn (S v) (lv w)) (S v)) as (i0 & Enz & Hi0 & Pi0 & Zi0); [lia|].
           rewrite skipn_length in Hi0. rewrite expo_skipn in Pi0.
           (* both updates of the wrap stored here set the flag of the first non-zero variable *)
           assert (S2 : exists ow1, match ow with
                     | Some u =>
                         match first_gt (skipn (S v) (lv w)) (skipn (S v) (vars (wlm u))) (S v) with
                         | Some v0 => opt_set_nm dbg ow v0
                         | None => Ok ow
                         end
                     | None => Ok None
                     end = Ok ow1 /\
                 exists ow2, (if is_nil nv
                          then match ow1 with
                               | None => if dbg then AssertFail else Undef
                               | Some u => do v0 <- first_nz dbg (skipn (S v) (lv w)) (S v);
                                           opt_set_nm dbg ow1 v0
                               end
                          else Ok ow1) = Ok ow2 /\
                  (ow = None -> ow2 = None) /\
                  (forall u', ow2 = Some u' -> exists u, ow = Some u /\ okw n u' /\ wlm u' = wlm u /\
                     er (S v) u' = er (S v) u /\
                     (forall j, fl u' j = if Nat.eqb j (S v + i0) then true else fl u j)) /\
                  (forall u, ow = Some u -> exists u', ow2 = Some u' /\ er (S v) u' = er (S v) u)).
           { destruct ow as [u|].
             - destruct (A _ eq_refl) as (A1 & A2 & _). pose proof (Forall_inv O1) as Ou.
               pose proof Ou as (Lu & _). change (vars (wlm u)) with (lv u).
               pose proof (first_gt_spec (skipn (S v) (lv w)) (skipn (S v) (lv u)) (S v)) as G.
               rewrite !skipn_length in G. specialize (G ltac:(lia)).
               assert (Zu : forall j, expo (skipn (S v) (lv u)) j = 0) by (intros; rewrite expo_skipn; apply A2; lia).
               destruct (first_gt (skipn (S v) (lv w)) (skipn (S v) (lv u)) (S v)) as [k|].
               2:{ exfalso. specialize (G i0). rewrite Zu, expo_skipn in G. lia. }
               destruct G as (j & -> & Hj & Gj & Qj).
               assert (j = i0).
               { rewrite Zu in Gj. destruct (Nat.lt_trichotomy j i0) as [Hlt|[|Hlt]]; auto.
                 - rewrite Zi0 in Gj; lia.
                 - specialize (Qj i0 Hlt). rewrite Zu, expo_skipn in Qj. lia. }
               subst j. cbn [opt_set_nm].
               destruct (set_nm_spec dbg n u (S v + i0)) as (u' & E & Ou' & L & _ & _ & _ & J & R); auto; try lia.
               rewrite E; cbn [bind]. exists (Some u'); split; auto.
               destruct (is_nil nv).
               + rewrite Enz; cbn [bind opt_set_nm].
                 destruct (set_nm_spec dbg n u' (S v + i0)) as (u2 & E2 & Ou2 & L' & _ & _ & _ & J' & R'); auto; try lia.
                 rewrite E2; cbn [bind]. exists (Some u2). split; auto. split; [discriminate|]. split.
                 * intros u3 Eu; injection Eu as <-. exists u. repeat split; auto; try apply Ou2.
                   -- congruence.
                   -- rewrite R', R by lia; auto.
                   -- intros j. rewrite J', J. destruct (Nat.eqb j (S v + i0)); auto.
                 * intros u3 Eu; injection Eu as <-. exists u2. split; auto. rewrite R', R by lia; auto.
               + exists (Some u'). split; auto. split; [discriminate|]. split.
                 * intros u3 Eu; injection Eu as <-. exists u. repeat split; auto; try apply Ou'. rewrite R by lia; auto.
                 * intros u3 Eu; injection Eu as <-. exists u'. split; auto. rewrite R by lia; auto.
             - exists None. split; auto. specialize (K eq_refl).
               destruct nv; [congruence|]. cbn [is_nil]. exists None. repeat split; auto; discriminate. }
           destruct S2 as (ow1 & Eo1 & ow2 & Eo2 & N2 & G2 & G3).
           rewrite Eo1; cbn [bind]. rewrite Eo2; cbn [bind].
           destruct (IHv (d - x) (S v) w1) as (nv' & E & N' & W' & F' & O' & P' & _); auto.
           { intros u Iu j Hj. rewrite Elv1. destruct (Nat.eq_dec j v) as [->|].
             - rewrite (B _ Iu). auto.
             - apply AG; [cbn [wraps]; apply in_or_app; right; apply in_or_app; auto|lia]. }
           { rewrite Elv1. lia. }
           { lia. }
           { intros; lia. }
           { rewrite Elv1. intros I. apply ND. cbn [wraps]. unfold lms. rewrite !map_app.
             apply in_or_app; right; apply in_or_app; auto. }
           { intros i Hi1 Hi2. rewrite Fi1 by lia. apply FZ; lia. }
           rewrite E; cbn [bind]. exists (Node dg ow2 nd nv').
           assert (INV : forall u, In u (wraps nv') -> er (S v) u = er (S v) w1 \/
                           exists u0, In u0 (wraps nv) /\ er (S v) u = er (S v) u0).
           { intros u I. pose proof (Permutation_map_In _ _ _ _ P' I) as Iu. cbn [In] in Iu.
             destruct Iu as [Iu|Iu]; [left; auto|right].
             apply in_map_iff in Iu as (u0 & Eu & I0). exists u0; auto. }
           assert (LP : Permutation (lms (wraps nv')) (lv w :: lms (wraps nv))).
           { apply (Permutation_map lv) in P'. rewrite map_map in P'. cbn [map] in P'. rewrite map_map in P'.
             change (map (fun x0 : wrap => lv (er (S v) x0)) (wraps nv')) with (lms (wraps nv')) in P'.
             change (map (fun x0 : wrap => lv (er (S v) x0)) (wraps nv)) with (lms (wraps nv)) in P'.
             change (lv (er (S v) w1)) with (lv w1) in P'. rewrite Elv1 in P'. exact P'. }
           split; [reflexivity|]. split; [discriminate|].
           split; [|split; [|split; [|split]]].
           ++ cbn [wf]. split; [lia|]. split; [|split; [|split; [|split; [|split; [|split]]]]]; auto.
              ** intros u Hu. destruct (G2 _ Hu) as (u0 & Eu & _ & Lu & _). unfold lv. rewrite Lu. apply (A _ Eu).
              ** intros u Iu. destruct (INV u Iu) as [Eu|(u0 & I0 & Eu)]; apply er_lv in Eu; rewrite Eu.
                 --- rewrite Elv1. auto.
                 --- auto.
           ++ cbn [flagsT]. split; [|split; [|split]]; auto.
              ** intros u Hu. destruct (G2 _ Hu) as (u0 & Eu & Ou & Lu & Ru & Ju).
                 destruct (F1 _ Eu) as (K1 & K2). destruct (A _ Eu) as (A1 & A2 & _). split.
                 --- rewrite (er_fl (S v) u u0) by (auto; lia). auto.
                 --- intros i Hi1 Hi2. rewrite Ju. rewrite (janet_nm_perm _ _ _ _ LP), janet_nm_cons.
                     assert (Elvu : lv u = lv u0) by (unfold lv; now rewrite Lu). rewrite Elvu.
                     rewrite <- (K2 i Hi1 Hi2). rewrite janet_nm_one.
                     assert (AGu : forall j, j < v -> expo (lv u0) j = expo (lv w) j).
                     { intros j Hj. apply AG; auto. subst ow. cbn [wraps]. cbn; auto. }
                     destruct (Nat.eqb_spec i (S v + i0)) as [->|Ni].
                     +++ split; [intros _; left|auto]. rewrite A2 by lia. split; [|lia].
                         intros j Hj. destruct (Nat.lt_trichotomy j v) as [Hjv|[->|Hjv]].
                         *** symmetry; auto.
                         *** rewrite A1. auto.
                         *** rewrite A2 by lia. specialize (Zi0 (j - S v) ltac:(lia)).
                             rewrite expo_skipn in Zi0. replace (S v + (j - S v)) with j in Zi0 by lia. auto.
                     +++ split; [auto|]. intros [(Q1 & Q2)|]; auto. exfalso.
                         rewrite A2 in Q2 by lia.
                         destruct (Nat.lt_ge_cases i (S v + i0)).
                         *** specialize (Zi0 (i - S v) ltac:(lia)). rewrite expo_skipn in Zi0.
                             replace (S v + (i - S v)) with i in Zi0 by lia. lia.
                         *** rewrite (Q1 (S v + i0)) in Pi0 by lia. rewrite A2 in Pi0 by lia. lia.
              ** intros u Iu. destruct (INV u Iu) as [Eu|(u0 & I0 & Eu)].
                 --- rewrite (er_fl (S v) u w1) by (auto; lia). auto.
                 --- rewrite (er_fl (S v) u u0) by (auto; lia). auto.
           ++ cbn [wraps]. rewrite !Forall_app. repeat split; auto.
              destruct ow2 as [u|]; auto. destruct (G2 _ eq_refl) as (_ & _ & Ou & _). auto.
           ++ cbn [wraps]. rewrite !map_app.
              assert (PO : map (er v) match ow2 with Some u => [u] | None => [] end =
                           map (er v) match ow with Some u => [u] | None => [] end).
              { destruct ow as [u|].
                - destruct (G3 _ eq_refl) as (u' & -> & Ru). cbn.
                  rewrite <- (er_er v (S v) u'), <- (er_er v (S v) u) by lia. now rewrite Ru.
                - now rewrite (N2 eq_refl). }
              rewrite PO.
              apply (Permutation_map (er v)) in P'. rewrite map_map in P'. cbn [map] in P'. rewrite map_map in P'.
              rewrite (map_ext (fun x0 => er v (er (S v) x0)) (er v)) in P' by (intros; apply er_er; lia).
              rewrite (map_ext (fun x0 => er v (er (S v) x0)) (er v)) in P' by (intros; apply er_er; lia).
              rewrite er_er in P' by lia. rewrite Rw1 in P'. rewrite P'. cbn [app].
              symmetry. apply Permutation_middle.
           ++ auto.
Qed.
