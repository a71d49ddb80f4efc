(** Calls of util/list.h that the specification of C29 does not allow. *)
From Coq Require Import List Arith Bool Lia.
From Verif Require Import Outcome RandPermModel RandPermProofs ListModel ListSpec ListProofs.
Import ListNotations.

Section M.
Context {T : Type}.
Implicit Types (h : mem T) (st : state T) (v : view T).

Lemma start_sim : simulates (T:=T) lstart vstart.
Proof.
  exists (fun _ => []), []. cbn. split; [|split; [reflexivity|discriminate]]. split; cbn; try tauto; try lia.
  - intros [|l] s X; discriminate.
  - intros [|n] x X; discriminate.
Qed.
Lemma empty_head (dbg : bool) st v l : simulates st v -> nth_error (seqs v) l = Some [] ->
  lstep dbg st (Head l) = (if dbg then AssertFail else Undef) /\ lstep dbg st (Pop l) = (if dbg then AssertFail else Undef).
Proof.
  intros (A & D & I & _) E. destruct (i_seg _ _ _ _ _ I l [] E) as (p & P & S). destruct (A l); [|contradiction]. cbn in S. subst p.
  unfold lstep, l_head, l_pop, get_list. rewrite (rd_ok _ _ _ P). cbn [bind mHead]. destruct dbg; split; reflexivity.
Qed.
Lemma at_end (dbg : bool) st v l a : simulates st v -> cur v = Some (l, a, []) ->
  lstep dbg st Next = Undef /\ lstep dbg st Data = Undef /\ lstep dbg st Del = Undef /\ lstep dbg st Get = Undef.
Proof.
  intros (A & D & I & _ & C) E. destruct (C l a [] E) as (na & nb & Si & Cu). destruct (cursor_facts _ _ _ _ _ _ _ _ _ _ Cu) as (p & q & _ & _ & S2 & _ & _ & _ & R).
  destruct nb; [|contradiction]. cbn in S2. subst q. unfold lstep, with_it. rewrite Si. unfold it_next, it_data, it_del, it_get. cbn [mLink]. rewrite R. repeat split; reflexivity.
Qed.
Lemma no_detached (dbg : bool) st v : simulates st v -> cur v <> None -> det v = None -> lstep dbg st Link = Undef.
Proof.
  intros (A & D & I & Sd & C) N E. destruct (cur v) as [[[l a] b]|]; [|contradiction]. destruct (C l a b eq_refl) as (na & nb & Si & _). rewrite E in I. pose proof (i_det _ _ _ _ _ I) as X.
  destruct D as [|? [|? ?]]; cbn in X; try contradiction. unfold lstep, with_it. rewrite Si, Sd. reflexivity.
Qed.
Lemma clear_any (dbg : bool) h ss A D d l na nb a b : cursor h ss A D d l na nb a b -> exists h' A', it_clear_loop (S (length (heap h))) h (Iter l (link_of l na)) = Ok h' /\
  it_clear dbg h (Iter l (link_of l na)) = (if dbg && negb (length a =? 0) then AssertFail else Ok h') /\ inv h' (upd ss l a) A' D d.
Proof.
  intro C. destruct (clear_loop_ok b (S (length (heap h))) h ss A D d l na nb a C) as (h' & A' & E & C').
  { destruct (cursor_facts _ _ _ _ _ _ _ _ _ _ C) as (p & q & _ & _ & S2 & _). rewrite <- (lseg_len _ _ _ _ _ S2).
    pose proof (owned_count _ _ _ _ _ l (c_inv _ _ _ _ _ _ _ _ _ _ C) (nth_lt _ _ _ (c_seq _ _ _ _ _ _ _ _ _ _ C))) as X.
    rewrite (c_adr _ _ _ _ _ _ _ _ _ _ C), app_length in X. lia. }
  exists h', A'. split; [exact E|]. split; [|apply C']. unfold it_clear. rewrite E. cbn [bind mList].
  destruct (cursor_facts _ _ _ _ _ _ _ _ _ _ C') as (p & q & P & _). unfold get_list. rewrite (rd_ok _ _ _ P). cbn [bind mLength]. rewrite app_nil_r.
  unfold assert_. destruct (dbg && negb (length a =? 0)); reflexivity.
Qed.
Lemma inv_contain st ss A D d : inv (smem st) ss A D d -> contain st ss.
Proof.
  intro I. split; [apply (i_len _ _ _ _ _ I)|]. intros l s E. destruct (i_seg _ _ _ _ _ I l s E) as (p & P & S). eauto using lseg_chain.
Qed.
Lemma self_assign (dbg : bool) st v l s : simulates st v -> nth_error (seqs v) l = Some s ->
  if dbg then lstep dbg st (Assign l l) = AssertFail else exists st', lstep dbg st (Assign l l) = Ok (st', ONone) /\ contain st' (put (seqs v) l []).
Proof.
  intros (A & D & I & _) E. unfold lstep, l_assign, assert_. rewrite Nat.eqb_refl. destruct dbg; cbn [negb andb]; [reflexivity|].
  destruct (clear_ok false _ _ _ _ _ _ _ _ _ (begin_cursor _ _ _ _ _ _ _ I E)) as (h' & A' & W & _ & C). change (Iter l (link_of l [])) with (it_begin l) in W. rewrite W. cbn [bind].
  destruct (cursor_facts _ _ _ _ _ _ _ _ _ _ C) as (p & q & P & S1 & S2 & _). cbn in S1, S2. subst q p. unfold get_list. rewrite (rd_ok _ _ _ P). cbn [bind mHead mLength l_copy_loop].
  eexists. split; [reflexivity|]. eapply inv_contain. apply (c_inv _ _ _ _ _ _ _ _ _ _ C).
Qed.
Lemma clear_here (dbg : bool) st v l a b : simulates st v -> cur v = Some (l, a, b) -> a <> [] ->
  if dbg then lstep dbg st ClearHere = AssertFail else exists st', lstep dbg st ClearHere = Ok (st', ONone) /\ contain st' (put (seqs v) l a).
Proof.
  intros (A & D & I & _ & C) E N. destruct (C l a b E) as (na & nb & Si & Cu). destruct (clear_any dbg _ _ _ _ _ _ _ _ _ _ Cu) as (h' & A' & _ & W & I').
  unfold lstep, with_it. rewrite Si, W. destruct a as [|x a]; [contradiction|]. destruct dbg; cbn [andb negb length Nat.eqb bind]; [reflexivity|].
  eexists. split; [reflexivity|]. eapply inv_contain. exact I'.
Qed.
End M.

(** Everything the specification does not allow, except calls about lists that do not exist, iterators that may not be used any more
    and a second node taken out. *)
Lemma c29_misuse (T : Type) (dbg : bool) (os : list (op T)) (v : view T) (xs : list (obs T)) : vrun vstart os = Some (v, xs) ->
  exists st, lrun dbg lstart os = Ok (st, xs) /\
    (forall l, nth_error (seqs v) l = Some [] -> lstep dbg st (Head l) = (if dbg then AssertFail else Undef) /\ lstep dbg st (Pop l) = (if dbg then AssertFail else Undef)) /\
    (forall l a, cur v = Some (l, a, []) -> lstep dbg st Next = Undef /\ lstep dbg st Data = Undef /\ lstep dbg st Del = Undef /\ lstep dbg st Get = Undef) /\
    (cur v <> None -> det v = None -> lstep dbg st Link = Undef) /\
    (forall l s, nth_error (seqs v) l = Some s ->
       if dbg then lstep dbg st (Assign l l) = AssertFail else exists st', lstep dbg st (Assign l l) = Ok (st', ONone) /\ contain st' (put (seqs v) l [])) /\
    (forall l a b, cur v = Some (l, a, b) -> a <> [] ->
       if dbg then lstep dbg st ClearHere = AssertFail else exists st', lstep dbg st ClearHere = Ok (st', ONone) /\ contain st' (put (seqs v) l a)).
Proof.
  intro E. destruct (run_ok dbg os lstart vstart v xs start_sim E) as (st & R & S). exists st. split; [exact R|].
  split; [intros; eapply empty_head; eassumption|]. split; [intros; eapply at_end; eassumption|]. split; [intros; eapply no_detached; eassumption|].
  split; [intros; eapply self_assign; eassumption|]. intros; eapply clear_here; eassumption.
Qed.
Lemma c29_misuse_case : exists v xs, vrun vstart [New; New; Push 0 7; Push 0 8; Begin 0; Next; Next] = Some (v, xs) /\ nth_error (seqs v) 1 = Some [] /\ cur v = Some (0, [8; 7], []) /\ det v = None.
Proof. do 2 eexists. split; [vm_compute; reflexivity|]. repeat split. Qed.
