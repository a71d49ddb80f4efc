(** Proofs about JanetCostModel. *)
From Coq Require Import ZArith List Bool Arith Lia Permutation.
From Verif Require Import Outcome MonomModel MonomSpec MonomProofs JanetModel JanetSpec JanetProofs JanetTopProofs GBModel JanetCostModel.
Import ListNotations.
Local Open Scope nat_scope.

Definition room (l : list nat) : nat := fold_right (fun x s => S x + s) 0 l.
Lemma room_total l : room l = total l + length l.
Proof. induction l as [|x l IH]; [reflexivity|]. cbn [room fold_right length]. fold (room l). rewrite IH. unfold total. cbn. lia. Qed.
Lemma room_skip l : forall v x, nth_error l v = Some x -> room (skipn v l) = S x + room (skipn (S v) l).
Proof. induction l as [|y l IH]; intros [|v] x E; cbn in E; try discriminate; [injection E as ->; reflexivity|]. exact (IH v x E). Qed.

Definition first_deg (t : tree) : nat := match t with Nil => 0 | Node dg _ _ _ => dg end.

(** The instrumented search is the search ... *)
Lemma find_loop_same dbg m : forall j d v, find_loop dbg m d v j = do x <- find_loop_c dbg m d v j; Ok (fst x).
Proof.
  induction j as [|dg ow nd IHd nv IHv]; intros d v; [destruct dbg; reflexivity|]. cbn [find_loop find_loop_c]. unfold visit, check1, end_, assert_div, assert_.
  destruct (dbg && negb (0 <? d)); [reflexivity|]. destruct (mget dbg m v) as [x| | | |]; try reflexivity. cbn [bind].
  destruct (_ && _).
  { rewrite IHd. destruct (find_loop_c dbg m d v nd); reflexivity. }
  destruct (x <? dg); [reflexivity|]. destruct (d <? x); [reflexivity|]. cbv zeta. destruct (d - x =? 0).
  { destruct ow; cbn [bind]; destruct (dbg && _); reflexivity. }
  destruct ow as [u|]; cbn [bind].
  - destruct (check_div dbg u m) as [b| | | |]; cbn [bind]; try reflexivity. destruct b; [reflexivity|]. destruct (is_nil nv); [destruct (dbg && _); reflexivity|].
    rewrite IHv. destruct (find_loop_c dbg m (d - x) (S v) nv); reflexivity.
  - destruct (is_nil nv); [destruct (dbg && _); reflexivity|]. rewrite IHv. destruct (find_loop_c dbg m (d - x) (S v) nv); reflexivity.
Qed.
Lemma find_same dbg t m : find dbg t m = do x <- find_c dbg t m; Ok (fst x).
Proof.
  unfold find, find_c. destruct t as [|dg ow nd nv]; [reflexivity|]. destruct (deg m =? 0); [destruct (dg =? 0); reflexivity|]. apply find_loop_same.
Qed.

(** ... and what it visits is bounded by the exponents. *)
Lemma find_loop_cost dbg n m : length (vars m) = n -> forall j d v w c, wf n v j -> find_loop_c dbg m d v j = Ok (w, c) ->
  match nth_error (vars m) v with
  | Some x => visited c <= S (x - first_deg j) + room (skipn (S v) (vars m)) /\ checked_elems c <= n - v
  | None => False
  end.
Proof.
  intro Lm. induction j as [|dg ow nd IHd nv IHv]; intros d v w c W E; [destruct dbg; discriminate|].
  destruct W as (Hv & _ & _ & _ & _ & Hd & Wd & Wv). cbn [find_loop_c] in E. unfold visit, check1, end_, assert_div, assert_ in E.
  destruct (dbg && negb (0 <? d)); [discriminate|]. unfold mget in E. destruct (nth_error (vars m) v) as [x|] eqn:Ex; [|destruct dbg; discriminate]. cbn [bind] in E. cbn [first_deg].
  destruct ((dg <? x) && negb (is_nil nd)) eqn:B.
  { apply andb_prop in B as [B1 B2]. apply Nat.ltb_lt in B1. destruct (find_loop_c dbg m d v nd) as [[w' c']| | | |] eqn:E'; cbn [bind] in E; try discriminate.
    injection E as <- <-. cbn [visited checked_elems snd]. assert (X := IHd _ _ _ _ Wd E'). rewrite Ex in X. destruct nd as [|dn ow' nd' nv']; [discriminate|]. cbn [first_deg] in X. lia. }
  destruct (x <? dg); [injection E as <- <-; cbn; lia|]. destruct (d <? x); [discriminate|]. cbv zeta in E. destruct (d - x =? 0).
  { destruct ow; cbn [bind] in E; destruct (dbg && _); try discriminate; injection E as <- <-; cbn; lia. }
  assert (K : forall w' c', find_loop_c dbg m (d - x) (S v) nv = Ok (w', c') -> visited c' <= room (skipn (S v) (vars m)) /\ checked_elems c' <= n - S v).
  { intros w' c' E'. assert (X := IHv _ _ _ _ Wv E'). destruct (nth_error (vars m) (S v)) as [y|] eqn:Ey; [|destruct X]. rewrite (room_skip _ _ _ Ey). lia. }
  destruct ow as [u|]; cbn [bind] in E.
  - destruct (check_div dbg u m) as [b| | | |]; cbn [bind] in E; try discriminate. destruct b; [injection E as <- <-; cbn; lia|].
    destruct (is_nil nv); [destruct (dbg && _); cbn [bind] in E; try discriminate; injection E as <- <-; cbn; lia|].
    destruct (find_loop_c dbg m (d - x) (S v) nv) as [[w' c']| | | |] eqn:E'; cbn [bind] in E; try discriminate. injection E as <- <-. cbn [visited checked_elems snd fst].
    specialize (K _ _ eq_refl). lia.
  - destruct (is_nil nv); [destruct (dbg && _); cbn [bind] in E; try discriminate; injection E as <- <-; cbn; lia|].
    destruct (find_loop_c dbg m (d - x) (S v) nv) as [[w' c']| | | |] eqn:E'; cbn [bind] in E; try discriminate. injection E as <- <-. cbn [visited checked_elems snd fst].
    specialize (K _ _ eq_refl). lia.
Qed.
Lemma find_cost dbg n t m w c : 0 < n -> length (vars m) = n -> wf n 0 t -> find_c dbg t m = Ok (w, c) -> visited c <= total (vars m) + n /\ checked_elems c <= n.
Proof.
  intros Hn Lm W E. unfold find_c, visit, end_ in E. destruct t as [|dg ow nd nv]; [injection E as <- <-; cbn; lia|].
  destruct (deg m =? 0).
  - destruct (dg =? 0); cbn [bind] in E; injection E as <- <-; cbn; lia.
  - assert (X := find_loop_cost dbg n m Lm _ _ _ _ _ W E). destruct (nth_error (vars m) 0) as [x|] eqn:Ex; [|destruct X].
    assert (R := room_skip _ _ _ Ex). rewrite skipn_O in R. rewrite room_total, Lm in R. lia.
Qed.

(** Nodes. *)
Lemma nodes_bound n : forall t v, wf n v t -> nodes t <= (n - v) * length (wraps t).
Proof.
  induction t as [|dg ow nd IHd nv IHv]; intros v W; [cbn; lia|]. assert (W' := W). destruct W' as (Hv & _ & K & _ & _ & _ & Wd & Wv).
  specialize (IHd v Wd). specialize (IHv (S v) Wv). cbn [nodes wraps]. rewrite !app_length.
  assert (X : 1 <= (n - v) * length (match ow with Some u => [u] | None => [] end) + length (wraps nv)).
  { destruct ow as [u|]; [cbn; lia|]. assert (Y := wf_nonempty n (S v) nv Wv (K eq_refl)). destruct (wraps nv); [congruence|cbn; lia]. }
  replace (n - v) with (S (n - S v)) in * by lia. nia.
Qed.
Lemma nodes_elems : forall t, length (wraps t) <= nodes t.
Proof. induction t as [|dg ow nd IHd nv IHv]; [cbn; lia|]. cbn [nodes wraps]. rewrite !app_length. destruct ow; cbn; lia. Qed.

Lemma build_chain_nodes dbg w : forall l d next r, build_chain dbg w d l next = Ok r -> nodes r <= length l + nodes next.
Proof.
  induction l as [|x l IH]; intros d next r E; cbn [build_chain] in E; [destruct dbg; discriminate|]. destruct (x <? d).
  - destruct (build_chain dbg w (d - x) l Nil) as [nv| | | |] eqn:E'; cbn [bind] in E; try discriminate. injection E as <-. apply IH in E'. cbn [nodes length] in *. lia.
  - injection E as <-. cbn [nodes length]. lia.
Qed.
Lemma build_at_nodes dbg w d v next r : build_at dbg w d v next = Ok r -> nodes r <= (length (vars (wlm w)) - v) + nodes next.
Proof.
  unfold build_at, assert_. intro E. destruct (mget dbg (wlm w) v); cbn [bind] in E; try discriminate. destruct (dbg && _); [discriminate|].
  destruct (build_chain dbg w d (skipn v (vars (wlm w))) next) as [r'| | | |] eqn:E'; cbn [bind] in E; try discriminate.
  apply build_chain_nodes in E'. rewrite skipn_length in E'. destruct next; [|destruct (dbg && _); [discriminate|]]; injection E as <-; exact E'.
Qed.
Lemma set_nm_tree_nodes dbg v : forall t r, set_nm_tree dbg t v = Ok r -> nodes r = nodes t.
Proof.
  induction t as [|dg ow nd IHd nv IHv]; intros r E; cbn [set_nm_tree] in E; [injection E as <-; reflexivity|].
  destruct (set_nm_tree dbg nv v) as [nv'| | | |]; cbn [bind] in E; try discriminate. destruct (opt_set_nm dbg ow v); cbn [bind] in E; try discriminate.
  destruct (set_nm_tree dbg nd v) as [nd'| | | |]; cbn [bind] in E; try discriminate. injection E as <-. cbn [nodes]. rewrite (IHd _ eq_refl), (IHv _ eq_refl). reflexivity.
Qed.
Lemma set_nm_lm dbg w v w' : set_nm dbg w v = Ok w' -> wlm w' = wlm w.
Proof. unfold set_nm. destruct (set_at (wnm w) v); [|destruct dbg; discriminate]. intro E. injection E as <-. reflexivity. Qed.
Lemma ins_loop_nodes dbg : forall j w d v r, ins_loop dbg w d v j = Ok r -> nodes r <= length (vars (wlm w)) - v + nodes j.
Proof.
  induction j as [|dg ow nd IHd nv IHv]; intros w d v r E; cbn [ins_loop] in E; [apply build_at_nodes in E; exact E|].
  unfold assert_ in E. destruct (dbg && _); [discriminate|]. destruct (mget dbg (wlm w) v) as [x| | | |]; cbn [bind] in E; try discriminate.
  destruct (_ && _).
  { destruct (ins_loop dbg w d v nd) as [nd'| | | |] eqn:E'; cbn [bind] in E; try discriminate. injection E as <-. apply IHd in E'. cbn [nodes]. lia. }
  destruct (x <? dg).
  { destruct (set_nm dbg w v) as [w'| | | |] eqn:Ew; cbn [bind] in E; try discriminate. apply build_at_nodes in E. rewrite (set_nm_lm _ _ _ _ Ew) in E. exact E. }
  destruct (dg <? x).
  { destruct (opt_set_nm dbg ow v); cbn [bind] in E; try discriminate. destruct (set_nm_tree dbg nv v) as [nv'| | | |] eqn:E1; cbn [bind] in E; try discriminate.
    destruct (build_at dbg w d v Nil) as [nd'| | | |] eqn:E2; cbn [bind] in E; try discriminate. injection E as <-. apply build_at_nodes in E2. apply set_nm_tree_nodes in E1. cbn [nodes] in *. lia. }
  assert (K : forall w1, (if is_nil nd then Ok w else set_nm dbg w v) = Ok w1 -> wlm w1 = wlm w).
  { intros w1. destruct (is_nil nd); [intro H; injection H as <-; reflexivity|apply set_nm_lm]. }
  destruct (if is_nil nd then Ok w else set_nm dbg w v) as [w1| | | |]; cbn [bind] in E; try discriminate. specialize (K _ eq_refl).
  match type of E with bind ?q _ = _ => destruct q as [ow1| | | |]; cbn [bind] in E; try discriminate end.
  destruct (d <? x); [discriminate|]. cbv zeta in E. destruct (d - x =? 0).
  { assert (Y : exists w2, r = Node dg (Some w2) nd nv).
    { destruct ow1 as [u|]; [destruct dbg; [discriminate|]|];
        match type of E with bind ?q _ = _ => destruct q as [w2| | | |]; cbn [bind] in E; try discriminate end; injection E as <-; eauto. }
    destruct Y as (w2 & ->). cbn [nodes]. lia. }
  match type of E with bind ?q _ = _ => destruct q as [ow2| | | |]; cbn [bind] in E; try discriminate end.
  destruct (ins_loop dbg w1 (d - x) (S v) nv) as [nv'| | | |] eqn:E'; cbn [bind] in E; try discriminate. injection E as <-. apply IHv in E'. rewrite K in E'. cbn [nodes]. lia.
Qed.
Lemma insert_nodes dbg J w J' : insert dbg J w = Ok J' -> nodes (jroot J') <= length (vars (wlm w)) + nodes (jroot J).
Proof.
  unfold insert, assert_. intro E. destruct (if dbg then find dbg (jroot J) (wlm w) else Ok None) as [r| | | |]; cbn [bind] in E; try discriminate.
  destruct r; [discriminate|]. destruct (ins_root dbg (jroot J) w) as [t| | | |] eqn:Et; cbn [bind] in E; try discriminate.
  assert (X : nodes t <= length (vars (wlm w)) + nodes (jroot J)).
  { unfold ins_root in Et. destruct (jroot J); [apply build_at_nodes in Et|apply ins_loop_nodes in Et]; cbn [nodes] in *; lia. }
  destruct dbg; [|injection E as <-; exact X]. destruct (find true t (wlm w)) as [r'| | | |]; cbn [bind] in E; try discriminate. destruct r'; [|discriminate].
  destruct (true && _); [discriminate|]. injection E as <-. exact X.
Qed.
