(** Proofs about the heap and about the trees of pyginv, independent of the algorithms. *)
From Coq Require Import ZArith List Bool Arith Lia Permutation.
From Verif Require Import Outcome MonomModel MonomSpec MonomProofs PolySpec JanetSpec PyMonomModel PyMonomSpec PyPolyModel PyPolySpec PyJanetModel PyJanetSpec PyJanetProofs PyJanetTop PyJanetProlong
  PyHPModel PyForestModel PyForestSpec PyForestProofs PyQueueModel.
Import ListNotations.
Local Open Scope nat_scope.

(* ---- heapq: the entries stay the same ---- *)
Section Heap.
Context {A : Type} (lt : A -> A -> bool).
Lemma put_length (l : list A) i x : length (put l i x) = length l.
Proof. revert i. induction l as [|y l IH]; intros [|i]; cbn [put length]; auto. Qed.
Lemma put_perm (l : list A) i x y : nth_error l i = Some x -> Permutation (y :: l) (x :: put l i y).
Proof.
  revert i. induction l as [|z l IH]; intros [|i] E; try discriminate E; cbn [nth_error put] in *.
  - injection E as ->. constructor.
  - specialize (IH i E). etransitivity; [apply perm_swap|]. etransitivity; [apply perm_skip, IH|]. apply perm_swap.
Qed.
Lemma put_same (l : list A) i y : i < length l -> nth_error (put l i y) i = Some y.
Proof. revert i. induction l as [|z l IH]; intros [|i] E; cbn [length put nth_error] in *; try lia; [reflexivity|]. apply IH. lia. Qed.
Lemma put_other (l : list A) i j y : i <> j -> nth_error (put l i y) j = nth_error l j.
Proof. revert i j. induction l as [|z l IH]; intros [|i] [|j] E; cbn [put nth_error]; try reflexivity; try lia. apply IH. lia. Qed.
Lemma swap_perm (l : list A) i j : Permutation (swap l i j) l.
Proof.
  unfold swap. destruct (nth_error l i) as [x|] eqn:Ex; [|reflexivity]. destruct (nth_error l j) as [y|] eqn:Ey; [|reflexivity].
  assert (E : nth_error (put l i y) j = Some y).
  { destruct (Nat.eq_dec i j) as [->|N]; [apply put_same, nth_error_Some; congruence|rewrite put_other; assumption]. }
  apply (Permutation_cons_inv (a := y)). symmetry. etransitivity; [apply (put_perm l i x y Ex)|]. apply (put_perm (put l i y) j y x E).
Qed.
Lemma sift_down_perm fuel : forall l s i, Permutation (sift_down fuel lt l s i) l.
Proof.
  induction fuel as [|fuel IH]; intros l s i; cbn [sift_down]; [reflexivity|]. destruct (_ && _); [|reflexivity]. etransitivity; [apply IH|apply swap_perm].
Qed.
Lemma sift_leaf_perm fuel : forall l i, Permutation (fst (sift_leaf fuel lt l i)) l.
Proof.
  induction fuel as [|fuel IH]; intros l i; cbn [sift_leaf]; [reflexivity|]. destruct (Nat.ltb _ _); [|reflexivity]. etransitivity; [apply IH|apply swap_perm].
Qed.
Lemma sift_up_perm l i : Permutation (sift_up lt l i) l.
Proof. unfold sift_up. etransitivity; [apply sift_down_perm|apply sift_leaf_perm]. Qed.
Lemma heap_push_perm l x : Permutation (heap_push lt l x) (x :: l).
Proof. unfold heap_push. etransitivity; [apply sift_down_perm|]. symmetry. apply Permutation_cons_append. Qed.
Lemma heap_pop_perm l : match heap_pop lt l with Some (x, h) => Permutation l (x :: h) | None => l = [] end.
Proof.
  unfold heap_pop. destruct (rev l) as [|x r] eqn:E.
  - apply (f_equal (@rev A)) in E. rewrite rev_involutive in E. exact E.
  - apply (f_equal (@rev A)) in E. rewrite rev_involutive in E. cbn [rev] in E. subst l. destruct (rev r) as [|y l'] eqn:F.
    + reflexivity.
    + etransitivity; [symmetry; apply Permutation_cons_append|]. etransitivity; [apply perm_swap|]. apply perm_skip. symmetry. apply sift_up_perm.
Qed.
Lemma heapify_perm l : Permutation (heapify lt l) l.
Proof.
  unfold heapify. generalize (rev (seq 0 (length l / 2))). intro is. revert l. induction is as [|i is IH]; intro l; cbn [fold_left]; [reflexivity|].
  etransitivity; [apply IH|apply sift_up_perm].
Qed.
End Heap.

(* ---- maps over the Wraps of a tree ---- *)
Lemma t_map_tmap f t : t_map f t = tmap f t.
Proof. reflexivity. Qed.
Lemma j_map_eq f J : j_map f J = PJ (map (tmap f) (pj_root J)) (pj_pos J) (pj_count J).
Proof. reflexivity. Qed.
Lemma j_map_elems f J : elems (j_map f J) = map f (elems J).
Proof. unfold elems. rewrite j_map_eq. cbn [pj_root]. apply (tmap_relems f). Qed.
Lemma d_map_elems f T : d_elems (d_map f T) = map f (d_elems T).
Proof.
  destruct T as [J|F]; cbn [d_map d_elems]; [apply j_map_elems|]. unfold pf_elems. induction F as [|J F IH]; cbn [map flat_map]; [reflexivity|].
  rewrite map_app, IH. f_equal. apply j_map_elems.
Qed.
Lemma tmap_comp f g t : tmap f (tmap g t) = tmap (fun w => f (g w)) t.
Proof. induction t as [w|l IH] using ptree_ind'; cbn [tmap]; [reflexivity|]. f_equal. rewrite map_map. induction IH as [|t l E _ IH]; cbn [map]; [reflexivity|]. now rewrite E, IH. Qed.
Lemma tmap_ext f g t : (forall w, In w (telems t) -> f w = g w) -> tmap f t = tmap g t.
Proof.
  induction t as [w|l IH] using ptree_ind'; intro H; cbn [tmap]; [f_equal; apply H; now left|]. f_equal. rewrite telems_list in H. induction IH as [|t l E _ IH]; cbn [map]; [reflexivity|].
  cbn [relems] in H. rewrite E, IH; [reflexivity| |]; intros w W; apply H, in_app_iff; auto.
Qed.
Lemma j_map_comp f g J : j_map f (j_map g J) = j_map (fun w => f (g w)) J.
Proof. rewrite !j_map_eq. cbn [pj_root pj_pos pj_count]. f_equal. rewrite map_map. apply map_ext. intro t. apply tmap_comp. Qed.
Lemma j_map_ext f g J : (forall w, In w (elems J) -> f w = g w) -> j_map f J = j_map g J.
Proof.
  intro H. rewrite !j_map_eq. f_equal. unfold elems in H. induction (pj_root J) as [|t r IH]; cbn [map relems] in *; [reflexivity|].
  rewrite (tmap_ext f g t), IH; [reflexivity| |]; intros w W; apply H, in_app_iff; auto.
Qed.

Definition omap {A B} (f : A -> B) (x : outcome A) : outcome B := do a <- x; Ok (f a).
Lemma omap_ok {A B} (f : A -> B) x b : omap f x = Ok b <-> exists a, x = Ok a /\ f a = b.
Proof. destruct x; cbn; split; intro H; try discriminate H; try (destruct H as (? & X & _); discriminate X); [injection H as <-; eauto|]. destruct H as (a0 & E & <-). now injection E as ->. Qed.

Lemma map_last {A B} (f : A -> B) l d : last (map f l) (f d) = f (last l d).
Proof. induction l as [|x l IH]; [reflexivity|]. cbn [map]. destruct l as [|y l]; [reflexivity|]. exact IH. Qed.
Lemma last_wrap_map f r : last_wrap (map (tmap f) r) = option_map f (last_wrap r).
Proof. unfold last_wrap. change (PList []) with (tmap f (PList [])) at 1. rewrite map_last. destruct (last r (PList [])); reflexivity. Qed.
Lemma p_find_map f : forall es r, p_find es (map (tmap f) r) = omap (option_map f) (p_find es r).
Proof.
  induction es as [|e es IH]; intros [|t r]; try reflexivity. cbn [p_find]. rewrite map_length. change (map (tmap f) (t :: r)) with (map (tmap f) (t :: r)).
  cbn [map]. change (tmap f t :: map (tmap f) r) with (map (tmap f) (t :: r)). set (r0 := t :: r).
  destruct (Nat.leb (length r0 - 1) e).
  - rewrite last_wrap_map. destruct (last_wrap r0) as [w|]; [reflexivity|]. cbn [option_map].
    change (PList []) with (tmap f (PList [])) at 1. rewrite map_nth. destruct (nth (Nat.min (length r0 - 1) e) r0 (PList [])) as [w|c]; [reflexivity|]. apply IH.
  - change (PList []) with (tmap f (PList [])) at 1. rewrite map_nth. destruct (nth (Nat.min (length r0 - 1) e) r0 (PList [])) as [w|c]; [reflexivity|]. apply IH.
Qed.
Lemma findWrap_map f J m : pj_findWrap (j_map f J) m = omap (option_map f) (pj_findWrap J m).
Proof.
  rewrite j_map_eq. unfold pj_findWrap. cbn [pj_root pj_pos]. destruct (pj_root J) as [|t r]; [reflexivity|]. cbn [map]. unfold assert_.
  destruct (true && negb (pj_pos J =? pos m)%Z); [reflexivity|]. apply (p_find_map f (vars m) (t :: r)).
Qed.
Lemma last_wrap_in r w : last_wrap r = Some w -> In w (relems r).
Proof.
  unfold last_wrap. destruct r as [|t r]; [discriminate|]. destruct (last (t :: r) (PList [])) as [u|] eqn:E; [|discriminate]. intro H. injection H as ->.
  apply relems_in. exists (length (t :: r) - 1), (PWrap w). split; [|now left]. rewrite last_nth by discriminate. f_equal. exact E.
Qed.
Lemma p_find_in : forall es r w, p_find es r = Ok (Some w) -> In w (relems r).
Proof.
  induction es as [|e es IH]; intros [|t r] w E; try discriminate E. cbn [p_find] in E. set (r0 := t :: r) in *.
  assert (X : match nth (Nat.min (length r0 - 1) e) r0 (PList []) with PList r' => p_find es r' | PWrap _ => Undef end = Ok (Some w) -> In w (relems r0)).
  { destruct (nth (Nat.min (length r0 - 1) e) r0 (PList [])) as [u|c] eqn:N; [discriminate|]. intro H. apply IH in H. apply relems_in.
    exists (Nat.min (length r0 - 1) e), (PList c). split; [|rewrite telems_list; exact H].
    rewrite (nth_some r0 _ (PList [])) by (unfold r0; cbn [length]; lia). now rewrite N. }
  destruct (Nat.leb (length r0 - 1) e); [|exact (X E)]. destruct (last_wrap r0) as [u|] eqn:L; [|exact (X E)]. injection E as ->. exact (last_wrap_in r0 w L).
Qed.
Lemma findWrap_in J m w : pj_findWrap J m = Ok (Some w) -> In w (elems J).
Proof.
  unfold pj_findWrap, elems. destruct (pj_root J) as [|t r]; [discriminate|]. unfold assert_. destruct (true && negb (pj_pos J =? pos m)%Z); [discriminate|]. apply p_find_in.
Qed.

(* ---- insert and maps that commute with the marks ---- *)
Section InsertMap.
Variable f : pwrap -> pwrap.
Hypothesis Fm : forall v b w, f (set_nonmult v b w) = set_nonmult v b (f w).
Hypothesis Fl : forall w, pw_lm (f w) = pw_lm w.
Lemma t_mark_map v t : tmap f (t_mark v t) = t_mark v (tmap f t).
Proof. induction t as [w|l IH] using ptree_ind'; cbn [tmap t_mark]; [now rewrite Fm|]. f_equal. rewrite !map_map. induction IH as [|t l E _ IH]; cbn [map]; [reflexivity|]. now rewrite E, IH. Qed.
Lemma set_nth_map r i t : map (tmap f) (set_nth r i t) = set_nth (map (tmap f) r) i (tmap f t).
Proof. revert i. induction r as [|x r IH]; intros [|i]; cbn [set_nth map]; try reflexivity. now rewrite IH. Qed.
Definition imap (x : prow * list pwrap) : prow * list pwrap := (map (tmap f) (fst x), map f (snd x)).
Lemma p_insert_map : forall es v d w r, p_insert es v d (f w) (map (tmap f) r) = omap imap (p_insert es v d w r).
Proof.
  induction es as [|e es IH]; intros v d w r; [reflexivity|]. cbn [p_insert]. rewrite map_length.
  set (w1 := if Nat.ltb (S e) (length r) then set_nonmult v true w else w).
  replace (if Nat.ltb (S e) (length r) then set_nonmult v true (f w) else f w) with (f w1) by (unfold w1; destruct (Nat.ltb _ _); [apply Fm|reflexivity]).
  set (r1 := if Nat.ltb (length r) (S e) then map (t_mark v) r ++ repeat (PList []) (S e - length r) else r).
  replace (if Nat.ltb (length r) (S e) then map (t_mark v) (map (tmap f) r) ++ repeat (PList []) (S e - length r) else map (tmap f) r) with (map (tmap f) r1).
  2:{ unfold r1. clear w1. destruct (Nat.ltb (length r) (S e)); [|reflexivity]. rewrite map_app, !map_map. f_equal; [apply map_ext, t_mark_map|]. induction (S e - length r) as [|j IHj]; cbn; [reflexivity|]. now rewrite IHj. }
  change (PList []) with (tmap f (PList [])) at 1. rewrite map_nth. destruct (nth e r1 (PList [])) as [u|c]; [reflexivity|]. cbn [tmap]. destruct (Nat.ltb e d).
  - rewrite IH. destruct (p_insert es (S v) (d - e) w1 c) as [[r' rm]| | | |]; try reflexivity. cbn. unfold imap. cbn [fst snd]. now rewrite set_nth_map.
  - unfold assert_. destruct (true && negb (Nat.eqb d e)); [reflexivity|]. cbn. unfold imap. cbn [fst snd]. do 2 f_equal.
    + rewrite map_app. cbn [map tmap]. rewrite Fm. now rewrite firstn_map.
    + change (match map (tmap f) (skipn e r1) with [] => [] | t :: r' => telems t ++ relems r' end) with (relems (map (tmap f) (skipn e r1))).
      rewrite <- (tmap_relems f). now rewrite skipn_map.
Qed.
Definition jimap (x : pjanet * list pwrap) : pjanet * list pwrap := (j_map f (fst x), map f (snd x)).
Lemma insert1_map J w : pj_insert1 (j_map f J) (f w) = omap jimap (pj_insert1 J w).
Proof.
  unfold pj_insert1. rewrite Fl, findWrap_map. destruct (pj_findWrap J (pw_lm w)) as [[u|]| | | |]; try reflexivity. cbn [omap bind option_map].
  replace (match pj_root (j_map f J) with [] => pos (pw_lm w) | _ => pj_pos (j_map f J) end) with (match pj_root J with [] => pos (pw_lm w) | _ => pj_pos J end) by (unfold j_map; cbn [pj_root pj_pos]; destruct (pj_root J); reflexivity).
  unfold assert_. destruct (true && _); [reflexivity|]. unfold w_degree. rewrite Fl. cbn [j_map pj_root pj_count]. change (t_map f) with (tmap f). rewrite p_insert_map.
  destruct (p_insert (vars (pw_lm w)) 0 (py_degree (pw_lm w)) w (pj_root J)) as [[r' rm]| | | |]; reflexivity.
Qed.
Lemma insert_map J w : pj_insert (j_map f J) [f w] = omap jimap (pj_insert J [w]).
Proof.
  unfold pj_insert. cbn [pj_insert_loop]. rewrite insert1_map. destruct (pj_insert1 J w) as [[J' rm]| | | |]; try reflexivity. cbn [omap bind fst snd jimap app].
  unfold jimap, j_map. cbn [fst snd pj_root pj_pos pj_count]. rewrite map_length. reflexivity.
Qed.
End InsertMap.

(** what insert does to the Wraps, whatever the tree *)
Section InsertPerm.
Context {B : Type} (g : pwrap -> B).
Hypothesis G : forall v b w, g (set_nonmult v b w) = g w.
Lemma mark_g v r : map g (relems (map (t_mark v) r)) = map g (relems r).
Proof. rewrite mark_relems, map_map. apply map_ext. intro; apply G. Qed.
Lemma p_insert_perm : forall es v d w r r' rm, p_insert es v d w r = Ok (r', rm) -> Permutation (map g (relems r' ++ rm)) (g w :: map g (relems r)).
Proof.
  induction es as [|e es IH]; intros v d w r r' rm E; [discriminate E|]. cbn [p_insert] in E.
  set (w1 := if Nat.ltb (S e) (length r) then set_nonmult v true w else w) in *.
  assert (W1 : g w1 = g w) by (unfold w1; destruct (Nat.ltb _ _); [apply G|reflexivity]).
  set (r1 := if Nat.ltb (length r) (S e) then map (t_mark v) r ++ repeat (PList []) (S e - length r) else r) in *.
  assert (R1 : map g (relems r1) = map g (relems r)) by (unfold r1; destruct (Nat.ltb (length r) (S e)); [rewrite relems_app, relems_empty, app_nil_r; apply mark_g|reflexivity]).
  rewrite <- W1, <- R1. destruct (nth e r1 (PList [])) as [u|c] eqn:N; [discriminate E|]. destruct (Nat.ltb_spec e d) as [L|L].
  - apply bind_ok in E. destruct E as ([c' rm'] & E1 & E). cbn [fst snd] in E. injection E as <- <-. apply IH in E1.
    assert (Le : e < length r1). { destruct (Nat.lt_ge_cases e (length r1)) as [X|X]; [exact X|]. unfold r1 in X. destruct (Nat.ltb_spec (length r) (S e)); [rewrite app_length, map_length, repeat_length in X; lia|lia]. }
    destruct (set_nth_split r1 e (PList c) (PList c')) as [S1 S2]; [rewrite (nth_some r1 e (PList [])) by exact Le; now rewrite N|].
    rewrite S2. rewrite S1 at 3. rewrite !relems_app. cbn [relems]. rewrite !telems_list, !map_app in *.
    set (a := map g (relems (firstn e r1))). set (b := map g (relems (skipn (S e) r1))). set (x := map g (relems c')) in *. set (y := map g rm') in *. set (z := map g (relems c)) in *.
    clearbody a b x y z. etransitivity; [|apply Permutation_sym, Permutation_middle]. rewrite <- !app_assoc. apply Permutation_app_head.
    etransitivity; [apply Permutation_app_head, Permutation_app_comm|]. rewrite app_assoc. change (g w1 :: z ++ b) with ((g w1 :: z) ++ b). apply Permutation_app_tail. exact E1.
  - unfold assert_ in E. destruct (true && negb (Nat.eqb d e)); [discriminate E|]. injection E as <- <-. rewrite relems_app. cbn [relems telems app]. rewrite <- app_assoc. cbn [app].
    rewrite map_app. cbn [map]. rewrite G. symmetry. etransitivity; [|apply Permutation_middle]. apply perm_skip. rewrite <- map_app, <- relems_app, firstn_skipn. reflexivity.
Qed.
Lemma insert_perm J w J' lst : pj_insert J [w] = Ok (J', lst) -> Permutation (map g (elems J' ++ lst)) (g w :: map g (elems J)).
Proof.
  intro E. unfold pj_insert in E. cbn [pj_insert_loop] in E. apply bind_ok in E. destruct E as ([J1 l1] & E & E'). apply bind_ok in E. destruct E as ([J2 l2] & E & X). injection X as <- <-. injection E' as <- <-.
  cbn [fst snd app]. unfold pj_insert1 in E. apply bind_ok in E. destruct E as ([u|] & _ & E); [discriminate E|]. unfold assert_ in E. destruct (true && _); [discriminate E|].
  apply bind_ok in E. destruct E as ([r' rm] & E & X). injection X as <- <-. unfold elems. cbn [pj_root fst snd]. exact (p_insert_perm _ _ _ _ _ _ _ E).
Qed.
End InsertPerm.
