(** What a graph is after any calls: nodes and edges of equal names are one, later attributes replace earlier ones. *)
From Coq Require Import List Bool String Arith.
From Verif Require Import DrawModel DrawCallsSpec.
Import ListNotations.

Lemma do_calls_app l : forall l' g, do_calls (l ++ l') g = do_calls l' (do_calls l g).
Proof. induction l as [|c l IH]; intros l' g; cbn [app do_calls]; [reflexivity|apply IH]. Qed.

Definition upd {K V} (keq : K -> bool) (k : K) (f : option V -> V) (l : list (K * V)) : list (K * V) :=
  if existsb (fun x => keq (fst x)) l then map (fun x => if keq (fst x) then (k, f (Some (snd x))) else x) l else l ++ [(k, f None)].
Section U.
Context {K V : Type} (keq : K -> bool) (k : K) (f : option V -> V).
Hypothesis He : forall x, keq x = true <-> x = k.
Lemma ex_keys (l : list (K * V)) : existsb (fun x => keq (fst x)) l = true <-> In k (map fst l).
Proof.
  rewrite existsb_exists, in_map_iff. split; intros (x & A & B); exists x; [apply He in B; auto|split; [exact B|apply He; exact A]].
Qed.
Lemma upd_keys l : NoDup (map fst l) -> NoDup (map fst (upd keq k f l)).
Proof.
  intro N. unfold upd. destruct (existsb _ l) eqn:E.
  - assert (X : map fst (map (fun x => if keq (fst x) then (k, f (Some (snd x))) else x) l) = map fst l).
    { rewrite map_map. apply map_ext. intro x. destruct (keq (fst x)) eqn:Ek; [apply He in Ek; cbn; congruence|reflexivity]. }
    rewrite X. exact N.
  - rewrite map_app. cbn [map fst]. assert (X : ~ In k (map fst l)) by (intro X; apply ex_keys in X; congruence).
    apply (NoDup_Add (a := k) (l := map fst l)); [|auto]. rewrite <- (app_nil_r (map fst l)) at 1. apply Add_app.
Qed.
Lemma upd_in l k' v : In (k', v) (upd keq k f l) <->
  (k' <> k /\ In (k', v) l) \/ (k' = k /\ ((exists v0, In (k, v0) l /\ v = f (Some v0)) \/ (~ In k (map fst l) /\ v = f None))).
Proof.
  unfold upd. destruct (existsb _ l) eqn:E.
  - apply ex_keys in E. rewrite in_map_iff. split.
    + intros ([k0 v0] & A & B). cbn [fst snd] in A. destruct (keq k0) eqn:Ek.
      * apply He in Ek. subst k0. injection A as <- <-. right. split; [reflexivity|]. left. exists v0. auto.
      * injection A as <- <-. left. split; [|exact B]. intro X. apply He in X. congruence.
    + intros [[A B]|[-> [(v0 & A & ->)|[A _]]]]; [| |contradiction].
      * exists (k', v). cbn [fst snd]. destruct (keq k') eqn:Ek; [apply He in Ek; contradiction|auto].
      * exists (k, v0). cbn [fst snd]. replace (keq k) with true by (symmetry; apply He; reflexivity). auto.
  - assert (X : ~ In k (map fst l)) by (intro X; apply ex_keys in X; congruence). rewrite in_app_iff. cbn [In]. split.
    + intros [A|[A|[]]]; [left; split; [|exact A]|injection A as <- <-; right; auto]. intros ->. apply X. apply in_map_iff. exists (k, v). auto.
    + intros [[_ A]|[-> [(v0 & A & _)|[_ ->]]]]; [left; exact A| |right; left; reflexivity]. exfalso. apply X. apply in_map_iff. exists (k, v0). auto.
Qed.
End U.

Lemma seqb s s' : String.eqb s' s = true <-> s' = s.
Proof. apply String.eqb_eq. Qed.
Lemma node_call s l g : gnodes (do_call (CNode s l) g) = upd (fun x => String.eqb x s) s (fun o => match o with Some old => restyle l old | None => l end) (gnodes g).
Proof. unfold upd. cbn [do_call]. destruct (existsb _ (gnodes g)); reflexivity. Qed.
Lemma node_calls_snoc s l c : node_calls s (l ++ [c]) = node_calls s l ++ match c with CNode s' k => if string_dec s' s then [k] else [] | _ => [] end.
Proof. unfold node_calls. rewrite flat_map_app. cbn [flat_map]. rewrite app_nil_r. reflexivity. Qed.
Lemma last_set_snoc {A} (f : look -> option A) ks k : last_set f (ks ++ [k]) = over (f k) (last_set f ks).
Proof. unfold last_set. rewrite fold_left_app. cbn [fold_left]. destruct (f k); reflexivity. Qed.
Lemma as_set_snoc k ks k0 : as_set k ks -> as_set (restyle k0 k) (ks ++ [k0]).
Proof. unfold as_set. intros ->. rewrite !last_set_snoc. reflexivity. Qed.
Lemma as_set_one k : as_set k [k].
Proof. unfold as_set, last_set. cbn. destruct k as [[|] [|] [|]]; reflexivity. Qed.

Theorem calls_nodes l : let g := do_calls l no_graph in NoDup (map fst (gnodes g)) /\
  forall s k, In (s, k) (gnodes g) <-> node_calls s l <> [] /\ as_set k (node_calls s l).
Proof.
  cbv zeta. induction l as [|c l [N IH]] using rev_ind; [split; [constructor|]; cbn; intuition congruence|]. rewrite do_calls_app. cbn [do_calls].
  destruct c as [s0 k0|a b st|a b st].
  2,3: match goal with |- context [do_call ?c _] => replace (gnodes (do_call c (do_calls l no_graph))) with (gnodes (do_calls l no_graph)) by (cbn [do_call]; try (destruct (existsb _ _)); reflexivity) end;
    split; [exact N|]; intros s k; rewrite node_calls_snoc, app_nil_r; apply IH.
  rewrite node_call. split; [apply upd_keys; [intro; apply seqb|exact N]|]. intros s k. rewrite upd_in by (intro; apply seqb). rewrite node_calls_snoc.
  assert (Sg : ~ In s0 (map fst (gnodes (do_calls l no_graph))) -> node_calls s0 l = []).
  { intro X. destruct (node_calls s0 l) eqn:E; [reflexivity|]. exfalso. apply X. apply in_map_iff.
    exists (s0, Look (last_set a_label (l0 :: l1)) (last_set a_shape (l0 :: l1)) (last_set a_color (l0 :: l1))). split; [reflexivity|]. apply IH. rewrite E. split; [discriminate|reflexivity]. }
  destruct (string_dec s0 s) as [<-|D].
  - split.
    + intros [[A _]|[_ [(k1 & A & ->)|[A ->]]]]; [contradiction| |]; (split; [destruct (node_calls s0 l); discriminate|]).
      * apply IH in A as [_ A]. apply as_set_snoc. exact A.
      * rewrite (Sg A). apply as_set_one.
    + intros [_ A]. right. split; [reflexivity|]. destruct (node_calls s0 l) as [|k1 ks] eqn:E.
      * right. split; [|unfold as_set in A; rewrite A; unfold last_set; cbn; destruct k0 as [[|] [|] [|]]; reflexivity].
        intro X. apply in_map_iff in X as ([s1 k1] & E1 & I1). cbn [fst] in E1. subst s1. apply IH in I1 as [I1 _]. congruence.
      * left. exists (Look (last_set a_label (k1 :: ks)) (last_set a_shape (k1 :: ks)) (last_set a_color (k1 :: ks))). split; [apply IH; rewrite E; split; [discriminate|reflexivity]|].
        rewrite A. symmetry. apply (as_set_snoc _ (k1 :: ks) k0). reflexivity.
  - rewrite app_nil_r, <- IH. intuition congruence.
Qed.

Lemma edge_call a b st g : gedges (do_call (CEdge a b st) g) = upd (fun x => String.eqb (fst x) a && String.eqb (snd x) b) (a, b) (fun _ => st) (gedges g).
Proof. unfold upd. cbn [do_call]. unfold ends_eqb. destruct (existsb _ (gedges g)); reflexivity. Qed.
Lemma eeqb a b (x : string * string) : String.eqb (fst x) a && String.eqb (snd x) b = true <-> x = (a, b).
Proof. rewrite andb_true_iff, !String.eqb_eq. destruct x. cbn. split; [intros [-> ->]; reflexivity|intro E; injection E; auto]. Qed.
Lemma edge_calls_snoc a b l c : edge_calls a b (l ++ [c]) = edge_calls a b l ++ match c with CEdge a' b' st => if string_dec a' a then if string_dec b' b then [st] else [] else [] | _ => [] end.
Proof. unfold edge_calls. rewrite flat_map_app. cbn [flat_map]. rewrite app_nil_r. reflexivity. Qed.
Theorem calls_edges l : Forall find_or_make l -> let g := do_calls l no_graph in NoDup (map fst (gedges g)) /\
  forall a b st, In (a, b, st) (gedges g) <-> exists before, edge_calls a b l = before ++ [st].
Proof.
  cbv zeta. intro F. induction l as [|c l IH] using rev_ind; [split; [constructor|]; cbn; intros a b st; split; [tauto|intros (x & E); destruct x; discriminate]|]. apply Forall_app in F as [F F1].
  specialize (IH F) as [N IH]. rewrite do_calls_app. cbn [do_calls].
  destruct c as [s0 k0|a0 b0 st0|a b st]; [| |destruct (Forall_inv F1)].
  { replace (gedges (do_call (CNode s0 k0) (do_calls l no_graph))) with (gedges (do_calls l no_graph)) by (cbn [do_call]; destruct (existsb _ _); reflexivity).
    split; [exact N|]. intros a b st. rewrite edge_calls_snoc, app_nil_r. apply IH. }
  rewrite edge_call. split; [apply upd_keys; [intro; apply eeqb|exact N]|]. intros a b st. rewrite (upd_in _ _ _ (eeqb a0 b0)). rewrite edge_calls_snoc.
  assert (X : forall x : list string, (exists before, x ++ [st0] = before ++ [st]) <-> st = st0).
  { intro x. split; [intros (y & E); apply app_inj_tail in E as [_ E]; auto|intros ->; exists x; reflexivity]. }
  destruct (string_dec a0 a) as [<-|D]; [destruct (string_dec b0 b) as [<-|D]|].
  - rewrite X. split; [intros [[A _]|[_ [(v & _ & E)|[_ E]]]]; [contradiction|exact E|exact E]|]. intros ->. right. split; [reflexivity|].
    destruct (in_dec (fun x y : string * string => ltac:(decide equality; apply string_dec)) (a0, b0) (map fst (gedges (do_calls l no_graph)))) as [I|I]; [|right; auto].
    left. apply in_map_iff in I as ([ab v] & E & I). cbn [fst] in E. subst ab. exists v. auto.
  - rewrite app_nil_r, <- IH. intuition congruence.
  - rewrite app_nil_r, <- IH. intuition congruence.
Qed.
