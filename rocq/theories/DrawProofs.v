From Coq Require Import ZArith List Bool Arith Lia String Ascii Permutation.
From Verif Require Import Outcome MonomModel JanetModel HilbertModel TextModel TextSpec TextProofs TextProofs2 DrawModel JanetDrawModel DrawSpec.
Import ListNotations.
Local Open Scope string_scope.
Local Open Scope list_scope.

(** * Calls that make something new each time *)
Definition nodes_of (l : list call) : list (string * look) := flat_map (fun c => match c with CNode s k => [(s, k)] | _ => [] end) l.
Definition edges_of (l : list call) : list (string * string * string) := flat_map (fun c => match c with CEdge a b s | CNew a b s => [(a, b, s)] | _ => [] end) l.
Lemma nodes_app a b : nodes_of (a ++ b) = nodes_of a ++ nodes_of b.
Proof. apply flat_map_app. Qed.
Lemma edges_app a b : edges_of (a ++ b) = edges_of a ++ edges_of b.
Proof. apply flat_map_app. Qed.
Lemma nodup_mid {A} (l r : list A) x : NoDup (l ++ x :: r) -> ~ In x l.
Proof. intros H I. apply NoDup_remove_2 in H. apply H, in_or_app. auto. Qed.
Lemma nd_app_l {A} (l r : list A) : NoDup (l ++ r) -> NoDup l.
Proof. induction l as [|x l IH]; intro H; [constructor|]. cbn in H. inversion H; subst. constructor; [|auto]. intro I. match goal with X : ~ In _ _ |- _ => apply X end. apply in_or_app. auto. Qed.
Lemma nd_app_r {A} (l r : list A) : NoDup (l ++ r) -> NoDup r.
Proof. induction l as [|x l IH]; intro H; [exact H|]. cbn in H. inversion H; subst. auto. Qed.
Lemma nd_map {A B} (f : A -> B) l : (forall x y, In x l -> In y l -> f x = f y -> x = y) -> NoDup l -> NoDup (map f l).
Proof.
  induction l as [|x l IH]; intros H N; [constructor|]. inversion N; subst. cbn [map]. constructor; [|apply IH; [intros; apply H; cbn; auto|assumption]].
  intro I. apply in_map_iff in I as (y & E & J). apply H in E; [subst; contradiction|right; exact J|left; reflexivity].
Qed.
Lemma run l : forall g, NoDup (map fst (gnodes g) ++ map fst (nodes_of l)) -> NoDup (map fst (gedges g) ++ map fst (edges_of l)) ->
  do_calls l g = Graph (gnodes g ++ nodes_of l) (gedges g ++ edges_of l).
Proof.
  induction l as [|c l IH]; intros [ns es] Hn He.
  - cbn. rewrite !app_nil_r. reflexivity.
  - destruct c as [s k|a b st|a b st]; cbn [do_calls do_call gnodes gedges] in *.
    + change (nodes_of (CNode s k :: l)) with ((s, k) :: nodes_of l) in *. change (edges_of (CNode s k :: l)) with (edges_of l) in *.
      destruct (existsb (fun n => (fst n =? s)%string) ns) eqn:X.
      * exfalso. apply existsb_exists in X as (n & I & X). apply String.eqb_eq in X. cbn [map fst] in Hn. apply nodup_mid in Hn. apply Hn. rewrite <- X. apply in_map, I.
      * rewrite IH; cbn [gnodes gedges]; [now rewrite <- app_assoc|rewrite map_app, <- app_assoc; exact Hn|exact He].
    + change (nodes_of (CEdge a b st :: l)) with (nodes_of l) in *. change (edges_of (CEdge a b st :: l)) with ((a, b, st) :: edges_of l) in *.
      destruct (existsb (fun e => ends_eqb e a b) es) eqn:X.
      * exfalso. apply existsb_exists in X as ([[a' b'] st'] & I & X). unfold ends_eqb in X. cbn [fst snd] in X. apply andb_true_iff in X as [X1 X2]. apply String.eqb_eq in X1, X2. subst a' b'.
        cbn [map fst] in He. apply nodup_mid in He. apply He. apply (in_map fst) in I. exact I.
      * rewrite IH; cbn [gnodes gedges]; [now rewrite <- app_assoc|exact Hn|rewrite map_app, <- app_assoc; exact He].
    + change (nodes_of (CNew a b st :: l)) with (nodes_of l) in *. change (edges_of (CNew a b st :: l)) with ((a, b, st) :: edges_of l) in *.
      rewrite IH; cbn [gnodes gedges]; [now rewrite <- app_assoc|exact Hn|rewrite map_app, <- app_assoc; exact He].
Qed.

(** * A drawing of items and links, by a naming *)
Definition nm {A} (name : A -> string) (x : A * A * string) : string * string * string := (name (fst (fst x)), name (snd (fst x)), snd x).
Definition target {A} (x : A * A * string) : A := snd (fst x).
Lemma nodup_targets {A} (name : A -> string) (l : list (A * A * string)) : NoDup (map name (map target l)) -> NoDup (map fst (map (nm name) l)).
Proof.
  intro H. apply (NoDup_map_inv (fun p : string * string => snd p)). rewrite !map_map. rewrite map_map in H. exact H.
Qed.
Lemma perm_nodup {A} (l l' : list A) : Permutation l l' -> NoDup l -> NoDup l'.
Proof. apply Permutation_NoDup. Qed.
Theorem picture {A} (name : A -> string) (c : list call) (b a : list (string * look)) (items : list (A * face)) (links : list (A * A * string)) (roots : list A) :
  map fst (nodes_of c) = map fst b ++ map name (map fst items) ++ map fst a ->
  map seen (nodes_of c) = map seen b ++ map snd items ++ map seen a ->
  NoDup (map fst b ++ map name (map fst items) ++ map fst a) ->
  Permutation (edges_of c) (map (nm name) links) ->
  Permutation (map fst items) (roots ++ map target links) ->
  depicts (do_calls c no_graph) (map seen b) (map seen a) items links.
Proof.
  intros H1 H2 N HE HR. exists name, (map fst b), (map fst a).
  assert (NI : NoDup (map name (map fst items))) by (clear - N; apply nd_app_r in N; apply nd_app_l in N; exact N).
  assert (NT : NoDup (map name (map target links))).
  { apply (Permutation_map name) in HR. rewrite map_app in HR. apply (perm_nodup _ _ HR) in NI. apply nd_app_r in NI. exact NI. }
  assert (NE : NoDup (map fst (edges_of c))).
  { apply (Permutation_NoDup (Permutation_map fst (Permutation_sym HE))). apply nodup_targets, NT. }
  rewrite run; cbn [gnodes gedges app map]; [|rewrite H1; exact N|exact NE].
  split; [exact N|]. split; [exact H1|]. split; [exact H2|]. split; [rewrite !map_length; reflexivity|exact HE].
Qed.

(** * Janet trees *)
Definition next_ss (nmd : bool) (w : option (nat * wrap)) : string := match w with Some (_, u) => wrap_label nmd u | None => "" end.
Definition at_of (a : nat) (w : option (nat * wrap)) : nat := match w with Some (b, _) => b | None => a end.
Fixpoint called (nmd : bool) (name : nat -> string) (ss : string) (t : atree) : Prop :=
  match t with
  | ANil => True
  | ANode a d w nd nv => name (at_of a w) = (ss ++ ptr_text (at_of a w))%string /\ called nmd name "" nv /\ called nmd name (next_ss nmd w) nd
  end.
Lemma ids_any nmd t : map fst (janet_items nmd t) = ids t.
Proof. unfold ids. induction t as [|a d w nd IHd nv IHv]; [reflexivity|]. cbn [janet_items map fst]. rewrite !map_app, IHd, IHv. reflexivity. Qed.
Lemma ids_node a d w nd nv : ids (ANode a d w nd nv) = at_of a w :: ids nv ++ ids nd.
Proof. unfold ids. cbn [janet_items map fst]. rewrite map_app. reflexivity. Qed.
Lemma called_ext nmd name name' t : forall ss, (forall a, In a (ids t) -> name a = name' a) -> called nmd name ss t -> called nmd name' ss t.
Proof.
  induction t as [|a d w nd IHd nv IHv]; intros ss X H; [exact Logic.I|]. rewrite ids_node in X. destruct H as (H1 & H2 & H3). split; [|split].
  - rewrite <- X by (left; reflexivity). exact H1.
  - apply IHv; [|exact H2]. intros b B. apply X. right. apply in_or_app. auto.
  - apply IHd; [|exact H3]. intros b B. apply X. right. apply in_or_app. auto.
Qed.
Definition nice (p : string) : Prop := p = "" \/ exists q, p = ("<" ++ q ++ ">")%string.
Lemma nice_label nmd w : nice (wrap_label nmd w).
Proof.
  right. unfold wrap_label. cbv zeta. generalize (each (size (wlm w)) (mark_cell "&amp;" (wbuild w))). intro x4.
  generalize (if nmd then ("</tr><tr>" ++ each (size (wlm w)) (mark_cell "#" (wnmd w)))%string else "").
  intro x3. match goal with |- exists q, (?a ++ ?x1 ++ ?b ++ ?x2 ++ x3 ++ ?c ++ x4 ++ ?e = _)%string => set (y1 := x1); set (y2 := x2) end.
  exists ("table border='0' cellborder='0'><tr>" ++ y1 ++ "</tr><tr>" ++ y2 ++ x3 ++ "</tr><tr>" ++ x4 ++ "</tr></table")%string. rewrite !app_assoc_s. reflexivity.
Qed.
Lemma nice_next nmd w : nice (next_ss nmd w).
Proof. destruct w as [[b u]|]; [apply nice_label|left; reflexivity]. Qed.
Definition proper (name : nat -> string) (l : list nat) : Prop := forall a, In a l -> exists p, nice p /\ name a = (p ++ ptr_text a)%string.
Lemma called_exists nmd t : forall ss, nice ss -> NoDup (ids t) -> exists name, called nmd name ss t /\ proper name (ids t).
Proof.
  induction t as [|a d w nd IHd nv IHv]; intros ss S N.
  - exists (fun _ => ""). split; [exact Logic.I|]. intros a [].
  - rewrite ids_node in *. inversion N as [|? ? N1 N2]; subst. pose proof (nd_app_r _ _ N2) as Nd. pose proof (nd_app_l _ _ N2) as Nv.
    destruct (IHd (next_ss nmd w) (nice_next nmd w) Nd) as (f & F & Pf). destruct (IHv "" (or_introl eq_refl) Nv) as (g & G & Pg).
    assert (Dis : forall x, In x (ids nd) -> ~ In x (ids nv)).
    { clear - N2. intros x I J. induction (ids nv) as [|y l IH]; [contradiction|]. cbn [app] in N2. inversion N2 as [|? ? H1 H2]; subst. destruct J as [->|J]; [apply H1, in_or_app; auto|auto]. }
    pose (h := fun x => if Nat.eqb x (at_of a w) then (ss ++ ptr_text x)%string else if in_dec Nat.eq_dec x (ids nv) then g x else f x).
    assert (E0 : h (at_of a w) = (ss ++ ptr_text (at_of a w))%string) by (unfold h; rewrite Nat.eqb_refl; reflexivity).
    assert (Ev : forall x, In x (ids nv) -> h x = g x).
    { intros x I. unfold h. destruct (Nat.eqb_spec x (at_of a w)) as [->|_]; [exfalso; apply N1, in_or_app; auto|]. destruct (in_dec _ _ _); [reflexivity|contradiction]. }
    assert (Ed : forall x, In x (ids nd) -> h x = f x).
    { intros x I. unfold h. destruct (Nat.eqb_spec x (at_of a w)) as [->|_]; [exfalso; apply N1, in_or_app; auto|]. destruct (in_dec _ _ _) as [J|_]; [destruct (Dis x I J)|reflexivity]. }
    exists h. split; [split; [exact E0|split]|].
    + apply (called_ext nmd g); [intros x I; symmetry; auto|exact G].
    + apply (called_ext nmd f); [intros x I; symmetry; auto|exact F].
    + intros x [<-|I]; [exists ss; auto|]. apply in_app_or in I as [I|I]; [rewrite Ev by exact I; apply Pg, I|rewrite Ed by exact I; apply Pf, I].
Qed.

(** The names are different *)
Definition not_gt (c : ascii) : bool := negb (Ascii.eqb c ">").
Definition marked (p : string) : Prop := p = "" \/ exists q, p = (q ++ ">")%string.
Lemma nice_marked p : nice p -> marked p.
Proof. intros [->|[q ->]]; [left; reflexivity|]. right. exists ("<" ++ q)%string. rewrite app_assoc_s. reflexivity. Qed.
Lemma marked_tl c p : marked (String c p) -> marked p.
Proof. intros [E|[q E]]; [discriminate|]. destruct q as [|c' q]; cbn in E; injection E as -> ->; [left; reflexivity|right; exists q; reflexivity]. Qed.
Lemma marked_none p s : marked p -> all not_gt (p ++ s) -> p = "".
Proof. intros [->|[q ->]] A; [reflexivity|]. apply all_app in A as [A _]. apply all_app in A as [_ [A _]]. discriminate A. Qed.
Lemma last_part p : forall q s t, marked p -> marked q -> all not_gt s -> all not_gt t -> (p ++ s = q ++ t)%string -> s = t.
Proof.
  induction p as [|c p IH]; intros q s t P Q A B E.
  - cbn in E. subst s. rewrite (marked_none q t Q A). reflexivity.
  - destruct q as [|c' q].
    + exfalso. cbn [append] in E. assert (X := marked_none (String c p) s P). cbn [append] in X. rewrite E in X. specialize (X B). discriminate X.
    + cbn in E. injection E as -> E. apply (IH q); eauto using marked_tl.
Qed.
Lemma ptr_chars a : all not_gt (ptr_text a).
Proof.
  unfold ptr_text. apply all_app. split; [cbn; auto|]. eapply all_weak; [|apply hex_chars; lia]. intros c H. unfold not_gt. destruct c as [[|] [|] [|] [|] [|] [|] [|] [|]]; try discriminate H; reflexivity.
Qed.
Lemma ptr_inj a b : ptr_text a = ptr_text b -> a = b.
Proof. unfold ptr_text. intro E. apply app_inj_l in E. apply hex_text_inj in E. lia. Qed.
Lemma proper_inj name l : proper name l -> NoDup l -> NoDup (map name l).
Proof.
  intros P N. apply nd_map; [|exact N]. intros a b A B E. destruct (P a A) as (p & Np & Ep), (P b B) as (q & Nq & Eq).
  rewrite Ep, Eq in E. apply ptr_inj. apply (last_part p q); auto using nice_marked, ptr_chars.
Qed.
Lemma proper_start name l s : proper name l -> (exists s', s = String "#" s') -> ~ In s (map name l).
Proof.
  intros P (s' & ->) I. apply in_map_iff in I as (a & E & A). destruct (P a A) as (p & [->|[q ->]] & Ep); rewrite Ep in E; discriminate E.
Qed.

(** Labels *)
Lemma concat_map_app (f : nat -> string) (l l' : list nat) : String.concat "" (map f (l ++ l')) = (String.concat "" (map f l) ++ String.concat "" (map f l'))%string.
Proof.
  induction l as [|x l IH]; [reflexivity|]. cbn [app map].
  assert (C : forall y (z : list string), String.concat "" (y :: z) = (y ++ String.concat "" z)%string) by (intros y [|z0 z]; [cbn; rewrite app_nil_s; reflexivity|reflexivity]).
  rewrite !C, IH, app_assoc_s. reflexivity.
Qed.
Lemma concat_e y z : String.concat "" (y :: z) = (y ++ String.concat "" z)%string.
Proof. destruct z; [cbn; rewrite app_nil_s; reflexivity|reflexivity]. Qed.
Lemma map_nth_seq {A} (g : nat -> A) (l : list nat) : map (fun i => g (nth i l 0)) (seq 0 (List.length l)) = map g l.
Proof.
  assert (H : forall pre, map (fun i => g (nth i (pre ++ l) 0)) (seq (List.length pre) (List.length l)) = map g l).
  { induction l as [|x l IH]; intro pre; [reflexivity|]. cbn [List.length seq map]. f_equal.
    - rewrite app_nth2, Nat.sub_diag by lia. reflexivity.
    - specialize (IH (pre ++ [x])). rewrite <- app_assoc in IH. cbn [app] in IH. rewrite app_length in IH. cbn [List.length] in IH. rewrite Nat.add_1_r in IH. exact IH. }
  exact (H []).
Qed.
Lemma marks_cells m l n : each n (mark_cell m l) = String.concat "" (map (fun c => "<td>" ++ c ++ "</td>")%string (map (fun i => if nth i l false then m else "") (seq 0 n))).
Proof. unfold each. rewrite map_map. reflexivity. Qed.
Lemma label_eq nmd w : wrap_label nmd w = table_text (wrap_rows nmd w).
Proof.
  unfold wrap_label, table_text, wrap_rows. cbv zeta. change (size (wlm w)) with (List.length (vars (wlm w))). rewrite !marks_cells.
  assert (X : each (List.length (vars (wlm w))) (fun i => if is_gb w then ("<td><B>" ++ n_text (nth i (vars (wlm w)) 0) ++ "</B></td>")%string else ("<td>" ++ n_text (nth i (vars (wlm w)) 0) ++ "</td>")%string) =
    String.concat "" (map (fun c => "<td>" ++ c ++ "</td>")%string (map (fun d => if Nat.eqb (deg (wanc w)) (deg (wlm w)) then ("<B>" ++ n_text d ++ "</B>")%string else n_text d) (vars (wlm w))))).
  { unfold each. rewrite map_map. rewrite <- (map_nth_seq (fun d => "<td>" ++ (if Nat.eqb (deg (wanc w)) (deg (wlm w)) then ("<B>" ++ n_text d ++ "</B>") else n_text d) ++ "</td>")%string).
    f_equal. apply map_ext. intro i. unfold is_gb. destruct (Nat.eqb _ _); [|reflexivity]. cbn [append]. rewrite !app_assoc_s. reflexivity. }
  rewrite X. destruct nmd; cbn [app map]; rewrite !concat_e; unfold row_text; change (String.concat "" []) with ""; rewrite ?app_nil_s, ?app_assoc_s; reflexivity.
Qed.

Definition pref (r prev : option string) (k : option string) : list (string * string * string) :=
  match r, prev, k with Some _, Some p, Some x => [(p, x, "solid")] | _, _, _ => [] end.
Lemma who_node a d w nd nv : who (ANode a d w nd nv) = Some (at_of a w).
Proof. reflexivity. Qed.
Lemma link_nm name x y s : map (nm name) (link x y s) = match x, y with Some a, Some b => [(name a, name b, s)] | _, _ => [] end.
Proof. destruct x, y; reflexivity. Qed.
Lemma draw_shows nmd name t : forall ss r prev, called nmd name ss t ->
  let (c, r') := draw_tree nmd ss r prev t in
  map fst (nodes_of c) = map name (map fst (janet_items nmd t)) /\ map seen (nodes_of c) = map snd (janet_items nmd t) /\
  Permutation (edges_of c) (pref r prev (option_map name (who t)) ++ map (nm name) (janet_links t)) /\
  r' = match r with Some _ => r | None => option_map name (who t) end.
Proof.
  induction t as [|a d w nd IHd nv IHv]; intros ss r prev H.
  - cbn. repeat split; destruct r; try reflexivity. destruct prev; reflexivity.
  - destruct H as (H1 & H2 & H3). cbn [draw_tree].
    assert (X : (match w with Some (b, u) => ((ss ++ ptr_text b)%string, wrap_label nmd u, wrap_label nmd u) | None => ((ss ++ ptr_text a)%string, n_text d, "") end)
      = (name (at_of a w), fst (fst (janet_face nmd d w)), next_ss nmd w)).
    { rewrite H1. destruct w as [[b u]|]; cbn [at_of janet_face fst next_ss]; rewrite <- ?label_eq; reflexivity. }
    rewrite X. clear X. specialize (IHv "" None None H2). destruct (draw_tree nmd "" None None nv) as [c1 right]. destruct IHv as (V1 & V2 & V3 & V4).
    set (r1 := match r with Some _ => r | None => Some (name (at_of a w)) end).
    specialize (IHd (next_ss nmd w) r1 (Some (name (at_of a w))) H3). destruct (draw_tree nmd (next_ss nmd w) r1 (Some (name (at_of a w))) nd) as [c2 r2]. destruct IHd as (D1 & D2 & D3 & D4).
    set (dotted := match right with Some x => [CEdge (name (at_of a w)) x "dotted"] | None => [] end).
    set (solid := match r, prev with Some _, Some p => [CEdge p (name (at_of a w)) "solid"] | _, _ => [] end).
    assert (Nd : nodes_of dotted = [] /\ nodes_of solid = []) by (unfold dotted, solid; destruct right, r, prev; split; reflexivity). destruct Nd as [Nd Ns].
    assert (Nodes : nodes_of (CNode (name (at_of a w)) (Look (Some (fst (fst (janet_face nmd d w)))) (Some "plaintext") None) :: c1 ++ dotted ++ solid ++ c2)
      = (name (at_of a w), Look (Some (fst (fst (janet_face nmd d w)))) (Some "plaintext") None) :: nodes_of c1 ++ nodes_of c2).
    { change (?h :: ?t) with ([h] ++ t) at 1. rewrite !nodes_app, Nd, Ns. reflexivity. }
    assert (Edges : edges_of (CNode (name (at_of a w)) (Look (Some (fst (fst (janet_face nmd d w)))) (Some "plaintext") None) :: c1 ++ dotted ++ solid ++ c2)
      = edges_of c1 ++ edges_of dotted ++ edges_of solid ++ edges_of c2).
    { change (?h :: ?t) with ([h] ++ t) at 1. rewrite !edges_app. reflexivity. }
    rewrite Nodes, Edges. cbn [janet_items map fst snd]. rewrite !map_app, V1, V2, D1, D2. fold (at_of a w). split; [reflexivity|]. split; [reflexivity|]. split.
    + cbn [janet_links]. rewrite who_node. rewrite !map_app, !link_nm. cbn [option_map].
      assert (Es : edges_of solid = pref r prev (Some (name (at_of a w)))) by (unfold solid, pref; destruct r, prev; reflexivity).
      assert (Ed : edges_of dotted = match who nv with Some b => [(name (at_of a w), name b, "dotted")] | None => [] end) by (unfold dotted; rewrite V4; destruct (who nv); reflexivity).
      rewrite Es, Ed. cbn [pref app] in V3. 
      assert (Ep : pref r1 (Some (name (at_of a w))) (option_map name (who nd)) = match who nd with Some b => [(name (at_of a w), name b, "solid")] | None => [] end) by (unfold pref, r1; destruct r, (who nd); reflexivity).
      rewrite Ep in D3. rewrite V3, D3. clear.
      set (S0 := pref r prev _). set (S1 := match who nd with Some _ => _ | None => _ end). set (S2 := match who nv with Some _ => _ | None => _ end). set (L1 := map (nm name) (janet_links nv)). set (L2 := map (nm name) (janet_links nd)).
      rewrite (app_assoc S2 S0), (app_assoc L1). rewrite (Permutation_app_comm S2 S0). rewrite <- !app_assoc. rewrite (Permutation_app_swap_app L1 S0). apply Permutation_app_head.
      rewrite (Permutation_app_swap_app L1 S2). rewrite (Permutation_app_swap_app L1 S1). rewrite (Permutation_app_swap_app S2 S1). reflexivity.
    + rewrite D4. unfold r1. destruct r; reflexivity.
Qed.
Lemma targets_ids t : Permutation (ids t) (match who t with Some a => [a] | None => [] end ++ map target (janet_links t)).
Proof.
  induction t as [|a d w nd IHd nv IHv]; [reflexivity|]. rewrite ids_node, who_node. cbn [janet_links app]. apply perm_skip. rewrite who_node, !map_app.
  rewrite IHd, IHv. destruct (who nd) as [x|], (who nv) as [y|]; cbn [link map target fst snd app].
  - rewrite perm_swap. apply perm_skip. symmetry. apply Permutation_middle.
  - symmetry. apply Permutation_middle.
  - reflexivity.
  - reflexivity.
Qed.
