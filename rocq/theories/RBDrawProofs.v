From Coq Require Import ZArith List Bool Arith Lia String Ascii Permutation.
From Verif Require Import Outcome RBModel RBHeapProofs RBReadProofs TextModel TextSpec TextProofs TextProofs2 TexTop DrawModel RBDrawModel DrawSpec DrawProofs.
Import ListNotations.
Local Open Scope string_scope.
Local Open Scope list_scope.

Section RB.
Context {T : Type}.
Variable key_text : T -> string.
Notation tr := (@tr T).

(** Counter of missing children after a tree, names by places *)
Fixpoint after (leaf : nat) (t : tr) : nat := match t with E => Datatypes.S leaf | N _ _ l _ r => after (after leaf l) r end.
Fixpoint name_at (leaf : nat) (t : tr) (p : list bool) : string :=
  match t, p with
  | E, _ => leaf_name (Datatypes.S leaf)
  | N _ _ _ k _, [] => key_text k
  | N _ _ l _ _, false :: p' => name_at leaf l p'
  | N _ _ l _ r, true :: p' => name_at (after leaf l) r p'
  end.
Definition inner_links (p : list bool) (l r : tr) := rb_links (p ++ [false]) l ++ rb_links (p ++ [true]) r.

Lemma app_one {A} (p : list A) x q : (p ++ [x]) ++ q = p ++ x :: q.
Proof. rewrite <- app_assoc. reflexivity. Qed.
Lemma draw_ok (h : heap T) (name : list bool -> string) (t : tr) : forall (par : option nat) (p : list bool) (leaf f : nat), repT h par t ->
  (forall q, name (p ++ q) = name_at leaf t q) ->
  (2 * size t < f -> exists c, draw_rb key_text f h leaf (ad t) = Ok (c, name p, after leaf t) /\
    map fst (nodes_of c) = map name (map fst (rb_items key_text p t)) /\ map seen (nodes_of c) = map snd (rb_items key_text p t) /\
    Permutation (edges_of c) (map (nm name) (rb_links p t))) /\
  (forall a cl l k r, t = N a cl l k r -> 2 * size t <= f -> exists c, draw_rb_loop key_text f h leaf a (name p) = Ok (c, after leaf t) /\
    map fst (nodes_of c) = map name (tl (map fst (rb_items key_text p t))) /\ map seen (nodes_of c) = tl (map snd (rb_items key_text p t)) /\
    Permutation (edges_of c) (map (nm name) (rb_links p t))).
Proof.
  induction t as [|a0 c0 l IHl k0 r IHr]; intros par p leaf f R Nm.
  - split; [|discriminate]. intro F. destruct f as [|f]; [lia|]. eexists. pose proof (Nm []) as N0. rewrite app_nil_r in N0. cbn in N0.
    cbn [draw_rb ad draw_leaf after]. split; [rewrite N0; reflexivity|]. cbn. rewrite N0. repeat split; constructor.
  - destruct R as (G & Rl & Rr). pose proof (Nm []) as N0. rewrite app_nil_r in N0. cbn in N0.
    assert (Nl : forall q, name ((p ++ [false]) ++ q) = name_at leaf l q) by (intro q; rewrite app_one, Nm; reflexivity).
    assert (Nr : forall q, name ((p ++ [true]) ++ q) = name_at (after leaf l) r q) by (intro q; rewrite app_one, Nm; reflexivity).
    assert (Loop : forall f, 2 * size (N a0 c0 l k0 r) <= f -> exists c, draw_rb_loop key_text f h leaf a0 (name p) = Ok (c, after leaf (N a0 c0 l k0 r)) /\
      map fst (nodes_of c) = map name (tl (map fst (rb_items key_text p (N a0 c0 l k0 r)))) /\ map seen (nodes_of c) = tl (map snd (rb_items key_text p (N a0 c0 l k0 r))) /\
      Permutation (edges_of c) (map (nm name) (rb_links p (N a0 c0 l k0 r)))).
    { clear f. intros f F. cbn [size] in F. destruct f as [|f]; [lia|].
      destruct (IHl (Some a0) (p ++ [false]) leaf f Rl Nl) as [Hl _]. destruct Hl as (c1 & E1 & A1 & A2 & A3); [lia|].
      change (draw_rb_loop key_text (Datatypes.S f) h leaf a0 (name p)) with
        (do n <- get h a0; do x <- draw_rb key_text f h leaf (mLeft n);
         let '(c1, left, leaf1) := x in
         match mRight n with
         | None => let '(c2, right, leaf2) := draw_leaf leaf1 in Ok (c1 ++ c2 ++ [CEdge (name p) left "solid"; CEdge (name p) right "solid"], leaf2)
         | Some b => do m <- get h b; let (c2, right) := draw_key key_text m in do y <- draw_rb_loop key_text f h leaf1 b right;
             Ok (c1 ++ c2 ++ [CEdge (name p) left "solid"; CEdge (name p) right "solid"] ++ fst y, snd y)
         end).
      rewrite G. cbn [bind mLeft mRight]. rewrite E1. cbn [bind].
      destruct (IHr (Some a0) (p ++ [true]) (after leaf l) f Rr Nr) as [_ Hr]. cbn [rb_items rb_links map fst snd tl].
      pose proof (Nr []) as Nr0. rewrite app_nil_r in Nr0.
      destruct r as [|b cb rl kb rr].
      + cbn [ad draw_leaf after]. cbn in Nr0. eexists. split; [reflexivity|]. rewrite !nodes_app, !edges_app, !map_app. cbn [nodes_of edges_of flat_map app map fst snd seen rb_items rb_links a_label a_shape a_color].
        rewrite A1, A2, A3, Nr0. unfold nm at 2 3. cbn [fst snd]. rewrite Nr0. cbn [app]. rewrite app_nil_r. split; [reflexivity|]. split; [reflexivity|].
        match goal with |- Permutation (?u ++ [?x; ?y]) _ => rewrite (Permutation_app_comm u [x; y]) end. reflexivity.
      + cbn [ad]. destruct Rr as (Gb & Rr'). rewrite Gb. cbn [bind draw_key mKey]. unfold draw_key. cbn [mKey mRed].
        destruct (Hr b cb rl kb rr eq_refl) as (c2 & E2 & B1 & B2 & B3); [lia|]. cbn in Nr0. rewrite Nr0 in E2. rewrite E2. cbn [bind fst snd]. 
        eexists. split; [reflexivity|]. rewrite !nodes_app, !edges_app, !map_app.
        cbn [nodes_of edges_of flat_map app map fst snd seen rb_items a_label a_shape a_color]. cbn [rb_items map fst snd tl] in B1, B2.
        change (flat_map (fun x => match x with CNode y z => [(y, z)] | _ => [] end) c2) with (nodes_of c2).
        change (flat_map (fun x => match x with CEdge u v s | CNew u v s => [(u, v, s)] | _ => [] end) c2) with (edges_of c2).
        rewrite A1, A2, A3, B1, B2, B3, Nr0. rewrite !map_app. split; [reflexivity|]. split; [reflexivity|].
        repeat change (nm name (?a, ?b, ?s)) with (name a, name b, s). rewrite Nr0.
        match goal with |- Permutation (?u ++ ?x :: ?y :: ?w) _ => change (x :: y :: w) with ([x; y] ++ w); rewrite (Permutation_app_swap_app u [x; y]) end. reflexivity. }
    split; [|intros a cl l' k r' X F; injection X as <- <- <- <- <-; apply Loop, F].
    intro F. destruct f as [|f]; [lia|]. destruct (Loop f) as (c & E1 & B1 & B2 & B3); [lia|].
    change (draw_rb key_text (Datatypes.S f) h leaf (ad (N a0 c0 l k0 r))) with
      (do n <- get h a0; let (c0, x) := draw_key key_text n in do y <- draw_rb_loop key_text f h leaf a0 x; Ok (c0 ++ fst y, x, snd y)).
    rewrite G. cbn [bind]. unfold draw_key. cbn [mKey mRed]. rewrite <- N0, E1. cbn [bind fst snd]. eexists. split; [reflexivity|].
    rewrite nodes_app, edges_app, !map_app. cbn [rb_items map fst snd tl] in B1, B2 |- *. rewrite B1, B2, B3. cbn [nodes_of edges_of flat_map app map fst snd seen a_label a_shape a_color].
    rewrite N0. repeat split; reflexivity.
Qed.

(** The names are different *)
Fixpoint names (leaf : nat) (t : tr) : list string :=
  match t with E => [leaf_name (Datatypes.S leaf)] | N _ _ l k r => key_text k :: names leaf l ++ names (after leaf l) r end.
Lemma names_eq (name : list bool -> string) t : forall p leaf, (forall q, name (p ++ q) = name_at leaf t q) -> map name (map fst (rb_items key_text p t)) = names leaf t.
Proof.
  induction t as [|a c l IHl k r IHr]; intros p leaf H; pose proof (H []) as H0; rewrite app_nil_r in H0; cbn in H0.
  - cbn. rewrite H0. reflexivity.
  - cbn [rb_items map fst names]. rewrite !map_app, H0. f_equal. f_equal; [apply IHl|apply IHr]; intro q; rewrite app_one, H; reflexivity.
Qed.
Fixpoint missing (leaf : nat) (t : tr) : list nat := match t with E => [Datatypes.S leaf] | N _ _ l _ r => missing leaf l ++ missing (after leaf l) r end.
Lemma names_perm t : forall leaf, Permutation (names leaf t) (map key_text (map snd (ents t)) ++ map leaf_name (missing leaf t)).
Proof.
  induction t as [|a c l IHl k r IHr]; intro leaf; [reflexivity|]. cbn [names ents missing]. rewrite !map_app. cbn [map snd]. rewrite IHl, IHr.
  rewrite <- !app_assoc. cbn [app].
  match goal with |- Permutation (?x :: ?a ++ ?b ++ ?c ++ ?d) _ => rewrite (Permutation_app_swap_app b c d); rewrite Permutation_middle end. reflexivity.
Qed.
Lemma after_lt t : forall leaf, leaf < after leaf t.
Proof. induction t as [|a c l IHl k r IHr]; intro leaf; cbn [after]; [lia|]. pose proof (IHl leaf). pose proof (IHr (after leaf l)). lia. Qed.
Lemma missing_range t : forall leaf i, In i (missing leaf t) -> leaf < i <= after leaf t.
Proof.
  induction t as [|a c l IHl k r IHr]; intros leaf i; cbn [missing after].
  - intros [<-|[]]. lia.
  - intro I. apply in_app_or in I as [I|I]; [apply IHl in I|apply IHr in I]; pose proof (after_lt l leaf); pose proof (after_lt r (after leaf l)); lia.
Qed.
Lemma nd_app {A} (l r : list A) : NoDup l -> NoDup r -> (forall x, In x l -> ~ In x r) -> NoDup (l ++ r).
Proof.
  induction l as [|x l IH]; intros L R D; [exact R|]. inversion L; subst. cbn [app]. constructor.
  - intro I. apply in_app_or in I as [I|I]; [contradiction|apply (D x); cbn; auto].
  - apply IH; auto. intros y Y. apply D. right. exact Y.
Qed.
Lemma missing_nodup t : forall leaf, NoDup (missing leaf t).
Proof.
  induction t as [|a c l IHl k r IHr]; intro leaf; cbn [missing]; [constructor; [intros []|constructor]|].
  apply nd_app; auto. intros i I J. apply missing_range in I, J. lia.
Qed.
Lemma leaf_name_inj i j : leaf_name i = leaf_name j -> i = j.
Proof. unfold leaf_name. intro X. apply app_inj_l in X. apply n_text_inj, X. Qed.

Theorem c100_rb (h : heap T) (leaf : nat) (t : tree) (tt : tr) : rep (St h (mRoot t)) tt ->
  NoDup (map key_text (map snd (ents tt))) -> (forall k, In k (map snd (ents tt)) -> prefix "nullptr" (key_text k) = false) ->
  exists g leaf', rb_draw key_text h leaf t = Ok (g, leaf') /\ depicts g [] [] (rb_items key_text [] tt) (rb_links [] tt).
Proof.
  intros R NK NP. pose proof (rep_size _ _ R) as Sz. destruct R as (R & Rt & _). cbn [hp rt] in *.
  pose (name := name_at leaf tt). assert (Nm : forall q, name ([] ++ q) = name_at leaf tt q) by reflexivity.
  destruct (draw_ok h name tt None [] leaf (2 * Datatypes.S (List.length h)) R Nm) as [D _]. destruct D as (c & E1 & A1 & A2 & A3); [lia|].
  exists (do_calls c no_graph), (after leaf tt). split; [unfold rb_draw; rewrite Rt, E1; reflexivity|].
  assert (ND : NoDup (map name (map fst (rb_items key_text [] tt)))).
  { rewrite (names_eq name tt [] leaf Nm). apply (Permutation_NoDup (Permutation_sym (names_perm tt leaf))). apply nd_app; [exact NK|apply nd_map; [intros; apply leaf_name_inj; assumption|apply missing_nodup]|].
    intros x I J. apply in_map_iff in J as (i & <- & _). apply in_map_iff in I as (k & X & K). specialize (NP k K). rewrite X in NP. unfold leaf_name in NP. destruct (n_text i); discriminate NP. }
  refine (picture name c [] [] (rb_items key_text [] tt) (rb_links [] tt) [[]] _ _ _ A3 _); cbn [map app]; rewrite ?app_nil_r; [exact A1|exact A2|exact ND|].
  clear. cut (forall p, Permutation (map fst (rb_items key_text p tt)) (p :: map target (rb_links p tt))); [intro X; apply X|].
  induction tt as [|a c l IHl k r IHr]; intro p; [reflexivity|]. cbn [rb_items rb_links map fst]. apply perm_skip. rewrite !map_app, IHl, IHr. unfold target at 3 4. cbn [fst snd app].
  apply perm_skip. symmetry. apply Permutation_middle.
Qed.
End RB.
