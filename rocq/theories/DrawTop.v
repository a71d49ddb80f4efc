From Coq Require Import ZArith List Bool Arith Lia String Ascii Permutation.
From Verif Require Import Outcome MonomModel MonomSpec JanetModel JanetSpec JanetProofs JanetFindProofs CompletionModel CompletionProofs MJanetProofs JanetTopProofs GBProofs HilbertModel HilbertProofs HilbertTop TextModel TextSpec TextProofs TextProofs2 TexTop RBModel RBHeapProofs RBReadProofs DrawModel JanetDrawModel RBDrawModel PyDrawModel DrawSpec DrawProofs RBDrawProofs PyDrawProofs.
Import ListNotations.
Local Open Scope string_scope.
Local Open Scope list_scope.

(** * Janet trees *)
Theorem c100_janet dbg sz t h : NoDup (ids t) -> build_hp dbg (JT sz (erase t)) hp_none = Ok h ->
  exists g, janet_draw dbg sz t = Ok g /\ depicts g [plain (janet_head sz h)] [] (janet_items false t) (janet_links t).
Proof.
  intros N E. unfold janet_draw. rewrite E. cbn [bind]. eexists. split; [reflexivity|].
  destruct (called_exists false t "" (or_introl eq_refl) N) as (name & C & P).
  pose proof (draw_shows false name t "" None None C) as D. destruct (draw_tree false "" None None t) as [c r']. destruct D as (D1 & D2 & D3 & _). cbn [fst].
  fold (janet_head sz h). set (s := janet_head sz h).
  refine (picture name (CNode s bare :: c) [(s, bare)] [] (janet_items false t) (janet_links t) (match who t with Some a => [a] | None => [] end) _ _ _ _ _).
  - rewrite nodes_cons. cbn [map fst app]. rewrite D1, app_nil_r. reflexivity.
  - rewrite nodes_cons. cbn [map app]. rewrite D2, app_nil_r. reflexivity.
  - cbn [map fst app]. rewrite app_nil_r. fold (ids t). constructor; [|apply proper_inj; assumption].
    apply (proper_start name (ids t)); [exact P|]. unfold s, janet_head. cbn [append]. eexists. reflexivity.
  - rewrite edges_cons. exact D3.
  - apply targets_ids.
Qed.
Theorem c100_janet_set dbg n l t : 0 < n -> l <> [] -> Forall (fun m => List.length (vars m) = n) l -> NoDup (map vars l) ->
  forall J, mj_push_all false jempty l = Ok J -> erase t = jroot J -> NoDup (ids t) ->
  exists h g, build_hp dbg J hp_none = Ok h /\ janet_draw dbg (jsize J) t = Ok g /\ depicts g [plain (janet_head (jsize J) h)] [] (janet_items false t) (janet_links t).
Proof.
  intros Hn NE L ND J EJ Et N. destruct (push_all_spec false n (-1)%Z l Hn L ND) as (J' & E & T & P & _); [discriminate|]. rewrite EJ in E. injection E as <-.
  destruct (build_hp_value dbg n J) as (h & Eh & _).
  - apply T.
  - intros Nn. rewrite Nn in P. cbn in P. apply Permutation_nil in P. congruence.
  - exists h. destruct (c100_janet dbg (jsize J) t h N) as (g & Eg & D); [rewrite Et; destruct J; exact Eh|]. exists g. auto.
Qed.
Theorem c100_empty : janet_draw true 0 ANil = AssertFail /\
  forall sz, exists g, janet_draw false sz ANil = Ok g /\ gnodes g = [(janet_head sz [], bare)] /\ gedges g = [].
Proof. split; [reflexivity|]. intro sz. eexists. split; [reflexivity|]. split; reflexivity. Qed.

(** * The forest of a Groebner basis *)
Lemma forest_shows name l : (forall t, In t (grown l) -> called true name "" t) ->
  let c := flat_map (fun x => match x with Some t => fst (draw_tree true "" None None t) | None => [] end) l in
  map fst (nodes_of c) = map name (map fst (flat_map (janet_items true) (grown l))) /\ map seen (nodes_of c) = map snd (flat_map (janet_items true) (grown l)) /\
  Permutation (edges_of c) (map (nm name) (flat_map janet_links (grown l))).
Proof.
  induction l as [|[t|] l IH]; intro H; cbv zeta; cbn [flat_map grown].
  - repeat split; constructor.
  - change (grown (Some t :: l)) with (t :: grown l) in *. destruct (IH (fun u I => H u (or_intror I))) as (I1 & I2 & I3).
    pose proof (draw_shows true name t "" None None (H t (or_introl eq_refl))) as D. destruct (draw_tree true "" None None t) as [c r']. destruct D as (D1 & D2 & D3 & _). cbn [fst].
    change (flat_map ?f ([?x] ++ ?y)) with (f x ++ flat_map f y). rewrite nodes_app, edges_app, !map_app, D1, D2, D3, I1, I2, I3. cbn [pref app]. repeat split; reflexivity.
  - change (grown (None :: l)) with (grown l) in *. apply IH, H.
Qed.
Lemma forest_names (ts : list atree) : NoDup (flat_map ids ts) -> exists name, (forall t, In t ts -> called true name "" t) /\ proper name (flat_map ids ts).
Proof.
  induction ts as [|t ts IH]; intro N.
  - exists (fun _ => ""). split; [intros t []|intros a []].
  - cbn [flat_map] in N. destruct (IH (nd_app_r _ _ N)) as (f & F & Pf). destruct (called_exists true t "" (or_introl eq_refl) (nd_app_l _ _ N)) as (g & G & Pg).
    assert (Dis : forall x, In x (flat_map ids ts) -> ~ In x (ids t)).
    { clear - N. intros x I J. induction (ids t) as [|y l IH]; [contradiction|]. cbn [app] in N. inversion N as [|? ? H1 H2]; subst. destruct J as [->|J]; [apply H1, in_or_app; auto|auto]. }
    pose (h := fun x => if in_dec Nat.eq_dec x (ids t) then g x else f x).
    assert (Eg : forall x, In x (ids t) -> h x = g x) by (intros x I; unfold h; destruct (in_dec _ _ _); [reflexivity|contradiction]).
    assert (Ef : forall x, In x (flat_map ids ts) -> h x = f x) by (intros x I; unfold h; destruct (in_dec _ _ _) as [J|]; [destruct (Dis x I J)|reflexivity]).
    exists h. split.
    + intros u [<-|I]; [apply (called_ext true g); [intros; symmetry; auto|exact G]|]. apply (called_ext true f); [|apply F, I]. intros x X. symmetry. apply Ef. apply in_flat_map. eauto.
    + intros x I. cbn [flat_map] in I. apply in_app_or in I as [I|I]; [rewrite Eg by exact I; apply Pg, I|rewrite Ef by exact I; apply Pf, I].
Qed.
Lemma forest_ids ts : map fst (flat_map (janet_items true) ts) = flat_map ids ts.
Proof. induction ts as [|t ts IH]; [reflexivity|]. cbn [flat_map]. rewrite map_app, IH, ids_any. reflexivity. Qed.
Lemma forest_targets ts : Permutation (flat_map ids ts) (flat_map (fun t => match who t with Some a => [a] | None => [] end) ts ++ map target (flat_map janet_links ts)).
Proof.
  induction ts as [|t ts IH]; [reflexivity|]. cbn [flat_map]. rewrite map_app, IH, targets_ids, <- !app_assoc. apply Permutation_app_head.
  match goal with |- Permutation (?a ++ ?b ++ ?c) _ => apply (Permutation_app_swap_app a b c) end.
Qed.
Theorem c100_forest sz forest : NoDup (flat_map ids (grown forest)) ->
  depicts (gb_draw sz forest) [plain ("#GB = " ++ n_text sz)] [] (flat_map (janet_items true) (grown forest)) (flat_map janet_links (grown forest)).
Proof.
  intro N. unfold gb_draw. destruct (forest_names _ N) as (name & C & P). destruct (forest_shows name forest C) as (D1 & D2 & D3).
  set (s := ("#GB = " ++ n_text sz)%string). set (c := flat_map _ forest) in *.
  refine (picture name (CNode s bare :: c) [(s, bare)] [] _ _ (flat_map (fun t => match who t with Some a => [a] | None => [] end) (grown forest)) _ _ _ _ _).
  - rewrite nodes_cons. cbn [map fst app]. rewrite D1, app_nil_r. reflexivity.
  - rewrite nodes_cons. cbn [map app]. rewrite D2, app_nil_r. reflexivity.
  - cbn [map fst app]. rewrite app_nil_r, forest_ids. constructor; [|apply proper_inj; assumption].
    apply (proper_start name _); [exact P|]. unfold s. cbn [append]. eexists. reflexivity.
  - rewrite edges_cons. exact D3.
  - rewrite forest_ids. apply forest_targets.
Qed.

(** * Red-black trees with int keys *)
Lemma z_text_start z : prefix "nullptr" (z_text z) = false.
Proof.
  pose proof (z_text_chars z) as C. destruct (z_text z) as [|a s]; [reflexivity|]. destruct C as [C _]. cbn [prefix].
  destruct (Ascii.ascii_dec "n" a) as [<-|]; [discriminate C|reflexivity].
Qed.
Lemma z_text_inj a b : z_text a = z_text b -> a = b.
Proof.
  intro E. destruct (z_reads a b "" "" Logic.I Logic.I Logic.I Logic.I) as [X _]; [|exact X]. rewrite !app_nil_s. exact E.
Qed.
Theorem c100_rb_int (h : heap Z) (leaf : nat) (t : tree) (tt : @tr Z) : rep (St h (mRoot t)) tt -> NoDup (map snd (ents tt)) ->
  exists g leaf', rb_draw z_text h leaf t = Ok (g, leaf') /\ depicts g [] [] (rb_items z_text [] tt) (rb_links [] tt).
Proof.
  intros R N. apply c100_rb; [exact R|apply nd_map; [intros; apply z_text_inj; assumption|exact N]|intros; apply z_text_start].
Qed.

(** * A picture has as many nodes *)
Lemma depicts_count {A} g b a (items : list (A * face)) links : depicts g b a items links -> List.length (gnodes g) = List.length b + List.length items + List.length a.
Proof.
  intros (name & x & y & _ & _ & S & _ & _). apply (f_equal (@List.length _)) in S. rewrite !app_length, !map_length in S. lia.
Qed.
Lemma c100_rb_refuted : exists (h : heap string) (t : tree) (tt : @tr string) g n, rep (St h (mRoot t)) tt /\ NoDup (map snd (ents tt)) /\
  rb_draw (fun s => s) h 0 t = Ok (g, n) /\ ~ depicts g [] [] (rb_items (fun s => s) [] tt) (rb_links [] tt).
Proof.
  exists [Some (RBModel.Node "nullptr1" false None None None)], (Tree (Some 0) 1), (RBHeapProofs.N 0 false E "nullptr1" E). do 2 eexists.
  split; [|split; [|split; [vm_compute; reflexivity|]]].
  - split; [|split]; [cbn; auto|reflexivity|]. apply nodup_NoDup. cbn. repeat constructor. intros [].
  - repeat constructor. intros [].
  - intro D. apply depicts_count in D. cbn in D. discriminate D.
Qed.
