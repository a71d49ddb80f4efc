From Coq Require Import ZArith List Bool Arith Lia String Ascii Permutation.
From Verif Require Import Outcome MonomModel PyMonomModel PyJanetModel TextModel TextSpec TextProofs TextProofs2 PyTextModel TexTop DrawModel PyDrawModel DrawSpec DrawProofs.
Import ListNotations.
Local Open Scope string_scope.
Local Open Scope list_scope.

Lemma py_label_eq o level w : py_label o level w = ("<" ++ String.concat "<BR/>" (py_lines o level w) ++ ">")%string.
Proof.
  unfold py_label, py_lines, flag_text, w_isGB, tag. cbv zeta.
  assert (X : (if (pos (pw_lm w) <? 0)%Z then " " else spaces (2 + String.length (z_text (pos (pw_lm w))))) =
              spaces (if (pos (pw_lm w) <? 0)%Z then 1 else 2 + String.length (z_text (pos (pw_lm w))))) by (destruct (pos (pw_lm w) <? 0)%Z; reflexivity).
  rewrite X. set (ind := spaces _). set (b1 := String.concat " " (map _ (pw_nonmult w))). set (b2 := String.concat " " (map _ (pw_prolong w))).
  generalize (py_monom_repr (pw_lm w)) as u. generalize (py_monom_repr (pw_anc w)) as v. intros v u.
  destruct level as [|[|[|[|n]]]]; cbn [Nat.leb firstn String.concat]; destruct (py_eq o (pw_lm w) (pw_anc w)); cbn [append]; rewrite ?app_nil_s, ?app_assoc_s; cbn [append]; rewrite ?app_nil_s, ?app_assoc_s; cbn [append]; rewrite ?app_nil_s, ?app_assoc_s; try reflexivity.
Qed.

Definition pre (n1 : option string) (k : option nat) (s : string) : list (string * string * string) :=
  match n1, k with Some p, Some x => [(p, n_text x, s)] | _, _ => [] end.
Lemma link_nt a b s : map (nm n_text) (link (Some a) b s) = pre (Some (n_text a)) b s.
Proof. destruct b; reflexivity. Qed.
Lemma nodes_cons s l c : nodes_of (CNode s l :: c) = (s, l) :: nodes_of c.
Proof. reflexivity. Qed.
Lemma edges_cons s l c : edges_of (CNode s l :: c) = edges_of c.
Proof. reflexivity. Qed.
Lemma py_shows o level r : forall i n1 s, (n1 = None -> s = "solid") ->
  map fst (nodes_of (py_draw_row o level r i n1 s)) = map n_text (map fst (py_items o level i r)) /\
  map seen (nodes_of (py_draw_row o level r i n1 s)) = map snd (py_items o level i r) /\
  Permutation (edges_of (py_draw_row o level r i n1 s)) (pre n1 (first_shown r) s ++ map (nm n_text) (py_links r)).
Proof.
  induction r as [|id w r IH|id inner IHi r IH]; intros i n1 s N.
  - cbn. repeat split. destruct n1; reflexivity.
  - cbn [py_draw_row py_items first_shown py_links].
    assert (X : exists e, py_edge n1 (n_text id) s = (e, "solid") /\ nodes_of e = [] /\ edges_of e = pre n1 (Some id) s).
    { destruct n1 as [q|]; [eexists; split; [reflexivity|split; reflexivity]|rewrite N by reflexivity; eexists; split; [reflexivity|split; reflexivity]]. }
    destruct X as (e & -> & X1 & X2). destruct (IH (Datatypes.S i) (Some (n_text id)) "solid" ltac:(discriminate)) as (H1 & H2 & H3).
    rewrite nodes_cons, edges_cons, !nodes_app, !edges_app, X1, X2. cbn [nodes_of edges_of flat_map app map fst snd seen a_label a_shape a_color].
    rewrite H1, H2, H3, py_label_eq, map_app, link_nt. repeat split; reflexivity.
  - destruct inner as [|id' w' r''|id' inner' r''] eqn:Ei.
    + cbn [py_draw_row py_items first_shown py_links]. apply IH, N.
    + rewrite <- Ei in *. assert (F : py_draw_row o level (AList id inner r) i n1 s =
        (let (e, s') := py_edge n1 (n_text id) s in CNode (n_text id) (Look (Some (n_text i)) (Some "plaintext") None) :: e ++ py_draw_row o level inner 0 (Some (n_text id)) "dotted" ++ py_draw_row o level r (Datatypes.S i) (Some (n_text id)) s')) by (rewrite Ei; reflexivity).
      assert (F1 : py_items o level i (AList id inner r) = (id, py_face (n_text i)) :: py_items o level 0 inner ++ py_items o level (Datatypes.S i) r) by (rewrite Ei; reflexivity).
      assert (F2 : first_shown (AList id inner r) = Some id) by (rewrite Ei; reflexivity).
      assert (F3 : py_links (AList id inner r) = link (Some id) (first_shown r) "solid" ++ link (Some id) (first_shown inner) "dotted" ++ py_links inner ++ py_links r) by (rewrite Ei; reflexivity).
      rewrite F, F1, F2, F3. clear F F1 F2 F3 Ei.
      assert (X : exists e, py_edge n1 (n_text id) s = (e, "solid") /\ nodes_of e = [] /\ edges_of e = pre n1 (Some id) s).
      { destruct n1 as [q|]; [eexists; split; [reflexivity|split; reflexivity]|rewrite N by reflexivity; eexists; split; [reflexivity|split; reflexivity]]. }
      destruct X as (e & -> & X1 & X2). destruct (IH (Datatypes.S i) (Some (n_text id)) "solid" ltac:(discriminate)) as (H1 & H2 & H3). destruct (IHi 0 (Some (n_text id)) "dotted" ltac:(discriminate)) as (G1 & G2 & G3).
      rewrite nodes_cons, edges_cons, !nodes_app, !edges_app, X1, X2. cbn [nodes_of edges_of flat_map app map fst snd seen a_label a_shape a_color].
      rewrite !map_app, H1, H2, H3, G1, G2, G3, !link_nt. split; [reflexivity|]. split; [reflexivity|]. apply Permutation_app_head. rewrite <- !app_assoc.
      match goal with |- Permutation (?a ++ ?b ++ ?c ++ ?d) _ => rewrite (Permutation_app_swap_app b c d); rewrite (Permutation_app_swap_app a c) end. reflexivity.
    + rewrite <- Ei in *. assert (F : py_draw_row o level (AList id inner r) i n1 s =
        (let (e, s') := py_edge n1 (n_text id) s in CNode (n_text id) (Look (Some (n_text i)) (Some "plaintext") None) :: e ++ py_draw_row o level inner 0 (Some (n_text id)) "dotted" ++ py_draw_row o level r (Datatypes.S i) (Some (n_text id)) s')) by (rewrite Ei; reflexivity).
      assert (F1 : py_items o level i (AList id inner r) = (id, py_face (n_text i)) :: py_items o level 0 inner ++ py_items o level (Datatypes.S i) r) by (rewrite Ei; reflexivity).
      assert (F2 : first_shown (AList id inner r) = Some id) by (rewrite Ei; reflexivity).
      assert (F3 : py_links (AList id inner r) = link (Some id) (first_shown r) "solid" ++ link (Some id) (first_shown inner) "dotted" ++ py_links inner ++ py_links r) by (rewrite Ei; reflexivity).
      rewrite F, F1, F2, F3. clear F F1 F2 F3 Ei.
      assert (X : exists e, py_edge n1 (n_text id) s = (e, "solid") /\ nodes_of e = [] /\ edges_of e = pre n1 (Some id) s).
      { destruct n1 as [q|]; [eexists; split; [reflexivity|split; reflexivity]|rewrite N by reflexivity; eexists; split; [reflexivity|split; reflexivity]]. }
      destruct X as (e & -> & X1 & X2). destruct (IH (Datatypes.S i) (Some (n_text id)) "solid" ltac:(discriminate)) as (H1 & H2 & H3). destruct (IHi 0 (Some (n_text id)) "dotted" ltac:(discriminate)) as (G1 & G2 & G3).
      rewrite nodes_cons, edges_cons, !nodes_app, !edges_app, X1, X2. cbn [nodes_of edges_of flat_map app map fst snd seen a_label a_shape a_color].
      rewrite !map_app, H1, H2, H3, G1, G2, G3, !link_nt. split; [reflexivity|]. split; [reflexivity|]. apply Permutation_app_head. rewrite <- !app_assoc.
      match goal with |- Permutation (?a ++ ?b ++ ?c ++ ?d) _ => rewrite (Permutation_app_swap_app b c d); rewrite (Permutation_app_swap_app a c) end. reflexivity.
Qed.
Lemma py_ids_eq o level r : forall i i', map fst (py_items o level i r) = map fst (py_items TOPlex 0 i' r).
Proof.
  induction r as [|id w r IH|id inner IHi r IH]; intros i i'; [reflexivity|cbn; f_equal; apply IH|].
  destruct inner as [|id' w' r''|id' inner' r'']; [apply IH| |];
  (change (map fst (py_items o level i (AList id ?x r))) with (id :: map fst (py_items o level 0 x ++ py_items o level (Datatypes.S i) r));
   change (map fst (py_items TOPlex 0 i' (AList id ?x r))) with (id :: map fst (py_items TOPlex 0 0 x ++ py_items TOPlex 0 (Datatypes.S i') r)); rewrite !map_app; f_equal; f_equal; [apply IHi|apply IH]).
Qed.
Lemma py_targets r : Permutation (py_ids r) (match first_shown r with Some a => [a] | None => [] end ++ map target (py_links r)).
Proof.
  induction r as [|id w r IH|id inner IHi r IH]; [reflexivity| |].
  - unfold py_ids in *. cbn [py_items map fst first_shown py_links app]. apply perm_skip. rewrite (py_ids_eq _ _ r 1 0), IH, map_app. destruct (first_shown r); reflexivity.
  - unfold py_ids in *. destruct inner as [|id' w' r''|id' inner' r''] eqn:Ei; [cbn [py_items first_shown py_links]; rewrite (py_ids_eq _ _ r 1 0); exact IH| |].
    all: rewrite <- Ei in *; assert (F1 : py_items TOPlex 0 0 (AList id inner r) = (id, py_face (n_text 0)) :: py_items TOPlex 0 0 inner ++ py_items TOPlex 0 1 r) by (rewrite Ei; reflexivity);
      assert (F2 : first_shown (AList id inner r) = Some id) by (rewrite Ei; reflexivity);
      assert (F3 : py_links (AList id inner r) = link (Some id) (first_shown r) "solid" ++ link (Some id) (first_shown inner) "dotted" ++ py_links inner ++ py_links r) by (rewrite Ei; reflexivity);
      rewrite F1, F2, F3; clear F1 F2 F3 Ei; cbn [map fst app]; apply perm_skip; rewrite !map_app, (py_ids_eq _ _ r 1 0), IH, IHi; 
      destruct (first_shown r) as [x|], (first_shown inner) as [y|]; cbn [link map target fst snd app]; try reflexivity; 
      rewrite ?(Permutation_middle _ _ x); try reflexivity.
    all: try (rewrite perm_swap; apply perm_skip; symmetry; apply Permutation_middle).
    all: try (symmetry; apply Permutation_middle).
Qed.
Lemma relems_app a b : relems (a ++ b) = relems a ++ relems b.
Proof. induction a as [|x a IH]; [reflexivity|]. cbn [app relems]. rewrite IH, app_assoc. reflexivity. Qed.
Lemma telems_list l : telems (PList l) = relems l.
Proof. cbn. induction l as [|x l IH]; [reflexivity|]. cbn [relems]. rewrite <- IH. reflexivity. Qed.
Lemma largest_app a b : largest (a ++ b) = Nat.max (largest a) (largest b).
Proof. unfold largest. induction a as [|x a IH]; [reflexivity|]. cbn [app fold_right]. rewrite IH. lia. Qed.
Lemma row_deg r : forall d, py_row_deg r d = Nat.max d (largest (map w_degree (relems (erase_row r)))).
Proof.
  induction r as [|id w r IH|id inner IHi r IH]; intro d; cbn [py_row_deg erase_row relems].
  - cbn. lia.
  - rewrite IH. cbn [telems app map]. unfold largest. cbn [fold_right]. lia.
  - rewrite IH, IHi, telems_list, map_app, largest_app. lia.
Qed.
Theorem c100_py o level count hp_str r : NoDup (py_ids r) ->
  depicts (py_save_image o level count hp_str r) [] [py_mark count hp_str r] (py_items o level 0 r) (py_links r).
Proof.
  intro N. unfold py_save_image. destruct (py_shows o level r 0 None "solid" ltac:(reflexivity)) as (H1 & H2 & H3).
  set (lb := Look _ _ _).
  assert (M : map seen [("mark", lb)] = [py_mark count hp_str r]).
  { unfold lb, seen, py_mark, py_face, tag. cbn [map snd fst a_label a_shape a_color]. rewrite (row_deg r 0). cbn [Nat.max append]. rewrite ?app_assoc_s. cbn [append]. rewrite ?app_assoc_s. cbn [append]. rewrite ?app_assoc_s. reflexivity. }
  rewrite <- M.
  refine (picture n_text _ [] [("mark", lb)] (py_items o level 0 r) (py_links r) (match first_shown r with Some a => [a] | None => [] end) _ _ _ _ _).
  - rewrite nodes_app, map_app, H1. reflexivity.
  - rewrite nodes_app, map_app, H2. reflexivity.
  - cbn [map app fst]. rewrite (py_ids_eq o level r 0 0). apply (Permutation_NoDup (Permutation_cons_append _ _)). constructor.
    + intro I. apply in_map_iff in I as (x & X & _). pose proof (n_text_chars x) as C. rewrite X in C. cbn in C. destruct C as [C _]. discriminate C.
    + apply nd_map; [intros; apply n_text_inj; assumption|exact N].
  - rewrite edges_app. cbn [edges_of flat_map app]. rewrite app_nil_r. exact H3.
  - rewrite (py_ids_eq o level r 0 0). apply py_targets.
Qed.
