(** The statements of property C69. *)
From Coq Require Import ZArith List Bool Arith Lia String Ascii QArith Sorted.
From Verif Require Import Outcome MonomModel PolyModel BoolModel BoolSpec HilbertModel TextModel TextSpec TextProofs TextProofs2.
Import ListNotations.
Local Open Scope string_scope.
Local Open Scope Z_scope.
Lemma bm_text_all : forall m m' l l', shows m l -> shows m' l' ->
  (exists s, bm_text m = Ok s) /\ (bm_text m = bm_text m' -> l = l').
Proof. intros m m' l l' S S'. split; [rewrite (bm_text_shows m l S); eauto|now apply bm_text_inj]. Qed.
Lemma bp_text_all : forall p p' ls ls', polys p ls -> polys p' ls' ->
  (exists s, bp_text p = Ok s) /\ (bp_text p = bp_text p' -> ls = ls').
Proof. intros m m' l l' S S'. split; [rewrite (bp_text_sets m l S); eauto|now apply bp_text_inj]. Qed.
Lemma cy_monom_all : forall m m', good_monom m -> good_monom m' ->
  (cy_monom_str m = cy_monom_str m' -> m = m') /\ (cy_monom_repr m = cy_monom_repr m' -> m = m').
Proof. intros m m' G G'. split; [rewrite !cy_monom_str_eq; now apply monom_text_inj|apply cy_monom_repr_inj; [apply G|apply G']]. Qed.
Lemma cy_poly_all : forall l l', Forall good_term l -> Forall good_term l' ->
  (cy_poly_str l = cy_poly_str l' <-> hd_error l = hd_error l') /\ (cy_poly_repr l = cy_poly_repr l' <-> hd_error l = hd_error l').
Proof. intros l l' G G'. split; [now apply cy_poly_str_leading|now apply cy_poly_repr_leading]. Qed.
Lemma text_example :
  Forall good_term [(Mon 1 [2; 0]%nat, -3); (Mon (-1) [0; 10]%nat, 1)] /\
  poly_text [(Mon 1 [2; 0]%nat, -3); (Mon (-1) [0; 10]%nat, 1)] = "[1:2 0]*-3 + [0 10]*1" /\
  poly_text [] = "0" /\
  (shows (mkBM 2 2 [5; 3]) [5; 3] /\ shows (mkBM 0 0 []) [] /\ bp_text [mkBM 2 2 [5; 3]; mkBM 0 0 []] = Ok "[5 3] + 1") /\
  hp_text [(1#3); 0; (-2#4); 3]%Q = "3s^3 - 1/2s^2 + 1/3" /\
  cy_int_repr (-255) = "-0xff" /\
  cy_monom_repr (Mon 1 [2; 3]%nat) = "[1 5:2 3]" /\
  cy_poly_str [(Mon (-1) [2; 0]%nat, -3); (Mon (-1) [0; 1]%nat, 1)] = "[2 0]*-3 + ...".
Proof.
  split; [repeat constructor; cbn; try lia; discriminate|]. split; [reflexivity|]. split; [reflexivity|]. split; [|repeat split; reflexivity].
  split; [|split; [|reflexivity]]; (split; [|split; [reflexivity|split; [cbn; lia|]]]).
  - repeat constructor; lia.
  - intros [|[|[|i]]] x E; cbn in E; congruence || (injection E as <-; reflexivity).
  - constructor.
  - intros [|i] x E; discriminate.
Qed.
