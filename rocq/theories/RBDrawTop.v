From Coq Require Import ZArith List Bool Arith Lia String.
From Verif Require Import Outcome RBModel RBSpec RBHeapProofs RBReadProofs RBEditProofs RBProofs RBTop TextModel DrawModel RBDrawModel DrawSpec DrawProofs RBDrawProofs DrawTop.
Import ListNotations.

(** After any operations on sets of int keys, the picture of a set is one of a tree with its keys. *)
Theorem c100_rb_run (compare : Z -> Z -> Z) dbg os ss xs s ys i t l leaf : key_order compare ->
  sp_run compare sp_start os = Some (ss, xs) -> RBModel.run compare dbg start os = Ok (s, ys) ->
  nth_error (strees s) i = Some t -> nth_error (sets ss) i = Some l ->
  exists tt g leaf', map snd (ents tt) = l /\ rb_draw z_text (shp s) leaf t = Ok (g, leaf') /\ depicts g [] [] (rb_items z_text [] tt) (rb_links [] tt).
Proof.
  intros Hko H R Ht El. destruct (run_ok compare Hko dbg os _ _ _ _ _ (inv_start compare) H) as (s' & us & E1 & I).
  rewrite R in E1. injection E1 as <- <-.
  assert (Li : i < List.length us) by (rewrite <- (i_trees _ _ _ _ I); apply nth_error_Some; congruence).
  destruct (nth_error us i) as [u|] eqn:Eu; [|apply nth_error_None in Eu; lia].
  pose proof (i_ok _ _ _ _ I _ _ _ _ Ht Eu El) as O. pose proof (o_keys _ _ _ _ _ O) as K. unfold keys in K.
  assert (ND : NoDup l).
  { pose proof (proj1 (sorted_increasing compare l) (o_sorted _ _ _ _ _ O)) as Inc. clear - Inc Hko. induction l as [|x l IH]; [constructor|]. destruct Inc as [A B]. constructor; [|apply IH, B].
    intro J. specialize (A x J). rewrite (cmp_refl compare Hko) in A. lia. }
  destruct (c100_rb_int (shp s) leaf t u (o_rep _ _ _ _ _ O)) as (g & leaf' & Eg & D); [rewrite K; exact ND|]. exists u, g, leaf'. auto.
Qed.
