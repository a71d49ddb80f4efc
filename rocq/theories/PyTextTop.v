(** The statements of property C70. *)
From Coq Require Import ZArith List Bool Arith Lia String Ascii.
From Verif Require Import Outcome MonomModel TextModel TextSpec TextProofs PyTextModel PyTextSpec PyTextProofs PyTextProofs2 PyTextProofs3.
Import ListNotations.
Local Open Scope string_scope.
Local Open Scope Z_scope.

Lemma zeros_deg e : Forall (fun d => d = 0%nat) e -> degv e = 0%nat.
Proof. induction 1 as [|d e X F IH]; [reflexivity|]. cbn [degv fold_right]. fold (degv e). lia. Qed.
Lemma op_monom_of vs fs m : operator_monom vs fs m -> op_monom vs fs m.
Proof.
  intros [N Z]. destruct (Z.eq_dec (pos m) (-1)) as [E|E]; [right|left].
  - split; [exact N|]. unfold is_unit, deg. rewrite (zeros_deg _ (Z E)), E. reflexivity.
  - split; [exact N|]. destruct N as [_ P]. lia.
Qed.
Lemma good_ops vs fs (p : list (monom * Z)) : Forall (fun t => operator_monom vs fs (fst t) /\ snd t <> 0) p -> Forall (good_op vs fs) p.
Proof. intro F. eapply Forall_impl; [|exact F]. intros t [A B]. split; [now apply op_monom_of|exact B]. Qed.
Definition op_forms (vs fs : list string) : list (monom -> outcome string) := [py_df_text vs fs; py_T_text vs fs; py_df_sympy vs fs].
Theorem op_forms_inj vs fs : good_names vs fs -> forall mt, In mt (op_forms vs fs) -> forall p p',
  Forall (fun t => operator_monom vs fs (fst t) /\ snd t <> 0) p -> Forall (fun t => operator_monom vs fs (fst t) /\ snd t <> 0) p' ->
  exists s s', py_op_str z_is_one z_text mt p = Ok s /\ py_op_str z_is_one z_text mt p' = Ok s' /\ (s = s' -> p = p').
Proof.
  intros G mt M p p' F F'. apply good_ops in F. apply good_ops in F'.
  assert (C : forall f c r, f = String c r -> letter c = true -> exists s s', py_op_str z_is_one z_text (py_call f vs fs) p = Ok s /\ py_op_str z_is_one z_text (py_call f vs fs) p' = Ok s' /\ (s = s' -> p = p')).
  { intros f c r Ef L. apply (op_str_inj vs fs (py_call f vs fs) (call_text vs fs f)); [apply call_text_eq|apply call_reads, G| |exact F|exact F'].
    intros m _. unfold call_text. rewrite Ef. cbn [append]. eauto. }
  destruct M as [<-|[<-|[<-|[]]]]; [exact (C "df" _ _ eq_refl eq_refl)|exact (C "T" _ _ eq_refl eq_refl)|].
  apply (op_str_inj vs fs (py_df_sympy vs fs) (sympy_text vs fs)); [apply sympy_text_eq|apply sympy_reads, G| |exact F|exact F'].
  intros m H. destruct (fun_name_ident vs fs G m H) as (c & s & E & L & _). unfold sympy_text. rewrite E. cbv zeta. cbn [append]. destruct (flat_map order_texts (powers vs (vars m))); eauto.
Qed.
Theorem op_rejects vs fs m mt : In mt (op_forms vs fs) -> pos m = -1 -> Exists (fun d => d <> 0%nat) (vars m) -> mt m = AssertFail.
Proof.
  intros M P X. assert (D : Nat.eqb (deg m) 0 = false).
  { apply Nat.eqb_neq. unfold deg. clear P. induction X as [d e N|d e X IH]; cbn [degv fold_right]; fold (degv e); lia. }
  destruct M as [<-|[<-|[<-|[]]]]; unfold py_df_text, py_T_text, py_call, py_df_sympy; rewrite P, D; reflexivity.
Qed.
Lemma poly_value vs fs : Forall identifier (vs ++ fs)%list -> forall env p, Forall (fun t => named vs fs (fst t)) p ->
  denotes env Sum (py_poly_str z_is_one z_text vs fs p) (poly_val env vs fs p).
Proof. intros I env p F. apply Forall_app in I as [V W]. now apply poly_den. Qed.
Lemma symbolic_clash : exists p p' : list (monom * sx), py_poly_str sx_is_one sx_text ["x"] [] p = py_poly_str sx_is_one sx_text ["x"] [] p' /\
  exists env, sx_poly_val env ["x"] [] p <> sx_poly_val env ["x"] [] p'.
Proof.
  exists [(Mon (-1) [1%nat], SAdd (SName "a") (SName "b"))], [(Mon (-1) [1%nat], SName "a"); (Mon (-1) [0%nat], SName "b")]. split; [reflexivity|].
  exists (fun s => if String.eqb s "x" then 2 else 1). vm_compute. congruence.
Qed.
Lemma name_clash : exists vs fs m m', py_names_ok vs fs = true /\ Forall identifier (vs ++ fs)%list /\ named vs fs m /\ named vs fs m' /\
  m <> m' /\ py_monom_str vs fs m = py_monom_str vs fs m'.
Proof.
  exists ["x"], ["x"], (Mon (-1) [1%nat]), (Mon 0 [0%nat]). split; [reflexivity|].
  assert (I : identifier "x") by (exists "x"%char, ""; auto). repeat split; cbn; try lia; auto. discriminate.
Qed.
Lemma no_repeats_nodup l : no_repeats l = true <-> NoDup l.
Proof.
  induction l as [|s r IH]; cbn [no_repeats]; [split; [constructor|reflexivity]|].
  rewrite andb_true_iff, IH, negb_true_iff, NoDup_cons_iff. apply and_iff_compat_r.
  split; intro X.
  - intro Y. assert (E : existsb (String.eqb s) r = true) by (apply existsb_exists; exists s; split; [exact Y|apply String.eqb_refl]). congruence.
  - destruct (existsb (String.eqb s) r) eqn:E; [|reflexivity]. apply existsb_exists in E. destruct E as (t & T & Q). apply String.eqb_eq in Q. subst t. contradiction.
Qed.
Lemma names_checked vs fs : py_names_ok vs fs = true <-> NoDup vs /\ NoDup fs.
Proof. unfold py_names_ok. rewrite andb_true_iff, !no_repeats_nodup. reflexivity. Qed.
Lemma names_good vs fs : Forall identifier (vs ++ fs)%list -> (good_names vs fs <-> py_names_ok vs fs = true /\ forall s, In s vs -> ~ In s fs).
Proof.
  intro F. rewrite names_checked. unfold good_names. split.
  - intros [_ N]. clear F. induction vs as [|v vs IH]; cbn [List.app] in N; [split; [split; [constructor|exact N]|intros s []]|].
    apply NoDup_cons_iff in N. destruct N as [N1 N]. destruct (IH N) as [[A B] C]. rewrite in_app_iff in N1.
    split; [split; [constructor; tauto|exact B]|]. intros s [<- | X]; [tauto|exact (C s X)].
  - intros [[A B] C]. split; [exact F|]. clear F. induction A as [|v vs N A IH]; cbn [List.app]; [exact B|].
    constructor; [rewrite in_app_iff; intros [X|X]; [tauto|exact (C v (or_introl eq_refl) X)]|]. apply IH. intros s X. exact (C s (or_intror X)).
Qed.
Lemma ex_names : good_names ["x"; "y"] ["u"; "v"].
Proof.
  split.
  - cbn [app]. apply Forall_forall. intros x X. cbn [In] in X. destruct X as [<-|[<-|[<-|[<-|[]]]]]; do 2 eexists; (split; [reflexivity|split; reflexivity]).
  - cbn [app]. repeat (apply NoDup_cons; [cbn; intuition discriminate|]). apply NoDup_nil.
Qed.
