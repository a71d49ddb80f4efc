From Coq Require Import ZArith List Bool Arith Lia String Ascii.
From Verif Require Import Outcome MonomModel TextModel TextSpec TextProofs PyMonomModel PyTextModel PyTextSpec PyTextProofs TexModel TexSpec TexProofs TexTop.
Import ListNotations.
Local Open Scope string_scope.
Local Open Scope list_scope.
Local Open Scope Z_scope.

Lemma by_variables_map l : by_variables l = map plain (flat_map (fun x => repeat (fst x) (snd x)) l).
Proof.
  unfold by_variables. induction l as [|[v d] l IH]; [reflexivity|]. cbn [flat_map fst snd]. rewrite map_app, <- IH. f_equal.
  induction d as [|d IHd]; [reflexivity|]. cbn [repeat map]. now rewrite <- IHd.
Qed.
Lemma variables_ident (vs : list string) e : Forall identifier vs -> Forall identifier (flat_map (fun x : string * nat => repeat (fst x) (snd x)) (combine vs e)).
Proof.
  intro I. apply Forall_forall. intros s H. apply in_flat_map in H as ([v d] & H1 & H2). apply repeat_spec in H2. cbn in H2. subst s.
  apply in_combine_l in H1. rewrite Forall_forall in I. auto.
Qed.
Theorem df_reads vs fs m : Forall identifier (vs ++ fs) -> named vs fs m -> pos m <> -1 ->
  exists s h, py_df_latex vs fs m = Ok s /\ tex h = Some (by_variables (combine vs (vars m))) /\
    tex s = Some [Sym (fun_name fs m) (if String.eqb h "" then None else Some h) None].
Proof.
  intros I [L P] N. apply Forall_app in I as [Iv If]. unfold py_df_latex. destruct (Z.eqb_spec (pos m) (-1)) as [E|_]; [congruence|].
  assert (U : bal 0 (fun_name fs m) = Some 0%nat) by (apply ident_bal, (fun_ident fs If); lia).
  unfold py_expand. rewrite (expand_texts vs (vars m) 0 [] L eq_refl : map (fun i => braced (nth i vs "")) _ = _), by_variables_map. cbv zeta.
  pose proof (variables_ident vs (vars m) Iv) as F. set (l := flat_map _ _) in *. clearbody l. destruct l as [|v l].
  - exists (braced (fun_name fs m)), "". repeat split. rewrite <- (app_nil_s (braced _)). apply rd_tex, rd_braced; [exact U|exact Logic.I|exact rd_nil].
  - assert (H : String.concat " " (map braced (v :: l)) = (braced v ++ tail_text " " (map braced l))%string) by (cbn [map]; apply concat_tail).
    rewrite H. set (h := (braced v ++ tail_text " " (map braced l))%string).
    assert (Hh : String.eqb h "" = false) by (unfold h; rewrite braced_app; reflexivity). rewrite Hh.
    exists (braced (fun_name fs m) ++ "_" ++ braced h)%string, h. rewrite Hh. split; [reflexivity|]. split.
    + apply rd_tex. unfold h. cbn [map]. apply rd_braced; [apply ident_bal, (Forall_inv F)|apply quiet_names|apply rd_names, (Forall_inv_tail F)].
    + apply rd_tex. cbn [append]. apply rd_sub; [exact U|]. unfold h. rewrite (bal_app _ _ 0 0); [apply bal_names, (Forall_inv_tail F)|apply bal_braced, ident_bal, (Forall_inv F)].
Qed.

(** * T_latex *)
Lemma rd_shift v d r l : identifier v -> quiet r -> rd r l -> rd (shift_text (v, d) ++ r) (shifted (v, d) ++ l).
Proof.
  intros I Q H. unfold shift_text, shifted. cbn [fst snd]. destruct d as [|d].
  - cbn [Nat.eqb app]. apply rd_braced; [apply ident_bal, I|exact Q|exact H].
  - cbn [Nat.eqb app]. rewrite !app_assoc_s. apply rd_braced; [apply ident_bal, I|split; reflexivity|].
    cbn [append]. apply rd_sp, rd_char; [reflexivity|apply quiet_sp, quiet_run; [apply digits_run|exact Q]|]. apply rd_sp, rd_run; [apply digits_run|exact Q|exact H].
Qed.
Lemma quiet_shifts l : quiet (tail_text "\, " (map shift_text l)).
Proof. destruct l; [exact Logic.I|]. split; reflexivity. Qed.
Lemma quiet_shift_text x r : quiet (shift_text x ++ r).
Proof. unfold shift_text. destruct (Nat.eqb (snd x) 0); rewrite ?app_assoc_s; apply quiet_braced. Qed.
Lemma rd_shifts l : Forall (fun x => identifier (fst x)) l -> rd (tail_text "\, " (map shift_text l)) (flat_map (fun x => plain "\," :: shifted x) l).
Proof.
  induction 1 as [|[v d] l G F IH]; cbn [map tail_text flat_map]; [exact rd_nil|]. cbn [append app].
  apply rd_thin; [apply quiet_sp, quiet_shift_text|]. apply rd_sp, rd_shift; [exact G|apply quiet_shifts|exact IH].
Qed.
Lemma separated_tail a l : separated (a :: l) = a ++ flat_map (fun x => plain "\," :: x) l.
Proof.
  revert a. induction l as [|b l IH]; intro a; [cbn; now rewrite app_nil_r|].
  change (separated (a :: b :: l)) with (a ++ plain "\," :: separated (b :: l)). rewrite IH. reflexivity.
Qed.
Lemma flat_map_map {A B C} (f : B -> list C) (g : A -> B) l : flat_map f (map g l) = flat_map (fun x => f (g x)) l.
Proof. induction l; cbn; congruence. Qed.
Lemma bal_shift v d : identifier v -> bal 0 (shift_text (v, d)) = Some 0%nat.
Proof.
  intro I. unfold shift_text. cbn [fst snd]. destruct (Nat.eqb d 0); [apply bal_braced, ident_bal, I|].
  rewrite (bal_app _ _ 0 0) by apply bal_braced, ident_bal, I. cbn [append bal]. apply (bal_word ordinary); [|apply digits_run].
  intros c Hc. destruct c as [[|] [|] [|] [|] [|] [|] [|] [|]]; try discriminate Hc; split; reflexivity.
Qed.
Lemma bal_shifts l : Forall (fun x => identifier (fst x)) l -> bal 0 (tail_text "\, " (map shift_text l)) = Some 0%nat.
Proof.
  induction 1 as [|[v d] l G F IH]; cbn [map tail_text]; [reflexivity|]. cbn [append bal]. rewrite (bal_app _ _ 0 0); [exact IH|apply bal_shift, G].
Qed.
Theorem T_reads vs fs m : Forall identifier (vs ++ fs) -> named vs fs m -> pos m <> -1 ->
  exists s h, py_T_latex vs fs m = Ok s /\ tex h = Some (separated (map shifted (combine vs (vars m)))) /\
    tex s = Some [Sym (fun_name fs m) (Some h) None].
Proof.
  intros I [L P] N. apply Forall_app in I as [Iv If]. unfold py_T_latex. destruct (Z.eqb_spec (pos m) (-1)) as [E|_]; [congruence|].
  assert (U : bal 0 (fun_name fs m) = Some 0%nat) by (apply ident_bal, (fun_ident fs If); lia).
  assert (F : Forall (fun x : string * nat => identifier (fst x)) (combine vs (vars m))).
  { apply Forall_forall. intros [v d] H. apply in_combine_l in H. rewrite Forall_forall in Iv. cbn. auto. }
  set (l := combine vs (vars m)) in *. clearbody l. eexists _, (String.concat "\, " (map shift_text l)). split; [reflexivity|].
  assert (X : tex (String.concat "\, " (map shift_text l)) = Some (separated (map shifted l)) /\ bal 0 (String.concat "\, " (map shift_text l)) = Some 0%nat).
  { destruct l as [|[v d] l]; [split; reflexivity|]. cbn [map]. rewrite concat_tail. pose proof (Forall_inv F) as F1. pose proof (Forall_inv_tail F) as F2. split.
    - apply rd_tex. rewrite separated_tail, flat_map_map. apply rd_shift; [exact F1|apply quiet_shifts|apply rd_shifts, F2].
    - rewrite (bal_app _ _ 0 0); [apply bal_shifts, F2|apply bal_shift, F1]. }
  destruct X as [X B]. split; [exact X|]. apply rd_tex. cbn [append]. apply rd_sub; assumption.
Qed.
Theorem tex_rejects vs fs m mt : In mt [py_df_latex vs fs; py_T_latex vs fs] -> pos m = -1 ->
  mt m = (if forallb (Nat.eqb 0) (vars m) then Ok "1" else AssertFail).
Proof.
  intros M P. assert (D : Nat.eqb (deg m) 0 = forallb (Nat.eqb 0) (vars m)).
  { apply eq_iff_eq_true. rewrite deg_sum, forallb_forall, Forall_forall. split; intros H d X; [apply Nat.eqb_eq; symmetry|symmetry; apply Nat.eqb_eq]; auto. }
  destruct M as [<-|[<-|[]]]; unfold py_df_latex, py_T_latex; rewrite P, D; cbn [Z.eqb Pos.eqb]; destruct (forallb _ _); reflexivity.
Qed.

(** * Different monomials have different texts *)
Lemma repeat_split {A} (a : A) d : forall d' l l', ~ In a l -> ~ In a l' -> repeat a d ++ l = repeat a d' ++ l' -> d = d' /\ l = l'.
Proof.
  induction d as [|d IH]; intros [|d'] l l' H H' E; cbn [repeat app] in E.
  - auto.
  - exfalso. apply H. rewrite E. left. reflexivity.
  - exfalso. apply H'. rewrite <- E. left. reflexivity.
  - injection E as E. destruct (IH d' l l' H H' E) as [-> ->]. auto.
Qed.
Lemma not_in_variables (v : string) vs e : ~ In v vs -> ~ In v (flat_map (fun x : string * nat => repeat (fst x) (snd x)) (combine vs e)).
Proof. intros N H. apply in_flat_map in H as ([w d] & H1 & H2). apply repeat_spec in H2. cbn in H2. subst w. apply in_combine_l in H1. auto. Qed.
Lemma variables_inj vs : NoDup vs -> forall e e', List.length e = List.length vs -> List.length e' = List.length vs ->
  by_variables (combine vs e) = by_variables (combine vs e') -> e = e'.
Proof.
  intros N e e' L L' E. rewrite !by_variables_map in E.
  assert (E' : flat_map (fun x : string * nat => repeat (fst x) (snd x)) (combine vs e) = flat_map (fun x => repeat (fst x) (snd x)) (combine vs e')).
  { revert E. generalize (flat_map (fun x : string * nat => repeat (fst x) (snd x)) (combine vs e')). induction (flat_map _ _) as [|a l IH]; intros [|b l'] E; cbn in E; try discriminate E; [reflexivity|].
    injection E as -> E. f_equal. apply IH, E. }
  clear E. revert e e' L L' E'. induction N as [|v vs Nv N IH]; intros [|d e] [|d' e'] L L' E; try discriminate L; try discriminate L'; [reflexivity|].
  injection L as L. injection L' as L'. cbn [combine flat_map fst snd] in E. apply repeat_split in E; [|apply not_in_variables, Nv|apply not_in_variables, Nv].
  destruct E as [-> E]. f_equal. apply IH; assumption.
Qed.
Lemma shift_split v d d' l l' : (match l with x :: _ => x = plain "\," | [] => True end) -> (match l' with x :: _ => x = plain "\," | [] => True end) ->
  shifted (v, d) ++ l = shifted (v, d') ++ l' -> d = d' /\ l = l'.
Proof.
  intros H H' E. assert (Q : starts_plain l). { destruct l; [exact Logic.I|]. subst s. intros (c & D & [= X]). }
  assert (Q' : starts_plain l'). { destruct l'; [exact Logic.I|]. subst s. intros (c & D & [= X]). }
  unfold shifted in E. cbn [app] in E. injection E as E. destruct d as [|d], d' as [|d']; cbn [app] in E.
  - auto.
  - subst l. discriminate H.
  - subst l'. discriminate H'.
  - injection E as E. apply run_split in E; [|apply digits_symbols, n_text_chars|apply digits_symbols, n_text_chars|exact Q|exact Q'].
    destruct E as [E ->]. apply chars_inj in E. split; [|reflexivity]. apply n_text_inj. exact E.
Qed.
Lemma shifts_inj : forall (vs : list string) e e', List.length e = List.length vs -> List.length e' = List.length vs ->
  flat_map (fun x => plain "\," :: shifted x) (combine vs e) = flat_map (fun x => plain "\," :: shifted x) (combine vs e') -> e = e'.
Proof.
  induction vs as [|v vs IH]; intros [|d e] [|d' e'] L L' E; try discriminate L; try discriminate L'; [reflexivity|].
  injection L as L. injection L' as L'. cbn [combine flat_map] in E. apply (f_equal (@tl symbol)) in E.
  change (shifted (v, d) ++ flat_map (fun x => plain "\," :: shifted x) (combine vs e) = shifted (v, d') ++ flat_map (fun x => plain "\," :: shifted x) (combine vs e')) in E.
  apply shift_split in E.
  - destruct E as [-> E]. f_equal. apply IH; assumption.
  - destruct vs, e; try exact Logic.I; reflexivity.
  - destruct vs, e'; try exact Logic.I; reflexivity.
Qed.
Lemma separated_inj (vs : list string) e e' : List.length e = List.length vs -> List.length e' = List.length vs ->
  separated (map shifted (combine vs e)) = separated (map shifted (combine vs e')) -> e = e'.
Proof.
  intros L L' E. apply (shifts_inj vs e e' L L').
  destruct vs as [|v vs], e as [|d e], e' as [|d' e']; try discriminate L; try discriminate L'; [reflexivity|]. cbn [combine map] in E. rewrite !separated_tail, !flat_map_map in E.
  cbn [combine flat_map]. rewrite <- !app_comm_cons. f_equal. exact E.
Qed.
Lemma nodup_r {A} (l l' : list A) : NoDup (l ++ l') -> NoDup l'.
Proof. induction l as [|a l IH]; [auto|]. intro H. inversion H; subst. auto. Qed.
Lemma nodup_l {A} (l l' : list A) : NoDup (l ++ l') -> NoDup l.
Proof. induction l as [|a l IH]; [constructor|]. intro H. inversion H as [|? ? H1 H2]; subst. constructor; [intro X; apply H1, in_or_app; auto|auto]. Qed.
Lemma fun_name_inj fs m m' : NoDup fs -> 0 <= pos m < Z.of_nat (List.length fs) -> 0 <= pos m' < Z.of_nat (List.length fs) -> fun_name fs m = fun_name fs m' -> pos m = pos m'.
Proof. intros N P P' E. unfold fun_name in E. apply (proj1 (NoDup_nth fs "") N) in E; lia. Qed.
Lemma tex_one : tex "1" = Some [plain "1"].
Proof. reflexivity. Qed.
Lemma not_one s d u : identifier s -> Sym s d u <> plain "1".
Proof. intros (c & s' & -> & L & _) [= E _ _ _]. subst c. discriminate L. Qed.
Theorem op_latex_inj vs fs mt : good_names vs fs -> In mt [py_df_latex vs fs; py_T_latex vs fs] -> forall m m',
  operator_monom vs fs m -> operator_monom vs fs m' -> exists s s', mt m = Ok s /\ mt m' = Ok s' /\ (s = s' -> m = m').
Proof.
  intros [I ND] M. pose proof (proj1 (Forall_app _ _ _) I) as [Iv If]. pose proof (nodup_l _ _ ND) as Nv. pose proof (nodup_r _ _ ND) as Nf.
  assert (K : forall m, operator_monom vs fs m -> exists s, mt m = Ok s /\
    ((pos m = -1 /\ s = "1" /\ Forall (fun d => d = 0%nat) (vars m)) \/ (pos m <> -1 /\ exists d, tex s = Some [Sym (fun_name fs m) d None] /\
      forall m', named vs fs m' -> pos m' <> -1 -> forall s', mt m' = Ok s' -> tex s' = Some [Sym (fun_name fs m') d None] -> vars m = vars m'))).
  { intros m [N Z0]. destruct (Z.eq_dec (pos m) (-1)) as [P|P].
    - exists "1". specialize (Z0 P). rewrite (tex_rejects vs fs m mt M P). assert (X : forallb (Nat.eqb 0) (vars m) = true) by (apply forallb_forall; rewrite Forall_forall in Z0; intros d D; rewrite (Z0 d D); reflexivity).
      rewrite X. split; [reflexivity|]. left. auto.
    - destruct M as [<-|[<-|[]]].
      + destruct (df_reads vs fs m I N P) as (s & h & E & H & T). exists s. split; [exact E|]. right. split; [exact P|]. eexists. split; [exact T|].
        intros m' N' P' s' E' T'. destruct (df_reads vs fs m' I N' P') as (s2 & h2 & E2 & H2 & T2). rewrite E2 in E'. injection E' as ->. rewrite T2 in T'. injection T' as T'.
        assert (h = h2). { destruct (String.eqb_spec h ""), (String.eqb_spec h2 ""); congruence. } subst h2. rewrite H in H2. injection H2 as H2. apply (variables_inj vs Nv); [apply N|apply N'|exact H2].
      + destruct (T_reads vs fs m I N P) as (s & h & E & H & T). exists s. split; [exact E|]. right. split; [exact P|]. eexists. split; [exact T|].
        intros m' N' P' s' E' T'. destruct (T_reads vs fs m' I N' P') as (s2 & h2 & E2 & H2 & T2). rewrite E2 in E'. injection E' as ->. rewrite T2 in T'. injection T' as ->.
        rewrite H in H2. injection H2 as H2. apply (separated_inj vs); [apply N|apply N'|exact H2]. }
  intros m m' O1 O2. destruct (K m O1) as (s & E & C). destruct (K m' O2) as (s' & E' & C'). exists s, s'. split; [exact E|]. split; [exact E'|]. intros <-.
  destruct O1 as [N1 _], O2 as [N2 _].
  destruct C as [(P & -> & Z1)|(P & d & T & X)], C' as [(P' & S' & Z2)|(P' & d' & T' & X')].
  - assert (V : vars m = vars m').
    { destruct N1 as [L1 _], N2 as [L2 _]. rewrite <- L2 in L1. clear - L1 Z1 Z2. revert L1 Z1 Z2. generalize (vars m'). induction (vars m) as [|a l IH]; intros [|b l'] L Z1 Z2; try discriminate L; [reflexivity|].
      inversion Z1; subst. inversion Z2; subst. f_equal. apply IH; auto. }
    destruct m, m'; cbn in *; congruence.
  - exfalso. rewrite tex_one in T'. injection T' as T1 T2. apply (not_one (fun_name fs m') d' None); [apply (fun_ident fs If); destruct N2; lia|]. unfold plain. congruence.
  - exfalso. subst s. rewrite tex_one in T. injection T as T1 T2. apply (not_one (fun_name fs m) d None); [apply (fun_ident fs If); destruct N1; lia|]. unfold plain. congruence.
  - rewrite T in T'. injection T' as T1 T2. subst d'.
    assert (PP : pos m = pos m') by (apply (fun_name_inj fs); [exact Nf|destruct N1; lia|destruct N2; lia|exact T1]).
    assert (VV : vars m = vars m') by (apply (X m' N2 P' s E'); rewrite <- T1; exact T). destruct m, m'; cbn in *; congruence.
Qed.
