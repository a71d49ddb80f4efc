From Coq Require Import ZArith List Bool Arith Lia String Ascii.
From Verif Require Import Outcome MonomModel TextModel TextSpec TextProofs PyMonomModel PyTextModel PyTextSpec PyTextProofs TexModel TexSpec TexProofs.
Import ListNotations.
Local Open Scope string_scope.
Local Open Scope list_scope.

Lemma dec_text n : decimal n = n_text n.
Proof. reflexivity. Qed.
Lemma n_text_inj a b : n_text a = n_text b -> a = b.
Proof. intro E. apply z_text_inj in E. lia. Qed.
Lemma shown_first x : (1 <= snd x)%nat -> shown_power x = first_digit_raised x.
Proof. destruct x as [v [|[|d]]]; cbn [snd]; [lia|reflexivity|reflexivity]. Qed.
Lemma shown_all vs e : flat_map shown_power (powers vs e) = flat_map first_digit_raised (combine vs e).
Proof.
  unfold powers. induction (combine vs e) as [|[v d] l IH]; [reflexivity|]. cbn [filter flat_map snd]. destruct (Nat.leb_spec 1 d) as [L|L].
  - cbn [flat_map]. rewrite IH, shown_first by exact L. reflexivity.
  - rewrite IH. destruct d; [reflexivity|lia].
Qed.
Local Open Scope Z_scope.
Theorem latex_reads vs fs m : Forall identifier (vs ++ fs) -> named vs fs m -> (pos m <> -1 -> word (fun_name fs m) = true) ->
  tex (py_latex vs fs m) =
    Some (or_one ((if pos m =? -1 then [] else map plain (chars (fun_name fs m))) ++ flat_map first_digit_raised (combine vs (vars m)))).
Proof. intros I N W. rewrite <- shown_all, (latex_shows vs fs m I N W). f_equal. unfold or_one. match goal with |- match ?x with _ => _ end = _ => destruct x; reflexivity end. Qed.

(** Exactly the exponents up to 9 are shown whole *)
Local Open Scope nat_scope.
Lemma one_char d c : decimal d = String c "" -> d <= 9.
Proof.
  intro E. assert (D : digit c = true) by (pose proof (n_text_chars d) as A; rewrite dec_text in E; rewrite E in A; apply A).
  assert (K : exists k, k <= 9 /\ decimal k = String c "").
  { clear E. destruct c as [[|] [|] [|] [|] [|] [|] [|] [|]]; try discriminate D;
      (exists 0; split; [lia|reflexivity]) || (exists 1; split; [lia|reflexivity]) || (exists 2; split; [lia|reflexivity]) ||
      (exists 3; split; [lia|reflexivity]) || (exists 4; split; [lia|reflexivity]) || (exists 5; split; [lia|reflexivity]) ||
      (exists 6; split; [lia|reflexivity]) || (exists 7; split; [lia|reflexivity]) || (exists 8; split; [lia|reflexivity]) ||
      (exists 9; split; [lia|reflexivity]). }
  destruct K as (k & L & K). rewrite !dec_text in *. assert (d = k) by (apply n_text_inj; congruence). lia.
Qed.
Lemma first_le x : List.length (power_symbols x) <= List.length (first_digit_raised x) /\
  (9 < snd x -> List.length (power_symbols x) < List.length (first_digit_raised x)) /\ (snd x <= 9 -> power_symbols x = first_digit_raised x).
Proof.
  destruct x as [v [|[|d]]]; [repeat split; cbn; lia|repeat split; cbn; lia|]. unfold power_symbols, first_digit_raised. cbn [snd].
  destruct (n_text_first (S (S d))) as (c & s & E & _). rewrite dec_text, E. cbn [List.length]. split; [lia|]. split.
  - intro L. destruct s as [|c' s]; [|cbn; lia]. pose proof (one_char (S (S d)) c E). lia.
  - intro L. destruct (n_text_one (S (S d)) L) as (c' & E'). rewrite E in E'. injection E' as _ ->. reflexivity.
Qed.
Lemma first_length l : List.length (flat_map power_symbols l) <= List.length (flat_map first_digit_raised l).
Proof. induction l as [|x l IH]; cbn [flat_map]; [lia|]. rewrite !app_length. destruct (first_le x) as [A _]. lia. Qed.
Lemma first_eq l : flat_map power_symbols l = flat_map first_digit_raised l <-> Forall (fun x => snd x <= 9) l.
Proof.
  induction l as [|x l IH]; cbn [flat_map]; [split; auto|]. destruct (first_le x) as (A & B & C). split.
  - intro E. assert (L : snd x <= 9).
    { destruct (Nat.le_gt_cases (snd x) 9) as [H|H]; [exact H|]. apply (f_equal (@List.length symbol)) in E. rewrite !app_length in E.
      pose proof (first_length l). specialize (B H). lia. }
    constructor; [exact L|]. apply IH. rewrite (C L) in E. apply app_inv_head in E. exact E.
  - intro F. inversion F as [|? ? F1 F2]; subst. rewrite (C F1), (proj2 IH F2). reflexivity.
Qed.
Lemma first_none l : flat_map first_digit_raised l = [] -> flat_map power_symbols l = [].
Proof. intro E. pose proof (first_length l) as L. rewrite E in L. destruct (flat_map power_symbols l); [reflexivity|cbn in L; lia]. Qed.
Lemma power_none l : flat_map power_symbols l = [] -> flat_map first_digit_raised l = [].
Proof.
  induction l as [|[v [|[|d]]] l IH]; cbn [flat_map]; [reflexivity|exact IH|discriminate|discriminate].
Qed.
Lemma exps_combine (P : nat -> Prop) (vs : list string) e : List.length e = List.length vs -> (Forall (fun x => P (snd x)) (combine vs e) <-> Forall P e).
Proof.
  revert vs. induction e as [|d e IH]; intros [|v vs] L; try discriminate L; [split; constructor|]. cbn [combine]. injection L as L.
  split; intro F; inversion F as [|? ? F1 F2]; subst; constructor; try exact F1; apply (IH vs L); exact F2.
Qed.
Local Open Scope Z_scope.
Theorem latex_whole vs fs m : Forall identifier (vs ++ fs) -> named vs fs m -> (pos m <> -1 -> word (fun_name fs m) = true) ->
  (tex (py_latex vs fs m) =
    Some (or_one ((if pos m =? -1 then [] else map plain (chars (fun_name fs m))) ++ flat_map power_symbols (combine vs (vars m)))) <->
   Forall (fun d => (d <= 9)%nat) (vars m)).
Proof.
  intros I N W. rewrite (latex_reads vs fs m I N W). rewrite <- (exps_combine _ vs (vars m)) by apply N. rewrite <- first_eq.
  set (h := if pos m =? -1 then [] else map plain (chars (fun_name fs m))). split.
  - intros [= E]. unfold or_one in E. destruct h as [|a h']; cbn [app] in E.
    + destruct (flat_map power_symbols (combine vs (vars m))) as [|b l] eqn:E1.
      * rewrite (power_none _ E1). reflexivity.
      * destruct (flat_map first_digit_raised (combine vs (vars m))) as [|b' l'] eqn:E2; [apply first_none in E2; congruence|]. congruence.
    + injection E as E. apply app_inv_head in E. congruence.
  - intros ->. reflexivity.
Qed.

(** * Decoding *)
Definition digit_symbol (x : symbol) : Prop := exists c, digit c = true /\ x = plain (String c "").
Definition starts_plain (l : list symbol) : Prop := match l with x :: _ => ~ digit_symbol x | [] => True end.
Lemma run_split a : forall a' l l', Forall digit_symbol a -> Forall digit_symbol a' -> starts_plain l -> starts_plain l' -> a ++ l = a' ++ l' -> a = a' /\ l = l'.
Proof.
  induction a as [|x a IH]; intros [|x' a'] l l' A A' Q Q' E; cbn [app] in *.
  - auto.
  - subst l. exfalso. apply Q. exact (Forall_inv A').
  - subst l'. exfalso. apply Q'. exact (Forall_inv A).
  - injection E as -> E. destruct (IH a' l l' (Forall_inv_tail A) (Forall_inv_tail A') Q Q' E) as [-> ->]. auto.
Qed.
Lemma digits_symbols s : all digit s -> Forall digit_symbol (map plain (chars s)).
Proof. induction s as [|c s IH]; [constructor|]. intros [A B]. cbn. constructor; [exists c; auto|auto]. Qed.
Lemma chars_inj s : forall s', map plain (chars s) = map plain (chars s') -> s = s'.
Proof. induction s as [|c s IH]; intros [|c' s'] E; cbn in E; try discriminate E; [reflexivity|]. injection E as -> E. f_equal. apply IH, E. Qed.
Lemma ident_not_digit v d u : identifier v -> ~ digit_symbol (Sym v d u).
Proof.
  intros (c & s & -> & L & _) (c' & D & E). injection E as E1 _ _ _. subst c'.
  destruct c as [[|] [|] [|] [|] [|] [|] [|] [|]]; try discriminate L; discriminate D.
Qed.
Definition heads (vs : list string) (l : list symbol) : Prop := match l with x :: _ => In (body x) vs | [] => True end.
Lemma first_head v d : d <> 0%nat -> exists y l, first_digit_raised (v, d) = y :: l /\ body y = v.
Proof. destruct d as [|[|d]]; [congruence| |]; intros _; unfold first_digit_raised; [exists (plain v), []; auto|]. destruct (n_text_first (S (S d))) as (c & s & E & _). rewrite dec_text, E. eexists _, _. split; reflexivity. Qed.
Lemma first_heads vs : forall e, heads vs (flat_map first_digit_raised (combine vs e)).
Proof.
  induction vs as [|v vs IH]; intros [|d e]; try exact Logic.I. cbn [combine flat_map]. destruct (Nat.eq_dec d 0) as [->|D].
  - cbn [first_digit_raised app]. specialize (IH e). destruct (flat_map first_digit_raised (combine vs e)); [exact Logic.I|]. right. exact IH.
  - destruct (first_head v d D) as (y & l & -> & B). cbn. auto.
Qed.
Lemma heads_plain vs l : Forall identifier vs -> heads vs l -> starts_plain l.
Proof. intros I H. destruct l as [|[b d u] l]; [exact Logic.I|]. cbn in *. rewrite Forall_forall in I. apply ident_not_digit, I, H. Qed.
Lemma first_decode v d d' l l' : starts_plain l -> starts_plain l' -> d <> 0%nat -> d' <> 0%nat ->
  first_digit_raised (v, d) ++ l = first_digit_raised (v, d') ++ l' -> d = d' /\ l = l'.
Proof.
  intros Q Q' D D'. destruct d as [|[|d]]; [congruence| |]; (destruct d' as [|[|d']]; [congruence| |]); unfold first_digit_raised.
  - intros [= E]. auto.
  - destruct (n_text_first (S (S d'))) as (c & s & E & _). rewrite <- dec_text in E. rewrite E. discriminate.
  - destruct (n_text_first (S (S d))) as (c & s & E & _). rewrite <- dec_text in E. rewrite E. discriminate.
  - destruct (n_text_first (S (S d))) as (c & s & E & _ & A). destruct (n_text_first (S (S d'))) as (c' & s' & E' & _ & A'). rewrite <- dec_text in E, E'. rewrite E, E'. cbn [app].
    intros [= -> H]. destruct (run_split _ _ _ _ (digits_symbols s A) (digits_symbols s' A') Q Q' H) as [H1 H2]. apply chars_inj in H1. subst s'. split; [|exact H2].
    apply n_text_inj. change (decimal (S (S d)) = decimal (S (S d'))). rewrite E, E'. reflexivity.
Qed.
Lemma first_inj vs : Forall identifier vs -> NoDup vs -> forall e e', List.length e = List.length vs -> List.length e' = List.length vs ->
  flat_map first_digit_raised (combine vs e) = flat_map first_digit_raised (combine vs e') -> e = e'.
Proof.
  induction vs as [|v vs IH]; intros I N [|d e] [|d' e'] L L' E; try discriminate L; try discriminate L'; [reflexivity|].
  injection L as L. injection L' as L'. inversion N as [|? ? N1 N2]; subst. pose proof (Forall_inv_tail I) as I2. cbn [combine flat_map] in E.
  pose proof (heads_plain vs _ I2 (first_heads vs e)) as Q. pose proof (heads_plain vs _ I2 (first_heads vs e')) as Q'.
  destruct (Nat.eq_dec d 0) as [->|D], (Nat.eq_dec d' 0) as [->|D'].
  - f_equal. apply IH; assumption.
  - exfalso. destruct (first_head v d' D') as (y & l & Y & B). rewrite Y in E. cbn [first_digit_raised app] in E. pose proof (first_heads vs e) as H. rewrite E in H. cbn in H. rewrite B in H. contradiction.
  - exfalso. destruct (first_head v d D) as (y & l & Y & B). rewrite Y in E. cbn [first_digit_raised app] in E. pose proof (first_heads vs e') as H. rewrite <- E in H. cbn in H. rewrite B in H. contradiction.
  - destruct (first_decode v d d' _ _ Q Q' D D' E) as [-> E']. f_equal. apply IH; assumption.
Qed.
(** TeX shows different monomials differently, if there are no functions in them. *)
Theorem latex_inj vs fs m m' : good_names vs fs -> named vs fs m -> named vs fs m' -> pos m = -1 -> pos m' = -1 ->
  tex (py_latex vs fs m) = tex (py_latex vs fs m') -> m = m'.
Proof.
  intros [I ND] N N' P P'. rewrite (latex_reads vs fs m I N), (latex_reads vs fs m' I N') by congruence. rewrite P, P'. cbn [Z.eqb app]. change (-1 =? -1) with true. cbn [app].
  pose proof (proj1 (Forall_app _ _ _) I) as [Iv _]. assert (NV : NoDup vs) by (clear - ND; induction vs as [|v vs IH]; [constructor|]; inversion ND as [|? ? A B]; subst; constructor; [intro; apply A, in_or_app; auto|auto]).
  intros [= E]. assert (E' : flat_map first_digit_raised (combine vs (vars m)) = flat_map first_digit_raised (combine vs (vars m'))).
  { pose proof (heads_plain vs _ Iv (first_heads vs (vars m))) as Q. pose proof (heads_plain vs _ Iv (first_heads vs (vars m'))) as Q'. unfold or_one in E.
    assert (O : digit_symbol (plain "1")) by (exists "1"%char; auto).
    destruct (flat_map first_digit_raised (combine vs (vars m))) as [|x l], (flat_map first_digit_raised (combine vs (vars m'))) as [|x' l'].
    - reflexivity.
    - exfalso. injection E as E1 E2. subst x'. exact (Q' O).
    - exfalso. injection E as E1 E2. subst x. exact (Q O).
    - exact E. }
  apply first_inj in E'; [|exact Iv|exact NV|apply N|apply N']. destruct m, m'; cbn in *. congruence.
Qed.

(** * df_latex *)
Lemma expand_texts vs : forall e i pre, List.length e = List.length vs -> i = List.length pre ->
  map (fun j => braced (nth j (pre ++ vs) "")) (flat_map (fun x => repeat (fst x) (snd x)) (combine (seq i (List.length e)) e)) =
  map braced (flat_map (fun x => repeat (fst x) (snd x)) (combine vs e)).
Proof.
  induction vs as [|v vs IH]; intros [|d e] i pre L E; try discriminate L; [reflexivity|]. injection L as L. cbn [List.length seq combine flat_map fst snd]. rewrite !map_app. f_equal.
  - assert (X : nth i (pre ++ v :: vs) "" = v) by (subst i; rewrite app_nth2, Nat.sub_diag by lia; reflexivity).
    induction d as [|d IHd]; [reflexivity|]. cbn [repeat map]. rewrite X, IHd. reflexivity.
  - specialize (IH e (S i) (pre ++ [v]) L). rewrite <- app_assoc in IH. cbn [app] in IH. apply IH. rewrite app_length. cbn. lia.
Qed.
Lemma quiet_names l : quiet (tail_text " " (map braced l)).
Proof. destruct l as [|x l]; [exact Logic.I|]. cbn [map tail_text]. apply quiet_sp, quiet_braced. Qed.
Lemma rd_names l : Forall identifier l -> rd (tail_text " " (map braced l)) (map plain l).
Proof. induction 1 as [|x l G F IH]; cbn [map tail_text]; [exact rd_nil|]. apply rd_sp, rd_braced; [apply ident_bal, G|apply quiet_names|exact IH]. Qed.
Lemma bal_names l : Forall identifier l -> bal 0 (tail_text " " (map braced l)) = Some 0%nat.
Proof.
  induction 1 as [|x l G F IH]; cbn [map tail_text]; [reflexivity|]. cbn [append bal]. rewrite (bal_app _ _ 0 0); [exact IH|]. apply bal_braced, ident_bal, G.
Qed.
Lemma deg_sum m : Nat.eqb (deg m) 0 = true <-> Forall (fun d => d = 0%nat) (vars m).
Proof.
  rewrite Nat.eqb_eq. destruct m as [p e]. unfold deg. cbn [vars].
  induction e as [|d e IH]; cbn [degv fold_right]; [split; auto|]. fold (degv e). split.
  - intro H. constructor; [lia|apply IH; lia].
  - intro F. inversion F as [|? ? F1 F2]; subst. apply IH, F2.
Qed.
