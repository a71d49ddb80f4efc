(** Texts of pyginv can be read back: polynomials and operator forms. *)
From Coq Require Import ZArith List Bool Arith Lia String Ascii DecimalString.
From Verif Require Import Outcome MonomModel TextModel TextSpec TextProofs PyTextModel PyTextSpec PyTextProofs PyTextProofs2.
Import ListNotations.
Local Open Scope string_scope.
Local Open Scope Z_scope.

Lemma rd {A} (D : A -> Prop) f P (R : reads D f P) a b s t : (f a ++ s = f b ++ t)%string -> D a -> D b -> ends P s -> ends P t -> a = b /\ s = t.
Proof. intros E Da Db S T. now apply R. Qed.

Theorem monom_repr_inj m m' : good_monom m -> good_monom m' -> py_monom_repr m = py_monom_repr m' -> m = m'.
Proof.
  destruct m as [p e], m' as [p' e']. intros [P V] [P' V']. unfold py_monom_repr. cbn [pos vars] in *. intro E.
  assert (X : forall p e e', e' <> [] -> (z_text p ++ ";" ++ String.concat " " (map n_text e) ++ "]")%string <> (String.concat " " (map n_text e') ++ "]")%string).
  { intros q f f' N Y. destruct (exps_first f' N) as (a & s & W & S). rewrite W, app_assoc_s in Y. unfold n_text at 2 in Y. destruct S as [->|(s' & ->)]; (destruct (rd _ _ _ z_reads q (Z.of_nat a) _ _ Y Logic.I Logic.I eq_refl eq_refl) as [_ Z]; discriminate Z). }
  destruct (Z.eqb_spec p (-1)) as [->|N], (Z.eqb_spec p' (-1)) as [->|N']; apply app_inj_l in E.
  - destruct (exps_reads e e' "]" "]") as [-> _]; try (split; [assumption|apply all_true]); try reflexivity. exact E.
  - exfalso. exact (X p' e' e V (eq_sym E)).
  - exfalso. exact (X p e e' V' E).
  - destruct (rd _ _ _ z_reads p p' _ _ E Logic.I Logic.I eq_refl eq_refl) as [-> E1]. apply (app_inj_l ";") in E1. destruct (exps_reads e e' "]" "]") as [-> _]; try (split; [assumption|apply all_true]); try reflexivity. exact E1.
Qed.

Section Names.
Variables vs fs : list string.
Hypothesis G : good_names vs fs.
Notation tstr := (py_term_str z_is_one z_text vs fs).
Definition good_pt (t : monom * Z) : Prop := named vs fs (fst t) /\ snd t <> 0.
Theorem poly_str_inj p p' : Forall good_pt p -> Forall good_pt p' -> py_poly_str z_is_one z_text vs fs p = py_poly_str z_is_one z_text vs fs p' -> p = p'.
Proof.
  assert (W : forall p, Forall good_pt p -> Forall (fun t => named vs fs (fst t)) p) by (intros q Q; eapply Forall_impl; [|exact Q]; intros t [A _]; exact A).
  intros F F' E. destruct p as [|t p], p' as [|t' p']; cbn [py_poly_str] in E.
  - reflexivity.
  - exfalso. destruct (Forall_inv F') as [A B]. exact (term_not_zero vs fs G t' p' A B (eq_sym E)).
  - exfalso. destruct (Forall_inv F) as [A B]. exact (term_not_zero vs fs G t p A B E).
  - refine (reads_inj _ _ _ (reads_join _ _ _ " " "+ " (term_str_reads vs fs G) eq_refl) (t :: p) (t' :: p') _ _ E); (split; [discriminate|auto]).
Qed.

(** ---- names and numbers between commas ---- *)
Lemma decode2 : forall l l', Forall item_ok l -> Forall item_ok l' -> flat_map order_texts l = flat_map order_texts l' -> l = l'.
Proof.
  assert (M : forall l, Forall item_ok l -> forall n t, flat_map order_texts l <> n_text n :: t).
  { intros l F n t E. destruct F as [|x l [I _] F]; [discriminate|]. cbn [flat_map] in E. unfold order_texts in E. destruct (Nat.ltb 1 (snd x)); cbn [app] in E; injection E as E _; exact (ident_not_z _ _ I E). }
  induction l as [|x l IH]; intros [|y l'] F F' E; cbn [flat_map] in E; [reflexivity|unfold order_texts in E; destruct (Nat.ltb 1 (snd y)); discriminate|unfold order_texts in E; destruct (Nat.ltb 1 (snd x)); discriminate|].
  inversion F as [|? ? [I L] F1]; subst. inversion F' as [|? ? [I' L'] F1']; subst. destruct x as [x d], y as [y d']. unfold order_texts at 1 in E. unfold order_texts at 2 in E. cbn [fst snd] in *.
  destruct (Nat.ltb_spec 1 d), (Nat.ltb_spec 1 d'); cbn [app] in E.
  - injection E as -> En E. rewrite (IH l' F1 F1' E). apply z_text_inj in En. replace d' with d by lia. reflexivity.
  - exfalso. injection E as _ E. exact (M l' F1' _ _ (eq_sym E)).
  - exfalso. injection E as _ E. exact (M l F1 _ _ E).
  - injection E as -> E. rewrite (IH l' F1 F1' E). replace d' with d by lia. reflexivity.
Qed.
Lemma order_texts_chars l : Forall item_ok l -> Forall (all name_char) (flat_map order_texts l).
Proof.
  intro F. apply Forall_forall. intros x X. apply in_flat_map in X as (y & Y & X). rewrite Forall_forall in F. destruct (F y Y) as [I _].
  assert (N : all name_char (n_text (snd y))) by (eapply all_weak; [exact digit_name|apply n_text_chars]).
  unfold order_texts in X. destruct (Nat.ltb 1 (snd y)); cbn [In] in X; [destruct X as [<-|[<-|[]]]; [now apply ident_all|exact N]|destruct X as [<-|[]]; now apply ident_all].
Qed.
Lemma commas_reads : reads (fun l => l <> [] /\ Forall (all name_char) l) (String.concat ", ") (or_char name_char ",").
Proof.
  intros l l' s t D D' S T E. rewrite <- (map_id l), <- (map_id l') in E.
  exact (reads_join (all name_char) (fun x => x) name_char "," " " (reads_span _ _ _ (fun a A => A) (fun a b _ _ X => X)) eq_refl l l' s t D D' S T E).
Qed.
Definition has_fun (m : monom) : Prop := named vs fs m /\ 0 <= pos m.
Definition call_text (f : string) (m : monom) : string := f ++ "(" ++ String.concat ", " (fun_name fs m :: flat_map order_texts (powers vs (vars m))) ++ ")".
Definition sympy_text (m : monom) : string :=
  let u := (fun_name fs m ++ "(" ++ String.concat ", " vs ++ ")")%string in
  match flat_map order_texts (powers vs (vars m)) with [] => u | r => (u ++ ".diff(" ++ String.concat ", " r ++ ")")%string end.
Lemma call_text_eq f m : has_fun m -> py_call f vs fs m = Ok (call_text f m).
Proof. intros [_ P]. unfold py_call. destruct (Z.eqb_spec (pos m) (-1)); [lia|reflexivity]. Qed.
Lemma sympy_text_eq m : has_fun m -> py_df_sympy vs fs m = Ok (sympy_text m).
Proof. intros [_ P]. unfold py_df_sympy, sympy_text. destruct (Z.eqb_spec (pos m) (-1)); [lia|]. cbv zeta. destruct (flat_map order_texts (powers vs (vars m))); reflexivity. Qed.
Lemma fun_name_ident m : has_fun m -> identifier (fun_name fs m).
Proof. intros [[_ P] P0]. apply fun_ident; [exact (Gf vs fs G)|lia]. Qed.
Lemma back m m' : has_fun m -> has_fun m' -> fun_name fs m = fun_name fs m' -> flat_map order_texts (powers vs (vars m)) = flat_map order_texts (powers vs (vars m')) -> m = m'.
Proof.
  intros [N P] [N' P'] E1 E2. apply decode2 in E2; [|apply (powers_ok vs fs G)|apply (powers_ok vs fs G)]. apply (items_inj vs fs G); [exact N|exact N'|]. unfold items. destruct (Z.eqb_spec (pos m) (-1)), (Z.eqb_spec (pos m') (-1)); try lia. now rewrite E1, E2.
Qed.
Definition dot (c : ascii) : bool := Ascii.eqb c ".".
Lemma call_reads f : reads has_fun (call_text f) dot.
Proof.
  intros m m' s t D D' _ _ E. unfold call_text in E. rewrite !app_assoc_s in E. apply app_inj_l in E. apply (app_inj_l "(") in E.
  assert (C : forall m, has_fun m -> fun_name fs m :: flat_map order_texts (powers vs (vars m)) <> [] /\ Forall (all name_char) (fun_name fs m :: flat_map order_texts (powers vs (vars m)))).
  { intros n H. split; [discriminate|]. constructor; [apply ident_all, fun_name_ident, H|apply order_texts_chars, (powers_ok vs fs G)]. }
  destruct (rd _ _ _ commas_reads _ _ _ _ E (C m D) (C m' D') eq_refl eq_refl) as [X Y]. injection X as X1 X2. cbn in Y. injection Y as Y. split; [now apply back|exact Y].
Qed.
Lemma sympy_reads : reads has_fun sympy_text dot.
Proof.
  intros m m' s t D D' S T E. pose proof (fun_name_ident m D) as I. pose proof (fun_name_ident m' D') as I'.
  assert (Q : forall m, sympy_text m = (fun_name fs m ++ "(" ++ String.concat ", " vs ++ ")" ++ match flat_map order_texts (powers vs (vars m)) with [] => "" | r => ".diff(" ++ String.concat ", " r ++ ")" end)%string).
  { intro n. unfold sympy_text. cbv zeta. destruct (flat_map order_texts (powers vs (vars n))); rewrite ?app_assoc_s; reflexivity. }
  rewrite !Q in E. rewrite !app_assoc_s in E. destruct (rd _ _ _ (reads_span (all name_char) (fun x => x) name_char (fun a A => A) (fun a b _ _ X => X)) _ _ _ _ E (ident_all _ I) (ident_all _ I') eq_refl eq_refl) as [E1 E2]. apply (app_inj_l "(") in E2. apply app_inj_l in E2. apply (app_inj_l ")") in E2.
  assert (C : Forall (all name_char) (flat_map order_texts (powers vs (vars m)))) by apply order_texts_chars, (powers_ok vs fs G).
  assert (C' : Forall (all name_char) (flat_map order_texts (powers vs (vars m')))) by apply order_texts_chars, (powers_ok vs fs G).
  pose proof (back m m' D D' E1) as B.
  destruct (flat_map order_texts (powers vs (vars m))) as [|x l], (flat_map order_texts (powers vs (vars m'))) as [|x' l'].
  - auto.
  - cbn in E2. subst s. exfalso. cbn in S. discriminate S.
  - cbn in E2. subst t. exfalso. cbn in T. discriminate T.
  - rewrite !app_assoc_s in E2. apply (app_inj_l ".diff(") in E2. destruct (commas_reads (x :: l) (x' :: l') (")" ++ s) (")" ++ t)) as [X Y]; try (split; [discriminate|assumption]); try reflexivity; [exact E2|]. cbn in Y. injection Y as Y. auto.
Qed.

(** ---- sums of operators ---- *)
Section Op.
Variable mt : monom -> outcome string.
Variable txt : monom -> string.
Hypothesis Hmt : forall m, has_fun m -> mt m = Ok (txt m).
Hypothesis Rtxt : reads has_fun txt dot.
Hypothesis Ftxt : forall m, has_fun m -> exists c s, txt m = String c s /\ letter c = true.
(** terms of differential and difference polynomials: an operator applied to a function, or a free term *)
Definition op_monom (m : monom) : Prop := has_fun m \/ named vs fs m /\ is_unit m = true.
Definition good_op (t : monom * Z) : Prop := op_monom (fst t) /\ snd t <> 0.
Definition op_text (t : monom * Z) : string :=
  if is_unit (fst t) then z_text (snd t) else if z_is_one (snd t) then txt (fst t) else (txt (fst t) ++ "*" ++ z_text (snd t))%string.
Lemma has_fun_unit m : has_fun m -> is_unit m = false.
Proof. intros [_ P]. unfold is_unit. destruct (Z.ltb_spec (pos m) 0); [lia|]. apply andb_false_r. Qed.
Lemma op_term_eq t : op_monom (fst t) -> py_op_term z_is_one z_text mt t = Ok (op_text t).
Proof.
  destruct t as [m c]. cbn [fst]. intro O. unfold py_op_term, op_text. cbn [fst snd]. fold (is_unit m). destruct (is_unit m) eqn:U; [reflexivity|]. destruct O as [O|[_ O]]; [|congruence]. rewrite (Hmt m O). cbn. destruct (z_is_one c); reflexivity.
Qed.
Definition stop (c : ascii) : bool := num_char c || Ascii.eqb c "*" || Ascii.eqb c ".".
Lemma stop_num s : ends stop s -> ends num_char s.
Proof. apply ends_weak. intros c C. unfold stop. now rewrite C. Qed.
Lemma stop_dot s : ends stop s -> ends dot s.
Proof. apply ends_weak. intros c C. unfold stop. unfold dot in C. rewrite C. now rewrite orb_true_r. Qed.
Lemma stop_star s : ~ ends stop (String "*" s).
Proof. intro E. discriminate E. Qed.
Lemma op_reads : reads (fun t => op_monom (fst t)) op_text stop.
Proof.
  assert (X : forall m c r s, has_fun m -> (z_text c ++ r)%string <> (txt m ++ s)%string).
  { intros m c r s H E. destruct (z_text_first c) as (a & u & A & N). destruct (Ftxt m H) as (b & v & B & L). rewrite A, B in E. cbn in E. injection E as -> _. apply letter_not_num in L. congruence. }
  intros [m c] [m' c'] s t. cbn [fst]. intros O O' S T E. unfold op_text in E. cbn [fst snd] in E.
  destruct O as [O|[N U]], O' as [O'|[N' U']].
  - rewrite (has_fun_unit m O), (has_fun_unit m' O') in E. unfold z_is_one in E. destruct (Z.eqb_spec 1 c), (Z.eqb_spec 1 c').
    + destruct (Rtxt m m' s t O O' (stop_dot _ S) (stop_dot _ T) E) as [-> ->]. subst. auto.
    + rewrite app_assoc_s in E. destruct (rd _ _ _ Rtxt m m' s _ E O O' (stop_dot _ S) eq_refl) as [_ Y]. subst s. exfalso. exact (stop_star _ S).
    + rewrite app_assoc_s in E. destruct (rd _ _ _ Rtxt m m' _ t E O O' eq_refl (stop_dot _ T)) as [_ Y]. subst t. exfalso. exact (stop_star _ T).
    + rewrite !app_assoc_s in E. destruct (rd _ _ _ Rtxt m m' _ _ E O O' eq_refl eq_refl) as [-> Y]. apply (app_inj_l "*") in Y. destruct (z_reads c c' s t Logic.I Logic.I (stop_num _ S) (stop_num _ T) Y) as [-> ->]. auto.
  - exfalso. rewrite (has_fun_unit m O), U' in E. destruct (z_is_one c); rewrite ?app_assoc_s in E; exact (X _ _ _ _ O (eq_sym E)).
  - exfalso. rewrite (has_fun_unit m' O'), U in E. destruct (z_is_one c'); rewrite ?app_assoc_s in E; exact (X _ _ _ _ O' E).
  - rewrite U, U' in E. destruct (z_reads c c' s t Logic.I Logic.I (stop_num _ S) (stop_num _ T) E) as [-> ->]. split; [|reflexivity]. f_equal. now apply (unit_eq vs fs).
Qed.
Lemma op_terms_eq p : Forall good_op p -> py_op_terms z_is_one z_text mt p = Ok (map op_text p).
Proof. induction 1 as [|t p [O _] F IH]; [reflexivity|]. cbn [py_op_terms map]. rewrite op_term_eq by exact O. cbn [bind]. rewrite IH. reflexivity. Qed.
Definition sum_text (p : list (monom * Z)) : string := match p with [] => "0" | _ => String.concat " + " (map op_text p) end.
Lemma op_str_eq p : Forall good_op p -> py_op_str z_is_one z_text mt p = Ok (sum_text p).
Proof. intro F. destruct p as [|t p]; [reflexivity|]. unfold py_op_str. rewrite op_terms_eq by exact F. reflexivity. Qed.
Lemma op_not_zero t l : good_op t -> String.concat " + " (map op_text (t :: l)) <> "0".
Proof.
  intros [O Z] E. destruct l as [|t2 l].
  - cbn [map String.concat] in E. unfold op_text in E. destruct O as [O|[N U]].
    + rewrite (has_fun_unit _ O) in E. destruct (Ftxt _ O) as (c & s & X & L). rewrite X in E. assert (c = "0"%char) by (destruct (z_is_one (snd t)); cbn in E; congruence). subst c. discriminate L.
    + rewrite U in E. change "0" with (z_text 0) in E. now apply z_text_inj in E.
  - rewrite map_cons, concat_cons in E by discriminate. apply (f_equal String.length) in E. rewrite !app_length_s in E. cbn [String.length] in E. lia.
Qed.
Theorem op_str_inj p p' : Forall good_op p -> Forall good_op p' -> exists s s',
  py_op_str z_is_one z_text mt p = Ok s /\ py_op_str z_is_one z_text mt p' = Ok s' /\ (s = s' -> p = p').
Proof.
  intros F F'. exists (sum_text p), (sum_text p'). split; [now apply op_str_eq|]. split; [now apply op_str_eq|]. intro E.
  assert (W : forall p, Forall good_op p -> Forall (fun t => op_monom (fst t)) p) by (intros q Q; eapply Forall_impl; [|exact Q]; intros t [A _]; exact A).
  destruct p as [|t p], p' as [|t' p']; cbn [sum_text] in E.
  - reflexivity.
  - exfalso. exact (op_not_zero _ _ (Forall_inv F') (eq_sym E)).
  - exfalso. exact (op_not_zero _ _ (Forall_inv F) E).
  - refine (reads_inj _ _ _ (reads_join _ _ _ " " "+ " op_reads eq_refl) (t :: p) (t' :: p') _ _ E); (split; [discriminate|auto]).
Qed.
End Op.
End Names.
