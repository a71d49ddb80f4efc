(** Texts of pyginv can be read back. *)
From Coq Require Import ZArith List Bool Arith Lia String Ascii DecimalString.
From Verif Require Import Outcome MonomModel TextModel TextSpec TextProofs PyTextModel PyTextSpec PyTextProofs.
Import ListNotations.
Local Open Scope string_scope.
Local Open Scope Z_scope.

Definition but (c0 c : ascii) : bool := negb (Ascii.eqb c c0).
Lemma app_length_s a b : String.length (a ++ b) = (String.length a + String.length b)%nat.
Proof. induction a as [|c a IH]; cbn; [reflexivity|]. now rewrite IH. Qed.
Lemma concat_app sep l l' : l <> [] -> l' <> [] -> String.concat sep (l ++ l')%list = (String.concat sep l ++ sep ++ String.concat sep l')%string.
Proof.
  induction l as [|x l IH]; intros N N'; [congruence|]. destruct l as [|y l].
  - cbn [app]. rewrite concat_cons by exact N'. reflexivity.
  - change ((x :: y :: l) ++ l')%list with (x :: ((y :: l) ++ l'))%list. rewrite concat_cons by (cbn; discriminate). rewrite IH; [|discriminate|exact N']. rewrite (concat_cons sep x (y :: l)) by discriminate. rewrite !app_assoc_s. reflexivity.
Qed.
Lemma all_concat P sep l : all P sep -> Forall (all P) l -> all P (String.concat sep l).
Proof.
  intros S F. induction F as [|x l X F IH]; [exact Logic.I|]. destruct l as [|y l]; [exact X|]. rewrite concat_cons by discriminate. rewrite !all_app. auto.
Qed.
Lemma pieces_inj c0 sep l l' : l <> [] -> l' <> [] -> Forall (all (but c0)) l -> Forall (all (but c0)) l' ->
  String.concat (String c0 sep) l = String.concat (String c0 sep) l' -> l = l'.
Proof.
  intros N N' F F' E. rewrite <- (map_id l), <- (map_id l') in E.
  apply (reads_inj _ _ _ (reads_join (all (but c0)) (fun x => x) (but c0) c0 sep (reads_span _ _ _ (fun a A => A) (fun a b _ _ X => X)) ltac:(unfold but; now rewrite Ascii.eqb_refl)) l l'); auto.
Qed.

(** characters *)
Lemma letter_not_num c : letter c = true -> num_char c = false.
Proof. destruct c as [[] [] [] [] [] [] [] []]; vm_compute; congruence. Qed.
Lemma name_char_star c : name_char c = true -> but "*" c = true.
Proof. destruct c as [[] [] [] [] [] [] [] []]; vm_compute; congruence. Qed.
Lemma name_char_space c : name_char c = true -> but " " c = true.
Proof. destruct c as [[] [] [] [] [] [] [] []]; vm_compute; congruence. Qed.
Lemma num_char_star c : num_char c = true -> but "*" c = true.
Proof. destruct c as [[] [] [] [] [] [] [] []]; vm_compute; congruence. Qed.
Lemma num_char_space c : num_char c = true -> but " " c = true.
Proof. destruct c as [[] [] [] [] [] [] [] []]; vm_compute; congruence. Qed.
Lemma digit_name c : digit c = true -> name_char c = true.
Proof. destruct c as [[] [] [] [] [] [] [] []]; vm_compute; congruence. Qed.
Lemma letter_name c : letter c = true -> name_char c = true.
Proof. unfold name_char. now intros ->. Qed.
Lemma name_chars_all s : name_chars s = true -> all name_char s.
Proof. induction s as [|c s IH]; cbn; [auto|]. intro E. apply andb_true_iff in E as [A B]. auto. Qed.
Lemma ident_all x : identifier x -> all name_char x.
Proof. intros (c & s & -> & L & N). cbn. split; [now apply letter_name|now apply name_chars_all]. Qed.
Lemma ident_not_z x c : identifier x -> x <> z_text c.
Proof. intros (a & s & -> & L & _) E. destruct (z_text_first c) as (b & t & X & B). rewrite X in E. injection E as -> _. apply letter_not_num in L. congruence. Qed.
Lemma z_text_nonempty c : z_text c <> "".
Proof. destruct (z_text_first c) as (b & t & -> & _). discriminate. Qed.

(** the pieces of a term between the stars *)
Definition ppw (x : string * nat) : list string := if Nat.ltb 1 (snd x) then [fst x; ""; n_text (snd x)] else [fst x].
Definition item_ok (x : string * nat) : Prop := identifier (fst x) /\ (1 <= snd x)%nat.
Lemma ppw_text x : power_text x = String.concat "*" (ppw x).
Proof. unfold power_text, ppw. destruct (Nat.ltb 1 (snd x)); reflexivity. Qed.
Lemma ppw_nonempty x : ppw x <> [].
Proof. unfold ppw. destruct (Nat.ltb 1 (snd x)); discriminate. Qed.
Lemma items_text l : String.concat "*" (map power_text l) = String.concat "*" (flat_map ppw l).
Proof.
  induction l as [|x l IH]; [reflexivity|]. destruct l as [|y l]; [cbn [map flat_map]; rewrite app_nil_r; apply ppw_text|].
  rewrite map_cons, concat_cons by discriminate. cbn [flat_map] in *. rewrite concat_app; [|apply ppw_nonempty|intro E; apply app_eq_nil in E as [E _]; exact (ppw_nonempty y E)].
  rewrite IH, ppw_text. reflexivity.
Qed.
Definition coef_tail (l : list string) : Prop := l = [] \/ exists c, l = [z_text c].
Lemma decode : forall l l' k k', Forall item_ok l -> Forall item_ok l' -> coef_tail k -> coef_tail k' ->
  (flat_map ppw l ++ k = flat_map ppw l' ++ k')%list -> l = l' /\ k = k'.
Proof.
  assert (B : forall x l c, identifier (fst x) -> (ppw x ++ l)%list <> [z_text c]).
  { intros x l c I E. unfold ppw in E. destruct (Nat.ltb 1 (snd x)); [discriminate|]. injection E as E _. exact (ident_not_z _ _ I E). }
  assert (N : forall x l, (ppw x ++ l)%list <> []) by (intros x l E; unfold ppw in E; destruct (Nat.ltb 1 (snd x)); discriminate).
  assert (M : forall l k, Forall item_ok l -> coef_tail k -> forall t, (flat_map ppw l ++ k)%list <> "" :: t).
  { intros l k F K t E. destruct F as [|x l [I _] F]; cbn [flat_map app] in E.
    - destruct K as [->|(c & ->)]; [discriminate|]. injection E as E _. exact (z_text_nonempty _ E).
    - destruct I as (a & s & I & _). unfold ppw in E. rewrite I in E. destruct (Nat.ltb 1 (snd x)); discriminate. }
  induction l as [|x l IH]; intros [|y l'] k k' F F' K K' E; cbn [flat_map app] in E.
  - auto.
  - exfalso. destruct (Forall_inv F') as [I _]. rewrite <- app_assoc in E. destruct K as [->|(c & ->)]; [exact (N _ _ (eq_sym E))|exact (B _ _ _ I (eq_sym E))].
  - exfalso. destruct (Forall_inv F) as [I _]. rewrite <- app_assoc in E. destruct K' as [->|(c & ->)]; [exact (N _ _ E)|exact (B _ _ _ I E)].
  - inversion F as [|? ? [I L] F1]; subst. inversion F' as [|? ? [I' L'] F1']; subst. rewrite <- !app_assoc in E. destruct x as [x d], y as [y d']. unfold ppw at 1 in E. unfold ppw at 2 in E. cbn [fst snd] in *.
    destruct (Nat.ltb_spec 1 d), (Nat.ltb_spec 1 d'); cbn [app] in E.
    + injection E as -> En E. destruct (IH l' k k' F1 F1' K K' E) as [-> ->]. apply z_text_inj in En. replace d' with d by lia. auto.
    + exfalso. injection E as _ E. exact (M l' k' F1' K' _ (eq_sym E)).
    + exfalso. injection E as _ E. exact (M l k F1 K _ E).
    + injection E as -> E. destruct (IH l' k k' F1 F1' K K' E) as [-> ->]. replace d' with d by lia. auto.
Qed.

Section Names.
Variables vs fs : list string.
Hypothesis G : good_names vs fs.
Lemma Gv : Forall identifier vs. Proof. destruct G as [X _]. apply Forall_app in X. tauto. Qed.
Lemma Gf : Forall identifier fs. Proof. destruct G as [X _]. apply Forall_app in X. tauto. Qed.
Lemma Nv : NoDup vs. Proof. destruct G as [_ X]. induction vs as [|v w IH]; [constructor|]. cbn in X. inversion X as [|? ? A B]; subst. constructor; [intro Y; apply A, in_or_app; auto|]. apply IH; [|exact B]. destruct G as [Z _]. cbn in Z. inversion Z; subst. split; assumption. Qed.
Lemma Nf : NoDup fs. Proof. destruct G as [_ X]. clear G. induction vs as [|v w IH]; [exact X|]. cbn in X. inversion X; subst. auto. Qed.
Lemma Disj x : In x vs -> In x fs -> False.
Proof. destruct G as [_ X]. clear G. intros A B. induction vs as [|v w IH]; [destruct A|]. cbn in X. inversion X as [|? ? C D]; subst. destruct A as [->|A]; [apply C, in_or_app; auto|auto]. Qed.

Lemma powers_ok e : Forall item_ok (powers vs e).
Proof. exact (powers_good vs Gv e). Qed.
Lemma powers_name e x : In x (powers vs e) -> In (fst x) vs.
Proof. intro X. apply filter_In in X as [X _]. destruct x as [v d]. exact (in_combine_l _ _ _ _ X). Qed.
Lemma powers_inj (w : list string) : NoDup w -> forall e e', List.length e = List.length w -> List.length e' = List.length w -> powers w e = powers w e' -> e = e'.
Proof.
  assert (P : forall (w : list string) e x, In x (powers w e) -> In (fst x) w) by (intros w0 e x X; apply filter_In in X as [X _]; destruct x as [v d]; exact (in_combine_l _ _ _ _ X)).
  induction 1 as [|v w N D IH]; intros [|d e] [|d' e'] L L' E; cbn [List.length] in *; try lia; [reflexivity|].
  assert (Q : forall d e, powers (v :: w) (d :: e) = if Nat.leb 1 d then (v, d) :: powers w e else powers w e) by reflexivity. rewrite !Q in E.
  destruct (Nat.leb_spec 1 d), (Nat.leb_spec 1 d').
  - injection E as -> E. f_equal. apply IH; auto.
  - exfalso. apply N. change v with (fst (v, d)). apply (P w e'). rewrite <- E. now left.
  - exfalso. apply N. change v with (fst (v, d')). apply (P w e). rewrite E. now left.
  - f_equal; [lia|]. apply IH; auto.
Qed.
Definition items (m : monom) : list (string * nat) := (if pos m =? -1 then [] else [(fun_name fs m, 1%nat)]) ++ powers vs (vars m).
Lemma items_ok m : named vs fs m -> Forall item_ok (items m).
Proof.
  intros [_ P]. unfold items. apply Forall_app. split; [|apply powers_ok]. destruct (Z.eqb_spec (pos m) (-1)); constructor; [|constructor]. split; [apply fun_ident; [exact Gf|lia]|cbn; lia].
Qed.
Lemma fun_in m : named vs fs m -> pos m <> -1 -> In (fun_name fs m) fs.
Proof. intros [_ P] N. apply nth_In. lia. Qed.
Lemma items_inj m m' : named vs fs m -> named vs fs m' -> items m = items m' -> m = m'.
Proof.
  intros N N' E. destruct N as [L P] eqn:EN, N' as [L' P'] eqn:EN'. clear EN EN'. unfold items in E. destruct m as [p e], m' as [p' e']. cbn [pos vars] in *.
  destruct (Z.eqb_spec p (-1)) as [Ep|Ep], (Z.eqb_spec p' (-1)) as [Ep'|Ep']; cbn [app] in E.
  - subst. f_equal. exact (powers_inj vs Nv e e' L L' E).
  - exfalso. apply (Disj (fun_name fs (Mon p' e'))); [|apply fun_in; [exact N'|exact Ep']]. apply (powers_name e (fun_name fs (Mon p' e'), 1%nat)). rewrite E. now left.
  - exfalso. apply (Disj (fun_name fs (Mon p e))); [|apply fun_in; [exact N|exact Ep]]. apply (powers_name e' (fun_name fs (Mon p e), 1%nat)). rewrite <- E. now left.
  - injection E as E1 E2. f_equal; [|exact (powers_inj vs Nv e e' L L' E2)]. unfold fun_name in E1. cbn [pos] in E1. apply (proj1 (NoDup_nth fs "") Nf) in E1; lia.
Qed.
Lemma monom_items m : items m <> [] -> py_monom_str vs fs m = String.concat "*" (flat_map ppw (items m)).
Proof.
  intro N. unfold py_monom_str, items in *. cbv zeta. rewrite text_empty by apply powers_ok. destruct (pos m =? -1); cbn [app] in *.
  - destruct (powers vs (vars m)); [congruence|]. apply items_text.
  - cbn [flat_map]. change (ppw (fun_name fs m, 1%nat)) with [fun_name fs m]. cbn [app]. destruct (powers vs (vars m)) as [|x l]; [reflexivity|].
    rewrite concat_cons; [now rewrite items_text|]. cbn [flat_map]. intro E. apply app_eq_nil in E as [E _]. exact (ppw_nonempty x E).
Qed.
Lemma items_empty m : named vs fs m -> items m = [] -> deg m = 0%nat /\ pos m = -1.
Proof.
  intros [L P] E. unfold items in E. destruct (Z.eqb_spec (pos m) (-1)) as [Ep|]; [|discriminate]. split; [|exact Ep]. cbn [app] in E. unfold deg. clear P Ep. revert L E. generalize vs. induction (vars m) as [|d e IH]; intros [|v w] L E; cbn [List.length] in L; try lia; [reflexivity|].
  cbn [powers combine filter snd] in E. unfold powers in E. cbn [combine filter snd] in E. destruct (Nat.leb_spec 1 d); [discriminate|]. cbn [degv fold_right]. fold (degv e). rewrite (IH w) by (auto; lia). lia.
Qed.
Definition is_unit (m : monom) : bool := Nat.eqb (deg m) 0 && (pos m <? 0).
Lemma unit_eq m m' : named vs fs m -> named vs fs m' -> is_unit m = true -> is_unit m' = true -> m = m'.
Proof.
  intros [L P] [L' P'] U U'. apply andb_true_iff in U as [U1 U2], U' as [U1' U2']. apply Nat.eqb_eq in U1, U1'. apply Z.ltb_lt in U2, U2'. destruct m as [p e], m' as [p' e']. unfold deg in *. cbn [pos vars] in *. f_equal; [lia|].
  rewrite <- L' in L. clear -L U1 U1'. revert e' L U1'. induction e as [|d e IH]; intros [|d' e'] L U'; cbn [List.length degv fold_right] in *; try lia; [reflexivity|]. fold (degv e) in *. fold (degv e') in *. f_equal; [lia|]. apply IH; lia.
Qed.
Lemma unit_items m : named vs fs m -> is_unit m = false -> items m <> [].
Proof. intros N U E. apply (items_empty m N) in E as [E1 E2]. unfold is_unit in U. rewrite E1, E2 in U. discriminate. Qed.
Definition pieces (t : monom * Z) : list string :=
  if is_unit (fst t) then [z_text (snd t)] else (flat_map ppw (items (fst t)) ++ (if z_is_one (snd t) then [] else [z_text (snd t)]))%list.
Lemma flat_nonempty l : l <> [] -> flat_map ppw l <> [].
Proof. destruct l as [|x l]; [congruence|]. intros _ E. cbn [flat_map] in E. apply app_eq_nil in E as [E _]. exact (ppw_nonempty x E). Qed.
Lemma term_pieces t : named vs fs (fst t) -> py_term_str z_is_one z_text vs fs t = String.concat "*" (pieces t).
Proof.
  destruct t as [m c]. cbn [fst]. intro N. unfold py_term_str, pieces. cbn [fst snd]. fold (is_unit m). destruct (is_unit m) eqn:U; [reflexivity|]. pose proof (unit_items m N U) as I. rewrite monom_items by exact I.
  destruct (z_is_one c); [rewrite app_nil_r; reflexivity|]. rewrite concat_app; [reflexivity|now apply flat_nonempty|discriminate].
Qed.
Lemma pieces_nonempty t : named vs fs (fst t) -> pieces t <> [].
Proof.
  intro N. unfold pieces. destruct (is_unit (fst t)) eqn:U; [discriminate|]. intro E. apply app_eq_nil in E as [E _]. exact (flat_nonempty _ (unit_items _ N U) E).
Qed.
Lemma pieces_all (P : ascii -> bool) t : (forall c, name_char c = true -> P c = true) -> (forall c, num_char c = true -> P c = true) -> named vs fs (fst t) -> Forall (all P) (pieces t).
Proof.
  intros P1 P2 N. assert (Z : forall c, all P (z_text c)) by (intro c; eapply all_weak; [exact P2|apply z_text_chars]).
  unfold pieces. destruct (is_unit (fst t)); [constructor; [apply Z|constructor]|]. apply Forall_app. split; [|destruct (z_is_one (snd t)); repeat constructor; apply Z].
  apply Forall_forall. intros x X. apply in_flat_map in X as (y & Y & X). pose proof (items_ok _ N) as F. rewrite Forall_forall in F. destruct (F y Y) as [I _].
  assert (A : all P (fst y)) by (eapply all_weak; [exact P1|now apply ident_all]). unfold ppw in X. destruct (Nat.ltb 1 (snd y)); cbn [In] in X; [destruct X as [<-|[<-|[<-|[]]]]; [exact A|exact Logic.I|apply Z]|destruct X as [<-|[]]; exact A].
Qed.
Lemma pieces_term t t' : named vs fs (fst t) -> named vs fs (fst t') -> pieces t = pieces t' -> t = t'.
Proof.
  destruct t as [m c], t' as [m' c']. unfold pieces. cbn [fst snd]. intros N N' E.
  assert (X : forall m, named vs fs m -> is_unit m = false -> forall c k, (flat_map ppw (items m) ++ k)%list <> [z_text c]).
  { intros m0 N0 U c0 k E0. pose proof (unit_items m0 N0 U) as I. pose proof (items_ok m0 N0) as F. destruct (items m0) as [|x l]; [congruence|]. inversion F as [|? ? [Ix _] _]; subst. cbn [flat_map] in E0. rewrite <- app_assoc in E0.
    unfold ppw in E0. destruct (Nat.ltb 1 (snd x)); [discriminate|]. injection E0 as E0 _. exact (ident_not_z _ _ Ix E0). }
  destruct (is_unit m) eqn:U, (is_unit m') eqn:U'.
  - injection E as E. apply z_text_inj in E as ->. f_equal. now apply unit_eq.
  - exfalso. exact (X m' N' U' _ _ (eq_sym E)).
  - exfalso. exact (X m N U _ _ E).
  - apply decode in E as [E1 E2]; [|now apply items_ok|now apply items_ok|destruct (z_is_one c); [left; reflexivity|right; eauto]|destruct (z_is_one c'); [left; reflexivity|right; eauto]].
    apply items_inj in E1 as ->; [|exact N|exact N']. f_equal. unfold z_is_one in E2. destruct (Z.eqb_spec 1 c), (Z.eqb_spec 1 c'); try discriminate E2; [congruence|]. injection E2 as E2. now apply z_text_inj.
Qed.
Lemma term_str_inj t t' : named vs fs (fst t) -> named vs fs (fst t') -> py_term_str z_is_one z_text vs fs t = py_term_str z_is_one z_text vs fs t' -> t = t'.
Proof.
  intros N N' E. rewrite !term_pieces in E by assumption. apply pieces_inj in E; [now apply pieces_term|now apply pieces_nonempty|now apply pieces_nonempty| |];
    apply pieces_all; auto using name_char_star, num_char_star.
Qed.
Lemma term_str_chars t : named vs fs (fst t) -> all (but " ") (py_term_str z_is_one z_text vs fs t).
Proof. intro N. rewrite term_pieces by exact N. apply all_concat; [cbn; auto|]. apply pieces_all; auto using name_char_space, num_char_space. Qed.
Lemma term_str_reads : reads (fun t => named vs fs (fst t)) (py_term_str z_is_one z_text vs fs) (but " ").
Proof. apply reads_span; [intros; now apply term_str_chars|intros; now apply term_str_inj]. Qed.
Theorem monom_str_inj m m' : named vs fs m -> named vs fs m' -> py_monom_str vs fs m = py_monom_str vs fs m' -> m = m'.
Proof.
  intros N N' E. assert (X : py_term_str z_is_one z_text vs fs (m, 1) = py_term_str z_is_one z_text vs fs (m', 1)).
  { unfold py_term_str. cbn [z_is_one Z.eqb Pos.eqb]. fold (is_unit m) (is_unit m'). 
    assert (U : forall m, named vs fs m -> is_unit m = true -> py_monom_str vs fs m = z_text 1).
    { intros m0 [L0 P0] U0. apply andb_true_iff in U0 as [U1 U2]. apply Nat.eqb_eq in U1. apply Z.ltb_lt in U2. unfold py_monom_str. cbv zeta. rewrite text_empty by apply powers_ok. destruct (Z.eqb_spec (pos m0) (-1)); [|lia].
      assert (W : powers vs (vars m0) = []); [|rewrite W; reflexivity]. unfold deg in U1. clear -U1. unfold powers. revert vs. induction (vars m0) as [|d e IH]; intros [|v w]; cbn [combine filter]; auto. cbn [degv fold_right] in U1. fold (degv e) in U1. cbn [snd]. destruct (Nat.leb_spec 1 d); [lia|]. apply IH. lia. }
    destruct (is_unit m) eqn:U1, (is_unit m') eqn:U2; rewrite ?U1, ?U2; auto.
    - rewrite <- E. symmetry. now apply U.
    - rewrite E. now apply U. }
  apply term_str_inj in X; [congruence|exact N|exact N'].
Qed.
Lemma term_not_zero t l : named vs fs (fst t) -> snd t <> 0 -> String.concat " + " (map (py_term_str z_is_one z_text vs fs) (t :: l)) <> "0".
Proof.
  intros N Z E. destruct l as [|t2 l].
  - cbn [map String.concat] in E. change "0" with (z_text 0) in E. rewrite term_pieces in E by exact N. unfold pieces in E. destruct (is_unit (fst t)) eqn:U; [cbn [String.concat] in E; now apply z_text_inj in E|].
    pose proof (unit_items _ N U) as I. pose proof (items_ok _ N) as F. destruct (items (fst t)) as [|x k]; [congruence|]. inversion F as [|? ? [Ix _] _]; subst. destruct Ix as (c & s & Ex & L & _). destruct x as [x d]. cbn [fst] in Ex. subst x.
    assert (H0 : c = "0"%char).
    { unfold ppw in E. cbn [flat_map fst snd] in E. destruct (Nat.ltb 1 d); cbn [app] in E; [rewrite concat_tail in E; cbn in E; congruence|]. rewrite concat_tail in E. cbn in E. congruence. }
    subst c. discriminate L.
  - rewrite map_cons, concat_cons in E by discriminate. apply (f_equal String.length) in E. rewrite !app_length_s in E. cbn [String.length] in E. lia.
Qed.
End Names.
