From Coq Require Import ZArith List Bool Arith Lia String Ascii.
From Verif Require Import Outcome MonomModel TextModel TextSpec TextProofs PyMonomModel PyTextModel PyTextSpec PyTextProofs TexModel TexSpec.
Import ListNotations.
Local Open Scope string_scope.

(** Reading is compositional *)
Definition rd (s : string) (l : list symbol) : Prop := forall f, (String.length s < f)%nat -> read_symbols f s = Some l.
Lemma rd_tex s l : rd s l -> tex s = Some l.
Proof. intro H. apply H. lia. Qed.
Lemma rd_nil : rd "" [].
Proof. intros f L. destruct f; [inversion L|reflexivity]. Qed.
Lemma item_sp s : item (String " " s) = item s.
Proof. reflexivity. Qed.
Lemma rd_sp s l : rd s l -> rd (String " " s) l.
Proof.
  intros H f L. destruct f; [inversion L|]. specialize (H (Datatypes.S f)). cbn in L. rewrite <- H by lia.
  cbn [read_symbols]. rewrite item_sp. reflexivity.
Qed.
(** No script follows *)
Definition quiet (s : string) : Prop := match skip s with String c _ => Ascii.eqb c "_" = false /\ Ascii.eqb c "^" = false | "" => True end.
Lemma quiet_sub s : quiet s -> script "_" s = Some (None, s).
Proof. unfold quiet, script. destruct (skip s); [reflexivity|]. intros [-> _]. reflexivity. Qed.
Lemma quiet_sup s : quiet s -> script "^" s = Some (None, s).
Proof. unfold quiet, script. destruct (skip s); [reflexivity|]. intros [_ ->]. reflexivity. Qed.
Lemma rd_step s a r d r1 u r2 l : skip s <> "" -> item s = Some (a, r) -> script "_" r = Some (d, r1) -> script "^" r1 = Some (u, r2) ->
  (String.length r2 < String.length s)%nat -> rd r2 l -> rd s (Sym a d u :: l).
Proof.
  intros N E1 E2 E3 L H f Lf. destruct f; [inversion Lf|]. cbn [read_symbols]. destruct (skip s) as [|c0 s0] eqn:Es; [congruence|].
  rewrite E1, E2, E3, (H f) by lia. reflexivity.
Qed.
Lemma length_app a b : String.length (a ++ b) = (String.length a + String.length b)%nat.
Proof. induction a; cbn; congruence. Qed.

(** Texts with balanced braces *)
Fixpoint bal (d : nat) (s : string) : option nat :=
  match s with
  | "" => Some d
  | String c s' => if Ascii.eqb c "}" then match d with O => None | Datatypes.S e => bal e s' end
                   else if Ascii.eqb c "{" then bal (Datatypes.S d) s' else bal d s'
  end.
Lemma bal_app a b : forall d e, bal d a = Some e -> bal d (a ++ b) = bal e b.
Proof.
  induction a as [|c a IH]; intros d e; cbn [bal append]; [intros [= ->]; reflexivity|].
  destruct (Ascii.eqb c "}"); [destruct d; [discriminate|apply IH]|]. destruct (Ascii.eqb c "{"); apply IH.
Qed.
Lemma close_bal h : forall d e r, bal d h = Some e -> up_to_close d (h ++ r) = match up_to_close e r with Some (a, b) => Some (h ++ a, b) | None => None end.
Proof.
  induction h as [|c h IH]; intros d e r; cbn [bal append up_to_close]; [intros [= ->]; destruct (up_to_close e r) as [[a b]|]; reflexivity|].
  destruct (Ascii.eqb c "}"); [destruct d; [discriminate|]|]; [|destruct (Ascii.eqb c "{")];
    intro H; rewrite (IH _ _ r H); destruct (up_to_close e r) as [[a b]|]; reflexivity.
Qed.
Lemma close_ok h r : bal 0 h = Some 0%nat -> up_to_close 0 (h ++ String "}" r) = Some (h, r).
Proof. intro H. rewrite (close_bal h 0 0 _ H). cbn. rewrite app_nil_s. reflexivity. Qed.
Lemma bal_word P s : (forall c, P c = true -> Ascii.eqb c "}" = false /\ Ascii.eqb c "{" = false) -> forall d, all P s -> bal d s = Some d.
Proof. intro H. induction s as [|c s IH]; intros d A; [reflexivity|]. destruct A as [A1 A2]. destruct (H c A1) as [E1 E2]. cbn [bal]. rewrite E1, E2. apply IH, A2. Qed.
Lemma bal_braced s d : bal (Datatypes.S d) s = Some (Datatypes.S d) -> bal d (braced s) = Some d.
Proof. intro H. unfold braced. cbn [append bal]. change (Ascii.eqb "{" "}") with false. change (Ascii.eqb "{" "{") with true. cbn iota. rewrite (bal_app _ _ _ _ H). reflexivity. Qed.

Lemma braced_app s r : (braced s ++ r = String "{" (s ++ String "}" r))%string.
Proof. unfold braced. cbn [append]. rewrite app_assoc_s. reflexivity. Qed.
Lemma item_braced s r : bal 0 s = Some 0%nat -> item (braced s ++ r) = Some (s, r).
Proof. intro H. rewrite braced_app. unfold item. cbn [skip]. cbn -[up_to_close]. apply close_ok, H. Qed.
Lemma skip_braced s r : skip (braced s ++ r) <> "".
Proof. rewrite braced_app. discriminate. Qed.

Lemma rd_braced s r l : bal 0 s = Some 0%nat -> quiet r -> rd r l -> rd (braced s ++ r) (plain s :: l).
Proof.
  intros B Q H. eapply (rd_step _ s r None r None r); [apply skip_braced|apply item_braced, B|apply quiet_sub, Q|apply quiet_sup, Q| |exact H].
  rewrite braced_app. cbn [String.length]. rewrite length_app. cbn. lia.
Qed.
Lemma rd_sup s c r l : bal 0 s = Some 0%nat -> alnum c = true -> rd r l ->
  rd (braced s ++ String "^" (String c r)) (Sym s None (Some (String c "")) :: l).
Proof.
  intros B C H. assert (I : item (String c r) = Some (String c "", r)).
  { unfold item. destruct c as [[|] [|] [|] [|] [|] [|] [|] [|]]; try discriminate C; reflexivity. }
  eapply (rd_step _ s (String "^" (String c r)) None (String "^" (String c r)) (Some (String c "")) r);
    [apply skip_braced|apply item_braced, B|reflexivity| | |exact H].
  - unfold script. cbn [skip]. rewrite I. reflexivity.
  - rewrite braced_app. cbn [String.length]. rewrite length_app. cbn. lia.
Qed.
Lemma rd_sub s h : bal 0 s = Some 0%nat -> bal 0 h = Some 0%nat -> rd (braced s ++ String "_" (braced h)) [Sym s (Some h) None].
Proof.
  intros B Bh. eapply (rd_step _ s (String "_" (braced h)) (Some h) "" None "");
    [apply skip_braced|apply item_braced, B| |reflexivity| |exact rd_nil].
  - unfold script. cbn [skip]. change (Ascii.eqb "_" "_") with true. cbn iota. rewrite <- (app_nil_s (braced h)), (item_braced h "" Bh). reflexivity.
  - rewrite braced_app. cbn. lia.
Qed.
Definition ordinary (c : ascii) : bool := alnum c || Ascii.eqb c "+".
Lemma rd_char c r l : ordinary c = true -> quiet r -> rd r l -> rd (String c r) (plain (String c "") :: l).
Proof.
  intros C Q H. assert (I : item (String c r) = Some (String c "", r) /\ skip (String c r) <> "").
  { unfold item. destruct c as [[|] [|] [|] [|] [|] [|] [|] [|]]; try discriminate C; split; try reflexivity; discriminate. }
  destruct I as [I N]. eapply (rd_step _ (String c "") r None r None r); [exact N|exact I|apply quiet_sub, Q|apply quiet_sup, Q|cbn; lia|exact H].
Qed.
Lemma rd_thin r l : quiet r -> rd r l -> rd (String "\" (String "," r)) (plain "\," :: l).
Proof. intros Q H. eapply (rd_step _ "\," r None r None r); [discriminate|reflexivity|apply quiet_sub, Q|apply quiet_sup, Q|cbn; lia|exact H]. Qed.
Lemma quiet_ordinary c r : ordinary c = true -> quiet (String c r).
Proof. intro C. unfold quiet. destruct c as [[|] [|] [|] [|] [|] [|] [|] [|]]; try discriminate C; split; reflexivity. Qed.
Lemma quiet_sp r : quiet r -> quiet (String " " r).
Proof. exact (fun H => H). Qed.
Lemma quiet_braced s r : quiet (braced s ++ r).
Proof. rewrite braced_app. split; reflexivity. Qed.
(** A run of ordinary characters *)
Lemma quiet_run s r : all ordinary s -> quiet r -> quiet (s ++ r).
Proof. destruct s as [|c s]; [auto|]. intros [C _] _. apply quiet_ordinary, C. Qed.
Lemma rd_run s r l : all ordinary s -> quiet r -> rd r l -> rd (s ++ r) (map plain (chars s) ++ l).
Proof.
  induction s as [|c s IH]; intros A Q H; [exact H|]. destruct A as [C A]. cbn [append chars map app].
  apply rd_char; [exact C|apply quiet_run; assumption|apply IH; assumption].
Qed.

(** Names *)
Lemma name_bal s d : name_chars s = true -> bal d s = Some d.
Proof.
  intro H. apply (bal_word name_char); [|].
  - intros c Hc. destruct c as [[|] [|] [|] [|] [|] [|] [|] [|]]; try discriminate Hc; split; reflexivity.
  - induction s as [|c s IH]; [exact Logic.I|]. cbn [name_chars] in H. apply andb_true_iff in H as [A B]. split; auto.
Qed.
Lemma ident_chars s : identifier s -> name_chars s = true.
Proof. intros (c & s' & -> & L & N). cbn [name_chars]. unfold name_char. rewrite L. exact N. Qed.
Lemma ident_bal s d : identifier s -> bal d s = Some d.
Proof. intro H. apply name_bal, ident_chars, H. Qed.
Lemma digit_alnum c : digit c = true -> alnum c = true.
Proof. unfold digit, alnum. intro H. cbv zeta in *. rewrite H. apply orb_true_r. Qed.
Lemma digits_run n : all ordinary (n_text n).
Proof. eapply all_weak; [|apply n_text_chars]. intros c H. unfold ordinary. rewrite (digit_alnum c H). reflexivity. Qed.
Lemma n_text_first n : exists c s, n_text n = String c s /\ digit c = true /\ all digit s.
Proof.
  pose proof (n_text_chars n) as A. destruct (z_text_first (Z.of_nat n)) as (c & s & E & _). exists c, s. unfold n_text in *. rewrite E in *. destruct A as [A B]. auto.
Qed.
Lemma n_text_one n : (n <= 9)%nat -> exists c, n_text n = String c "".
Proof. intro L. do 10 (destruct n as [|n]; [eexists; reflexivity|]). lia. Qed.

(** * latex *)
(** What TeX shows for a power: only the first digit is raised. *)
Definition shown_power (x : string * nat) : list symbol :=
  if Nat.ltb 1 (snd x) then
    match n_text (snd x) with String c s => Sym (fst x) None (Some (String c "")) :: map plain (chars s) | "" => [] end
  else [plain (fst x)].
Definition good_pow (x : string * nat) : Prop := identifier (fst x) /\ (1 <= snd x)%nat.
Lemma rd_power x r l : good_pow x -> quiet r -> rd r l -> rd (tex_power x ++ r) (shown_power x ++ l).
Proof.
  intros [I L] Q H. unfold tex_power, shown_power. destruct (Nat.ltb 1 (snd x)); [|apply rd_braced; [apply ident_bal, I|exact Q|exact H]].
  destruct (n_text_first (snd x)) as (c & s & E & D & A). rewrite E, !app_assoc_s. cbn [append app]. apply rd_sup; [apply ident_bal, I|apply digit_alnum, D|].
  apply rd_run; [eapply all_weak; [|exact A]; intros y Y; unfold ordinary; rewrite (digit_alnum y Y); reflexivity|exact Q|exact H].
Qed.
Lemma quiet_tail l : quiet (tail_text " " (map tex_power l)).
Proof. destruct l as [|x l]; [exact Logic.I|]. cbn [map tail_text]. unfold tex_power. destruct (Nat.ltb 1 (snd x)); rewrite ?app_assoc_s; apply quiet_sp, quiet_braced. Qed.
Lemma rd_tail l : Forall good_pow l -> rd (tail_text " " (map tex_power l)) (flat_map shown_power l).
Proof.
  induction 1 as [|x l G F IH]; cbn [map tail_text flat_map]; [exact rd_nil|]. apply rd_sp, rd_power; [exact G|apply quiet_tail|exact IH].
Qed.
Lemma rd_powers x l : Forall good_pow (x :: l) -> rd (String.concat " " (map tex_power (x :: l))) (flat_map shown_power (x :: l)).
Proof.
  intro G. cbn [map]. rewrite concat_tail. cbn [flat_map]. apply rd_power; [exact (Forall_inv G)|apply quiet_tail|apply rd_tail, (Forall_inv_tail G)].
Qed.
Lemma tex_empty x l : String.eqb (String.concat " " (map tex_power (x :: l))) "" = false.
Proof. cbn [map]. rewrite concat_tail. unfold tex_power. destruct (Nat.ltb 1 (snd x)); reflexivity. Qed.
Lemma word_run s : word s = true -> all ordinary s.
Proof. induction s as [|c s IH]; [exact (fun _ => Logic.I)|]. cbn [word]. intro H. apply andb_true_iff in H as [A B]. split; [unfold ordinary; rewrite A; reflexivity|auto]. Qed.

Local Open Scope Z_scope.
Lemma latex_shows vs fs m : Forall identifier (vs ++ fs)%list -> named vs fs m -> (pos m <> -1 -> word (fun_name fs m) = true) ->
  tex (py_latex vs fs m) =
    Some (match (if pos m =? -1 then [] else map plain (chars (fun_name fs m))) ++ flat_map shown_power (powers vs (vars m)) with
          | [] => [plain "1"] | l => l end)%list.
Proof.
  intros Iv [L P] W. apply Forall_app in Iv as [Iv If]. apply rd_tex. unfold py_latex. cbv zeta.
  pose proof (powers_good vs Iv (vars m)) as G. destruct (Z.eqb_spec (pos m) (-1)) as [E|E].
  - destruct (powers vs (vars m)) as [|x l]; [exact (rd_char "1" "" [] eq_refl Logic.I rd_nil)|]. rewrite tex_empty. cbn [app].
    replace (match flat_map shown_power (x :: l) with [] => [plain "1"] | l0 => l0 end) with (flat_map shown_power (x :: l)).
    + apply rd_powers. exact G.
    + cbn [flat_map]. unfold shown_power at 1 3. destruct (Nat.ltb 1 (snd x)); [|reflexivity]. destruct (n_text_first (snd x)) as (c & s & Es & _). rewrite Es. reflexivity.
  - specialize (W E). assert (I : identifier (fun_name fs m)) by (apply (fun_ident fs If); lia).
    assert (N : map plain (chars (fun_name fs m)) <> []) by (destruct I as (c & s & -> & _); discriminate).
    destruct (powers vs (vars m)) as [|x l].
    + cbn [map String.concat String.eqb flat_map]. rewrite app_nil_r. destruct (map plain (chars (fun_name fs m))) eqn:Ec; [congruence|]. rewrite <- Ec.
      rewrite <- (app_nil_s (fun_name fs m)) at 1. rewrite <- (app_nil_r (map plain _)). apply rd_run; [apply word_run, W|exact Logic.I|exact rd_nil].
    + rewrite tex_empty. destruct (map plain (chars (fun_name fs m)) ++ flat_map shown_power (x :: l))%list eqn:Ec; [apply app_eq_nil in Ec; tauto|]. rewrite <- Ec.
      apply rd_run; [apply word_run, W| |].
      * cbn [map append]. rewrite concat_tail. unfold tex_power. destruct (Nat.ltb 1 (snd x)); rewrite ?app_assoc_s; apply quiet_sp, quiet_braced.
      * cbn [append]. apply rd_sp, rd_powers. exact G.
Qed.
