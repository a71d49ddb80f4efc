(** Texts can be read back: generic lemmas, and the texts of the C++ classes. *)
From Coq Require Import ZArith List Bool Arith Lia String Ascii DecimalString DecimalZ DecimalPos DecimalFacts HexadecimalString HexadecimalZ HexadecimalPos QArith.
From Verif Require Import Outcome MonomModel PolyModel BoolModel BoolSpec BoolProofs HilbertModel TextModel TextSpec.
Import ListNotations.
Local Open Scope string_scope.
Local Open Scope Z_scope.

Lemma app_assoc_s a b c : ((a ++ b) ++ c = a ++ (b ++ c))%string.
Proof. induction a as [|x a IH]; cbn; [reflexivity|]. now rewrite IH. Qed.
Lemma app_nil_s a : (a ++ "" = a)%string.
Proof. induction a as [|x a IH]; cbn; [reflexivity|]. now rewrite IH. Qed.
Lemma app_inj_l a : forall b c, (a ++ b = a ++ c)%string -> b = c.
Proof. induction a as [|x a IH]; intros b c E; cbn in E; [exact E|]. injection E. apply IH. Qed.

(** s does not begin with a character of P *)
Definition ends (P : ascii -> bool) (s : string) : Prop := match s with EmptyString => True | String c _ => P c = false end.
Fixpoint all (P : ascii -> bool) (s : string) : Prop := match s with EmptyString => True | String c s' => P c = true /\ all P s' end.
Lemma all_app P a b : all P (a ++ b) <-> all P a /\ all P b.
Proof. induction a as [|x a IH]; cbn; tauto. Qed.
Lemma all_weak (P Q : ascii -> bool) s : (forall c, P c = true -> Q c = true) -> all P s -> all Q s.
Proof. intro I. induction s as [|c s IH]; cbn; [auto|]. intros [A B]. auto. Qed.
Lemma ends_weak (P Q : ascii -> bool) s : (forall c, P c = true -> Q c = true) -> ends Q s -> ends P s.
Proof. intro I. destruct s as [|c s]; cbn; [auto|]. intro E. destruct (P c) eqn:F; [apply I in F; congruence|reflexivity]. Qed.
Lemma span P a : forall b s t, all P a -> all P b -> ends P s -> ends P t -> (a ++ s = b ++ t)%string -> a = b /\ s = t.
Proof.
  induction a as [|x a IH]; intros [|y b] s t A B S T E; cbn in *.
  - auto.
  - subst s. cbn in S. destruct B. congruence.
  - subst t. cbn in T. destruct A. congruence.
  - injection E as -> E. destruct (IH b s t) as [-> ->]; tauto.
Qed.

(** The texts f a of the elements of D can be read from the front, if what follows does not begin with a character of P. *)
Definition reads {A} (D : A -> Prop) (f : A -> string) (P : ascii -> bool) : Prop :=
  forall a b s t, D a -> D b -> ends P s -> ends P t -> (f a ++ s = f b ++ t)%string -> a = b /\ s = t.
Lemma reads_inj {A} (D : A -> Prop) f P : reads D f P -> forall a b, D a -> D b -> f a = f b -> a = b.
Proof. intros R a b Da Db E. apply (R a b "" "" Da Db); [exact Logic.I|exact Logic.I|]. now rewrite !app_nil_s. Qed.
Lemma reads_weak {A} (D : A -> Prop) f (P Q : ascii -> bool) : (forall c, P c = true -> Q c = true) -> reads D f P -> reads D f Q.
Proof. intros I R a b s t Da Db S T. apply R; auto; eapply ends_weak; eauto. Qed.
Lemma reads_span {A} (D : A -> Prop) f P : (forall a, D a -> all P (f a)) -> (forall a b, D a -> D b -> f a = f b -> a = b) -> reads D f P.
Proof. intros F I a b s t Da Db S T E. destruct (span P (f a) (f b) s t) as [X ->]; auto. Qed.

Definition or_char (P : ascii -> bool) (c0 : ascii) (c : ascii) : bool := P c || Ascii.eqb c c0.
Lemma concat_cons sep x l : l <> nil -> String.concat sep (x :: l) = (x ++ sep ++ String.concat sep l)%string.
Proof. destruct l; [congruence|reflexivity]. Qed.
Lemma concat_one sep x : String.concat sep [x] = x.
Proof. reflexivity. Qed.
Lemma reads_join {A} (D : A -> Prop) f P c0 sep : reads D f P -> P c0 = false ->
  reads (fun l => l <> [] /\ Forall D l) (fun l => String.concat (String c0 sep) (map f l)) (or_char P c0).
Proof.
  intros R N. intro l. induction l as [|x l IH]; intros l' s t [NE Dl] [NE' Dl'] S T E; [congruence|]. clear NE. destruct l' as [|y l']; [congruence|]. clear NE'.
  inversion Dl as [|? ? Dx Dl1]; subst. inversion Dl' as [|? ? Dy Dl1']; subst.
  assert (Pf : forall u, ends (or_char P c0) u -> ends P u) by (intros u U; eapply ends_weak; [|exact U]; intros c C; unfold or_char; now rewrite C).
  assert (Ns : forall u, ~ ends (or_char P c0) (String c0 u)) by (intros u U; cbn in U; unfold or_char in U; rewrite Ascii.eqb_refl, orb_true_r in U; discriminate).
  destruct l as [|x2 l], l' as [|y2 l'].
  - cbn [map String.concat] in E. destruct (R x y s t Dx Dy (Pf _ S) (Pf _ T) E) as [-> ->]. auto.
  - rewrite (map_cons f y) in E. change (map f [x]) with [f x] in E. rewrite concat_one, concat_cons in E by discriminate. rewrite !app_assoc_s in E.
    destruct (R x y s ((String c0 sep ++ String.concat (String c0 sep) (map f (y2 :: l'))) ++ t)%string Dx Dy (Pf _ S)) as [_ X]; [cbn; exact N|now rewrite !app_assoc_s|]. subst s. exfalso. exact (Ns _ S).
  - rewrite (map_cons f x) in E. change (map f [y]) with [f y] in E. rewrite concat_one, concat_cons in E by discriminate. rewrite !app_assoc_s in E.
    destruct (R x y ((String c0 sep ++ String.concat (String c0 sep) (map f (x2 :: l))) ++ s)%string t Dx Dy) as [_ X]; [cbn; exact N|exact (Pf _ T)|now rewrite !app_assoc_s|]. subst t. exfalso. exact (Ns _ T).
  - rewrite (map_cons f x), (map_cons f y) in E. rewrite !concat_cons in E by discriminate. rewrite !app_assoc_s in E.
    destruct (R x y (String c0 sep ++ String.concat (String c0 sep) (map f (x2 :: l)) ++ s)%string (String c0 sep ++ String.concat (String c0 sep) (map f (y2 :: l')) ++ t)%string Dx Dy) as [-> X]; [cbn; exact N|cbn; exact N|exact E|].
    apply app_inj_l in X. destruct (IH (y2 :: l') s t) as [E1 E2]; [split; [discriminate|assumption]|split; [discriminate|assumption]|exact S|exact T|exact X|]. subst. rewrite E1. auto.
Qed.

(** numerals *)
Definition digit (c : ascii) : bool := let n := nat_of_ascii c in Nat.leb 48 n && Nat.leb n 57.
Definition num_char (c : ascii) : bool := digit c || Ascii.eqb c "-".
Lemma uint_digits u : all digit (DecimalString.NilEmpty.string_of_uint u).
Proof. induction u; cbn; auto. Qed.
Lemma uint_digits0 u : all digit (DecimalString.NilZero.string_of_uint u).
Proof. destruct u; cbn; auto using uint_digits. Qed.
Lemma z_text_chars z : all num_char (z_text z).
Proof.
  unfold z_text. destruct (Z.to_int z) as [u|u]; cbn [DecimalString.NilZero.string_of_int].
  - eapply all_weak; [|apply uint_digits0]. intros c C. unfold num_char. now rewrite C.
  - cbn [all]. split; [reflexivity|]. eapply all_weak; [|apply uint_digits0]. intros c C. unfold num_char. now rewrite C.
Qed.
Lemma to_int_nonnil z : Z.to_int z <> Decimal.Pos Decimal.Nil /\ Z.to_int z <> Decimal.Neg Decimal.Nil.
Proof. destruct z as [|p|p]; cbn; split; try discriminate; intro E; injection E as E; exact (DecimalPos.Unsigned.to_uint_nonnil p E). Qed.
Lemma z_text_inj a b : z_text a = z_text b -> a = b.
Proof.
  intro E. unfold z_text in E. apply (f_equal DecimalString.NilZero.int_of_string) in E. destruct (to_int_nonnil a), (to_int_nonnil b). rewrite !DecimalString.NilZero.isi in E by assumption.
  injection E as E. rewrite <- (DecimalZ.of_to a), <- (DecimalZ.of_to b). congruence.
Qed.
Lemma z_reads : reads (fun _ => True) z_text num_char.
Proof. apply reads_span; [intros; apply z_text_chars|intros; now apply z_text_inj]. Qed.
Lemma n_reads : reads (fun _ => True) n_text num_char.
Proof. apply reads_span; [intros; apply z_text_chars|]. intros a b _ _ E. apply z_text_inj in E. lia. Qed.
Lemma uint_nonempty u : DecimalString.NilZero.string_of_uint u <> "".
Proof. destruct u; discriminate. Qed.
Lemma z_text_first z : exists c s, z_text z = String c s /\ num_char c = true.
Proof.
  pose proof (z_text_chars z) as C. destruct (z_text z) as [|c s] eqn:E; [|exists c, s; split; [reflexivity|apply C]]. exfalso.
  unfold z_text in E. destruct (Z.to_int z); cbn in E; [exact (uint_nonempty _ E)|discriminate].
Qed.
Lemma z_text_nonneg z : 0 <= z -> all digit (z_text z).
Proof. intro L. unfold z_text. destruct z; [cbn; auto|apply uint_digits0|lia]. Qed.

Definition no_char (c : ascii) : bool := false.
Lemma ends_no s : ends no_char s.
Proof. destruct s; cbn; auto. Qed.
Lemma ends_char (P : ascii -> bool) c s : P c = false -> ends P (String c s).
Proof. auto. Qed.

(** ---- Monom, PolyInt ---- *)
Lemma exps_reads : reads (fun l => l <> [] /\ Forall (fun _ : nat => True) l) (fun l => String.concat " " (map n_text l)) (or_char num_char " ").
Proof. apply reads_join; [exact n_reads|reflexivity]. Qed.
Lemma all_true (l : list nat) : Forall (fun _ => True) l.
Proof. induction l; auto. Qed.
Lemma n_text_chars n : all digit (n_text n).
Proof. apply z_text_nonneg. lia. Qed.
(** no numeral is followed by ':' and by ' ' or ']' at the same place *)
Lemma exps_first l : l <> [] -> exists a s, String.concat " " (map n_text l) = (n_text a ++ s)%string /\ (s = "" \/ exists s', s = String " " s').
Proof.
  destruct l as [|a l]; [congruence|]. intros _. destruct l as [|b l].
  - exists a, "". cbn [map String.concat]. rewrite app_nil_s. auto.
  - exists a. eexists. rewrite map_cons, concat_cons by discriminate. split; [reflexivity|]. right. cbn. eauto.
Qed.
Lemma exps_no_colon z l s t : l <> [] -> (s = "" \/ exists c s', s = String c s' /\ num_char c = false /\ c <> ":"%char) ->
  (z_text z ++ ":" ++ t)%string <> (String.concat " " (map n_text l) ++ s)%string.
Proof.
  intros L S E. destruct (exps_first l L) as (a & r & Er & R). rewrite Er, app_assoc_s in E.
  assert (X : ends num_char (r ++ s)).
  { destruct R as [->|(r' & ->)]; [|reflexivity]. cbn. destruct S as [->|(c & s' & -> & C & _)]; [exact Logic.I|exact C]. }
  destruct (span num_char (z_text z) (n_text a) (":" ++ t) (r ++ s) (z_text_chars _) (z_text_chars _)) as [_ Y]; [reflexivity|exact X|exact E|].
  destruct R as [->|(r' & ->)]; [|discriminate]. cbn in Y. destruct S as [->|(c & s' & -> & _ & C)]; [discriminate|]. injection Y as <- _. congruence.
Qed.
Lemma monom_reads : reads good_monom monom_text no_char.
Proof.
  intros [p e] [q f] s t [Pp Ne] [Pq Nf] _ _ E. unfold monom_text in E. cbn [pos vars] in *. cbn [append] in E. injection E as E. rewrite !app_assoc_s in E.
  assert (B : forall u, exists c s', ("]" ++ u)%string = String c s' /\ num_char c = false /\ c <> ":"%char) by (intro u; do 2 eexists; cbn; split; [reflexivity|split; [reflexivity|discriminate]]).
  assert (X : forall u, ends (or_char num_char " ") ("]" ++ u)) by reflexivity.
  destruct (Z.leb_spec 0 p), (Z.leb_spec 0 q); rewrite ?app_assoc_s in E.
  - destruct (z_reads p q (":" ++ String.concat " " (map n_text e) ++ "]" ++ s)%string (":" ++ String.concat " " (map n_text f) ++ "]" ++ t)%string Logic.I Logic.I) as [-> Y]; [reflexivity|reflexivity|exact E|].
    cbn in Y. injection Y as Y. destruct (exps_reads e f ("]" ++ s) ("]" ++ t)) as [-> Z]; auto using all_true. cbn in Z. injection Z as ->. auto.
  - exfalso. refine (exps_no_colon p f _ _ Nf (or_intror (B t)) E).
  - exfalso. symmetry in E. refine (exps_no_colon q e _ _ Ne (or_intror (B s)) E).
  - cbn [append] in E. destruct (exps_reads e f ("]" ++ s) ("]" ++ t)) as [-> Z]; auto using all_true. cbn in Z. injection Z as ->. split; [f_equal; lia|reflexivity].
Qed.
Lemma term_reads : reads good_term term_text num_char.
Proof.
  intros [m c] [m' c'] s t G G' S T E. unfold good_term, term_text in *. cbn [fst snd] in *. rewrite !app_assoc_s in E.
  destruct (monom_reads m m' _ _ G G' (ends_no _) (ends_no _) E) as [-> X]. apply app_inj_l in X. destruct (z_reads c c' s t Logic.I Logic.I S T X) as [-> ->]. auto.
Qed.
Lemma monom_text_first m : exists s, monom_text m = String "[" s.
Proof. unfold monom_text. cbn. eauto. Qed.
Lemma terms_first l : l <> [] -> exists s, String.concat " + " (map term_text l) = String "[" s.
Proof.
  destruct l as [|t l]; [congruence|]. intros _. destruct (monom_text_first (fst t)) as (s & E). destruct l as [|t2 l].
  - cbn [map String.concat]. unfold term_text. rewrite E. cbn. eauto.
  - rewrite map_cons, concat_cons by discriminate. unfold term_text at 1. rewrite E. cbn. eauto.
Qed.
Theorem poly_text_inj l l' : Forall good_term l -> Forall good_term l' -> poly_text l = poly_text l' -> l = l'.
Proof.
  intros G G' E. unfold poly_text in E. destruct l as [|x l], l' as [|y l']; [reflexivity| | |].
  - destruct (terms_first (y :: l')) as (s & X); [discriminate|]. rewrite X in E. discriminate.
  - destruct (terms_first (x :: l)) as (s & X); [discriminate|]. rewrite X in E. discriminate.
  - refine (reads_inj _ _ _ (reads_join good_term term_text num_char " " "+ " term_reads eq_refl) (x :: l) (y :: l') _ _ E); split; auto; discriminate.
Qed.
Theorem monom_text_inj m m' : good_monom m -> good_monom m' -> monom_text m = monom_text m' -> m = m'.
Proof. apply (reads_inj _ _ _ monom_reads). Qed.

(** ---- BMonom, BPoly ---- *)
Definition set_text (l : list Z) : string := match l with [] => "1" | _ => "[" ++ String.concat " " (map z_text l) ++ "]" end.
Lemma bm_text_shows m l : shows m l -> bm_text m = Ok (set_text l).
Proof.
  intro S. apply shows_read in S as (R & L & _). unfold bm_text, set_text. rewrite L, R. destruct l; reflexivity.
Qed.
Lemma all_trueZ (l : list Z) : Forall (fun _ => True) l.
Proof. induction l; auto. Qed.
Lemma set_reads : reads (fun _ => True) set_text no_char.
Proof.
  intros l l' s t _ _ _ _ E. unfold set_text in E. destruct l as [|x l], l' as [|y l'].
  - cbn in E. injection E as ->. auto.
  - discriminate.
  - discriminate.
  - rewrite !app_assoc_s in E. apply app_inj_l in E.
    destruct (reads_join _ _ _ " " "" z_reads eq_refl (x :: l) (y :: l') ("]" ++ s) ("]" ++ t)) as [-> X]; try (split; [discriminate|apply all_trueZ]); try reflexivity; [exact E|].
    cbn in X. injection X as ->. auto.
Qed.
Theorem bm_text_inj m m' l l' : shows m l -> shows m' l' -> bm_text m = bm_text m' -> l = l'.
Proof.
  intros S S' E. rewrite (bm_text_shows m l S), (bm_text_shows m' l' S') in E. injection E as E. exact (reads_inj _ _ _ set_reads l l' Logic.I Logic.I E).
Qed.
Fixpoint sets_tail (ls : list (list Z)) : string := match ls with [] => "" | l :: ls' => " + " ++ set_text l ++ sets_tail ls' end.
Definition sets_text (ls : list (list Z)) : string := match ls with [] => "0" | l :: ls' => set_text l ++ sets_tail ls' end.
Lemma bp_loop_text p ls : polys p ls -> bp_text_loop p = Ok (sets_tail ls).
Proof.
  intro P. induction P as [|m l p ls S P IH]; [reflexivity|]. cbn [bp_text_loop sets_tail]. rewrite (bm_text_shows m l S). cbn [bind]. rewrite IH. reflexivity.
Qed.
Lemma bp_text_sets p ls : polys p ls -> bp_text p = Ok (sets_text ls).
Proof.
  intro P. inversion P as [|m l p' ls' S P']; subst; [reflexivity|]. cbn [bp_text sets_text]. rewrite (bm_text_shows m l S). cbn [bind]. rewrite (bp_loop_text p' ls' P'). reflexivity.
Qed.
Lemma sets_tail_inj ls : forall ls', sets_tail ls = sets_tail ls' -> ls = ls'.
Proof.
  induction ls as [|l ls IH]; intros [|l' ls'] E; try discriminate; [reflexivity|]. cbn [sets_tail] in E. apply app_inj_l in E.
  destruct (set_reads l l' _ _ Logic.I Logic.I (ends_no _) (ends_no _) E) as [-> X]. f_equal. now apply IH.
Qed.
Theorem bp_text_inj p p' ls ls' : polys p ls -> polys p' ls' -> bp_text p = bp_text p' -> ls = ls'.
Proof.
  intros P P' E. rewrite (bp_text_sets p ls P), (bp_text_sets p' ls' P') in E. injection E as E. unfold sets_text in E. destruct ls as [|l ls], ls' as [|l' ls']; [reflexivity| | |].
  - destruct l' ; discriminate.
  - destruct l; discriminate.
  - destruct (set_reads l l' _ _ Logic.I Logic.I (ends_no _) (ends_no _) E) as [-> X]. f_equal. now apply sets_tail_inj.
Qed.
