(** The texts of Hilbert polynomials and of the Cython classes. *)
From Coq Require Import ZArith List Bool Arith Lia String Ascii DecimalString HexadecimalString HexadecimalZ HexadecimalPos QArith.
From Verif Require Import Outcome MonomModel PolyModel HilbertModel TextModel TextSpec TextProofs.
Import ListNotations.
Local Open Scope string_scope.
Local Open Scope Z_scope.

Definition q_char : ascii -> bool := or_char num_char "/".
Lemma ends_or P c s : ends (or_char P c) s <-> ends P s /\ forall s', s <> String c s'.
Proof.
  destruct s as [|x s]; cbn; [split; [split; [auto|discriminate]|auto]|]. unfold or_char. rewrite orb_false_iff, Ascii.eqb_neq. split; intros [A B]; (split; [exact A|]).
  - intros s' E. injection E as E _. contradiction.
  - intros ->. exact (B s eq_refl).
Qed.
Lemma q_reads : reads (fun _ => True) q_text q_char.
Proof.
  intros [a b] [a' b'] s t _ _ S T E. unfold q_text in E. cbn [Qnum Qden] in E. rewrite !app_assoc_s in E.
  apply ends_or in S as [S Ns]. apply ends_or in T as [T Nt].
  destruct (z_reads a a' ((if (b =? 1)%positive then "" else "/" ++ z_text (Zpos b)) ++ s)%string ((if (b' =? 1)%positive then "" else "/" ++ z_text (Zpos b')) ++ t)%string Logic.I Logic.I) as [-> X];
    [destruct (b =? 1)%positive; [exact S|reflexivity]|destruct (b' =? 1)%positive; [exact T|reflexivity]|exact E|].
  destruct (Pos.eqb_spec b 1) as [->|N], (Pos.eqb_spec b' 1) as [->|N'].
  - cbn in X. subst. auto.
  - exfalso. cbn in X. exact (Ns _ X).
  - exfalso. cbn in X. exact (Nt _ (eq_sym X)).
  - rewrite !app_assoc_s in X. apply app_inj_l in X. destruct (z_reads _ _ _ _ Logic.I Logic.I S T X) as [Y ->]. injection Y as ->. auto.
Qed.
Definition suf (i : nat) : string := if Nat.eqb i 0 then "" else "s^" ++ n_text i.
Definition item_char : ascii -> bool := or_char q_char "s".
Definition head (x : nat * Q) : string := q_text (snd x) ++ suf (fst x).
Lemma head_reads : reads (fun _ => True) head item_char.
Proof.
  intros [i q] [j r] s t _ _ S T E. unfold head in E. cbn [fst snd] in E. rewrite !app_assoc_s in E.
  apply ends_or in S as [S Ns]. apply ends_or in T as [T Nt].
  destruct (q_reads q r (suf i ++ s)%string (suf j ++ t)%string Logic.I Logic.I) as [-> X];
    [unfold suf; destruct (Nat.eqb i 0); [exact S|reflexivity]|unfold suf; destruct (Nat.eqb j 0); [exact T|reflexivity]|exact E|].
  assert (W : forall u, ends q_char u -> ends num_char u) by (intros u U; apply ends_or in U; apply U).
  unfold suf in X. destruct (Nat.eqb_spec i 0) as [->|N], (Nat.eqb_spec j 0) as [->|N'].
  - cbn in X. subst. auto.
  - exfalso. cbn in X. exact (Ns _ X).
  - exfalso. cbn in X. exact (Nt _ (eq_sym X)).
  - rewrite !app_assoc_s in X. apply app_inj_l in X. destruct (n_reads _ _ _ _ Logic.I Logic.I (W _ S) (W _ T) X) as [-> ->]. auto.
Qed.
Definition signed (x : nat * Q) : string := (if Qnum (snd x) <? 0 then " - " else " + ") ++ head (fst x, Qmake (Z.abs (Qnum (snd x))) (Qden (snd x))).
Lemma no_minus (A : Type) s (f : string -> A) (g : A) : all digit s -> match s with String "-" s' => f s' | _ => g end = g.
Proof.
  intro D. destruct s as [|c s]; [reflexivity|]. destruct D as [D _]. destruct (Ascii.eqb_spec c "-") as [->|N]; [discriminate|].
  destruct c as [[] [] [] [] [] [] [] []]; try reflexivity. contradiction.
Qed.
Lemma item_signed i q : hp_item true i (q_text q) = signed (i, q).
Proof.
  unfold hp_item, signed, head. cbn [fst snd]. fold (suf i). destruct q as [[|p|p] d]; cbn [Qnum Qden Z.abs Z.ltb Z.compare].
  - rewrite <- app_assoc_s. reflexivity.
  - rewrite <- app_assoc_s. f_equal. unfold q_text. cbn [Qnum Qden]. destruct (z_text_first (Zpos p)) as (c & s & E & _).
    pose proof (z_text_nonneg (Zpos p) ltac:(lia)) as D. rewrite E in *. cbn [append]. destruct D as [D _]. destruct (Ascii.eqb_spec c "-") as [->|N]; [discriminate|].
    destruct c as [[] [] [] [] [] [] [] []]; try reflexivity. contradiction.
  - rewrite <- app_assoc_s. f_equal.
Qed.
Lemma signed_reads : reads (fun x => Qnum (snd x) <> 0) signed item_char.
Proof.
  intros [i [a b]] [j [c d]] s t Na Nc S T E. unfold signed in E. cbn [fst snd Qnum Qden] in *. rewrite !app_assoc_s in E.
  assert (X : forall u v w x : string, (w ++ u = x ++ v)%string -> w = x -> u = v) by (intros u v w x Y ->; exact (app_inj_l _ _ _ Y)).
  destruct (Z.ltb_spec a 0), (Z.ltb_spec c 0); try discriminate E; apply app_inj_l in E; destruct (head_reads _ _ _ _ Logic.I Logic.I S T E) as [Y ->]; injection Y as -> Y ->;
    (split; [|reflexivity]); repeat f_equal; lia.
Qed.
Definition nzq (l : list (nat * Q)) : list (nat * Q) := filter (fun x => negb (Qnum (snd x) =? 0)) l.
Fixpoint signeds (l : list (nat * Q)) : string := match l with [] => "" | x :: l' => signed x ++ signeds l' end.
Lemma loop_true l : hp_text_loop true l = signeds (nzq l).
Proof.
  induction l as [|[i q] l IH]; [reflexivity|]. cbn [hp_text_loop nzq filter snd]. destruct (Qnum q =? 0); cbn [negb]; [exact IH|]. cbn [signeds]. rewrite item_signed, IH. reflexivity.
Qed.
Lemma loop_false l : hp_text_loop false l = match nzq l with [] => "" | x :: l' => head x ++ signeds l' end.
Proof.
  induction l as [|[i q] l IH]; [reflexivity|]. cbn [hp_text_loop nzq filter snd]. destruct (Qnum q =? 0); cbn [negb]; [exact IH|]. rewrite loop_true. reflexivity.
Qed.
Lemma signeds_ends l : ends item_char (signeds l).
Proof. destruct l as [|x l]; [exact Logic.I|]. cbn [signeds]. unfold signed. destruct (Qnum (snd x) <? 0); reflexivity. Qed.
Definition nzs (l : list (nat * Q)) : Prop := Forall (fun x => Qnum (snd x) <> 0) l.
Lemma signeds_inj l : forall l', nzs l -> nzs l' -> signeds l = signeds l' -> l = l'.
Proof.
  assert (Ne : forall x u, (signed x ++ u)%string <> "") by (intros x u; unfold signed; destruct (Qnum (snd x) <? 0); discriminate).
  induction l as [|x l IH]; intros [|y l'] N N' E; [reflexivity| | |]; cbn [signeds] in E.
  - exfalso. exact (Ne _ _ (eq_sym E)).
  - exfalso. exact (Ne _ _ E).
  - inversion N; subst. inversion N'; subst. destruct (signed_reads x y _ _ ltac:(assumption) ltac:(assumption) (signeds_ends _) (signeds_ends _) E) as [-> X]. f_equal. apply IH; assumption.
Qed.
Lemma nzq_nzs l : nzs (nzq l).
Proof. apply Forall_forall. intros x X. apply filter_In in X as [_ X]. apply negb_true_iff, Z.eqb_neq in X. exact X. Qed.
Lemma head_nonempty x u : (head x ++ u)%string <> "".
Proof. unfold head, q_text. rewrite !app_assoc_s. destruct (z_text_first (Qnum (snd x))) as (c & s & -> & _). discriminate. Qed.
Lemma loop_inj l l' : hp_text_loop false l = hp_text_loop false l' -> nzq l = nzq l'.
Proof.
  rewrite !loop_false. pose proof (nzq_nzs l) as N. pose proof (nzq_nzs l') as N'. destruct (nzq l) as [|x k], (nzq l') as [|y k']; intro E; [reflexivity| | |].
  - exfalso. exact (head_nonempty _ _ (eq_sym E)).
  - exfalso. exact (head_nonempty _ _ E).
  - inversion N; subst. inversion N'; subst. destruct (head_reads x y _ _ Logic.I Logic.I (signeds_ends _) (signeds_ends _) E) as [-> X]. f_equal. now apply signeds_inj.
Qed.
Lemma combine_seq (h : list Q) i q : forall k, In (i, q) (combine (seq k (List.length h)) h) <-> (k <= i)%nat /\ nth_error h (i - k) = Some q.
Proof.
  induction h as [|x h IH]; intro k; cbn [List.length seq combine].
  - split; [intros []|]. intros [_ X]. destruct (i - k)%nat; discriminate.
  - cbn [In]. rewrite IH. split.
    + intros [E|[L E]]; [injection E as -> ->; split; [lia|]; now rewrite Nat.sub_diag|]. split; [lia|]. replace (i - k)%nat with (S (i - S k)) by lia. exact E.
    + intros [L E]. destruct (Nat.eq_dec i k) as [->|N]; [left; rewrite Nat.sub_diag in E; cbn in E; congruence|]. right. split; [lia|]. replace (i - k)%nat with (S (i - S k)) in E by lia. exact E.
Qed.
Lemma nzq_in h i q : In (i, q) (nzq (rev (combine (seq 0 (List.length h)) h))) <-> nth_error h i = Some q /\ Qnum q <> 0.
Proof.
  unfold nzq. rewrite filter_In, <- in_rev, combine_seq, Nat.sub_0_r. cbn [snd]. rewrite negb_true_iff, Z.eqb_neq. intuition lia.
Qed.
Definition raw_text (h : hp) : string := hp_text_loop false (rev (combine (seq 0 (List.length h)) h)).
Lemma raw_text_eq h : hp_text h = raw_text (map Qred h).
Proof. unfold hp_text, raw_text. now rewrite map_length. Qed.
Lemma raw_text_inj h h' : raw_text h = raw_text h' -> forall i, (nth i h 0 == nth i h' 0)%Q.
Proof.
  intros E i. apply loop_inj in E.
  assert (X : forall a b, nzq (rev (combine (seq 0 (List.length a)) a)) = nzq (rev (combine (seq 0 (List.length b)) b)) -> ~ (nth i a 0 == 0)%Q -> nth i b 0%Q = nth i a 0%Q).
  { intros a b Eab N. destruct (nth_error a i) as [q|] eqn:A.
    - rewrite (nth_error_nth a i 0%Q A) in *. assert (Y : In (i, q) (nzq (rev (combine (seq 0 (List.length a)) a)))).
      { apply nzq_in. split; [exact A|]. intro Z. apply N. unfold Qeq. rewrite Z. reflexivity. }
      rewrite Eab in Y. apply nzq_in in Y as [Y _]. exact (nth_error_nth b i 0%Q Y).
    - exfalso. apply N. rewrite nth_overflow by (now apply nth_error_None). reflexivity. }
  destruct (Qeq_dec (nth i h 0%Q) 0) as [Z|N]; [|rewrite (X h h' E N); reflexivity].
  destruct (Qeq_dec (nth i h' 0%Q) 0) as [Z'|N']; [rewrite Z, Z'; reflexivity|]. rewrite (X h' h (eq_sym E) N'). reflexivity.
Qed.
Lemma nth_red h i : (nth i (map Qred h) 0 == nth i h 0)%Q.
Proof. change 0%Q with (Qred 0) at 1. rewrite map_nth. apply Qred_correct. Qed.
Lemma combine_app_eq {A B} (a a' : list A) (b b' : list B) : List.length a = List.length b -> combine (a ++ a')%list (b ++ b')%list = (combine a b ++ combine a' b')%list.
Proof. revert b. induction a as [|x a IH]; intros [|y b] L; cbn in *; try lia; [reflexivity|]. now rewrite IH by lia. Qed.
Lemma hp_text_pad h k : hp_text (h ++ repeat 0%Q k)%list = hp_text h.
Proof.
  unfold hp_text. rewrite app_length, seq_app, map_app, combine_app_eq by (now rewrite seq_length, map_length). rewrite rev_app_distr. cbn [Nat.add].
  assert (Z : forall l, Forall (fun x => Qnum (snd x) = 0) l -> forall l', hp_text_loop false (l ++ l')%list = hp_text_loop false l').
  { induction 1 as [|[i q] l X F IH]; intro l'; [reflexivity|]. cbn [app hp_text_loop]. cbn [snd] in X. rewrite X. apply IH. }
  apply Z. apply Forall_rev, Forall_forall. intros [i q] X. apply in_combine_r in X. apply in_map_iff in X as (r & <- & X). apply repeat_spec in X as ->. reflexivity.
Qed.
Lemma hp_text_ext h h' : (List.length h <= List.length h')%nat -> (forall i, nth i h 0 == nth i h' 0)%Q -> hp_text h = hp_text h'.
Proof.
  intros L E. rewrite <- (hp_text_pad h (List.length h' - List.length h)). unfold hp_text. rewrite app_length, repeat_length. replace (List.length h + (List.length h' - List.length h))%nat with (List.length h') by lia.
  assert (X : map Qred (h ++ repeat 0%Q (List.length h' - List.length h))%list = map Qred h'); [|now rewrite X].
  apply (nth_ext _ _ (Qred 0) (Qred 0)); [rewrite !map_length, app_length, repeat_length; lia|]. intros i _. rewrite !map_nth. apply Qred_complete. rewrite <- E.
  destruct (Nat.lt_ge_cases i (List.length h)); [now rewrite app_nth1 by lia|]. rewrite app_nth2, nth_repeat by lia. now rewrite nth_overflow by lia.
Qed.
Theorem hp_text_inj h h' : hp_text h = hp_text h' <-> forall i, (nth i h 0 == nth i h' 0)%Q.
Proof.
  split.
  - intros E i. rewrite !raw_text_eq in E. rewrite <- (nth_red h), <- (nth_red h'). now apply raw_text_inj.
  - intro E. destruct (Nat.le_ge_cases (List.length h) (List.length h')); [now apply hp_text_ext|]. symmetry. apply hp_text_ext; [assumption|]. intro i. symmetry. apply E.
Qed.
Theorem hp_text_zero h : hp_text h = "" <-> forall i, (nth i h 0 == 0)%Q.
Proof. change "" with (hp_text []). rewrite hp_text_inj. split; intros E i; rewrite E; destruct i; reflexivity. Qed.

(** ---- ginv.pyx ---- *)
Definition xdigit (c : ascii) : bool := let n := nat_of_ascii c in (Nat.leb 48 n && Nat.leb n 57) || (Nat.leb 97 n && Nat.leb n 102).
Lemma xuint_digits u : all xdigit (HexadecimalString.NilEmpty.string_of_uint u).
Proof. induction u; cbn; auto. Qed.
Lemma xuint_digits0 u : all xdigit (HexadecimalString.NilZero.string_of_uint u).
Proof. destruct u; cbn; auto using xuint_digits. Qed.
Lemma cy_int_repr_eq z : cy_int_repr z = ((if (z <? 0)%Z then "-0x" else "0x") ++ hex_text (Z.abs z))%string.
Proof. unfold cy_int_repr. destruct z; reflexivity. Qed.
Lemma xint_nonnil z : Z.to_hex_int z <> Hexadecimal.Pos Hexadecimal.Nil /\ Z.to_hex_int z <> Hexadecimal.Neg Hexadecimal.Nil.
Proof. destruct z as [|p|p]; cbn; split; try discriminate; intro E; injection E as E; exact (HexadecimalPos.Unsigned.to_uint_nonnil p E). Qed.
Lemma hex_text_inj a b : hex_text a = hex_text b -> a = b.
Proof.
  intro E. unfold hex_text in E. apply (f_equal HexadecimalString.NilZero.int_of_string) in E. destruct (xint_nonnil a), (xint_nonnil b). rewrite !HexadecimalString.NilZero.isi in E by assumption.
  injection E as E. rewrite <- (HexadecimalZ.of_to a), <- (HexadecimalZ.of_to b). congruence.
Qed.
Lemma hex_chars z : 0 <= z -> all xdigit (hex_text z).
Proof. intro L. unfold hex_text. destruct z; [cbn; auto|apply xuint_digits0|lia]. Qed.
Lemma int_repr_reads : reads (fun _ => True) cy_int_repr xdigit.
Proof.
  intros a b s t _ _ S T E. rewrite !cy_int_repr_eq, !app_assoc_s in E. 
  destruct (Z.ltb_spec a 0), (Z.ltb_spec b 0); try discriminate E; apply app_inj_l in E;
    destruct (span xdigit _ _ _ _ (hex_chars (Z.abs a) (Z.abs_nonneg a)) (hex_chars (Z.abs b) (Z.abs_nonneg b)) S T E) as [X ->]; apply hex_text_inj in X; split; [lia|reflexivity|lia|reflexivity].
Qed.
Theorem cy_int_repr_inj a b : cy_int_repr a = cy_int_repr b -> a = b.
Proof. apply (reads_inj _ _ _ int_repr_reads); exact Logic.I. Qed.
Lemma cy_monom_str_eq m : cy_monom_str m = monom_text m.
Proof. unfold cy_monom_str, monom_text. destruct (Z.ltb_spec (pos m) 0), (Z.leb_spec 0 (pos m)); try lia; [reflexivity|]. now rewrite app_assoc_s. Qed.
Lemma monom_repr_reads : reads (fun m => vars m <> []) cy_monom_repr no_char.
Proof.
  intros [p e] [q f] s t Ne Nf _ _ E. unfold cy_monom_repr in E. cbn [pos vars] in *. rewrite !app_assoc_s in E. apply app_inj_l in E.
  apply z_reads in E as [-> E]; [|exact Logic.I|exact Logic.I|reflexivity|reflexivity]. apply app_inj_l in E.
  apply n_reads in E as [_ E]; [|exact Logic.I|exact Logic.I|reflexivity|reflexivity]. apply app_inj_l in E.
  apply exps_reads in E as [-> E]; [|split; [assumption|apply all_true]|split; [assumption|apply all_true]|reflexivity|reflexivity]. apply app_inj_l in E. auto.
Qed.
Theorem cy_monom_repr_inj m m' : vars m <> [] -> vars m' <> [] -> cy_monom_repr m = cy_monom_repr m' -> m = m'.
Proof. apply (reads_inj _ _ _ monom_repr_reads). Qed.
Theorem cy_poly_str_leading l l' : Forall good_term l -> Forall good_term l' -> cy_poly_str l = cy_poly_str l' <-> hd_error l = hd_error l'.
Proof.
  intros G G'. split; [|destruct l as [|[m c] l], l' as [|[m' c'] l']; cbn; intro E; congruence]. destruct l as [|[m c] l], l' as [|[m' c'] l']; cbn [cy_poly_str hd_error]; rewrite ?cy_monom_str_eq; intro E; [reflexivity| | |].
  - destruct (monom_text_first m') as (s & X). rewrite X in E. discriminate.
  - destruct (monom_text_first m) as (s & X). rewrite X in E. discriminate.
  - inversion G; subst. inversion G'; subst. apply monom_reads in E as [-> E]; [|assumption|assumption|apply ends_no|apply ends_no]. apply app_inj_l in E.
    apply z_reads in E as [-> _]; [reflexivity|exact Logic.I|exact Logic.I|reflexivity|reflexivity].
Qed.
Theorem cy_poly_repr_leading l l' : Forall good_term l -> Forall good_term l' -> cy_poly_repr l = cy_poly_repr l' <-> hd_error l = hd_error l'.
Proof.
  intros G G'. split; [|destruct l as [|[m c] l], l' as [|[m' c'] l']; cbn; intro E; congruence]. destruct l as [|[m c] l], l' as [|[m' c'] l']; cbn [cy_poly_repr hd_error]; intro E; [reflexivity|discriminate|discriminate|].
  inversion G as [|? ? G1 _]; subst. inversion G' as [|? ? G2 _]; subst. apply monom_repr_reads in E as [-> E]; [|apply G1|apply G2|apply ends_no|apply ends_no]. apply app_inj_l in E.
  apply int_repr_reads in E as [-> _]; [reflexivity|exact Logic.I|exact Logic.I|reflexivity|reflexivity].
Qed.
