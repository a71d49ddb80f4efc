(** Proofs about JanetCache. *)
From Coq Require Import ZArith List Bool Arith Lia.
From Verif Require Import Outcome MonomModel MonomSpec MonomProofs PolyModel PolySpec PolyProofs PolyNfProofs PolyRedProofs IdealProofs JanetSpec JanetPolySpec JanetPolyProofs
  PyMonomModel PyMonomSpec PyMonomProofs PyPolyModel PyPolySpec PyPolyProofs PyRedProofs PyJanetModel PyJanetSpec PyJanetProofs PyJanetTop PySpan PyGinvBase PyCacheModel PyCacheSpec.
Import ListNotations.
Local Open Scope Z_scope.

(* ---- fuel ---- *)
Definition settles {A} (x : outcome A) : Prop := x <> OutOfFuel.
Definition refines (F F' : cfind) : Prop := forall c m, F c m <> OutOfFuel -> F' c m = F c m.
Lemma bind_not {A B} (x : outcome A) (f : A -> outcome B) : bind x f <> OutOfFuel -> x <> OutOfFuel.
Proof. destruct x; cbn; congruence. Qed.
Lemma c_loop_mono o F F' : refines F F' -> forall g i c p g', (g <= g')%nat -> c_nftail_loop g o F i c p <> OutOfFuel -> c_nftail_loop g' o F' i c p = c_nftail_loop g o F i c p.
Proof.
  intro R. induction g as [|g IH]; intros i c p g' L H; [cbn in H; congruence|]. destruct g' as [|g']; [lia|]. cbn [c_nftail_loop] in *.
  destruct (nth_error p i) as [[m d]|]; [|reflexivity]. pose proof (bind_not _ _ H) as H1. rewrite (R c m H1). destruct (F c m) as [[w c']| | | |]; cbn [bind fst snd] in *; try reflexivity.
  destruct (truthy w) as [q|]; [|apply IH; [lia|exact H]].
  match goal with |- bind ?x _ = _ => destruct x end; cbn [bind] in *; try reflexivity. apply IH; [lia|exact H].
Qed.
Lemma c_nfhead_mono o F F' : refines F F' -> forall g c p g', (g <= g')%nat -> c_nfhead g o F c p <> OutOfFuel -> c_nfhead g' o F' c p = c_nfhead g o F c p.
Proof.
  intro R. induction g as [|g IH]; intros c p g' L H; [cbn in H; congruence|]. destruct g' as [|g']; [lia|]. cbn [c_nfhead] in *.
  destruct p as [|[m d] p]; [reflexivity|]. pose proof (bind_not _ _ H) as H1. rewrite (R c m H1). destruct (F c m) as [[w c']| | | |]; cbn [bind fst snd] in *; try reflexivity.
  destruct (truthy w) as [q|]; [|reflexivity].
  match goal with |- bind ?x _ = _ => destruct x end; cbn [bind] in *; try reflexivity. apply IH; [lia|exact H].
Qed.
Lemma c_nftail_mono o F F' : refines F F' -> forall g c p g', (g <= g')%nat -> c_nftail g o F c p <> OutOfFuel -> c_nftail g' o F' c p = c_nftail g o F c p.
Proof. intros R g c p g' L H. destruct p; [reflexivity|]. apply c_loop_mono; auto. Qed.
Lemma jc_mono o J : forall f f', (f <= f')%nat -> refines (jc_find f o J) (jc_find f' o J).
Proof.
  induction f as [|f IH]; intros f' L c m H; [cbn in H; congruence|]. destruct f' as [|f']; [lia|]. cbn [jc_find] in *.
  destruct (pj_findWrap J m) as [[w|]| | | |]; cbn [bind] in *; try reflexivity. destruct (py_div m (pw_lm w)) as [m1| | | |]; cbn [bind] in *; try reflexivity. destruct (py_bool m1); [|reflexivity].
  match goal with |- bind ?x _ = _ => destruct x as [r| | | |] end; cbn [bind] in *; try reflexivity. pose proof (bind_not _ _ H) as H1.
  rewrite (c_nftail_mono o _ _ (IH f' ltac:(lia)) f c r f' ltac:(lia) H1). reflexivity.
Qed.

(* ---- pp twice ---- *)
Lemma div1_map (p : ppoly) : map (fun x => (fst x, snd x / 1)) p = p.
Proof. induction p as [|[m c] p IH]; [reflexivity|]. cbn [map fst snd]. rewrite Z.div_1_r, IH. reflexivity. Qed.
Lemma pp_again o n k p r : py_canonical o n k p -> py_pp o p = Ok r -> py_pp o r = Ok r.
Proof.
  intros C E. destruct p as [|[u c] p]; [discriminate E|]. assert (Np : (u, c) :: p <> []) by discriminate.
  destruct (py_pp_ok o n k _ C Np) as (r' & g & E' & Cr & G & Co & Pr & _). rewrite E in E'. injection E' as <-.
  pose proof (pp_fst o _ _ E) as Ef. cbn [py_pp] in E. destruct (py_content c p) as [g'|] eqn:Ec.
  2:{ injection E as <-. cbn [py_pp]. rewrite Ec. reflexivity. }
  destruct r as [|[u' c'] r]; [discriminate Ef|]. pose proof Cr as Cr'. apply py_canonical_iff in Cr' as (_ & _ & Nz). inversion Nz as [|? ? Nc Nr]; subst. cbn [snd] in Nc.
  pose proof (content_ok r c' Nc Nr) as H. cbn [py_pp]. destruct (py_content c' r) as [g''|] eqn:Er; [|reflexivity].
  assert (Y : g'' = 1).
  { destruct H as (G2 & D1 & D2 & _ & Pos). destruct r as [|t r].
    - cbn [py_content] in Er. injection Er as <-. apply py_canonical_iff in C as (_ & _ & Nc0). inversion Nc0; subst. cbn [snd] in *.
      unfold py_checked, assert_ in E. destruct (true && negb _); [discriminate E|]. destruct p as [|t p]; [|discriminate Ef].
      cbn [map fst snd] in E. injection E as _ E. cbn [py_content] in Ec. injection Ec as <-. rewrite <- E. now apply Z.div_same.
    - specialize (Pos ltac:(discriminate)). destruct (proj1 (py_primitive_list o n k _ Cr) Pr g'') as [Y|Y]; [|exact Y|lia]. constructor; [exact D1|exact D2]. }
  subst g''. match goal with |- py_checked _ ?x = _ => replace x with ((u', c') :: r) by (symmetry; apply (div1_map ((u', c') :: r))) end. apply (py_checked_ok o n k). exact Cr.
Qed.

Ltac into Er := match goal with |- bind ?X _ = _ => match type of Er with ?Y = _ => change X with Y end end; rewrite Er; cbn [bind].

Section Cache.
Variables (o : py_order) (n : nat) (k p : Z) (G : ppoly -> Prop).
Hypothesis K : 0 <= k.
Hypothesis N : (0 < n)%nat.
Local Notation good := (consequence o n k p G).
Local Notation mul u := (mprod (Mon (-1) u)).
Local Notation member := (rational_member n G).

Definition entry (e : monom * ppoly) : Prop := good (snd e) /\ exists d q, snd e = (fst e, d) :: q.
Definition cgood (c : pcache) : Prop := Forall entry c.

Lemma comp_coef f m : in_component p f -> coef f m <> 0 -> pos m = p.
Proof. intros P C. apply coef_nz_in in C. apply in_map_iff in C. destruct C as (x & <- & X). unfold in_component in P. rewrite Forall_forall in P. exact (P x X). Qed.
Lemma coef_comp f : py_canonical o n k f -> (forall m, coef f m <> 0 -> pos m = p) -> in_component p f.
Proof.
  intros C H. apply Forall_forall. intros [m c] X. apply H. apply py_canonical_iff in C as (S & M & Z). pose proof (pcoef_in o n k m c f S M X) as Q. unfold nz in Z. rewrite Forall_forall in Z. intro Y. apply (Z _ X). cbn [snd]. etransitivity; [symmetry; exact Q|exact Y].
Qed.
Lemma comp_shift u f : in_component p f -> in_component p (shift u f).
Proof. unfold in_component, shift. rewrite Forall_map. apply Forall_impl. intros x H. exact H. Qed.
Lemma member_shift u f : length u = n -> member f -> member (shift u f).
Proof. intros L. rewrite <- !rspan_member. apply (rspan_shift n G everything everything u f L). intros; exact Logic.I. Qed.
Lemma member_lin f a b q r : f <> 0 -> member a -> member b -> forall x, (forall m, f * coef x m = q * coef a m + r * coef b m) -> member x.
Proof. intros F A B x E. rewrite <- rspan_member in *. exact (rspan_lin n G everything x a b f q r F A B E). Qed.
Lemma member_zero f : (forall m, coef f m = 0) -> member f.
Proof. intro H. rewrite <- rspan_member. now apply rspan_zero. Qed.

(** f becomes r by a multiple of a member *)
Definition red (f r : ppoly) : Prop := exists j l d, j <> 0 /\ l <> 0 /\ member d /\ in_component p d /\ forall m, l * coef r m = j * coef f m + coef d m.
Lemma red_refl f : red f f.
Proof. exists 1, 1, []. split; [lia|]. split; [lia|]. split; [now apply member_zero|]. split; [constructor|]. intro m. cbn [coef]. ring. Qed.
Lemma coef_sc c f m : coef (scale c f) m = c * coef f m.
Proof. apply coef_scale. Qed.
Lemma comp_scale c f : in_component p f -> in_component p (scale c f).
Proof. unfold in_component, scale. rewrite Forall_map. apply Forall_impl. intros x H. exact H. Qed.
Lemma red_trans f g h : red f g -> red g h -> red f h.
Proof.
  intros (j & l & d & J & L & M & P & E) (j' & l' & d' & J' & L' & M' & P' & E').
  exists (j' * j), (l * l'), (scale j' d ++ scale l d'). split; [nia|]. split; [nia|]. split; [|split].
  - apply (member_lin 1 d d' j' l); auto; [lia|]. intro m. rewrite coef_app, !coef_sc. ring.
  - apply Forall_app. split; now apply comp_scale.
  - intro m. rewrite coef_app, !coef_sc. transitivity (l * (l' * coef h m)); [ring|]. rewrite E'. transitivity (j' * (l * coef g m) + l * coef d' m); [ring|]. rewrite E. ring.
Qed.
Lemma red_good f r : red f r -> py_canonical o n k r -> in_component p f -> in_component p r.
Proof.
  intros (j & l & d & J & L & M & P & E) C F. apply coef_comp; [exact C|]. intros m X. destruct (Z.eq_dec (coef d m) 0) as [Q|Q]; [|exact (comp_coef d m P Q)].
  apply (comp_coef f m F). intro Z. specialize (E m). rewrite Z, Q in E. nia.
Qed.
Lemma red_member f r : red f r -> member f -> member r.
Proof. intros (j & l & d & J & L & M & P & E) F. apply (member_lin l f d j 1 L F M). intro m. rewrite E. ring. Qed.
Lemma red_reduces f r : red f r -> reduces_to n G f r.
Proof.
  intros (j & l & d & J & L & (k' & q & K' & Q & E') & P & E). exists (k' * j), (k' * l), q. split; [nia|]. split; [nia|]. split; [exact Q|]. intro m. rewrite E'. rewrite <- Z.mul_assoc, E. ring.
Qed.

(** the dictionary *)
Lemma entry_mono e : entry e -> pmono n k (fst e).
Proof. intros [(C & _) (d & q & E)]. rewrite E in C. exact (pcanonical_mono o n k [] _ _ _ C). Qed.
Lemma c_get_ok m c r : cgood c -> pmono n k m -> c_get o m c = Some r -> good r /\ exists d q, r = (m, d) :: q.
Proof.
  intros C M. induction c as [|[u s] c IH]; [discriminate|]. inversion C as [|? ? E C']; subst. cbn [c_get]. destruct (py_eq o u m) eqn:Eq; [|auto].
  intro H. injection H as <-. apply (py_eq_true o n) in Eq; [|apply (entry_mono _ E)|apply M]. subst u. exact E.
Qed.
Lemma c_set_ok m c r : cgood c -> pmono n k m -> entry (m, r) -> cgood (c_set o m r c).
Proof.
  intros C M E. induction c as [|[u s] c IH]; [now constructor|]. inversion C as [|? ? Eu C']; subst. cbn [c_set]. destruct (py_eq o u m) eqn:Eq; [|constructor; [exact Eu|exact (IH C')]].
  apply (py_eq_true o n) in Eq; [|apply (entry_mono _ Eu)|apply M]. subst u. constructor; assumption.
Qed.
Lemma py_eq_refl m : pmono n k m -> py_eq o m m = true.
Proof. intro M. apply (py_eq_true o n); [apply M|apply M|reflexivity]. Qed.
Lemma c_get_set m c r : pmono n k m -> c_get o m (c_set o m r c) = Some r.
Proof. intro M. induction c as [|[u s] c IH]; cbn [c_set]; [cbn [c_get]; now rewrite py_eq_refl|]. destruct (py_eq o u m) eqn:E; cbn [c_get]; rewrite E; auto. Qed.
Lemma c_set_set m c r : pmono n k m -> c_set o m r (c_set o m r c) = c_set o m r c.
Proof. intro M. induction c as [|[u s] c IH]; cbn [c_set]; [now rewrite py_eq_refl|]. destruct (py_eq o u m) eqn:E; cbn [c_set]; rewrite E; congruence. Qed.

Section Tree.
Variable J : pjanet.
Hypothesis T : cache_tree o n k p G J.

Lemma tree_wrap w m : pmono n k m -> pos m = p -> pj_findWrap J m = Ok (Some w) ->
  In w (elems J) /\ leads w /\ good (pw_poly w) /\ janet_divides n (tree_exps J) (exps w) (vars m) /\ pos (pw_lm w) = p /\ pmono n k (pw_lm w).
Proof.
  intros M P E. destruct T as [B H]. assert (X : forall u, In u (elems J) -> pos (pw_lm u) = p).
  { intros u U. destruct (H u U) as [(c & l & L) (_ & I & _)]. rewrite L in I. exact (Forall_inv I). }
  destruct (pyj_find n J m N B) as (_ & F & _); [apply M|intros u U; rewrite P; auto|]. apply F in E as [I D]. destruct (H w I) as [L Gd].
  split; [exact I|]. split; [exact L|]. split; [exact Gd|]. split; [exact D|]. split; [auto|]. destruct L as (c & l & L), Gd as [C _]. rewrite L in C. exact (pcanonical_mono o n k [] _ _ _ C).
Qed.
Lemma tree_find m : pmono n k m -> pos m = p -> exists r, pj_findWrap J m = Ok r /\ (r = None <-> ~ janet_reducible n J m).
Proof.
  intros M P. destruct T as [B H]. assert (X : forall u, In u (elems J) -> pos (pw_lm u) = pos m).
  { intros u U. rewrite P. destruct (H u U) as [(c & l & L) (_ & I & _)]. rewrite L in I. exact (Forall_inv I). }
  destruct (pyj_find n J m N B) as ((r & E) & F & Z); [apply M|exact X|]. exists r. split; [exact E|]. split.
  - intros ->. intros [x D]. exact (proj1 Z E x D).
  - intro I. assert (Y : pj_findWrap J m = Ok None) by (apply Z; intros x D; apply I; now exists x). congruence.
Qed.

(** the tail of r is in normal form *)
Definition calm (r : ppoly) : Prop := Forall (fun x => pj_findWrap J (fst x) = Ok None) r.

Definition found (m : monom) (c : pcache) : Prop := exists B w c', (forall fuel, (B <= fuel)%nat -> jc_find fuel o J c m = Ok (w, c')) /\ cgood c' /\
  match w with
  | None => c' = c /\ pj_findWrap J m = Ok None
  | Some r => exists d q, r = (m, d) :: q /\ good r /\ pj_findWrap J m <> Ok None /\
      ((exists u, In u (elems J) /\ pw_lm u = m /\ r = pw_poly u /\ c' = c) \/
       (calm q /\ c_get o m c' = Some r /\ c_set o m r c' = c' /\ py_pp o r = Ok r /\ primitive r))
  end.

(** one step of a loop *)
Lemma red_one A m c B d q : py_canonical o n k (A ++ (m, c) :: B) -> good ((m, d) :: q) ->
  exists k1 r', truthy (Some ((m, d) :: q)) = Some ((m, d) :: q) /\
    py_reduction o (A ++ (m, c) :: B) (length A) ((m, d) :: q) = Ok (scaled k1 A ++ r') /\
    py_canonical o n k (scaled k1 A ++ r') /\ PyPolyProofs.pbelow o m r' /\ red (A ++ (m, c) :: B) (scaled k1 A ++ r').
Proof.
  intros C (Cq & Iq & Mq). assert (D : mdivides m m) by (split; [now right|split; [reflexivity|lia]]).
  destruct (py_reduction_ok o n k A m c B m d q C Cq eq_refl D K) as (r' & k1 & k2 & s & E & C' & Br & K1 & Ls & Co).
  exists k1, r'. split; [reflexivity|]. split; [exact E|]. split; [exact C'|]. split; [exact Br|].
  exists k1, 1, (scale k2 (shift s ((m, d) :: q))). split; [exact K1|]. split; [lia|]. split; [|split].
  - apply (member_lin 1 (shift s ((m, d) :: q)) (shift s ((m, d) :: q)) k2 0); [lia|apply member_shift; auto..|]. intro x. rewrite coef_sc. ring.
  - apply comp_scale, comp_shift. exact Iq.
  - intro x. rewrite Co, coef_sc. ring.
Qed.

Section Loop.
Variable Q : monom -> Prop.
Hypothesis Q_down : forall x y, pmono n k x -> pmono n k y -> Q x -> pgt o x y -> Q y.
Hypothesis Q_find : forall m c, Q m -> pmono n k m -> pos m = p -> cgood c -> found m c.

Lemma in_comp_mid A m c B : in_component p (A ++ (m, c) :: B) -> pos m = p.
Proof. intro H. apply Forall_app in H as [_ H]. exact (Forall_inv H). Qed.
Lemma loop_ok B : forall A a ch, py_canonical o n k (A ++ B) -> in_component p (A ++ B) -> Forall (fun x => Q (fst x)) B -> calm (skipn a A) -> (a <= length A)%nat -> cgood ch ->
  exists b r ch', (forall fuel g, (b <= fuel)%nat -> (b <= g)%nat -> c_nftail_loop g o (jc_find fuel o J) (length A) ch (A ++ B) = Ok (r, ch')) /\ cgood ch' /\
    py_canonical o n k r /\ red (A ++ B) r /\ map fst (firstn a r) = map fst (firstn a A) /\ calm (skipn a r).
Proof.
  assert (Nil : forall A a ch, py_canonical o n k (A ++ []) -> calm (skipn a A) -> cgood ch ->
    exists b r ch', (forall fuel g, (b <= fuel)%nat -> (b <= g)%nat -> c_nftail_loop g o (jc_find fuel o J) (length A) ch (A ++ []) = Ok (r, ch')) /\ cgood ch' /\
    py_canonical o n k r /\ red (A ++ []) r /\ map fst (firstn a r) = map fst (firstn a A) /\ calm (skipn a r)).
  { intros A a ch C S Cg. exists 1%nat, A, ch. rewrite app_nil_r in *. split; [|split; [exact Cg|split; [exact C|split; [apply red_refl|auto]]]].
    intros fuel [|g] _ F; [lia|]. cbn [c_nftail_loop].
    replace (nth_error A (length A)) with (@None pterm); [reflexivity|]. symmetry. apply nth_error_None. lia. }
  assert (X : forall m c l A a ch, py_canonical o n k (A ++ (m, c) :: l) -> in_component p (A ++ (m, c) :: l) -> Q m -> calm (skipn a A) -> (a <= length A)%nat -> cgood ch ->
    exists b r ch', (forall fuel g, (b <= fuel)%nat -> (b <= g)%nat -> c_nftail_loop g o (jc_find fuel o J) (length A) ch (A ++ (m, c) :: l) = Ok (r, ch')) /\ cgood ch' /\
    py_canonical o n k r /\ red (A ++ (m, c) :: l) r /\ map fst (firstn a r) = map fst (firstn a A) /\ calm (skipn a r)).
  { intro m. induction m as [m IH] using (well_founded_induction (pylt_wf o n k)). intros c l A a ch C Ic Qm S La Cg.
    assert (Lm := pcanonical_mono o n k _ _ _ _ C). assert (Pm := in_comp_mid _ _ _ _ Ic).
    assert (Step : forall F g, c_nftail_loop (Datatypes.S g) o F (length A) ch (A ++ (m, c) :: l) =
      do x <- F ch m;
      match truthy (fst x) with
      | Some q => do p' <- py_reduction o (A ++ (m, c) :: l) (length A) q; c_nftail_loop g o F (length A) (snd x) p'
      | None => c_nftail_loop g o F (Datatypes.S (length A)) (snd x) (A ++ (m, c) :: l)
      end).
    { intros F g. cbn [c_nftail_loop]. rewrite nth_error_app2, Nat.sub_diag by lia. reflexivity. }
    destruct (Q_find m ch Qm Lm Pm Cg) as (b0 & w & ch0 & E & Cg0 & W). destruct w as [q|].
    - (* reduction *)
      destruct W as (d & q' & -> & Gq & _). destruct (red_one A m c l d q' C Gq) as (k1 & r' & Tr & Er & C' & Br & Rd).
      assert (I' : in_component p (scaled k1 A ++ r')) by exact (red_good _ _ Rd C' Ic).
      assert (S1 : calm (skipn a (scaled k1 A))).
      { unfold calm, scaled in *. rewrite skipn_map. rewrite Forall_map. exact S. }
      assert (Y : exists b r ch', (forall fuel g, (b <= fuel)%nat -> (b <= g)%nat -> c_nftail_loop g o (jc_find fuel o J) (length (scaled k1 A)) ch0 (scaled k1 A ++ r') = Ok (r, ch')) /\ cgood ch' /\
        py_canonical o n k r /\ red (scaled k1 A ++ r') r /\ map fst (firstn a r) = map fst (firstn a (scaled k1 A)) /\ calm (skipn a r)).
      { destruct r' as [|[m' c'] l']; [apply Nil; assumption|]. pose proof (pcanonical_mono o n k _ _ _ _ C') as M'. pose proof (Forall_inv Br) as Lt. cbn [fst] in Lt.
        apply IH; [|exact C'|exact I'|exact (Q_down m m' Lm M' Qm Lt)|exact S1|unfold scaled; rewrite map_length; exact La|exact Cg0]. split; [exact M'|]. split; [exact Lm|exact Lt]. }
      destruct Y as (b & r & ch' & H1 & H2 & H3 & H4 & H5 & H6).
      replace (length (scaled k1 A)) with (length A) in H1 by (unfold scaled; now rewrite map_length).
      exists (Datatypes.S (Nat.max b0 b)), r, ch'. split; [|split; [exact H2|split; [exact H3|split; [exact (red_trans _ _ _ Rd H4)|split; [|exact H6]]]]].
      + intros fuel [|g] F1 F2; [lia|]. rewrite Step, E by lia. cbn [bind fst snd truthy]. into Er. apply H1; lia.
      + rewrite H5. unfold scaled. rewrite firstn_map, map_map. reflexivity.
    - (* next position *)
      destruct W as [-> W].
      assert (Y : exists b r ch', (forall fuel g, (b <= fuel)%nat -> (b <= g)%nat -> c_nftail_loop g o (jc_find fuel o J) (length (A ++ [(m, c)])) ch ((A ++ [(m, c)]) ++ l) = Ok (r, ch')) /\ cgood ch' /\
        py_canonical o n k r /\ red ((A ++ [(m, c)]) ++ l) r /\ map fst (firstn a r) = map fst (firstn a (A ++ [(m, c)])) /\ calm (skipn a r)).
      { assert (C1 : py_canonical o n k ((A ++ [(m, c)]) ++ l)) by (rewrite <- app_assoc; exact C).
        assert (I1 : in_component p ((A ++ [(m, c)]) ++ l)) by (rewrite <- app_assoc; exact Ic).
        assert (S1 : calm (skipn a (A ++ [(m, c)]))).
        { rewrite skipn_app. replace (a - length A)%nat with 0%nat by lia. apply Forall_app. split; [exact S|]. repeat constructor. exact W. }
        destruct l as [|[m' c'] l']; [apply Nil; assumption|]. pose proof (pcanonical_mono o n k _ _ _ _ C1) as M'.
        assert (Lt : pgt o m m') by (apply py_canonical_iff in C as (Sp & _ & _); apply psorted_app in Sp as (_ & Sp & _); apply psorted_cons in Sp as [Bm _]; exact (Forall_inv Bm)).
        apply IH; [|exact C1|exact I1|exact (Q_down m m' Lm M' Qm Lt)|exact S1|rewrite app_length; lia|exact Cg]. split; [exact M'|]. split; [exact Lm|exact Lt]. }
      destruct Y as (b & r & ch' & H1 & H2 & H3 & H4 & H5 & H6). rewrite app_length, <- !app_assoc in *. cbn [app length] in *. rewrite Nat.add_1_r in H1.
      exists (Datatypes.S (Nat.max b0 b)), r, ch'. split; [|split; [exact H2|split; [exact H3|split; [exact H4|split; [|exact H6]]]]].
      + intros fuel [|g] F1 F2; [lia|]. rewrite Step, E by lia. cbn [bind fst snd truthy]. apply H1; lia.
      + rewrite H5. rewrite firstn_app. replace (a - length A)%nat with 0%nat by lia. cbn [firstn]. now rewrite app_nil_r. }
  intros A a ch C I F S La Cg. destruct B as [|[m c] l]; [apply Nil; assumption|apply X; try assumption]. exact (Forall_inv F).
Qed.
Lemma tail_ok m d q ch : py_canonical o n k ((m, d) :: q) -> in_component p ((m, d) :: q) -> Forall (fun x => Q (fst x)) q -> cgood ch ->
  exists b d' q' ch', (forall fuel g, (b <= fuel)%nat -> (b <= g)%nat -> c_nftail g o (jc_find fuel o J) ch ((m, d) :: q) = Ok ((m, d') :: q', ch')) /\ cgood ch' /\
    py_canonical o n k ((m, d') :: q') /\ red ((m, d) :: q) ((m, d') :: q') /\ calm q'.
Proof.
  intros C I F Cg. destruct (loop_ok q [(m, d)] 1 ch C I F ltac:(constructor) (le_n _) Cg) as (b & r & ch' & H1 & H2 & H3 & H4 & H5 & H6).
  destruct r as [|[m' d'] r]; [discriminate H5|]. cbn in H5. injection H5 as ->. exists b, d', r, ch'. split; [exact H1|]. auto.
Qed.
End Loop.

Lemma head_below m d q : py_canonical o n k ((m, d) :: q) -> Forall (fun x => pylt o n k (fst x) m) q.
Proof.
  intro C. apply py_canonical_iff in C as (S & M & _). apply psorted_cons in S as [B _]. inversion M as [|? ? Mm Mq]; subst. clear M. cbn [fst] in *.
  apply Forall_forall. intros x X. unfold PyPolyProofs.pbelow in B. unfold PyPolyProofs.pmonos in Mq. rewrite Forall_forall in *. split; [apply Mq, X|]. split; [exact Mm|]. apply B, X.
Qed.

Lemma quotient w m : pmono n k m -> pos m = p -> pj_findWrap J m = Ok (Some w) ->
  exists s, py_div m (pw_lm w) = Ok (Mon (-1) s) /\ length s = n /\ mul s (pw_lm w) = m /\ (py_bool (Mon (-1) s) = false -> pw_lm w = m).
Proof.
  intros M P E. destruct (tree_wrap w m M P E) as (_ & _ & _ & D & Pw & Mw). pose proof (jd_mdivides n N (tree_exps J) (pw_lm w) m ltac:(apply Mw) ltac:(apply M) ltac:(congruence) D) as Dm.
  destruct (py_div_same n m (pw_lm w) ltac:(apply M) ltac:(apply Mw) ltac:(congruence) Dm) as (_ & s & Es & Ls & Em). exists s. split; [exact Es|]. split; [exact Ls|]. split; [exact Em|].
  intro Bs. rewrite <- Em. rewrite <- (mul_unit n k (pw_lm w) Mw) at 1. f_equal. f_equal. symmetry. rewrite <- Ls. clear - Bs. unfold py_bool, py_degree in Bs. cbn [pos vars] in Bs. change (0 <=? -1) with false in Bs. cbn [orb] in Bs.
  apply Nat.ltb_ge in Bs. induction s as [|a s IH]; [reflexivity|]. cbn [fold_right length repeat] in *. f_equal; [lia|]. apply IH. lia.
Qed.
Lemma mult_ok s f : length s = n -> good f -> exists r, py_mult o f (Mon (-1) s) 1 = Ok r /\ good r /\ map fst r = map fst (shift s f).
Proof.
  intros L (C & I & M). assert (Ms : pmono n k (Mon (-1) s)) by (split; [split; [exact L|cbn; lia]|cbn; lia]).
  pose proof C as C'. apply py_canonical_iff in C' as (_ & Mp & _). unfold PyPolyProofs.pmonos in Mp. rewrite Forall_forall in Mp.
  destruct (py_mult_yields o n k f (Mon (-1) s) 1 C Ms ltac:(lia) (or_introl eq_refl)) as (r & E & Cr & Co). exists r. split; [exact E|].
  assert (Er : r = map (fun x => (mprod (Mon (-1) s) (fst x), 1 * snd x)) f).
  { unfold py_mult, assert_ in E. cbn [Z.eqb negb andb] in E. rewrite (map_terms_ok _ (mprod (Mon (-1) s))) in E.
    2:{ intros x X. destruct (pmono_mul n k (Mon (-1) s) (fst x) Ms (Mp x X) (or_introl eq_refl)) as (v & -> & _ & ->). reflexivity. }
    cbn [bind] in E. unfold py_checked, assert_ in E. destruct (true && negb _); [discriminate E|]. congruence. }
  assert (Ers : r = shift s f) by (rewrite Er; unfold shift; apply map_ext; intros [x y]; cbn [fst snd]; f_equal; ring).
  split; [|now rewrite Ers]. split; [exact Cr|]. rewrite Ers. split; [now apply comp_shift|now apply member_shift].
Qed.

Theorem find_found m : forall c, pmono n k m -> pos m = p -> cgood c -> found m c.
Proof.
  induction m as [m IH] using (well_founded_induction (pylt_wf o n k)). intros c M P Cg. destruct (tree_find m M P) as (w & E & _). destruct w as [w|].
  2:{ exists 1%nat, None, c. split; [|split; [exact Cg|split; [reflexivity|exact E]]]. intros [|fuel] F; [lia|]. cbn [jc_find]. rewrite E. reflexivity. }
  destruct (quotient w m M P E) as (s & Es & Ls & Em & Eb). destruct (tree_wrap w m M P E) as (Iw & (lc & l & Lw) & Gw & _).
  destruct (py_bool (Mon (-1) s)) eqn:Bs.
  2:{ specialize (Eb eq_refl). exists 1%nat, (Some (pw_poly w)), c. split; [intros [|fuel] F; [lia|]; cbn [jc_find]; rewrite E; cbn [bind]; rewrite Es; cbn [bind]; rewrite Bs; reflexivity|].
      split; [exact Cg|]. exists lc, l. split; [rewrite Lw, Eb; reflexivity|]. split; [exact Gw|]. split; [congruence|]. left. exists w. auto. }
  clear Eb.
  assert (R : exists d q, match c_get o m c with Some r => Ok r | None => py_mult o (pw_poly w) (Mon (-1) s) 1 end = Ok ((m, d) :: q) /\ good ((m, d) :: q)).
  { destruct (c_get o m c) as [r|] eqn:Ec.
    - destruct (c_get_ok m c r Cg M Ec) as (Gr & d & q & ->). exists d, q. auto.
    - destruct (mult_ok s (pw_poly w) Ls Gw) as (r & Er & Gr & Ef). rewrite Lw in Ef. cbn [shift map fst] in Ef. rewrite Em in Ef. destruct r as [|[u d] r]; [discriminate Ef|]. injection Ef as -> _. exists d, r. auto. }
  destruct R as (d & q & Er & (Cr & Ir & Mr)).
  destruct (tail_ok (fun x => pylt o n k x m)) with (m := m) (d := d) (q := q) (ch := c) as (b & d' & q' & ch' & H1 & H2 & H3 & H4 & H5); auto.
  { intros x y X Y (_ & _ & L1) L2. split; [exact Y|]. split; [exact M|]. apply (pgt_trans o n m x y); [apply M|apply X|apply Y|exact L1|exact L2]. }
  { now apply head_below in Cr. }
  assert (Gr : good ((m, d') :: q')) by (split; [exact H3|]; split; [exact (red_good _ _ H4 H3 Ir)|exact (red_member _ _ H4 Mr)]).
  destruct (pp_good o n k ((m, d') :: q') H3 ltac:(discriminate)) as (r & g & Ep & Cp & Np & _ & Ef & Gg & Co & Pr).
  destruct r as [|[u d2] r]; [discriminate Ef|]. cbn [map fst] in Ef. injection Ef as -> Ef.
  assert (Gp : good ((m, d2) :: r)).
  { split; [exact Cp|]. split.
    - apply coef_comp; [exact Cp|]. intros x X. apply (comp_coef _ x (proj1 (proj2 Gr))). intro Y. apply X. pose proof (Co x) as Z. assert (Z' : g * coef ((m, d2) :: r) x = 0) by (etransitivity; [symmetry; exact Z|exact Y]). apply Z.mul_eq_0 in Z' as [Z'|Z']; [exfalso; exact (Gg Z')|exact Z'].
    - apply (member_lin g ((m, d') :: q') ((m, d') :: q') 1 0 Gg); [apply Gr..|]. intro x. rewrite Z.mul_1_l, Z.mul_0_l, Z.add_0_r. symmetry. exact (Co x). }
  exists (S b), (Some ((m, d2) :: r)), (c_set o m ((m, d2) :: r) ch'). split; [|split].
  - intros [|fuel] F; [lia|]. cbn [jc_find]. rewrite E. cbn [bind]. rewrite Es. cbn [bind]. rewrite Bs, Er. cbn [bind]. rewrite H1 by lia. cbn [bind fst snd]. rewrite Ep. reflexivity.
  - apply c_set_ok; auto. split; [exact Gp|]. exists d2, r. reflexivity.
  - exists d2, r. split; [reflexivity|]. split; [exact Gp|]. split; [congruence|]. right. split; [|split; [now apply c_get_set|split; [now apply c_set_set|split; [|exact Pr]]]].
    + unfold calm in *. rewrite Forall_forall in *. intros x X. apply (in_map fst) in X. rewrite Ef in X. apply in_map_iff in X. destruct X as (y & <- & Y). now apply H5.
    + exact (pp_again o n k _ _ H3 Ep).
Qed.

(** NFtail and NFhead *)
Lemma jc_tail_ok m d q ch : py_canonical o n k ((m, d) :: q) -> in_component p ((m, d) :: q) -> cgood ch ->
  exists b d' q' ch', (forall fuel, (b <= fuel)%nat -> jc_nftail fuel o J ch ((m, d) :: q) = Ok ((m, d') :: q', ch')) /\ cgood ch' /\
    py_canonical o n k ((m, d') :: q') /\ red ((m, d) :: q) ((m, d') :: q') /\ calm q'.
Proof.
  intros C I Cg. destruct (tail_ok (fun _ => True)) with (m := m) (d := d) (q := q) (ch := ch) as (b & d' & q' & ch' & H1 & H2); auto.
  - intros. now apply find_found.
  - now apply Forall_forall.
  - exists b, d', q', ch'. split; [|exact H2]. intros fuel F. unfold jc_nftail. now apply H1.
Qed.
Lemma jc_head_ok f : forall ch, py_canonical o n k f -> in_component p f -> cgood ch ->
  exists b r ch', (forall fuel g, (b <= fuel)%nat -> (b <= g)%nat -> c_nfhead g o (jc_find fuel o J) ch f = Ok (r, ch')) /\ cgood ch' /\
    py_canonical o n k r /\ red f r /\ (r = [] \/ pj_findWrap J (lmon r) = Ok None).
Proof.
  assert (Nil : forall ch, cgood ch -> exists b r ch', (forall fuel g, (b <= fuel)%nat -> (b <= g)%nat -> c_nfhead g o (jc_find fuel o J) ch [] = Ok (r, ch')) /\ cgood ch' /\
    py_canonical o n k r /\ red [] r /\ (r = [] \/ pj_findWrap J (lmon r) = Ok None)).
  { intros ch Cg. exists 1%nat, [], ch. split; [intros fuel [|g] _ F; [lia|reflexivity]|]. split; [exact Cg|]. split; [repeat split; constructor|]. split; [apply red_refl|now left]. }
  assert (X : forall m c l ch, py_canonical o n k ((m, c) :: l) -> in_component p ((m, c) :: l) -> cgood ch ->
    exists b r ch', (forall fuel g, (b <= fuel)%nat -> (b <= g)%nat -> c_nfhead g o (jc_find fuel o J) ch ((m, c) :: l) = Ok (r, ch')) /\ cgood ch' /\
    py_canonical o n k r /\ red ((m, c) :: l) r /\ (r = [] \/ pj_findWrap J (lmon r) = Ok None)).
  { intro m. induction m as [m IH] using (well_founded_induction (pylt_wf o n k)). intros c l ch C I Cg.
    assert (Lm := pcanonical_mono o n k [] _ _ _ C). assert (Pm := Forall_inv I). cbn [fst] in Pm.
    destruct (find_found m ch Lm Pm Cg) as (b0 & w & ch0 & E & Cg0 & W). destruct w as [q|].
    - destruct W as (d & q' & -> & Gq & _). destruct (red_one [] m c l d q' C Gq) as (k1 & r' & Tr & Er & C' & Br & Rd). cbn [scaled map app length] in *.
      assert (I' : in_component p r') by exact (red_good _ _ Rd C' I).
      assert (Y : exists b r ch', (forall fuel g, (b <= fuel)%nat -> (b <= g)%nat -> c_nfhead g o (jc_find fuel o J) ch0 r' = Ok (r, ch')) /\ cgood ch' /\
        py_canonical o n k r /\ red r' r /\ (r = [] \/ pj_findWrap J (lmon r) = Ok None)).
      { destruct r' as [|[m' c'] l']; [now apply Nil|]. apply IH; auto. split; [exact (pcanonical_mono o n k [] _ _ _ C')|]. split; [exact Lm|exact (Forall_inv Br)]. }
      destruct Y as (b & r & ch' & H1 & H2 & H3 & H4 & H5). exists (S (Nat.max b0 b)), r, ch'. split; [|split; [exact H2|split; [exact H3|split; [exact (red_trans _ _ _ Rd H4)|exact H5]]]].
      intros fuel [|g] F1 F2; [lia|]. cbn [c_nfhead]. rewrite E by lia. cbn [bind fst snd truthy]. into Er. apply H1; lia.
    - destruct W as [-> W]. exists (S b0), ((m, c) :: l), ch. split; [|split; [exact Cg|split; [exact C|split; [apply red_refl|right; exact W]]]].
      intros fuel [|g] F1 F2; [lia|]. cbn [c_nfhead]. rewrite E by lia. reflexivity. }
  destruct f as [|[m c] l]; intros ch C I Cg; [now apply Nil|now apply X].
Qed.
(** asking again *)
Lemma calm_again q : calm q -> forall A ch, (length A + length q = length (A ++ q))%nat -> forall g fuel, (length q < g)%nat -> (0 < fuel)%nat ->
  c_nftail_loop g o (jc_find fuel o J) (length A) ch (A ++ q) = Ok (A ++ q, ch).
Proof.
  intro Sq. induction Sq as [|[m c] q E Sq IH]; intros A ch _ g fuel Hg Hf.
  - destruct g as [|g]; [lia|]. cbn [c_nftail_loop]. rewrite app_nil_r. replace (nth_error A (length A)) with (@None pterm); [reflexivity|]. symmetry. apply nth_error_None. lia.
  - destruct g as [|g]; [lia|]. cbn [c_nftail_loop]. rewrite nth_error_app2, Nat.sub_diag by lia. cbn [nth_error]. cbn [fst] in E. destruct fuel as [|fuel]; [lia|].
    assert (X : jc_find (S fuel) o J ch m = Ok (None, ch)) by (cbn [jc_find]; rewrite E; reflexivity). rewrite X. cbn [bind fst snd truthy].
    specialize (IH (A ++ [(m, c)]) ch). rewrite app_length, <- app_assoc in IH. cbn [app length] in *. rewrite Nat.add_1_r in IH. apply IH; [rewrite !app_length; cbn [length]; lia|lia|lia].
Qed.
Lemma found_again m c w c' fuel : pmono n k m -> pos m = p -> cgood c -> jc_find fuel o J c m = Ok (w, c') ->
  exists b, forall fuel', (b <= fuel')%nat -> jc_find fuel' o J c' m = Ok (w, c').
Proof.
  intros M P Cg E. destruct (find_found m c M P Cg) as (b & w1 & c1 & H & Cg1 & W).
  assert (Q : Ok (w, c') = Ok (w1, c1)).
  { rewrite <- (H (Nat.max b fuel)) by lia. rewrite <- E. symmetry. apply jc_mono; [lia|rewrite E; discriminate]. }
  injection Q as <- <-. destruct w as [r|].
  2:{ destruct W as [-> W]. exists b. exact H. }
  destruct W as (d & q & -> & Gr & NW & [(u & U & Um & Ur & ->)|(Cq & Gt & St & Pp & _)]); [exists b; exact H|].
  destruct (tree_find m M P) as (w & Ew & _). destruct w as [w|]; [|contradiction]. destruct (quotient w m M P Ew) as (s & Es & Ls & Em & Eb).
  destruct (py_bool (Mon (-1) s)) eqn:Bs.
  - pose proof (fun f Hf => calm_again q Cq [(m, d)] c' eq_refl f f Hf) as Ca. cbn beta in Ca. match type of Ca with forall f, (?l < f)%nat -> _ => set (lq := l) in Ca end. exists (S (S (S lq))). intros [|f] F; [lia|]. cbn [jc_find]. rewrite Ew. cbn [bind]. rewrite Es. cbn [bind]. rewrite Bs, Gt. cbn [bind]. unfold c_nftail.
    specialize (Ca f ltac:(lia) ltac:(lia)). into Ca. cbn [fst snd app]. into Pp. exact (f_equal (fun x => Ok (Some ((m, d) :: q), x)) St).
  - specialize (H (S b) ltac:(lia)). cbn [jc_find] in H. rewrite Ew in H. cbn [bind] in H. rewrite Es in H. cbn [bind] in H. rewrite Bs in H. injection H as H <-.
    exists 1%nat. intros [|f] F; [lia|]. cbn [jc_find]. rewrite Ew. cbn [bind]. rewrite Es. cbn [bind]. rewrite Bs, H. reflexivity.
Qed.

Lemma calm_irr q : in_component p q -> PyPolyProofs.pmonos n k q -> calm q -> Forall (fun x => ~ janet_reducible n J (fst x)) q.
Proof.
  intros I M C. unfold in_component, PyPolyProofs.pmonos, calm in *. rewrite Forall_forall in *. intros x X. destruct (tree_find (fst x) (M x X) (I x X)) as (r & E & H). apply H. rewrite (C x X) in E. congruence.
Qed.
End Tree.

Lemma history_good J c : cache_history o n k p G J c -> cache_tree o n k p G J /\ cgood c.
Proof.
  intro H. induction H as [J T|J J' c H [_ IH] T'|J c m fuel w c' H [T IH] M P E]; [split; [exact T|constructor]|now split|]. split; [exact T|].
  destruct (find_found J T m c M P IH) as (b & w1 & c1 & F & C & _). assert (Q : Ok (w, c') = Ok (w1, c1)).
  { rewrite <- (F (Nat.max b fuel)) by lia. rewrite <- E. symmetry. apply jc_mono; [lia|rewrite E; discriminate]. }
  injection Q as _ <-. exact C.
Qed.

Theorem cache_find J c m : cache_history o n k p G J c -> pmono n k m -> pos m = p ->
  exists b w c', (forall fuel, (b <= fuel)%nat -> jc_find fuel o J c m = Ok (w, c')) /\ cache_history o n k p G J c' /\
  match w with
  | None => ~ janet_reducible n J m
  | Some r => janet_reducible n J m /\ consequence o n k p G r /\ exists d q, r = (m, d) :: q /\
      ((exists u, In u (elems J) /\ pw_lm u = m /\ pw_poly u = r) \/ (primitive r /\ Forall (fun x => ~ janet_reducible n J (fst x)) q))
  end.
Proof.
  intros H M P. destruct (history_good J c H) as [T Cg]. destruct (find_found J T m c M P Cg) as (b & w & c' & F & _ & W). exists b, w, c'. split; [exact F|]. split; [exact (ch_find o n k p G J c m b w c' H M P (F b (le_n _)))|].
  destruct (tree_find J T m M P) as (x & Ex & Hx). destruct w as [r|].
  - destruct W as (d & q & Er & Gr & NW & D). split.
    + destruct x as [u|]; [|contradiction]. destruct (tree_wrap J T u m M P Ex) as (_ & _ & _ & Dv & _). exists (exps u). exact Dv.
    + split; [exact Gr|]. exists d, q. split; [exact Er|]. destruct D as [(u & U & Um & Ur & _)|(Cq & _ & _ & _ & Pr)]; [left; exists u; auto|right]. split; [exact Pr|]. subst r.
      destruct Gr as (C & I & _). apply (calm_irr J T); [exact (Forall_inv_tail I)| |exact Cq]. apply py_canonical_iff in C as (_ & Mq & _). exact (Forall_inv_tail Mq).
  - destruct W as [_ W]. apply Hx. congruence.
Qed.
Theorem cache_again J c m fuel w c' : cache_history o n k p G J c -> pmono n k m -> pos m = p -> jc_find fuel o J c m = Ok (w, c') ->
  exists b, forall fuel', (b <= fuel')%nat -> jc_find fuel' o J c' m = Ok (w, c').
Proof. intros H M P. destruct (history_good J c H) as [T Cg]. now apply found_again. Qed.
Theorem cache_entries J c u r : cache_history o n k p G J c -> In (u, r) c -> consequence o n k p G r /\ exists d q, r = (u, d) :: q.
Proof. intros H I. destruct (history_good J c H) as [_ C]. unfold cgood in C. rewrite Forall_forall in C. exact (C _ I). Qed.
Theorem cache_tail J c f : cache_history o n k p G J c -> py_canonical o n k f -> in_component p f -> f <> [] ->
  exists b r c' m d d' q q', (forall fuel, (b <= fuel)%nat -> jc_nftail fuel o J c f = Ok (r, c')) /\
    py_canonical o n k r /\ reduces_to n G f r /\ f = (m, d) :: q /\ r = (m, d') :: q' /\ Forall (fun x => ~ janet_reducible n J (fst x)) q'.
Proof.
  intros H C I Nf. destruct (history_good J c H) as [T Cg]. destruct f as [|[m d] q]; [contradiction|]. destruct (jc_tail_ok J T m d q c C I Cg) as (b & d' & q' & c' & F & _ & C' & R & S).
  exists b, ((m, d') :: q'), c', m, d, d', q, q'. split; [exact F|]. split; [exact C'|]. split; [exact (red_reduces _ _ R)|]. split; [reflexivity|]. split; [reflexivity|].
  apply (calm_irr J T); [exact (Forall_inv_tail (red_good _ _ R C' I))| |exact S]. apply py_canonical_iff in C' as (_ & Mq & _). exact (Forall_inv_tail Mq).
Qed.
Theorem cache_head J c f : cache_history o n k p G J c -> py_canonical o n k f -> in_component p f ->
  exists b r c', (forall fuel, (b <= fuel)%nat -> jc_nfhead fuel o J c f = Ok (r, c')) /\
    py_canonical o n k r /\ reduces_to n G f r /\ (r = [] \/ exists m d q, r = (m, d) :: q /\ ~ janet_reducible n J m).
Proof.
  intros H C I. destruct (history_good J c H) as [T Cg]. destruct (jc_head_ok J T f c C I Cg) as (b & r & c' & F & _ & C' & R & S).
  exists b, r, c'. split; [intros fuel L; unfold jc_nfhead; now apply F|]. split; [exact C'|]. split; [exact (red_reduces _ _ R)|]. destruct S as [->|S]; [now left|]. destruct r as [|[m d] q]; [now left|right].
  exists m, d, q. split; [reflexivity|]. cbn [lmon] in S. pose proof (pcanonical_mono o n k [] _ _ _ C') as M. pose proof (Forall_inv (red_good _ _ R C' I)) as P. cbn [fst] in P.
  destruct (tree_find J T m M P) as (x & Ex & Hx). apply Hx. congruence.
Qed.
End Cache.
