(** Systems of monomials and algorithmTQ2. *)
From Coq Require Import ZArith List Bool Arith Lia Permutation Sorted.
From Verif Require Import Outcome MonomModel MonomSpec MonomProofs PolyModel PolySpec PolyProofs PolyRedProofs PolyNfProofs CythonProofs
  JanetModel JanetSpec JanetProofs JanetFindProofs CompletionProofs JanetPolyModel TQModel JanetPolySpec IdealProofs JanetPolyProofs PolyTopProofs
  TQProofs JanetPolyTop JanetTermSpec JanetTermMain ShapeProofs AncProofs InvolutiveProofs InvolutiveTop NormalSpec LinTop LinSol ClosedSpec ClosedProofs ClosedMain ClosedTop
  NormalTop TQ2HPSpec TQ2Mult TQ2Normal ClosedTQ2 MonoSpec MonoTop.
Import ListNotations.
Local Open Scope Z_scope.

(** At most one element is outside the tree. *)
Definition nd (l : list titem) : nat := length (flat_map (fun x => match x with Att _ => [] | Det w => [w] end) l).
Lemma nd_app a b : nd (a ++ b) = (nd a + nd b)%nat.
Proof. unfold nd. rewrite flat_map_app, app_length. reflexivity. Qed.
Lemma nd_cons x l : nd (x :: l) = (nd [x] + nd l)%nat.
Proof. apply (nd_app [x] l). Qed.
Lemma item_nd fuel dbg mpos dg js q oth x js' q' x' : item_step fuel dbg mpos dg js q oth x = Ok (js', q', x') -> nd [x'] = nd [x].
Proof.
  intro E. destruct x as [e|w]; cbn [item_step] in E; bnd E.
  - bnd E. injection E as _ _ <-. reflexivity.
  - destruct (_ <=? dg)%nat; [bnd E|]; injection E as _ _ <-; reflexivity.
Qed.
Lemma walk2_nd fuel dbg mpos dg : forall cnt js q d w k js' q' t', walk2 cnt fuel dbg mpos dg js q d w k = Ok (js', q', t') -> nd t' = (nd d + nd k)%nat.
Proof.
  induction cnt as [|cnt IH]; intros js q d w k js' q' t' E; cbn [walk2] in E.
  { destruct w; [discriminate|]. destruct k; [|discriminate]. injection E as _ _ <-. cbn. lia. }
  assert (Redu : forall x w' k', (do r <- item_step fuel dbg mpos dg js q (atts d ++ match w' with Some e => [e] | None => [] end ++ atts k') x;
      let '(js', q', x') := r in walk2 cnt fuel dbg mpos dg js' q' (d ++ [x']) w' k') = Ok (js', q', t') -> nd t' = (nd d + nd [x] + nd k')%nat).
  { intros x w' k' X. destruct (item_step _ _ _ _ _ _ _ _) as [[[j1 q1] x1]| | | |] eqn:Ei; cbn [bind] in X; try discriminate.
    apply IH in X. rewrite nd_app in X. apply item_nd in Ei. lia. }
  destruct w as [e|]; destruct k as [|x k].
  - rewrite (Redu (Att e) None [] E). change (nd [Att e]) with 0%nat. lia.
  - destruct (p_cmp dbg (snd e) (item_poly x)) as [c| | | |]; cbn [bind] in E; try discriminate. destruct (c <? 0).
    + rewrite (Redu (Att e) None (x :: k) E). change (nd [Att e]) with 0%nat. lia.
    + apply (Redu x (Some e) k) in E. rewrite (nd_cons x k). lia.
  - injection E as _ _ <-. cbn. lia.
  - apply (Redu x None k) in E. rewrite (nd_cons x k). lia.
Qed.
Lemma loop2_nd dbg mpos : forall fuel pref js q T J2, (nd T <= 1)%nat -> tq2_loop fuel dbg mpos pref js q T = Ok J2 -> (nd (j2t J2) <= 1)%nat.
Proof.
  induction fuel as [|fuel IH]; intros pref js q T J2 N E; cbn [tq2_loop] in E; destruct q as [|u q0]; try discriminate; try (injection E as <-; exact N).
  destruct (p_lm dbg (wpol u)) as [m| | | |]; cbn [bind] in E; try discriminate.
  destruct (take_tq _ _ _ _ _ _ _) as [[[q1 tmp]|]| | | |]; cbn [bind] in E; try discriminate.
  2:{ destruct (set_one _ _ _ _ _) as [J'| | | |]; cbn [bind] in E; try discriminate. injection E as <-. cbn. lia. }
  unfold assert_ at 1 in E. destruct (dbg && _); [discriminate|]. destruct tmp as [|w0 tmp0]; [exact (IH _ _ _ _ _ N E)|].
  destruct (p_lm dbg (wpol w0)) as [m0| | | |]; cbn [bind] in E; try discriminate. destruct (same_deg _ _ _) as [[eqs rest]| | | |]; cbn [bind] in E; try discriminate.
  destruct (swap_min w0 eqs) as [w1 eqs2]. unfold assert_ at 1 in E. destruct (dbg && _); [discriminate|].
  destruct (tail_pp _ _ _ _) as [p| | | |]; cbn [bind] in E; try discriminate. destruct (enter_w _ _ _) as [[js2 w']| | | |]; cbn [bind] in E; try discriminate.
  destruct (deg m <? _)%nat.
  - destruct (back _ _ _) as [q3| | | |]; cbn [bind] in E; try discriminate. destruct (get_wrap _ _) as [w''|]; cbn [bind] in E; try discriminate.
    destruct (if dbg then _ else _) as [b| | | |]; cbn [bind] in E; try discriminate. unfold assert_ in E. destruct (dbg && _); [discriminate|].
    refine (IH _ _ _ _ _ _ E). cbn. lia.
  - destruct T as [|x T].
    + cbn [bind] in E. destruct (if dbg then _ else _) as [b| | | |]; cbn [bind] in E; try discriminate. unfold assert_ in E. destruct (dbg && _); [discriminate|].
      refine (IH _ _ _ _ _ _ E). cbn. lia.
    + destruct (walk2 _ _ _ _ _ _ _ _ _ _) as [[[js3 q3] t3]| | | |] eqn:Ew; cbn [bind] in E; try discriminate.
      destruct (if dbg then _ else _) as [b| | | |]; cbn [bind] in E; try discriminate. unfold assert_ in E. destruct (dbg && _); [discriminate|].
      refine (IH _ _ _ _ _ _ E). apply walk2_nd in Ew. cbn [nd flat_map length Nat.add] in Ew. rewrite Ew. exact N.
Qed.
Lemma nd_att l : nd (map Att l) = 0%nat.
Proof. unfold nd. induction l as [|e l IH]; [reflexivity|exact IH]. Qed.
Lemma tq2_nd fuel dbg J J2 : jp_tq2 fuel dbg J = Ok J2 -> (nd (j2t J2) <= 1)%nat.
Proof.
  unfold jp_tq2. destruct (jone J); [intro E; injection E as <-; cbn; lia|]. destruct (jtrees (set_pos J)) as [js|].
  - apply loop2_nd. rewrite nd_att. lia.
  - destruct (jq (set_pos J)); [intro E; injection E as <-; cbn [j2t]; rewrite nd_att; lia|discriminate].
Qed.
Lemma tq2_one_outside fuel dbg J J2 : jp_tq2 fuel dbg J = Ok J2 -> (length (tree_part J2) <= length (basis2 J2) <= length (tree_part J2) + 1)%nat.
Proof.
  intro E. apply tq2_nd in E. unfold basis2, tree_part. destruct (j2one J2); [cbn; lia|]. rewrite map_length. revert E. unfold nd.
  assert (X : length (j2t J2) = (length (flat_map (fun x => match x with Att _ => [] | Det w => [w] end) (j2t J2)) +
     length (flat_map (fun x => match x with Att e => [snd e] | Det _ => [] end) (j2t J2)))%nat).
  { induction (j2t J2) as [|[e|w] l IH]; [reflexivity| |]; cbn [flat_map app length]; lia. }
  lia.
Qed.

Section P.
Variables (t : pos_order) (o : base_order) (n : nat).
Hypothesis (Hn : (0 < n)%nat) (Ho : o <> OAlex).

(** At most one term, with exponents that occur in F for the same variable or below. *)
Definition small (F : list poly) (v : list nat) : Prop :=
  forall i, (i < n)%nat -> expo v i = 0%nat \/ exists f, In f F /\ terms f <> [] /\ (expo v i <= expo (lead f) i)%nat.
Definition box1 (F : list poly) (l : list term) : Prop := (length l <= 1)%nat /\ forall m, In m (map fst l) -> small F (vars m).

Lemma ring_coef l m c : ring_terms t o n l -> In (m, c) l -> coef l m = c /\ c <> 0.
Proof. intros [C _] I. destruct (canonical_coef t o n l m c C I) as [-> X]. auto. Qed.

Lemma box1_closed F : closed_class t o n (box1 F).
Proof.
  split; [|split; [|split]].
  - intros f a r u v k1 k2 Rf Ra Rr [Lf Sf] [La Sa] (c & l' & Ea) Lu Nz Nk Er Zr. assert (X : r = []).
    { destruct r as [|[m d] r']; [reflexivity|exfalso]. destruct (ring_coef _ m d Rr (or_introl eq_refl)) as [Cd Nd].
      destruct a as [|x [|y a]]; [discriminate| |cbn in La; lia]. injection Ea as -> <-. destruct f as [|[mf cf] [|y f]]; [cbn in Nz; lia| |cbn in Lf; lia].
      cbn [coef] in Nz. destruct (monom_eq_dec mf (Mon (-1) (vsum u v))) as [Em|Em]; [|lia].
      assert (Hm := Er m). rewrite Cd in Hm. cbn [coef shift map fst snd] in Hm. unfold mprod in Hm. cbn [vars pos] in Hm.
      change (if -1 =? -1 then -1 else -1) with (-1) in Hm.
      destruct (monom_eq_dec mf m) as [E1|E1].
      - rewrite Em in E1. rewrite E1, Cd in Zr. contradiction.
      - destruct (monom_eq_dec (Mon (-1) (vsum u v)) m) as [E2|E2]; [congruence|lia]. }
    rewrite X. split; [cbn; lia|intros m []].
  - intros f r k l Rf Rr [Lf Sf] Nk Nl E.
    assert (X : forall m c, In (m, c) r -> In m (map fst f)).
    { intros m c I. destruct (ring_coef _ m c Rr I) as [C N]. assert (Y := E m). rewrite C in Y.
      destruct (in_dec monom_eq_dec m (map fst f)) as [H|H]; [exact H|]. rewrite (coef_notin m f) in Y by exact H. rewrite Z.mul_0_r in Y. apply Z.eq_mul_0 in Y as [Y|Y]; lia. }
    split.
    + destruct r as [|[m1 c1] [|[m2 c2] r]]; [cbn; lia|cbn; lia|exfalso].
      destruct f as [|[mf cf] [|y f]]; [|  |cbn in Lf; lia]; [destruct (X m1 c1 (or_introl eq_refl))|].
      destruct (X m1 c1 (or_introl eq_refl)) as [E1|[]]. destruct (X m2 c2 (or_intror (or_introl eq_refl))) as [E2|[]]. cbn [fst] in E1, E2.
      assert (C := rt_nodup t o n _ Rr). cbn [map fst] in C. inversion C as [|x xs N _]; subst. apply N. left. congruence.
    + intros m I. apply in_map_iff in I as ([m' c] & <- & I). exact (Sf _ (X _ _ I)).
  - intros g h x v w i u Rg Rh Rx [Lg Sg] [Lh Sh] (cg & lg & Eg) (ch & lh & Eh) Hi Lt Hu E.
    destruct g as [|y [|y' g]]; [discriminate| |cbn in Lg; lia]. injection Eg as -> <-.
    assert (X : forall m c, In (m, c) x -> m = Mon (-1) (vsum u v)).
    { intros m c I. destruct (ring_coef _ m c Rx I) as [C N]. assert (Y := E m). rewrite C in Y. cbn [coef shift map fst snd] in Y. unfold mprod in Y. cbn [vars pos] in Y.
      change (if -1 =? -1 then -1 else -1) with (-1) in Y. destruct (monom_eq_dec (Mon (-1) (vsum u v)) m); [congruence|lia]. }
    split.
    + destruct x as [|[m1 c1] [|[m2 c2] x]]; [cbn; lia|cbn; lia|exfalso]. assert (X1 := X m1 c1 (or_introl eq_refl)). assert (X2 := X m2 c2 (or_intror (or_introl eq_refl))).
      assert (C := rt_nodup t o n _ Rx). cbn [map fst] in C. inversion C as [|z zs N _]; subst. apply N. left. reflexivity.
    + intros m I. apply in_map_iff in I as ([m' c] & <- & I). rewrite (X _ _ I). cbn [fst vars].
      destruct Hu as [Lu Hu]. assert (Lv : length v = n).
      { destruct Rg as [C _]. apply canonical_iff in C as (_ & M & _). exact (proj1 (Forall_inv M)). }
      intros j Hj. rewrite vsum_addv, expo_addv by congruence. assert (Ej := Hu j Hj).
      destruct (Nat.eqb_spec j i) as [-> |Nj].
      * destruct (Sh (Mon (-1) w) ltac:(rewrite Eh; left; reflexivity) i Hi) as [Z|(f & If & Nf & Le)]; cbn [vars] in *; [lia|]. right. exists f. split; [exact If|]. split; [exact Nf|lia].
      * rewrite Ej. apply (Sg (Mon (-1) v) (or_introl eq_refl) j Hj).
  - split; [cbn; lia|]. intros m [<-|[]]. intros i _. left. cbn [fst vars]. apply expo_zs.
Qed.

Section H.
Variables (F : list poly) (J : jpoly) (fuel0 : nat) (J2 : jpoly2).
Hypothesis (H : jp_history false t o n F J) (E0 : jp_tq2 fuel0 false J = Ok J2) (SF : Forall single F).
Notation RF := (hist_ring t o n F J H).

Lemma start_box1 : Forall (fun f => box1 F (terms f)) F.
Proof.
  apply Forall_forall. intros f If. assert (S := SF). assert (R := RF). rewrite Forall_forall in S, R. split; [exact (S f If)|].
  intros m Im. destruct (terms f) as [|x l] eqn:E; [destruct Im|].
  destruct (single_cases t o n f (R f If) (S f If)) as (c & Ec & _ & _); [congruence|]. rewrite <- E, Ec in Im. destruct Im as [<-|[]]. cbn [fst vars].
  intros i _. right. exists f. split; [exact If|]. split; [congruence|lia].
Qed.

Lemma c93_tq2_elem g : In g (basis2 J2) -> exists c, terms g = [(Mon (-1) (lead g), c)] /\ c <> 0 /\ length (lead g) = n /\ bounded_multiple n F (lead g).
Proof.
  intro Ig. destruct (proj1 (c53_tq2 t o n F J fuel0 J2 Hn Ho H E0) g Ig) as (Rg & Ng & Mg).
  destruct (c96_tq2_basis t o n Hn Ho _ (box1_closed F) F J fuel0 J2 H start_box1 E0 g Ig) as [Lg Sg].
  destruct (single_cases t o n g Rg Lg Ng) as (c & Ec & Nc & L). exists c. split; [exact Ec|]. split; [exact Nc|]. split; [exact L|].
  destruct (mono_member t o n F _ RF SF Mg (Mon (-1) (lead g))) as (f & If & Nf & Df); [rewrite Ec, coef1; exact Nc|]. cbn [vars] in Df.
  split; [exists f; auto|]. intros i Hi. destruct (Sg (Mon (-1) (lead g)) ltac:(rewrite Ec; left; reflexivity) i Hi) as [Z|X]; [|exact X]. cbn [vars] in Z.
  exists f. split; [exact If|]. split; [exact Nf|lia].
Qed.

Lemma B2_ring : Forall (ring_input t o n) (basis2 J2).
Proof. apply Forall_forall. intros g Ig. apply (proj1 (c53_tq2 t o n F J fuel0 J2 Hn Ho H E0) g Ig). Qed.
Lemma B2_single : Forall single (basis2 J2).
Proof. apply Forall_forall. intros g Ig. destruct (c93_tq2_elem g Ig) as (c & E & _). unfold single. rewrite E. cbn. lia. Qed.

Lemma c93_tq2_generators f : minimal n F f -> exists g, In g (basis2 J2) /\ lead g = lead f.
Proof.
  intros (If & Nf & Mf). assert (R := RF). assert (S := SF). rewrite Forall_forall in R, S. destruct (single_cases t o n f (R f If) (S f If) Nf) as (c & E & Nc & L).
  destruct (mono_member t o n _ _ B2_ring B2_single (proj2 (c53_tq2 t o n F J fuel0 J2 Hn Ho H E0) f If) (Mon (-1) (lead f))) as (g & Ig & Ng & Dg); [rewrite E, coef1; exact Nc|]. cbn [vars] in Dg.
  exists g. split; [exact Ig|]. destruct (c93_tq2_elem g Ig) as (d & _ & _ & Lg & (f' & If' & Nf' & Df') & _).
  assert (X := Mf f' If' Nf' (divides_trans n _ _ _ Df' Dg)). rewrite X in Df'. apply (divides_both n); assumption.
Qed.

Lemma c93_tq2_ideal p : ring_input t o n p -> (rational_member n (among F) (terms p) <-> monomials_divisible n (basis2 J2) (terms p)).
Proof.
  intros Rp. split.
  - intro M. apply (mono_member t o n _ _ B2_ring B2_single). revert M. apply mem_trans. intros g (f & If & <-). exact (proj2 (c53_tq2 t o n F J fuel0 J2 Hn Ho H E0) f If).
  - intro D. eapply mem_trans; [|apply (divisible_mem t o n (basis2 J2) (terms p) B2_ring B2_single); [apply Rp|eapply ring_input_monos; exact Rp|]].
    + intros g (b & Ib & <-). apply (proj1 (c53_tq2 t o n F J fuel0 J2 Hn Ho H E0) b Ib).
    + intros m c I. apply D. destruct Rp as (V & E1 & E2 & E3 & _). unfold valid_poly in V. rewrite E1, E2, E3 in V. destruct (canonical_coef t o n _ m c V I) as [-> X]. exact X.
Qed.

Lemma c93_tq2_size D : length D = n -> (forall f i, In f F -> (i < n)%nat -> (expo (lead f) i <= expo D i)%nat) ->
  (length (basis2 J2) <= fold_right (fun d k => (Datatypes.S d * k)%nat) 1%nat D + 1)%nat.
Proof.
  intros LD BD. enough (X : (length (tree_part J2) <= fold_right (fun d k => (Datatypes.S d * k)%nat) 1%nat D)%nat) by (assert (Y := tq2_one_outside _ _ _ _ E0); lia). rewrite <- (map_length lead), <- box_length. apply NoDup_incl_length; [exact (tq2_leads t o n Hn Ho F J fuel0 J2 H E0)|].
  intros u I. apply in_map_iff in I as (g & <- & Ig). apply tree_part_basis in Ig. destruct (c93_tq2_elem g Ig) as (c & _ & _ & L & _ & B). apply (MonoTop.in_box n Hn); [congruence|].
  intros i Hi. rewrite LD in Hi. destruct (B i Hi) as (f & If & _ & Le). assert (X := BD f i If Hi). lia.
Qed.
End H.
End P.
