(** Proofs about PyHeapModel.v. *)
From Coq Require Import ZArith List Bool Arith Lia.
From Verif Require Import Outcome MonomModel MonomSpec PolySpec PyMonomModel PyPolyModel PyPolySpec PyHeapModel PyHeapSpec.
Import ListNotations.
Local Open Scope Z_scope.

Lemma pair_ind (P : list nat -> list nat -> Prop) :
  (forall a, P [] a) -> (forall p, P p []) ->
  (forall x p y a, P p (y :: a) -> P (x :: p) a -> P p a -> P (x :: p) (y :: a)) ->
  forall p a, P p a.
Proof.
  intros H1 H2 H3. induction p as [|x p IHp]; [apply H1|]. induction a as [|y a IHa]; [apply H2|].
  apply H3; auto.
Qed.

Definition below (C : cells) (l : list nat) : Prop := Forall (fun a => (a < length C)%nat) l.

Lemma put_length C a x : length (put C a x) = length C.
Proof. revert a. induction C as [|y C IH]; intros [|a]; cbn; auto. Qed.
Lemma cell_put_same C a x : (a < length C)%nat -> cell (put C a x) a = x.
Proof. revert a. induction C as [|y C IH]; intros [|a] L; cbn in L; try lia; [reflexivity|]. apply IH. lia. Qed.
Lemma cell_put_other C a b x : a <> b -> cell (put C a x) b = cell C b.
Proof.
  revert a b. induction C as [|y C IH]; intros [|a] [|b] N; try reflexivity; [lia|]. cbn. apply IH. lia.
Qed.
Lemma cell_app C D a : (a < length C)%nat -> cell (C ++ D) a = cell C a.
Proof. intro L. unfold cell. apply app_nth1, L. Qed.
Lemma cell_new C x : cell (C ++ [x]) (length C) = x.
Proof. unfold cell. rewrite app_nth2, Nat.sub_diag by lia. reflexivity. Qed.
Lemma len_app (C D : cells) : length (C ++ D) = (length C + length D)%nat.
Proof. apply app_length. Qed.
Lemma below_app (C D : cells) l : below C l -> below (C ++ D) l.
Proof. intro B. eapply Forall_impl; [|exact B]. intros a A. cbv beta in *. rewrite len_app. lia. Qed.
Lemma below_put C a x l : below C l -> below (put C a x) l.
Proof. intro B. eapply Forall_impl; [|exact B]. intros b A. rewrite put_length. exact A. Qed.
Lemma vals_ext C D l : (forall a, In a l -> cell D a = cell C a) -> vals D l = vals C l.
Proof. intro E. unfold vals. apply map_ext_in. exact E. Qed.
Lemma vals_put C a x l : ~ In a l -> vals (put C a x) l = vals C l.
Proof. intro N. apply vals_ext. intros b B. apply cell_put_other. intros ->. contradiction. Qed.
Lemma vals_app C D l : below C l -> vals (C ++ D) l = vals C l.
Proof. intro B. unfold below in B. rewrite Forall_forall in B. apply vals_ext. intros a A. apply cell_app, B, A. Qed.

(** map over cells *)
Lemma map_cells_length f l : forall C, length (h_map_cells f l C) = length C.
Proof. induction l as [|a l IH]; intro C; [reflexivity|]. cbn [h_map_cells]. rewrite IH. apply put_length. Qed.
Lemma map_cells_other f l : forall C b, ~ In b l -> cell (h_map_cells f l C) b = cell C b.
Proof.
  induction l as [|a l IH]; intros C b N; [reflexivity|]. cbn [h_map_cells In] in *. rewrite IH by tauto. apply cell_put_other. tauto.
Qed.
Lemma map_cells_vals f l : forall C, NoDup l -> below C l -> vals (h_map_cells f l C) l = map f (vals C l).
Proof.
  induction l as [|a l IH]; intros C N B; [reflexivity|]. inversion N as [|? ? Na Nl]; inversion B as [|? ? Ba Bl]; subst.
  cbn [h_map_cells]. cbn [vals map]. fold (vals (h_map_cells f l (put C a (f (cell C a)))) l). fold (vals C l). f_equal.
  - rewrite map_cells_other by assumption. apply cell_put_same, Ba.
  - rewrite IH; [|assumption|apply below_put; assumption]. f_equal. apply vals_put, Na.
Qed.

(** reduction: which cells can change *)
Definition framed (C : cells) (ps : list nat) (C' : cells) (r : list nat) : Prop :=
  (length C <= length C')%nat /\ (forall x, (x < length C)%nat -> ~ In x ps -> cell C' x = cell C x) /\
  (forall x, In x r -> (x < length C')%nat /\ (In x ps \/ (length C <= x)%nat)) /\ (NoDup ps -> NoDup r).


Lemma tail_framed m2 k2 qs : forall C r C', h_tail m2 k2 qs C = Ok (r, C') ->
  (length C <= length C')%nat /\ (forall x, In x r -> (length C <= x < length C')%nat) /\ (forall x, (x < length C)%nat -> cell C' x = cell C x) /\ NoDup r.
Proof.
  induction qs as [|b qs IH]; intros C r C' E; cbn [h_tail] in E.
  - injection E as <- <-. split; [lia|]. split; [intros x []|]. split; [auto|constructor].
  - destruct (py_mul (fst (cell C b)) m2) as [m| | | |]; try discriminate E. cbn [bind] in E.
    destruct (h_tail m2 k2 qs (C ++ [(m, snd (cell C b) * k2)])) as [[r0 C0]| | | |] eqn:E0; try discriminate E. cbn [bind fst snd] in E.
    injection E as <- <-. destruct (IH _ _ _ E0) as (L & R & S & N). rewrite len_app in L, R, S. cbn [length] in L, R, S.
    split; [lia|]. split; [intros x [<-|X]; [lia|specialize (R x X); lia]|]. split; [intros x X; rewrite S by lia; apply cell_app, X|].
    constructor; [intro X; specialize (R _ X); lia|exact N].
Qed.

Lemma red_framed o k1 k2 m2 : forall ps qs C r C', below C ps -> h_red_merge o k1 k2 m2 ps qs C = Ok (r, C') -> framed C ps C' r.
Proof.
  refine (pair_ind _ _ _ _).
  - intros qs C r C' _ E. change (h_red_merge o k1 k2 m2 [] qs C) with (h_tail m2 k2 qs C) in E.
    destruct (tail_framed _ _ _ _ _ _ E) as (L & R & S & N). split; [exact L|]. split; [auto|]. split; [|auto].
    intros x X. specialize (R x X). lia.
  - intros ps C r C' B E. destruct ps as [|a ps].
    + injection E as <- <-. split; [lia|]. split; [auto|]. split; [intros x []|auto].
    + change (h_red_merge o k1 k2 m2 (a :: ps) [] C) with (Ok (a :: ps, h_map_cells (fun x => (fst x, snd x * k1)) (a :: ps) C)) in E.
      injection E as <- <-. split; [change (put C a (fst (cell C a), snd (cell C a) * k1)) with (put C a (fst (cell C a), snd (cell C a) * k1)); rewrite map_cells_length, put_length; lia|].
      split; [intros x _ X; apply (map_cells_other (fun x0 => (fst x0, snd x0 * k1)) (a :: ps)), X|]. split; [|auto].
      intros x X. rewrite map_cells_length, put_length. unfold below in B. rewrite Forall_forall in B. auto.
  - intros a ps b qs I1 I2 I3 C r C' B E. inversion B as [|? ? Ba Bp]; subst.
    change (h_red_merge o k1 k2 m2 (a :: ps) (b :: qs) C) with
      (do um <- py_mul (fst (cell C b)) m2;
       let m := fst (cell C a) in let k := snd (cell C a) in let d := snd (cell C b) in let c := py_cmp o m um in
       if 0 <? c then do r <- h_red_merge o k1 k2 m2 ps (b :: qs) (put C a (m, k * k1)); Ok (a :: fst r, snd r)
       else if c <? 0 then do r <- h_red_merge o k1 k2 m2 (a :: ps) qs (C ++ [(um, d * k2)]); Ok (length C :: fst r, snd r)
       else if k * k1 + d * k2 =? 0 then h_red_merge o k1 k2 m2 ps qs C
       else do r <- h_red_merge o k1 k2 m2 ps qs (put C a (m, k * k1 + d * k2)); Ok (a :: fst r, snd r)) in E.
    destruct (py_mul (fst (cell C b)) m2) as [um| | | |]; try discriminate E. cbn [bind] in E. cbv zeta in E.
    assert (Keep : forall v qs', (forall C r C', below C ps -> h_red_merge o k1 k2 m2 ps qs' C = Ok (r, C') -> framed C ps C' r) ->
      (do r <- h_red_merge o k1 k2 m2 ps qs' (put C a v); Ok (a :: fst r, snd r)) = Ok (r, C') -> framed C (a :: ps) C' r).
    { intros v qs' I X. destruct (h_red_merge o k1 k2 m2 ps qs' (put C a v)) as [[r0 C0]| | | |] eqn:E0; try discriminate X. cbn [bind fst snd] in X.
      injection X as <- <-. destruct (I _ _ _ (below_put _ _ _ _ Bp) E0) as (L & F & A & N). rewrite put_length in *.
      split; [exact L|]. split; [|split].
      - intros x Lx Nx. cbn [In] in Nx. rewrite F by tauto. apply cell_put_other. tauto.
      - intros x [<-|X]; [split; [lia|left; now left]|]. destruct (A x X) as [A1 A2]. split; [exact A1|]. destruct A2; [left; now right|now right].
      - intro ND. inversion ND as [|? ? Na Np]; subst. constructor; [|auto]. intro X. destruct (A a X) as [_ [Y|Y]]; [contradiction|lia]. }
    destruct (0 <? py_cmp o (fst (cell C a)) um); [apply (Keep _ _ I1 E)|].
    destruct (py_cmp o (fst (cell C a)) um <? 0).
    + destruct (h_red_merge o k1 k2 m2 (a :: ps) qs (C ++ [(um, snd (cell C b) * k2)])) as [[r0 C0]| | | |] eqn:E0; try discriminate E. cbn [bind fst snd] in E.
      injection E as <- <-. destruct (I2 _ _ _ (below_app _ _ _ B) E0) as (L & F & A & N). rewrite len_app in *. cbn [length] in *.
      split; [lia|]. split; [|split].
      * intros x Lx Nx. rewrite F by (try lia; assumption). apply cell_app, Lx.
      * intros x [<-|X]; [split; [lia|right; lia]|]. destruct (A x X) as [A1 A2]. split; [exact A1|]. destruct A2; [now left|right; lia].
      * intro ND. constructor; [|auto]. intro X. destruct (A _ X) as [_ [Y|Y]]; [|lia].
        unfold below in B. rewrite Forall_forall in B. specialize (B _ Y). lia.
    + destruct (snd (cell C a) * k1 + snd (cell C b) * k2 =? 0); [|apply (Keep _ _ I3 E)].
      destruct (I3 _ _ _ Bp E) as (L & F & A & N). split; [exact L|]. split; [|split].
      * intros x Lx Nx. cbn [In] in Nx. apply F; tauto.
      * intros x X. destruct (A x X) as [A1 A2]. split; [exact A1|]. destruct A2; [left; now right|now right].
      * intro ND. inversion ND; auto.
Qed.

(** values of the results *)
Definition apart (ps qs : list nat) : Prop := forall x, In x ps -> In x qs -> False.
Definition vals_of (x : list nat * cells) : ppoly := vals (snd x) (fst x).

Lemma bind_bind {A B D} (x : outcome A) (f : A -> outcome B) (g : B -> outcome D) : (do b <- (do a <- x; f a); g b) = (do a <- x; do b <- f a; g b).
Proof. destruct x; reflexivity. Qed.
Lemma bind_ext {A B} (x : outcome A) (f g : A -> outcome B) : (forall a, x = Ok a -> f a = g a) -> (do a <- x; f a) = (do a <- x; g a).
Proof. intro E. destruct x; cbn [bind]; auto. Qed.

Lemma tail_value m2 k2 qs : forall C, below C qs -> (do x <- h_tail m2 k2 qs C; Ok (vals_of x)) = py_tail m2 k2 (vals C qs).
Proof.
  induction qs as [|b qs IH]; intros C B; [reflexivity|]. inversion B as [|? ? Bb Bq]; subst. cbn [h_tail vals map]. fold (vals C qs).
  destruct (cell C b) as [u d] eqn:Eb. cbn [py_tail fst snd]. destruct (py_mul u m2) as [m| | | |]; try reflexivity. cbn [bind].
  rewrite <- (vals_app C [(m, d * k2)] qs Bq), <- IH by (apply below_app, Bq). rewrite !bind_bind. apply bind_ext. intros [r C'] E.
  cbn [bind fst snd]. unfold vals_of. cbn [fst snd vals map]. f_equal. f_equal.
  destruct (tail_framed _ _ _ _ _ _ E) as (_ & _ & S & _). rewrite S by (rewrite len_app; cbn [length]; lia). apply cell_new.
Qed.

Lemma red_value o k1 k2 m2 : forall ps qs C, below C ps -> below C qs -> NoDup ps -> apart ps qs ->
  (do x <- h_red_merge o k1 k2 m2 ps qs C; Ok (vals_of x)) = py_red_merge o k1 k2 m2 (vals C ps) (vals C qs).
Proof.
  refine (pair_ind _ _ _ _).
  - intros qs C _ B _ _. change (h_red_merge o k1 k2 m2 [] qs C) with (h_tail m2 k2 qs C). apply tail_value, B.
  - intros [|a ps] C B _ N _; [reflexivity|].
    change (h_red_merge o k1 k2 m2 (a :: ps) [] C) with (Ok (a :: ps, h_map_cells (fun x => (fst x, snd x * k1)) (a :: ps) C)). cbn [bind].
    unfold vals_of. cbn [fst snd]. rewrite map_cells_vals by assumption. cbn [vals map]. destruct (cell C a). reflexivity.
  - intros a ps b qs I1 I2 I3 C B Bq N A. inversion B as [|? ? Ba Bp]; inversion Bq as [|? ? Bb Bqs]; inversion N as [|? ? Na Np]; subst.
    change (h_red_merge o k1 k2 m2 (a :: ps) (b :: qs) C) with
      (do um <- py_mul (fst (cell C b)) m2;
       let m := fst (cell C a) in let k := snd (cell C a) in let d := snd (cell C b) in let c := py_cmp o m um in
       if 0 <? c then do r <- h_red_merge o k1 k2 m2 ps (b :: qs) (put C a (m, k * k1)); Ok (a :: fst r, snd r)
       else if c <? 0 then do r <- h_red_merge o k1 k2 m2 (a :: ps) qs (C ++ [(um, d * k2)]); Ok (length C :: fst r, snd r)
       else if k * k1 + d * k2 =? 0 then h_red_merge o k1 k2 m2 ps qs C
       else do r <- h_red_merge o k1 k2 m2 ps qs (put C a (m, k * k1 + d * k2)); Ok (a :: fst r, snd r)).
    assert (Ap : apart ps (b :: qs)) by (intros x X Y; apply (A x); [now right|exact Y]).
    assert (Ap' : apart ps qs) by (intros x X Y; apply (A x); now right).
    assert (Aq : apart (a :: ps) qs) by (intros x X Y; apply (A x); [exact X|now right]).
    assert (Nb : ~ In a (b :: qs)) by (intro X; apply (A a); [now left|exact X]).
    assert (Keep : forall v qs', below C qs' -> apart ps qs' -> ~ In a qs' ->
      (forall C, below C ps -> below C qs' -> NoDup ps -> apart ps qs' -> (do x <- h_red_merge o k1 k2 m2 ps qs' C; Ok (vals_of x)) = py_red_merge o k1 k2 m2 (vals C ps) (vals C qs')) ->
      (do x <- (do r <- h_red_merge o k1 k2 m2 ps qs' (put C a v); Ok (a :: fst r, snd r)); Ok (vals_of x))
      = do r <- py_red_merge o k1 k2 m2 (vals C ps) (vals C qs'); Ok (v :: r)).
    { intros v qs' Bq' Aq' Na' I. specialize (I (put C a v) (below_put _ _ _ _ Bp) (below_put _ _ _ _ Bq') Np Aq').
      rewrite !vals_put in I by assumption. rewrite <- I, !bind_bind. apply bind_ext. intros [r C'] E. cbn [bind]. unfold vals_of. cbn [fst snd vals map]. f_equal. f_equal.
      destruct (red_framed _ _ _ _ _ _ _ _ _ (below_put _ _ _ _ Bp) E) as (_ & F & _). rewrite F; [apply cell_put_same, Ba|rewrite put_length; exact Ba|exact Na]. }
    cbn [vals map]. fold (vals C ps). fold (vals C qs).
    destruct (cell C b) as [u d] eqn:Eb. destruct (cell C a) as [m k] eqn:Ea. cbn [fst snd].
    change (py_red_merge o k1 k2 m2 ((m, k) :: vals C ps) ((u, d) :: vals C qs)) with
      (do um <- py_mul u m2;
       let c := py_cmp o m um in
       if 0 <? c then do r <- py_red_merge o k1 k2 m2 (vals C ps) ((u, d) :: vals C qs); Ok ((m, k * k1) :: r)
       else if c <? 0 then do r <- py_red_merge o k1 k2 m2 ((m, k) :: vals C ps) (vals C qs); Ok ((um, d * k2) :: r)
       else do r <- py_red_merge o k1 k2 m2 (vals C ps) (vals C qs);
            Ok (if k * k1 + d * k2 =? 0 then r else (m, k * k1 + d * k2) :: r)).
    destruct (py_mul u m2) as [um| | | |]; try reflexivity. cbn [bind]. cbv zeta.
    destruct (0 <? py_cmp o m um).
    + rewrite (Keep (m, k * k1) (b :: qs) Bq Ap Nb I1). cbn [vals map]. rewrite Eb. reflexivity.
    + destruct (py_cmp o m um <? 0).
      * specialize (I2 (C ++ [(um, d * k2)]) (below_app _ _ _ B) (below_app _ _ _ Bqs) N Aq). rewrite !vals_app in I2 by assumption.
        cbn [vals map] in I2. rewrite Ea in I2. refine (eq_trans _ (f_equal (fun z => bind z (fun r => Ok ((um, d * k2) :: r))) I2)). rewrite !bind_bind. apply bind_ext. intros [r C'] E. cbn [bind]. unfold vals_of. cbn [fst snd vals map]. f_equal. f_equal.
        destruct (red_framed _ _ _ _ _ _ _ _ _ (below_app _ _ _ B) E) as (_ & F & _). rewrite F; [apply cell_new|rewrite len_app; cbn [length]; lia|].
        intro X. unfold below in B. rewrite Forall_forall in B. specialize (B _ X). lia.
      * destruct (k * k1 + d * k2 =? 0).
        -- rewrite I3 by assumption. destruct (py_red_merge o k1 k2 m2 (vals C ps) (vals C qs)); reflexivity.
        -- apply (Keep (m, k * k1 + d * k2) qs Bqs Ap'); [|exact I3]. intro X. apply Nb. now right.
Qed.

(** objects *)
Lemma set_obj_length L p l : length (set_obj L p l) = length L.
Proof. revert p. induction L as [|x L IH]; intros [|p]; cbn; auto. Qed.
Lemma set_obj_same L p l : (p < length L)%nat -> nth p (set_obj L p l) [] = l.
Proof. revert p. induction L as [|x L IH]; intros [|p] B; cbn in *; try lia; [reflexivity|]. apply IH. lia. Qed.
Lemma set_obj_other L p l x : x <> p -> nth x (set_obj L p l) [] = nth x L [].
Proof. revert p x. induction L as [|y L IH]; intros [|p] [|x] N; cbn; try reflexivity; [lia|]. apply IH. lia. Qed.
Lemma set_obj_id L p : set_obj L p (nth p L []) = L.
Proof. revert p. induction L as [|y L IH]; intros [|p]; cbn; try reflexivity. f_equal. apply IH. Qed.
Lemma set_obj_twice L p l l' : set_obj (set_obj L p l) p l' = set_obj L p l'.
Proof. revert p. induction L as [|y L IH]; intros [|p]; cbn; try reflexivity. f_equal. apply IH. Qed.

(** each object's cells exist and are different *)
Definition fine (s : hstate) : Prop := forall p, below (hcells s) (obj s p) /\ NoDup (obj s p).

(** only object p, and only cells of p and new ones *)
Definition only (s : hstate) (p : nat) (s' : hstate) : Prop :=
  framed (hcells s) (obj s p) (hcells s') (obj s' p) /\ hobjs s' = set_obj (hobjs s) p (obj s' p).

Lemma framed_refl C ps : below C ps -> framed C ps C ps.
Proof. intro B. unfold below in B. rewrite Forall_forall in B. split; [lia|]. split; [auto|]. split; [|auto]. intros x X. auto. Qed.
Lemma framed_trans C ps C1 r1 C2 r2 : framed C ps C1 r1 -> framed C1 r1 C2 r2 -> framed C ps C2 r2.
Proof.
  intros (L & F & A & N) (L' & F' & A' & N'). split; [lia|]. split; [|split; [|auto]].
  - intros x X Y. rewrite F'; [apply F; assumption|lia|]. intro Z0. destruct (A x Z0) as [_ [U|U]]; [contradiction|lia].
  - intros x X. destruct (A' x X) as [B [U|U]]; (split; [exact B|]); [apply A, U|right; lia].
Qed.
Lemma only_refl s p : fine s -> only s p s.
Proof. intro Fs. split; [apply framed_refl, Fs|]. symmetry. apply set_obj_id. Qed.
Lemma only_trans s p s1 s2 : only s p s1 -> only s1 p s2 -> only s p s2.
Proof.
  intros [F O] [F' O']. split; [exact (framed_trans _ _ _ _ _ _ F F')|]. rewrite O' at 1. rewrite O. apply set_obj_twice.
Qed.
Lemma only_obj s p s' x : only s p s' -> x <> p -> obj s' x = obj s x.
Proof. intros [_ O] N. unfold obj. rewrite O. apply set_obj_other, N. Qed.
Lemma only_val s p s' x : fine s -> only s p s' -> x <> p -> ~ shares s p x -> hval s' x = hval s x.
Proof.
  intros Fs O N S. unfold hval. rewrite (only_obj _ _ _ _ O N). destruct O as [(L & F & _) _]. apply vals_ext. intros a A.
  destruct (Fs x) as [B _]. unfold below in B. rewrite Forall_forall in B. apply F; [apply B, A|]. intro X. apply S. exists a. auto.
Qed.
Lemma only_fine s p s' : fine s -> only s p s' -> fine s'.
Proof.
  intros Fs O x. destruct (Nat.eq_dec x p) as [->|N].
  - destruct O as [(L & F & A & ND) _]. split; [apply Forall_forall; intros a X; apply A, X|apply ND, Fs].
  - rewrite (only_obj _ _ _ _ O N). destruct O as [(L & _) _]. destruct (Fs x) as [B ND]. split; [|exact ND].
    eapply Forall_impl; [|exact B]. cbv beta. intros a X. lia.
Qed.
Lemma only_shares s p s' x y : fine s -> only s p s' -> shares s' x y -> x <> y -> shares s x y.
Proof.
  intros Fs O (a & X & Y) N.
  assert (P : forall z, z <> p -> In a (obj s' p) -> In a (obj s' z) -> In a (obj s p) /\ In a (obj s z)).
  { intros z Nz U V. rewrite (only_obj _ _ _ _ O Nz) in V. split; [|exact V]. destruct O as [(L & F & A & ND) _].
    destruct (A a U) as [_ [W|W]]; [exact W|]. destruct (Fs z) as [B _]. unfold below in B. rewrite Forall_forall in B. specialize (B a V). lia. }
  destruct (Nat.eq_dec x p) as [->|Nx].
  - destruct (P y) as [U V]; auto. exists a. auto.
  - destruct (Nat.eq_dec y p) as [->|Ny].
    + destruct (P x) as [U V]; auto. exists a. auto.
    + rewrite (only_obj _ _ _ _ O Nx) in X. rewrite (only_obj _ _ _ _ O Ny) in Y. exists a. auto.
Qed.

Lemma firstn_In {A} (l : list A) i x : In x (firstn i l) -> In x l.
Proof. revert i. induction l as [|y l IH]; intros [|i]; cbn; try tauto. intros [->|X]; [now left|right; eauto]. Qed.
Lemma skipn_In {A} (l : list A) i x : In x (skipn i l) -> In x l.
Proof. revert i. induction l as [|y l IH]; intros [|i]; cbn; try tauto. right. eauto. Qed.
Lemma nodup_split {A} (l : list A) i : NoDup l -> NoDup (firstn i l) /\ NoDup (skipn (S i) l) /\ (forall x, In x (firstn i l) -> In x (skipn (S i) l) -> False).
Proof.
  intro N. assert (N' := N). rewrite <- (firstn_skipn i l) in N'. revert i N'. induction N as [|x l Nx N IH]; intros [|i] _.
  - repeat split; try constructor. intros x [].
  - repeat split; try constructor. intros x [].
  - cbn. repeat split; try constructor; auto.
  - assert (N' : NoDup (firstn i l ++ skipn i l)) by (rewrite firstn_skipn; exact N).
    destruct (IH i N') as (A1 & A2 & A3). change (skipn (S (S i)) (x :: l)) with (skipn (S i) l). cbn [firstn]. repeat split; auto.
    + constructor; [intro X; apply Nx, (firstn_In _ i), X|exact A1].
    + intros y [<-|Y] Y'; [apply Nx, (skipn_In _ (S i)), Y'|apply (A3 y Y Y')].
Qed.
Lemma nodup_app {A} (l r : list A) : NoDup l -> NoDup r -> (forall x, In x l -> In x r -> False) -> NoDup (l ++ r).
Proof.
  intros N R. induction N as [|x l Nx N IH]; intro D; [exact R|]. cbn. constructor.
  - rewrite in_app_iff. intros [X|X]; [contradiction|apply (D x); [now left|exact X]].
  - apply IH. intros y Y. apply D. now right.
Qed.
Lemma below_sub C l l' : below C l -> (forall x, In x l' -> In x l) -> below C l'.
Proof. unfold below. rewrite !Forall_forall. auto. Qed.

Lemma reduction_only o s p i q s' : fine s -> (p < length (hobjs s))%nat -> h_reduction o s p i q = Ok s' -> only s p s'.
Proof.
  intros Fs Lp E. unfold h_reduction in E. destruct (Nat.eqb p q); [discriminate E|]. cbn [negb assert_ andb] in E.
  destruct (nth_error (obj s p) i) as [a|]; [|discriminate E]. destruct (obj s q) as [|b qs]; [discriminate E|]. cbv zeta in E.
  unfold assert_ in E. destruct (true && negb (py_divisible (fst (cell (hcells s) a)) (fst (cell (hcells s) b)))); [discriminate E|].
  destruct (py_div (fst (cell (hcells s) a)) (fst (cell (hcells s) b))) as [m2| | | |]; try discriminate E. cbn [bind] in E.
  set (k1 := snd (cell (hcells s) b) / Z.gcd (snd (cell (hcells s) a)) (snd (cell (hcells s) b))) in *.
  set (A := firstn i (obj s p)) in *. set (ps := skipn (S i) (obj s p)) in *. set (f := fun x : pterm => (fst x, snd x * k1)) in *.
  destruct (Fs p) as [Bp Np]. destruct (nodup_split _ i Np) as (NA & Nps & D). fold A in NA, D. fold ps in Nps, D.
  assert (IA : forall x, In x A -> In x (obj s p)) by (intros x; apply firstn_In). assert (Ips : forall x, In x ps -> In x (obj s p)) by (intros x; apply skipn_In).
  assert (Bps : below (h_map_cells f A (hcells s)) ps).
  { eapply Forall_impl; [|exact (below_sub _ _ _ Bp Ips)]. cbv beta. intros x X. rewrite map_cells_length. exact X. }
  match type of E with bind ?t _ = _ => destruct t as [[r C']| | | |] eqn:E0 end; try discriminate E. cbn [bind fst snd] in E.
  match type of E with bind ?t _ = _ => destruct t as [z| | | |] end; try discriminate E. cbn [bind] in E. injection E as <-.
  destruct (red_framed _ _ _ _ _ _ _ _ _ Bps E0) as (L & F & AA & ND). rewrite map_cells_length in *.
  unfold only. cbn [hcells hobjs]. unfold obj at 2 3. cbn [hobjs]. rewrite set_obj_same by exact Lp. split; [|reflexivity].
  split; [exact L|]. split; [|split].
  - intros x X Y. rewrite F; [apply map_cells_other|exact X|]; auto.
  - intros x X. apply in_app_or in X. destruct X as [X|X].
    + specialize (IA x X). unfold below in Bp. rewrite Forall_forall in Bp. specialize (Bp x IA). split; [lia|now left].
    + destruct (AA x X) as [U [V|V]]; (split; [exact U|]); [left; auto|now right].
  - intros _. apply nodup_app; [exact NA|apply ND, Nps|]. intros x X Y. destruct (AA x Y) as [_ [V|V]]; [exact (D x X V)|].
    specialize (IA x X). unfold below in Bp. rewrite Forall_forall in Bp. specialize (Bp x IA). lia.
Qed.

Lemma nth_vals C l i : nth_error (vals C l) i = option_map (cell C) (nth_error l i).
Proof. unfold vals. apply nth_error_map. Qed.
Lemma firstn_vals C l i : firstn i (vals C l) = vals C (firstn i l).
Proof. apply firstn_map. Qed.
Lemma skipn_vals C l i : skipn i (vals C l) = vals C (skipn i l).
Proof. apply skipn_map. Qed.
Lemma vals_two C l r : vals C (l ++ r) = vals C l ++ vals C r.
Proof. apply map_app. Qed.

Lemma reduction_value o s p i q : fine s -> (p < length (hobjs s))%nat -> p <> q -> ~ shares s p q ->
  (do s' <- h_reduction o s p i q; Ok (hval s' p)) = py_reduction o (hval s p) i (hval s q).
Proof.
  intros Fs Lp Npq Sh. unfold h_reduction, py_reduction. rewrite (proj2 (Nat.eqb_neq p q) Npq). cbn [negb assert_ andb].
  change (hval s p) with (vals (hcells s) (obj s p)). change (hval s q) with (vals (hcells s) (obj s q)). rewrite nth_vals.
  destruct (nth_error (obj s p) i) as [a|]; [|reflexivity]. cbn [option_map].
  destruct (Fs q) as [Bq Nq]. assert (Sq : forall x, In x (obj s p) -> In x (obj s q) -> False) by (intros x X Y; apply Sh; exists x; auto).
  destruct (obj s q) as [|b qs]; [destruct (cell (hcells s) a); reflexivity|]. cbn [vals map]. fold (vals (hcells s) qs).
  destruct (cell (hcells s) a) as [m k]. destruct (cell (hcells s) b) as [u d]. cbn [fst snd].
  unfold assert_. destruct (true && negb (py_divisible m u)); [reflexivity|]. cbv zeta. destruct (py_div m u) as [m2| | | |]; try reflexivity. cbn [bind].
  set (k1 := d / Z.gcd k d) in *. set (k2 := - (k / Z.gcd k d)) in *.
  rewrite skipn_vals, firstn_vals.
  set (A := firstn i (obj s p)) in *. set (ps := skipn (S i) (obj s p)) in *. set (f := fun x : pterm => (fst x, snd x * k1)) in *.
  destruct (Fs p) as [Bp Np]. destruct (nodup_split _ i Np) as (NA & Nps & D). fold A in NA, D. fold ps in Nps, D.
  assert (IA : forall x, In x A -> In x (obj s p)) by (intros x; apply firstn_In). assert (Ips : forall x, In x ps -> In x (obj s p)) by (intros x; apply skipn_In).
  pose proof (below_sub _ _ _ Bp IA) as BA. pose proof (below_sub _ _ _ Bp Ips) as Bps0.
  assert (Bps : below (h_map_cells f A (hcells s)) ps).
  { eapply Forall_impl; [|exact Bps0]. cbv beta. intros x X. rewrite map_cells_length. exact X. }
  inversion Bq as [|? ? _ Bqs]; subst.
  assert (Bqs' : below (h_map_cells f A (hcells s)) qs).
  { eapply Forall_impl; [|exact Bqs]. cbv beta. intros x X. rewrite map_cells_length. exact X. }
  pose proof (red_value o k1 k2 m2 ps qs (h_map_cells f A (hcells s)) Bps Bqs' Nps) as V.
  rewrite (vals_ext (hcells s) (h_map_cells f A (hcells s)) ps), (vals_ext (hcells s) (h_map_cells f A (hcells s)) qs) in V.
  2: { intros x X. apply map_cells_other. intro Y. apply (Sq x); [auto|now right]. }
  2: { intros x X. apply map_cells_other. intro Y. exact (D x Y X). }
  rewrite <- V by (intros x X Y; apply (Sq x); [auto|now right]). rewrite !bind_bind. apply bind_ext. intros [r C'] E0. cbn [bind fst snd]. unfold vals_of. cbn [fst snd].
  destruct (red_framed _ _ _ _ _ _ _ _ _ Bps E0) as (L & F & AA & ND).
  assert (VA : vals C' A = map f (vals (hcells s) A)).
  { refine (eq_trans _ (map_cells_vals f A (hcells s) NA BA)). apply vals_ext. intros x X. apply F; [|intro Y; exact (D x X Y)].
    rewrite map_cells_length. unfold below in BA. rewrite Forall_forall in BA. apply BA, X. }
  assert (W : vals C' (A ++ r) = map f (vals (hcells s) A) ++ vals C' r) by (rewrite vals_two, VA; reflexivity).
  refine (eq_trans _ (f_equal (py_checked o) W)). unfold py_checked, assert_.
  destruct (py_valid o (vals C' (A ++ r))); [|reflexivity]. cbn [andb negb bind]. unfold hval, obj. cbn [hcells hobjs].
  rewrite set_obj_same by exact Lp. reflexivity.
Qed.

Lemma nfhead_only o p q fuel : forall s s', fine s -> (p < length (hobjs s))%nat -> h_nfhead fuel o s p q = Ok s' -> only s p s'.
Proof.
  induction fuel as [|fuel IH]; intros s s' Fs Lp E; [discriminate E|]. cbn [h_nfhead] in E.
  destruct (hval s p) as [|[m k] v]; [injection E as <-; apply only_refl, Fs|]. destruct (hval s q) as [|[u d] w]; [discriminate E|].
  destruct (py_divisible m u); [|injection E as <-; apply only_refl, Fs].
  destruct (h_reduction o s p 0 q) as [s1| | | |] eqn:E1; try discriminate E. cbn [bind] in E.
  pose proof (reduction_only _ _ _ _ _ _ Fs Lp E1) as O. refine (only_trans _ _ _ _ O (IH _ _ (only_fine _ _ _ Fs O) _ E)).
  rewrite (proj2 O), set_obj_length. exact Lp.
Qed.
Lemma nfhead_value o p q fuel : forall s, fine s -> (p < length (hobjs s))%nat -> p <> q -> ~ shares s p q ->
  (do s' <- h_nfhead fuel o s p q; Ok (hval s' p)) = py_nfhead fuel o (py_find1 (hval s q)) (hval s p).
Proof.
  induction fuel as [|fuel IH]; intros s Fs Lp N Sh; [reflexivity|]. cbn [h_nfhead py_nfhead].
  destruct (hval s p) as [|[m k] v] eqn:Ep; [cbn [bind]; rewrite Ep; reflexivity|].
  destruct (hval s q) as [|[u d] w] eqn:Eq; [reflexivity|]. cbn [py_find1 bind].
  destruct (py_divisible m u); [|cbn [truthy bind]; rewrite Ep; reflexivity]. cbn [truthy].
  rewrite <- Ep, <- Eq, <- (reduction_value o s p 0 q Fs Lp N Sh), !bind_bind. apply bind_ext. intros s1 E1. cbn [bind].
  pose proof (reduction_only _ _ _ _ _ _ Fs Lp E1) as O. rewrite IH.
  - rewrite (only_val s p s1 q Fs O); auto.
  - exact (only_fine _ _ _ Fs O).
  - rewrite (proj2 O), set_obj_length. exact Lp.
  - exact N.
  - intro X. exact (Sh (only_shares _ _ _ _ _ Fs O X N)).
Qed.

(** sums *)
Definition somes (l : list (option nat * pterm)) : list nat :=
  flat_map (fun x => match fst x with Some a => [a] | None => [] end) l.
Definition backed (C : cells) (l : list (option nat * pterm)) : Prop := forall a x, In (Some a, x) l -> (a < length C)%nat /\ cell C a = x.

Lemma place_ok l : forall C C' r, backed C l -> place C l = (C', r) ->
  (length C <= length C')%nat /\ (forall x, (x < length C)%nat -> cell C' x = cell C x) /\ vals C' r = map snd l /\
  (forall x, In x r -> (x < length C')%nat /\ (In x (somes l) \/ (length C <= x)%nat)) /\ (NoDup (somes l) -> NoDup r).
Proof.
  induction l as [|[[a|] x] l IH]; intros C C' r B E; cbn [place] in E.
  - injection E as <- <-. split; [lia|]. split; [auto|]. split; [reflexivity|]. split; [intros x []|constructor].
  - destruct (place C l) as [C0 r0] eqn:E0. injection E as <- <-.
    destruct (IH C C0 r0 (fun b y Y => B b y (or_intror Y)) E0) as (L & F & V & A & N). destruct (B a x (or_introl eq_refl)) as [La Va].
    split; [exact L|]. split; [exact F|]. split; [|split].
    + cbn [vals map snd]. fold (vals C0 r0). rewrite V, F, Va by exact La. reflexivity.
    + intros y [<-|Y]; [split; [lia|left; now left]|]. destruct (A y Y) as [U [W|W]]; (split; [exact U|]); [left; now right|now right].
    + intro ND. change (somes ((Some a, x) :: l)) with (a :: somes l) in ND. inversion ND; subst. constructor; [|auto].
      intro Y. destruct (A a Y) as [_ [W|W]]; [contradiction|lia].
  - destruct (place (C ++ [x]) l) as [C0 r0] eqn:E0. injection E as <- <-.
    assert (B' : backed (C ++ [x]) l).
    { intros b y Y. destruct (B b y (or_intror Y)) as [U W]. split; [rewrite len_app; lia|rewrite cell_app by exact U; exact W]. }
    destruct (IH _ _ _ B' E0) as (L & F & V & A & N). rewrite len_app in L, F, A. cbn [length] in L, F, A.
    split; [lia|]. split; [intros y Y; rewrite F by lia; apply cell_app, Y|]. split; [|split].
    + cbn [vals map snd]. fold (vals C0 r0). rewrite V, F by lia. rewrite cell_new. reflexivity.
    + intros y [<-|Y]; [split; [lia|right; lia]|]. destruct (A y Y) as [U [W|W]]; (split; [exact U|]); [left; exact W|right; lia].
    + intro ND. change (somes ((None, x) :: l)) with (somes l) in ND. constructor; [|auto].
      intro Y. destruct (A _ Y) as [_ [W|W]]; [|lia].
      unfold somes in W. apply in_flat_map in W. destruct W as ([[b|] y] & Y1 & Y2); cbn in Y2; [|contradiction]. destruct Y2 as [->|[]].
      destruct (B _ y (or_intror Y1)) as [U _]. lia.
Qed.

Section Merge.
Variable o : py_order.
Variable sg : Z -> Z.   (* sign of the second operand *)
Variable hm : list (nat * pterm) -> ppoly -> list (option nat * pterm).
Variable pm : ppoly -> ppoly -> ppoly.
Hypothesis hm_nil : forall q, hm [] q = map (fun x => (None, (fst x, sg (snd x)))) q.
Hypothesis pm_nil : forall q, pm [] q = map (fun x => (fst x, sg (snd x))) q.
Hypothesis hm_end : forall x p, hm (x :: p) [] = map (fun x => (Some (fst x), snd x)) (x :: p).
Hypothesis pm_end : forall x p, pm (x :: p) [] = x :: p.
Hypothesis hm_step : forall a m k p u d q, hm ((a, (m, k)) :: p) ((u, d) :: q) =
  let c := py_cmp o m u in
  if 0 <? c then (Some a, (m, k)) :: hm p ((u, d) :: q)
  else if c <? 0 then (None, (u, sg d)) :: hm ((a, (m, k)) :: p) q
  else if k + sg d =? 0 then hm p q else (None, (m, k + sg d)) :: hm p q.
Hypothesis pm_step : forall m k p u d q, pm ((m, k) :: p) ((u, d) :: q) =
  let c := py_cmp o m u in
  if 0 <? c then (m, k) :: pm p ((u, d) :: q)
  else if c <? 0 then (u, sg d) :: pm ((m, k) :: p) q
  else if k + sg d =? 0 then pm p q else (m, k + sg d) :: pm p q.

Lemma gen_snd : forall p q, map snd (hm p q) = pm (map snd p) q.
Proof.
  induction p as [|[a [m k]] p IHp].
  - intro q. rewrite hm_nil. cbn [map]. rewrite pm_nil, map_map. reflexivity.
  - induction q as [|[u d] q IHq].
    + rewrite hm_end. cbn [map snd]. rewrite pm_end, map_map. reflexivity.
    + rewrite hm_step. cbn [map snd]. rewrite pm_step. cbv zeta. destruct (0 <? py_cmp o m u); [cbn [map snd]; rewrite IHp; reflexivity|].
      destruct (py_cmp o m u <? 0); [cbn [map snd]; f_equal; exact IHq|].
      destruct (k + sg d =? 0); [apply IHp|]. cbn [map snd]. rewrite IHp. reflexivity.
Qed.
Lemma gen_in : forall p q a x, In (Some a, x) (hm p q) -> In (a, x) p.
Proof.
  induction p as [|[b [m k]] p IHp].
  - intros q a x X. rewrite hm_nil in X. apply in_map_iff in X. destruct X as (y & Y & _). discriminate Y.
  - induction q as [|[u d] q IHq]; intros a x X.
    + rewrite hm_end in X. apply in_map_iff in X. destruct X as ([b' y] & Y & Z0). injection Y as <- <-. exact Z0.
    + rewrite hm_step in X. cbv zeta in X. destruct (0 <? py_cmp o m u).
      * destruct X as [X|X]; [injection X as <- <-; now left|right; exact (IHp _ _ _ X)].
      * destruct (py_cmp o m u <? 0); [destruct X as [X|X]; [discriminate X|exact (IHq _ _ X)]|].
        destruct (k + sg d =? 0); [right; exact (IHp _ _ _ X)|]. destruct X as [X|X]; [discriminate X|right; exact (IHp _ _ _ X)].
Qed.
Lemma somes_in l a : In a (somes l) -> exists x, In (Some a, x) l.
Proof.
  intro W. unfold somes in W. apply in_flat_map in W. destruct W as ([[b|] y] & Y1 & Y2); cbn in Y2; [|contradiction].
  destruct Y2 as [->|[]]. exists y. exact Y1.
Qed.
Lemma gen_fst p q a : In a (somes (hm p q)) -> In a (map fst p).
Proof. intro X. destruct (somes_in _ _ X) as [x Y]. apply gen_in in Y. apply in_map_iff. exists (a, x). auto. Qed.
Lemma somes_all (l : list (nat * pterm)) : NoDup (map fst l) -> NoDup (somes (map (fun x => (Some (fst x), snd x)) l)).
Proof.
  induction l as [|[c y] l IHl]; intro N; [apply NoDup_nil|].
  inversion N as [|? ? Nc Nl]; subst. change (NoDup (c :: somes (map (fun x => (Some (fst x), snd x)) l))). constructor; [|apply IHl; assumption].
  intro X. apply somes_in in X. destruct X as [x X]. apply in_map_iff in X. destruct X as ([b' y'] & Y & Z0). injection Y as -> ->.
  apply Nc. apply in_map_iff. exists (c, x). auto.
Qed.
Lemma gen_nodup : forall p q, NoDup (map fst p) -> NoDup (somes (hm p q)).
Proof.
  induction p as [|[b [m k]] p IHp].
  - intros q _. rewrite hm_nil. induction q as [|y q IHq]; [apply NoDup_nil|exact IHq].
  - induction q as [|[u d] q IHq]; intros N; inversion N as [|? ? Nb Np]; subst.
    + rewrite hm_end. exact (somes_all _ N).
    + rewrite hm_step. cbv zeta. destruct (0 <? py_cmp o m u).
      * change (NoDup (b :: somes (hm p ((u, d) :: q)))). constructor; [intro X; apply Nb, (gen_fst _ _ _ X)|apply IHp, Np].
      * destruct (py_cmp o m u <? 0); [exact (IHq N)|]. destruct (k + sg d =? 0); apply (IHp q Np).
Qed.
End Merge.

Lemma map_id_pair (q : ppoly) : map (fun x : pterm => (fst x, snd x)) q = q.
Proof. induction q as [|[m k] q IH]; [reflexivity|]. cbn [map fst snd]. rewrite IH. reflexivity. Qed.

Lemma merge_ok o p q :
  map snd (h_merge o p q) = py_merge o (map snd p) q /\ (forall a x, In (Some a, x) (h_merge o p q) -> In (a, x) p) /\ (NoDup (map fst p) -> NoDup (somes (h_merge o p q))).
Proof.
  assert (E1 : forall q, h_merge o [] q = map (fun x => (None, (fst x, snd x))) q) by (intro l; induction l as [|[m k] l IH]; [reflexivity|]; cbn [map fst snd]; rewrite <- IH; reflexivity).
  assert (E2 : forall q, py_merge o [] q = map (fun x => (fst x, snd x)) q) by (intro l; rewrite map_id_pair; reflexivity).
  assert (E3 : forall x p, h_merge o (x :: p) [] = map (fun x => (Some (fst x), snd x)) (x :: p)) by (intros [a [m k]] l; reflexivity).
  assert (E4 : forall x p, py_merge o (x :: p) [] = x :: p) by (intros [m k] l; reflexivity).
  split; [|split].
  - exact (gen_snd o (fun z => z) (h_merge o) (py_merge o) E1 E2 E3 E4 (fun _ _ _ _ _ _ _ => eq_refl) (fun _ _ _ _ _ _ => eq_refl) p q).
  - exact (gen_in o (fun z => z) (h_merge o) E1 E3 (fun _ _ _ _ _ _ _ => eq_refl) p q).
  - exact (gen_nodup o (fun z => z) (h_merge o) E1 E3 (fun _ _ _ _ _ _ _ => eq_refl) p q).
Qed.

Lemma merge_sub_ok o p q :
  map snd (h_merge_sub o p q) = py_merge_sub o (map snd p) q /\ (forall a x, In (Some a, x) (h_merge_sub o p q) -> In (a, x) p) /\ (NoDup (map fst p) -> NoDup (somes (h_merge_sub o p q))).
Proof.
  assert (E1 : forall q, h_merge_sub o [] q = map (fun x => (None, (fst x, - snd x))) q) by reflexivity.
  assert (E2 : forall q, py_merge_sub o [] q = map (fun x => (fst x, - snd x)) q) by reflexivity.
  assert (E3 : forall x p, h_merge_sub o (x :: p) [] = map (fun x => (Some (fst x), snd x)) (x :: p)) by (intros [a [m k]] l; reflexivity).
  assert (E4 : forall x p, py_merge_sub o (x :: p) [] = x :: p) by (intros [m k] l; reflexivity).
  split; [|split].
  - exact (gen_snd o Z.opp (h_merge_sub o) (py_merge_sub o) E1 E2 E3 E4 (fun _ _ _ _ _ _ _ => eq_refl) (fun _ _ _ _ _ _ => eq_refl) p q).
  - exact (gen_in o Z.opp (h_merge_sub o) E1 E3 (fun _ _ _ _ _ _ _ => eq_refl) p q).
  - exact (gen_nodup o Z.opp (h_merge_sub o) E1 E3 (fun _ _ _ _ _ _ _ => eq_refl) p q).
Qed.

(** one step *)
Definition grows (s : hstate) (own : list nat) (s' : hstate) (r : nat) : Prop :=
  (length (hcells s) <= length (hcells s'))%nat /\ (forall x, (x < length (hcells s))%nat -> cell (hcells s') x = cell (hcells s) x) /\
  r = length (hobjs s) /\ exists l, hobjs s' = hobjs s ++ [l] /\
  (forall x, In x l -> (x < length (hcells s'))%nat /\ (In x own \/ (length (hcells s) <= x)%nat)) /\ NoDup l.

Lemma new_obj L (l : list nat) : nth (length L) (L ++ [l]) [] = l.
Proof. rewrite app_nth2, Nat.sub_diag by lia. reflexivity. Qed.

Lemma seq_vals (C v : cells) : vals (C ++ v) (seq (length C) (length v)) = v.
Proof.
  revert C. induction v as [|x v IH]; intro C; [reflexivity|]. cbn [length seq vals map].
  fold (vals (C ++ x :: v) (seq (S (length C)) (length v))). f_equal.
  - unfold cell. rewrite app_nth2, Nat.sub_diag by lia. reflexivity.
  - specialize (IH (C ++ [x])). rewrite len_app in IH. cbn [length] in IH. rewrite Nat.add_1_r, <- app_assoc in IH. exact IH.
Qed.

Lemma fresh_grows s x s' r own : h_fresh s x = Ok (s', r) -> grows s own s' r /\ x = Ok (hval s' r).
Proof.
  unfold h_fresh. destruct x as [v| | | |]; try discriminate. cbn [bind]. unfold h_new. intro E. injection E as <- <-. split.
  - unfold grows. cbn [hcells hobjs]. rewrite len_app. split; [lia|]. split; [intros y Y; apply cell_app, Y|]. split; [reflexivity|].
    eexists. split; [reflexivity|]. split; [|apply seq_NoDup]. intros y Y. apply in_seq in Y. split; [lia|right; lia].
  - unfold hval, obj. cbn [hcells hobjs]. rewrite new_obj, seq_vals. reflexivity.
Qed.
Lemma fresh_value s x : (do r <- h_fresh s x; Ok (hval (fst r) (snd r))) = x.
Proof. destruct (h_fresh s x) as [[s' r]| | | |] eqn:E; [destruct (fresh_grows _ _ _ _ [] E) as [_ ->]; reflexivity| | | |]; destruct x; try discriminate E; reflexivity. Qed.

Lemma tagged_fst s p : map fst (tagged s p) = obj s p.
Proof. unfold tagged. rewrite map_map. apply map_id. Qed.
Lemma tagged_snd s p : map snd (tagged s p) = hval s p.
Proof. unfold tagged. rewrite map_map. reflexivity. Qed.

Lemma placed_ok o s p l v : fine s -> map snd l = v -> (forall a x, In (Some a, x) l -> In (a, x) (tagged s p)) -> NoDup (somes l) ->
  (do r <- h_placed o s l; Ok (hval (fst r) (snd r))) = py_checked o v /\
  (forall s' r, h_placed o s l = Ok (s', r) -> grows s (obj s p) s' r).
Proof.
  intros Fs E I N. destruct (Fs p) as [Bp _]. unfold below in Bp. rewrite Forall_forall in Bp.
  assert (T : forall a x, In (a, x) (tagged s p) -> In a (obj s p) /\ x = cell (hcells s) a).
  { intros a x X. unfold tagged in X. apply in_map_iff in X. destruct X as (b & Eb & Hb). injection Eb as <- <-. auto. }
  assert (B : backed (hcells s) l) by (intros a x X; destruct (T a x (I a x X)) as [U ->]; auto).
  unfold h_placed. destruct (place (hcells s) l) as [C r] eqn:P. destruct (place_ok _ _ _ _ B P) as (L & F & V & A & ND).
  split.
  - rewrite V, E. unfold py_checked, assert_. destruct (py_valid o v); [|reflexivity]. cbn [andb negb bind fst snd].
    unfold hval, obj. cbn [hcells hobjs]. rewrite new_obj, V, E. reflexivity.
  - intros s' r' X. destruct (py_checked o (vals C r)); try discriminate X. cbn [bind] in X. injection X as <- <-. unfold grows. cbn [hcells hobjs].
    split; [exact L|]. split; [exact F|]. split; [reflexivity|]. exists r. split; [reflexivity|]. split; [|auto].
    intros x X. destruct (A x X) as [U [W|W]]; (split; [exact U|]); [left|now right]. destruct (somes_in _ _ W) as [y Y]. apply (T x y (I x y Y)).
Qed.
Lemma merge_placed o s p q : fine s ->
  (do r <- h_placed o s (h_merge o (tagged s p) q); Ok (hval (fst r) (snd r))) = py_add o (hval s p) q /\
  (forall s' r, h_placed o s (h_merge o (tagged s p) q) = Ok (s', r) -> grows s (obj s p) s' r).
Proof.
  intro Fs. destruct (merge_ok o (tagged s p) q) as (A & B & D). rewrite tagged_snd in A. rewrite tagged_fst in D.
  apply (placed_ok o s p _ _ Fs A B). apply D, Fs.
Qed.
Lemma merge_sub_placed o s p q : fine s ->
  (do r <- h_placed o s (h_merge_sub o (tagged s p) q); Ok (hval (fst r) (snd r))) = py_sub o (hval s p) q /\
  (forall s' r, h_placed o s (h_merge_sub o (tagged s p) q) = Ok (s', r) -> grows s (obj s p) s' r).
Proof.
  intro Fs. destruct (merge_sub_ok o (tagged s p) q) as (A & B & D). rewrite tagged_snd in A. rewrite tagged_fst in D.
  apply (placed_ok o s p _ _ Fs A B). apply D, Fs.
Qed.

Lemma map_only s p f : fine s -> only s p (H (h_map_cells f (obj s p) (hcells s)) (hobjs s)).
Proof.
  intro Fs. destruct (Fs p) as [Bp Np]. unfold below in Bp. rewrite Forall_forall in Bp. unfold only. cbn [hcells hobjs].
  change (obj (H (h_map_cells f (obj s p) (hcells s)) (hobjs s)) p) with (obj s p). split; [|symmetry; apply set_obj_id].
  unfold framed. rewrite map_cells_length. split; [lia|]. split; [intros x _ X; apply map_cells_other, X|]. split; [|auto]. intros x X. auto.
Qed.

Lemma step_value fuel o n op s : fine s -> (forall p, In p (operands op) -> (p < length (hobjs s))%nat) -> proper op ->
  (forall p q, changes op = Some p -> In q (operands op) -> q <> p -> ~ shares s p q) ->
  (do r <- h_step fuel o n op s; Ok (hval (fst r) (snd r))) = value_op fuel o n (hval s) op.
Proof.
  intros Fs Ops Pr Sh. destruct op; cbn [h_step value_op]; try apply fresh_value.
  - apply merge_placed, Fs.
  - apply merge_sub_placed, Fs.
  - unfold py_add_int. destruct (c =? 0); [reflexivity|]. apply merge_placed, Fs.
  - unfold py_sub_int. destruct (c =? 0); [reflexivity|]. apply merge_sub_placed, Fs.
  - unfold py_times_int. destruct (c =? 1); [reflexivity|]. apply fresh_value.
  - destruct (j =? 1) eqn:E; [|apply fresh_value]. apply Z.eqb_eq in E. subst. reflexivity.
  - unfold py_pp. destruct (hval s p) as [|[m k] v] eqn:Ep; [reflexivity|]. destruct (py_content k v) as [g|]; [|cbn [bind fst snd]; rewrite Ep; reflexivity].
    cbv zeta. destruct (Fs p) as [Bp Np]. pose proof (map_cells_vals (fun x => (fst x, snd x / g)) _ _ Np Bp) as V. fold (hval s p) in V. rewrite Ep in V.
    refine (eq_trans _ (f_equal (py_checked o) V)). unfold py_checked, assert_.
    destruct (py_valid o (vals (h_map_cells (fun x : pterm => (fst x, snd x / g)) (obj s p) (hcells s)) (obj s p))); reflexivity.
  - unfold h_inplace. rewrite bind_bind. cbn [bind fst snd]. apply reduction_value; [exact Fs|apply Ops; cbn; auto|exact Pr|].
    apply (Sh p q); [reflexivity|cbn; auto|]. intro E. apply Pr. now symmetry.
  - unfold py_reduce. destruct (hval s p) as [|x v] eqn:Ep; [reflexivity|]. destruct (hval s q) as [|[lm d] w] eqn:Eq; [reflexivity|].
    destruct (py_position o 0 (x :: v) lm) as [i|]; [|cbn [bind fst snd]; rewrite Ep; reflexivity].
    unfold h_inplace. rewrite bind_bind. cbn [bind fst snd]. rewrite <- Ep, <- Eq. apply reduction_value; [exact Fs|apply Ops; cbn; auto|exact Pr|].
    apply (Sh p q); [reflexivity|cbn; auto|]. intro E. apply Pr. now symmetry.
  - unfold h_inplace. rewrite bind_bind. cbn [bind fst snd]. apply nfhead_value; [exact Fs|apply Ops; cbn; auto|exact Pr|].
    apply (Sh p q); [reflexivity|cbn; auto|]. intro E. apply Pr. now symmetry.
Qed.

Definition own_cells (s : hstate) (op : hop) : list nat := if sum_op op then match operands op with p :: _ => obj s p | [] => [] end else [].

Lemma step_kind fuel o n op s s' r : fine s -> (forall p, In p (operands op) -> (p < length (hobjs s))%nat) ->
  h_step fuel o n op s = Ok (s', r) ->
  match changes op with
  | Some p => r = p /\ only s p s'
  | None => (s' = s /\ In r (operands op) /\ sum_op op = false) \/ grows s (own_cells s op) s' r
  end.
Proof.
  intros Fs Ops E. destruct op; cbn [h_step changes] in *; unfold own_cells; cbn [sum_op operands]; try (right; apply (fresh_grows _ _ _ _ _ E)).
  - right. eapply (proj2 (merge_placed o s p _ Fs)), E.
  - right. eapply (proj2 (merge_sub_placed o s p _ Fs)), E.
  - destruct (c =? 0); cbn [negb]; [left; injection E as <- <-; cbn; auto|]. right. eapply (proj2 (merge_placed o s p _ Fs)), E.
  - destruct (c =? 0); cbn [negb]; [left; injection E as <- <-; cbn; auto|]. right. eapply (proj2 (merge_sub_placed o s p _ Fs)), E.
  - destruct (c =? 1); [left; injection E as <- <-; cbn; auto|]. right; apply (fresh_grows _ _ _ _ _ E).
  - destruct (j =? 1); [left; injection E as <- <-; cbn; auto|]. right; apply (fresh_grows _ _ _ _ _ E).
  - destruct (hval s p) as [|[m k] v]; [discriminate E|]. destruct (py_content k v) as [g|]; [|injection E as <- <-; split; [reflexivity|apply only_refl, Fs]].
    cbv zeta in E. match type of E with bind ?t _ = _ => destruct t end; try discriminate E. cbn [bind] in E. injection E as <- <-. split; [reflexivity|].
    apply map_only, Fs.
  - unfold h_inplace in E. destruct (h_reduction o s p i q) as [s1| | | |] eqn:E1; try discriminate E. cbn [bind] in E. injection E as <- <-. split; [reflexivity|].
    apply (reduction_only _ _ _ _ _ _ Fs (Ops p (or_introl eq_refl)) E1).
  - destruct (hval s p) as [|x v] eqn:Ep; [discriminate E|]. destruct (hval s q) as [|[lm d] w] eqn:Eq; [discriminate E|].
    destruct (py_position o 0 (x :: v) lm) as [i|]; [|injection E as <- <-; split; [reflexivity|apply only_refl, Fs]].
    unfold h_inplace in E. destruct (h_reduction o s p i q) as [s1| | | |] eqn:E1; try discriminate E. cbn [bind] in E. injection E as <- <-. split; [reflexivity|].
    apply (reduction_only _ _ _ _ _ _ Fs (Ops p (or_introl eq_refl)) E1).
  - unfold h_inplace in E. destruct (h_nfhead fuel o s p q) as [s1| | | |] eqn:E1; try discriminate E. cbn [bind] in E. injection E as <- <-. split; [reflexivity|].
    apply (nfhead_only _ _ _ _ _ _ Fs (Ops p (or_introl eq_refl)) E1).
Qed.

Lemma grows_old s own s' r x : grows s own s' r -> (x < length (hobjs s))%nat -> obj s' x = obj s x.
Proof. intros (_ & _ & _ & l & E & _) X. unfold obj. rewrite E. apply app_nth1, X. Qed.
Lemma obj_none s x : (length (hobjs s) <= x)%nat -> obj s x = [].
Proof. intro L. apply nth_overflow, L. Qed.
Lemma grows_cases s own s' r x : grows s own s' r -> obj s' x = obj s x \/ (x = r /\ forall a, In a (obj s' x) -> (a < length (hcells s'))%nat /\ (In a own \/ (length (hcells s) <= a)%nat)).
Proof.
  intro G. destruct (lt_dec x (length (hobjs s))) as [X|X]; [left; exact (grows_old _ _ _ _ _ G X)|].
  destruct G as (_ & _ & R & l & E & A & _). destruct (Nat.eq_dec x r) as [->|N].
  - right. split; [reflexivity|]. intros a Y. apply A. subst r. unfold obj in Y. rewrite E, new_obj in Y. exact Y.
  - left. rewrite !obj_none; [reflexivity|lia|]. rewrite E, app_length. cbn [length]. lia.
Qed.
Lemma grows_fine s own s' r : fine s -> grows s own s' r -> fine s'.
Proof.
  intros Fs G x. destruct (grows_cases _ _ _ _ x G) as [E|[-> A]].
  - rewrite E. destruct (Fs x) as [B N]. split; [|exact N]. destruct G as (L & _). eapply Forall_impl; [|exact B]. cbv beta. intros a Y. lia.
  - split; [apply Forall_forall; intros a Y; apply A, Y|]. destruct G as (_ & _ & R & l & E & _ & N). subst r. unfold obj. rewrite E, new_obj. exact N.
Qed.

Lemma step_fine fuel o n op s s' r : fine s -> (forall p, In p (operands op) -> (p < length (hobjs s))%nat) -> h_step fuel o n op s = Ok (s', r) -> fine s'.
Proof.
  intros Fs Ops E. pose proof (step_kind _ _ _ _ _ _ _ Fs Ops E) as K. destruct (changes op) as [p|].
  - exact (only_fine _ _ _ Fs (proj2 K)).
  - destruct K as [(-> & _)|G]; [exact Fs|exact (grows_fine _ _ _ _ Fs G)].
Qed.
Lemma reaches_fine o n allowed s : reaches o n allowed s -> fine s.
Proof.
  intro R. induction R as [|fuel s op s' r R IH Al Ops E]; [|exact (step_fine _ _ _ _ _ _ _ IH Ops E)].
  intro p. unfold obj. cbn. destruct p; split; constructor.
Qed.

Lemma step_others fuel o n op s s' r x : fine s -> (forall p, In p (operands op) -> (p < length (hobjs s))%nat) -> h_step fuel o n op s = Ok (s', r) ->
  (x < length (hobjs s))%nat -> (forall p, changes op = Some p -> x <> p /\ ~ shares s p x) -> hval s' x = hval s x.
Proof.
  intros Fs Ops E X Ch. pose proof (step_kind _ _ _ _ _ _ _ Fs Ops E) as K. destruct (changes op) as [p|].
  - destruct (Ch p eq_refl). apply (only_val s p); tauto.
  - destruct K as [(-> & _)|G]; [reflexivity|]. unfold hval. rewrite (grows_old _ _ _ _ _ G X). destruct G as (_ & F & _). apply vals_ext. intros a A. apply F.
    destruct (Fs x) as [B _]. unfold below in B. rewrite Forall_forall in B. auto.
Qed.

Lemma grows_shares s own s' r x y : fine s -> grows s own s' r -> x <> y -> shares s' x y ->
  shares s x y \/ (x = r /\ exists a, In a own /\ In a (obj s y)) \/ (y = r /\ exists a, In a own /\ In a (obj s x)).
Proof.
  intros Fs G N (a & X & Y).
  assert (Old : forall z, In a (obj s z) -> (a < length (hcells s))%nat).
  { intros z Hz. destruct (Fs z) as [B _]. unfold below in B. rewrite Forall_forall in B. auto. }
  destruct (grows_cases _ _ _ _ x G) as [Ex|[Ex Ax]], (grows_cases _ _ _ _ y G) as [Ey|[Ey Ay]].
  - rewrite Ex in X. rewrite Ey in Y. left. exists a. auto.
  - rewrite Ex in X. right. right. split; [exact Ey|]. exists a. split; [|exact X]. destruct (Ay a Y) as [_ [U|U]]; [exact U|]. specialize (Old x X). lia.
  - rewrite Ey in Y. right. left. split; [exact Ex|]. exists a. split; [|exact Y]. destruct (Ax a X) as [_ [U|U]]; [exact U|]. specialize (Old y Y). lia.
  - exfalso. apply N. rewrite Ex, Ey. reflexivity.
Qed.

Lemma no_sums_apart o n s : reaches o n (fun op => sum_op op = false) s -> forall x y, x <> y -> ~ shares s x y.
Proof.
  intro R. induction R as [|fuel s op s' r R IH Al Ops E].
  - intros x y _ (a & X & _). unfold obj in X. cbn in X. destruct x; contradiction.
  - intros x y N Sh. pose proof (reaches_fine _ _ _ _ R) as Fs. pose proof (step_kind _ _ _ _ _ _ _ Fs Ops E) as K. destruct (changes op) as [p|].
    + apply (IH x y N). exact (only_shares _ _ _ _ _ Fs (proj2 K) Sh N).
    + destruct K as [(-> & _)|G]; [exact (IH x y N Sh)|]. unfold own_cells in G. rewrite Al in G.
      destruct (grows_shares _ _ _ _ _ _ Fs G N Sh) as [U|[(_ & a & [] & _)|(_ & a & [] & _)]]. exact (IH x y N U).
Qed.

Lemma step_shares fuel o n op s s' r x y : fine s -> (forall p, In p (operands op) -> (p < length (hobjs s))%nat) -> h_step fuel o n op s = Ok (s', r) ->
  x <> y -> shares s' x y -> shares s x y \/ (sum_op op = true /\ exists p z, hd_error (operands op) = Some p /\ shares s p z /\ (x = r /\ y = z \/ y = r /\ x = z)).
Proof.
  intros Fs Ops E N Sh. pose proof (step_kind _ _ _ _ _ _ _ Fs Ops E) as K. destruct (changes op) as [p|].
  - left. exact (only_shares _ _ _ _ _ Fs (proj2 K) Sh N).
  - destruct K as [(-> & _)|G]; [left; exact Sh|]. unfold own_cells in G.
    destruct (sum_op op); [|destruct (grows_shares _ _ _ _ _ _ Fs G N Sh) as [U|[(_ & a & [] & _)|(_ & a & [] & _)]]; left; exact U].
    destruct (operands op) as [|p l]; [destruct (grows_shares _ _ _ _ _ _ Fs G N Sh) as [U|[(_ & a & [] & _)|(_ & a & [] & _)]]; left; exact U|].
    destruct (grows_shares _ _ _ _ _ _ Fs G N Sh) as [U|[(-> & a & U & V)|(-> & a & U & V)]]; [left; exact U|right|right]; (split; [reflexivity|]).
    + exists p, y. split; [reflexivity|]. split; [exists a; auto|left; auto].
    + exists p, x. split; [reflexivity|]. split; [exists a; auto|right; auto].
Qed.
