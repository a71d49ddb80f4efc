(** Closure properties of [combination] and [rational_member]. *)
From Coq Require Import ZArith List Bool Arith Lia.
From Verif Require Import Outcome MonomModel MonomSpec MonomProofs PolyModel PolySpec PolyProofs PolyRedProofs PolyNfProofs
  JanetSpec JanetPolyModel JanetPolySpec.
Import ListNotations.
Local Open Scope Z_scope.

Lemma mprod_assoc u v x : mprod (Mon (-1) u) (mprod (Mon (-1) v) x) = mprod (Mon (-1) (addv u v)) x.
Proof.
  unfold mprod. cbn [pos vars]. change (-1 =? -1) with true. cbn iota. rewrite !vsum_addv. now rewrite addv_assoc.
Qed.

Lemma shift_shift u v a : shift u (shift v a) = shift (addv u v) a.
Proof. unfold shift. rewrite map_map. apply map_ext. intros [x c]. cbn [fst snd]. now rewrite mprod_assoc. Qed.

Lemma sumc_shift f u a : sumc f (shift u a) = sumc (fun x => f (mprod (Mon (-1) u) x)) a.
Proof. unfold shift. induction a as [|[x c] a IH]; cbn [map sumc fst snd]; [reflexivity|]. now rewrite IH. Qed.

Lemma coef_shift_ext u a b : (forall m, coef a m = coef b m) -> forall m, coef (shift u a) m = coef (shift u b) m.
Proof. intros H m. rewrite !coef_sumc, !sumc_shift. apply sumc_coef. exact H. Qed.

Lemma coef_shift_lin u p q r c1 c2 : (forall m, coef p m = c1 * coef q m + c2 * coef r m) ->
  forall m, coef (shift u p) m = c1 * coef (shift u q) m + c2 * coef (shift u r) m.
Proof.
  intros H m. rewrite (coef_shift_ext u p (scale c1 q ++ scale c2 r)).
  - rewrite !coef_sumc, !sumc_shift, sumc_app, !sumc_scale. reflexivity.
  - intro x. rewrite coef_app, !coef_scale. apply H.
Qed.

Lemma comb_shifted n G u q : length u = n -> combination n G q -> combination n G (shift u q).
Proof.
  intro Lu. induction 1 as [p H|p r v g c Hr IH Hg Hv H].
  - apply comb_zero. intro m. rewrite (coef_shift_ext u p []); [reflexivity|exact H].
  - apply (comb_add n G _ (shift u r) (addv u v) g c); auto.
    + rewrite addv_length; congruence.
    + intro m. rewrite <- shift_shift. rewrite (coef_shift_lin u p r (shift v g) 1 c); [lia|]. intro x. rewrite H. lia.
Qed.

Lemma comb_mono n (G G' : list term -> Prop) q : (forall g, G g -> G' g) -> combination n G q -> combination n G' q.
Proof.
  intros I. induction 1 as [p H|p r v g c Hr IH Hg Hv H]; [apply comb_zero; exact H|].
  apply (comb_add n G' p r v g c); auto.
Qed.

Lemma shift_unit n a : monos n a -> shift (repeat 0%nat n) a = a.
Proof.
  intro M. unfold shift. rewrite <- (map_id a) at 2. apply map_ext_in. intros [x c] Hx. cbn [fst snd].
  f_equal. apply (mprod_unit n). unfold monos in M. rewrite Forall_forall in M. exact (M _ Hx).
Qed.

Lemma comb_self n (G : list term -> Prop) g : G g -> monos n g -> combination n G g.
Proof.
  intros Hg M. apply (comb_add n G g [] (repeat 0%nat n) g 1); auto.
  - apply comb_zero. reflexivity.
  - apply repeat_length.
  - intro m. rewrite (shift_unit n g M). cbn [coef]. lia.
Qed.

Section Member.
Variables (n : nat) (G : list term -> Prop).
Notation mem := (rational_member n G).

Lemma mem_ext p q : (forall m, coef p m = coef q m) -> mem p -> mem q.
Proof. intros E (k & r & K & C & H). exists k, r. split; [exact K|]. split; [exact C|]. intro m. rewrite H, E. reflexivity. Qed.

Lemma mem_gen g : G g -> monos n g -> mem g.
Proof. intros Hg M. exists 1, g. split; [lia|]. split; [apply comb_self; assumption|]. intro m. lia. Qed.

Lemma mem_lin p q r a b : mem p -> mem q -> (forall m, coef r m = a * coef p m + b * coef q m) -> mem r.
Proof.
  intros (k & p' & K & C & H) (k' & q' & K' & C' & H') E.
  exists (k * k'), (scale (a * k') p' ++ scale (b * k) q'). split; [nia|].
  split; [apply comb_app; apply comb_scale; assumption|].
  intro m. rewrite coef_app, !coef_scale, H, H', E. ring.
Qed.

Lemma mem_shift u p : length u = n -> mem p -> mem (shift u p).
Proof.
  intros Lu (k & q & K & C & H). exists k, (shift u q). split; [exact K|]. split; [apply comb_shifted; assumption|].
  intro m. rewrite (coef_shift_lin u q p [] k 0); [cbn; lia|]. intro x. rewrite H. cbn. lia.
Qed.

Lemma mem_div p q g : g <> 0 -> mem p -> (forall m, coef p m = g * coef q m) -> mem q.
Proof.
  intros Hg (k & r & K & C & H) E. exists (k * g), r. split; [nia|]. split; [exact C|]. intro m. rewrite H, E. ring.
Qed.

Lemma mem_zero p : (forall m, coef p m = 0) -> mem p.
Proof. intro H. exists 1, []. split; [lia|]. split; [apply comb_zero; reflexivity|]. intro m. rewrite H. reflexivity. Qed.

(** Combinations of members are members. *)
Lemma comb_mem q : combination n mem q -> mem q.
Proof.
  induction 1 as [p H|p r u g c Hr IH Hg Hu H]; [apply mem_zero; exact H|].
  apply (mem_lin r (shift u g) p 1 c); [exact IH|apply mem_shift; assumption|]. intro m. rewrite H. lia.
Qed.

Lemma mem_congruent (G' : list term -> Prop) f r : (forall g, G' g -> mem g) -> mem f -> congruent n G' f r -> mem r.
Proof.
  intros I Hf (k & q & K & C & H). apply (mem_lin f q r k 1); [exact Hf| |intro m; rewrite H; lia].
  apply comb_mem. eapply comb_mono; [|exact C]. exact I.
Qed.

(** Conversely f is a member when r is. *)
Lemma congruent_mem (G' : list term -> Prop) f r : (forall g, G' g -> mem g) -> mem r -> congruent n G' f r -> mem f.
Proof.
  intros I Hr (k & q & K & C & H). apply (mem_div (scale k f) f k K); [|intro m; apply coef_scale].
  apply (mem_lin r q _ 1 (-1)); [exact Hr| |intro m; rewrite coef_scale, H; ring].
  apply comb_mem. eapply comb_mono; [|exact C]. exact I.
Qed.
End Member.

Lemma mem_trans n (G G' : list term -> Prop) p : (forall g, G g -> rational_member n G' g) -> rational_member n G p -> rational_member n G' p.
Proof.
  intros I (k & q & K & C & H). apply (mem_div n G' q p k K); [|exact H].
  apply comb_mem. eapply comb_mono; [|exact C]. exact I.
Qed.

Lemma mem_mono n (G G' : list term -> Prop) p : (forall g, G g -> G' g) -> rational_member n G p -> rational_member n G' p.
Proof. intros I (k & q & K & C & H). exists k, q. split; [exact K|]. split; [eapply comb_mono; eassumption|exact H]. Qed.

(** Combinations of ring polynomials have no module terms. *)
Lemma coef_ring l m : ring_poly l -> pos m <> -1 -> coef l m = 0.
Proof.
  intros R N. apply coef_notin. intro I. apply in_map_iff in I as ([u c] & <- & I). unfold ring_poly in R.
  rewrite Forall_forall in R. apply N. exact (R _ I).
Qed.
Lemma ring_shift u l : ring_poly l -> ring_poly (shift u l).
Proof.
  unfold ring_poly, shift. intro H. apply Forall_map. eapply Forall_impl; [|exact H]. intros [x c] E. cbn [fst] in *.
  exact E.
Qed.
Lemma comb_ring n (G : list term -> Prop) q m : (forall g, G g -> ring_poly g) -> combination n G q -> pos m <> -1 -> coef q m = 0.
Proof.
  intros R C N. induction C as [p H|p r u g c Hr IH Hg Hu H]; [apply H|].
  rewrite H, IH, (coef_ring (shift u g) m); [lia|apply ring_shift, R, Hg|exact N].
Qed.
Lemma canonical_coef t o n l m c : canonical t o n l -> In (m, c) l -> coef l m = c /\ c <> 0.
Proof.
  intros C I. apply canonical_iff in C as (S & M & N). split; [eapply coef_in; eassumption|].
  unfold nz in N. rewrite Forall_forall in N. exact (N _ I).
Qed.
Lemma ring_of_coef t o n l : canonical t o n l -> (forall m, pos m <> -1 -> coef l m = 0) -> ring_poly l.
Proof.
  intros C H. unfold ring_poly. apply Forall_forall. intros [m c] I. cbn [fst].
  destruct (canonical_coef _ _ _ _ _ _ C I) as [E N]. destruct (Z.eq_dec (pos m) (-1)); [assumption|]. rewrite H in E; congruence.
Qed.
Lemma congruent_ring t o n (G : list term -> Prop) f r : (forall g, G g -> ring_poly g) -> ring_poly f -> canonical t o n r ->
  congruent n G f r -> ring_poly r.
Proof.
  intros R Rf Cr (k & q & K & C & H). eapply ring_of_coef; [exact Cr|]. intros m N.
  rewrite H, (coef_ring f m Rf N), (comb_ring n G q m R C N). lia.
Qed.

Lemma congruent_mono n (G G' : list term -> Prop) f r : (forall g, G g -> G' g) -> congruent n G f r -> congruent n G' f r.
Proof. intros I (k & q & K & C & E). exists k, q. split; [exact K|]. split; [eapply comb_mono; eassumption|exact E]. Qed.
Lemma congruent_reduces n (G : list term -> Prop) f r : congruent n G f r -> reduces_to n G f r.
Proof. intros (k & q & K & C & E). exists k, 1, q. split; [exact K|]. split; [lia|]. split; [exact C|]. intro m. rewrite E. ring. Qed.
