(** Addresses of terms, Hilbert polynomials of systems and permutations: debug and release builds. *)
From Coq Require Import ZArith List Bool Arith.
From Verif Require Import Outcome MonomModel PolyModel JanetPolyModel TQModel DebugProofs DebugTQ DebugMisc.
From Verif Require CellModel JanetPolyHPModel TQ2HPModel RandPermModel.
Import ListNotations.
Local Open Scope Z_scope.

Lemma d_jp_build_hp J h : agree (JanetPolyHPModel.jp_build_hp true J h) (JanetPolyHPModel.jp_build_hp false J h).
Proof. unfold JanetPolyHPModel.jp_build_hp. pose proof d_setDim. ag. Qed.
Lemma d_jp2_build_hp J h : agree (TQ2HPModel.jp2_build_hp true J h) (TQ2HPModel.jp2_build_hp false J h).
Proof. unfold TQ2HPModel.jp2_build_hp. pose proof d_setDim. ag. Qed.
Lemma d_tq2_print fuel J : agree (TQ2HPModel.jp_tq2_print fuel true J) (TQ2HPModel.jp_tq2_print fuel false J).
Proof. unfold TQ2HPModel.jp_tq2_print. pose proof (d_tq2 fuel J). pose proof d_jp2_build_hp. ag. Qed.

Lemma d_rp_get p i : agree (RandPermModel.rp_get true p i) (RandPermModel.rp_get false p i).
Proof. unfold RandPermModel.rp_get. ag. Qed.
#[local] Hint Resolve d_rp_get d_assert_valid : ag.
Lemma d_permute_loop self src p k : forall v dst, agree (RandPermModel.permute_loop true self k v dst src p) (RandPermModel.permute_loop false self k v dst src p).
Proof. induction k as [|k IH]; intros v dst; cbn [RandPermModel.permute_loop]; ag. Qed.
#[local] Hint Resolve d_permute_loop : ag.
Lemma d_permutation self m a p : agree (RandPermModel.c_permutation true self m a p) (RandPermModel.c_permutation false self m a p).
Proof. unfold RandPermModel.c_permutation. ag. Qed.

Section Cells.
Import CellModel.
Lemma d_c_checked p : agree (c_checked true p) (c_checked false p).
Proof. unfold c_checked. ag. Qed.
Lemma d_mulq u m : agree (mul_ true u m) (mul_ false u m).
Proof. unfold mul_. ag. Qed.
Lemma d_cmp2q t o m n k : agree (cmp2_ true t o m n k) (cmp2_ false t o m n k).
Proof. unfold cmp2_. ag. Qed.
Hint Resolve d_c_checked d_mulq d_cmp2q : ag.
Lemma d_c_mulmon m c l : forall k, agree (c_mulmon true m c k l) (c_mulmon false m c k l).
Proof. induction l as [|[u d] l IH]; intro k; cbn [c_mulmon]; ag. Qed.
Hint Resolve d_c_mulmon : ag.
Lemma d_c_red t o k1 k2 m2 p : forall k a, agree (c_red true t o k1 k2 m2 p k a) (c_red false t o k1 k2 m2 p k a).
Proof.
  induction p as [|[i [m c]] p IH]; intros k a; revert k; induction a as [|[n d] a IHa]; intro k; cbn [c_red]; try solve [ag].
Qed.
Hint Resolve d_c_red : ag.
Lemma d_c_reduction p a : agree (c_reduction true p a) (c_reduction false p a).
Proof. unfold c_reduction. pose proof d_red_factors. ag. Qed.
Lemma d_c_redMaybe p a : agree (c_redMaybe true p a) (c_redMaybe false p a).
Proof. unfold c_redMaybe. pose proof d_red_factors. ag. Qed.
Lemma d_c_divc g l : agree (c_div true g l) (c_div false g l).
Proof. pose proof d_int_div. induction l as [|[i [m c]] l IH]; cbn [c_div]; ag. Qed.
Hint Resolve d_c_reduction d_c_redMaybe d_c_divc : ag.
Lemma d_c_pp p : agree (c_pp true p) (c_pp false p).
Proof. unfold c_pp. pose proof d_gcd_loop. pose proof d_isPp. ag. Qed.
Hint Resolve d_c_pp : ag.
Lemma d_c_edit p e : agree (c_edit true p e) (c_edit false p e).
Proof. unfold c_edit. ag. Qed.
Hint Resolve d_c_edit : ag.
Lemma d_c_edits es : forall p, agree (c_edits true p es) (c_edits false p es).
Proof. induction es as [|e es IH]; intro p; cbn [c_edits]; ag. Qed.
End Cells.
