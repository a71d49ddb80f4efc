(** Examples for JanetCache. *)
From Coq Require Import ZArith List Bool Arith Lia Sorted.
From Verif Require Import Outcome MonomModel MonomSpec PolySpec JanetSpec JanetPolySpec PyMonomModel PyMonomSpec PyMonomProofs PyPolyModel PyPolySpec PyPolyProofs PyExamples PyJanetModel PyJanetSpec PyJanetExamples
  PySpan PyDiffModel PyDiffSpec PyDiffExamples PyCacheModel PyCacheSpec PyCacheProofs.
Import ListNotations.
Local Open Scope Z_scope.

(** x^2 - y, x y - 1, y^2 - x *)
Local Notation R v c := (Mon (-1) v, c) (only parsing).
Definition ca1 : ppoly := [R [2; 0]%nat 1; R [0; 1]%nat (-1)].
Definition ca2 : ppoly := [R [1; 1]%nat 1; R [0; 0]%nat (-1)].
Definition ca3 : ppoly := [R [0; 2]%nat 1; R [1; 0]%nat (-1)].
Definition ca_set (p : ppoly) : Prop := In p [ca1; ca2; ca3].
Definition ca_tree : pjanet := match pj_insert pj_empty [wrap_of 0 ca1; wrap_of 1 ca2; wrap_of 2 ca3] with Ok (J, _) => J | _ => pj_empty end.
Lemma ca_member p : ca_set p -> PyPolyProofs.pmonos 2 0 p -> rational_member 2 ca_set p.
Proof.
  intros S M. rewrite <- rspan_member. apply (rspan_ext 2 ca_set _ (shift (repeat 0%nat 2) p)).
  - apply rspan_single; [exact S|reflexivity|exact Logic.I].
  - intro m. rewrite PyRedProofs.mprod_unit_shift with (k := 0); [reflexivity|exact M].
Qed.
Lemma ca_built : built 2 ca_tree.
Proof.
  apply (built_insert 2 pj_empty [wrap_of 0 ca1; wrap_of 1 ca2; wrap_of 2 ca3] ca_tree []); [apply built_new| |vm_compute; reflexivity].
  repeat (apply Forall_cons; [repeat split|]). constructor.
Qed.
Lemma ca_tree_ok : cache_tree TOPdeglex 2 0 (-1) ca_set ca_tree.
Proof.
  split; [exact ca_built|]. intros w W. assert (X : leads w /\ ca_set (pw_poly w) /\ py_canonical TOPdeglex 2 0 (pw_poly w) /\ in_component (-1) (pw_poly w)).
  { vm_compute in W. destruct W as [<-|[<-|[<-|[]]]]; (split; [eexists; eexists; reflexivity|]); (split; [cbn; auto|]); (split; [apply canonical_b_ok; vm_compute; reflexivity|repeat constructor]). }
  destruct X as (L & S & C & I). split; [exact L|]. split; [exact C|]. split; [exact I|]. apply ca_member; [exact S|]. apply py_canonical_iff in C. apply C.
Qed.
Definition ca_x3 : monom := Mon (-1) [3; 0]%nat.
Definition ca_cache : pcache := [(ca_x3, [(ca_x3, 1); R [0; 0]%nat (-1)])].
Lemma ca_ask : jc_find 10 TOPdeglex ca_tree [] ca_x3 = Ok (Some [(ca_x3, 1); R [0; 0]%nat (-1)], ca_cache).
Proof. vm_compute. reflexivity. Qed.

(** Two unknown functions: x u + v; the tree is the one for u. *)
Definition cm_p : ppoly := [(Mon 0 [1]%nat, 1); (Mon 1 [0]%nat, 1)].
Definition cm_tree : pjanet := match pj_insert pj_empty [wrap_of 0 cm_p] with Ok (J, _) => J | _ => pj_empty end.
Lemma cm_built : built 1 cm_tree.
Proof. apply (built_insert 1 pj_empty [wrap_of 0 cm_p] cm_tree []); [apply built_new| |vm_compute; reflexivity]. repeat (apply Forall_cons; [repeat split|]). constructor. Qed.
Lemma cm_elems w : In w (elems cm_tree) -> leads w /\ pw_poly w = cm_p.
Proof. intro W. vm_compute in W. destruct W as [<-|[]]. split; [eexists; eexists; reflexivity|reflexivity]. Qed.
Lemma cm_canonical o : py_canonical o 1 2 cm_p.
Proof. apply canonical_b_ok. destruct o; vm_compute; reflexivity. Qed.
Lemma cm_fails o fuel : (3 <= fuel)%nat -> jc_find fuel o cm_tree [] (Mon 0 [2]%nat) = AssertFail.
Proof.
  intro F. assert (X : jc_find 3 o cm_tree [] (Mon 0 [2]%nat) = AssertFail) by (destruct o; vm_compute; reflexivity).
  rewrite <- X. apply jc_mono; [exact F|]. rewrite X. discriminate.
Qed.

(** u_yy + x u_x - u = 0, which u = x solves *)
Definition cd_p : list (monom * ck Zx) := [dt 0 2 [1]; dt 1 0 [0; 1]; dt 0 0 [-1]].
Definition cd_r : list (monom * ck Zx) := [dt 1 2 [1]; dt 2 0 [0; 1]; dt 1 0 [-1]].
Lemma cd_canonical : dp_canonical Zx TOPdeglex 2 1 cd_p.
Proof.
  assert (D : forall a b, diff_mono 2 1 (Mon 0 [a; b])) by (intros; repeat split; cbn; try lia; discriminate).
  assert (X : forall a b, py_cmp TOPdeglex a b = 1 -> diff_mono 2 1 a -> diff_mono 2 1 b -> py_greater TOPdeglex a b) by (intros a b G A B; apply (py_meaning TOPdeglex 2); [apply A|apply B|exact G]).
  split; [|split].
  - repeat (first [apply SSorted_nil | apply SSorted_cons]); repeat (first [apply Forall_nil | apply Forall_cons]); apply X; try apply D; reflexivity.
  - repeat (first [apply Forall_nil | apply Forall_cons]); apply D.
  - repeat (first [apply Forall_nil | apply Forall_cons]); apply zx_neq; vm_compute; discriminate.
Qed.
Definition cd_u (_ : Z) : fs Zx_space := mk [0; 1].
Lemma cd_zero : value Zx_space cd_u cd_p = f_zero Zx_space.
Proof. apply zx_eq. vm_compute. reflexivity. Qed.
Lemma cd_new : dc_new Zx TOPdeglex cd_p (Mon 0 [1; 2]%nat) = Ok cd_r /\ dp_nftail Zx 4 TOPdeglex (dp_find Zx cd_p) cd_r = Ok cd_r.
Proof. split; vm_compute; reflexivity. Qed.
Lemma cd_wrong : value Zx_space cd_u cd_r <> f_zero Zx_space.
Proof. apply zx_neq. vm_compute. discriminate. Qed.
