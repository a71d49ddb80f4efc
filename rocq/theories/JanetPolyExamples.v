(** Concrete runs of JanetPolyInt, used as witnesses. *)
From Coq Require Import ZArith List Bool Arith Lia.
From Verif Require Import Outcome MonomModel MonomSpec MonomProofs PolyModel PolySpec PolyProofs PolyRedProofs PolyNfProofs
  PolyTopProofs JanetModel JanetSpec JanetPolyModel JanetPolySpec IdealProofs JanetPolyProofs JanetPolyTop.
Import ListNotations.
Local Open Scope Z_scope.

Lemma history_push_all dbg t o n l : forall F J J', jp_history dbg t o n F J -> Forall (ring_input t o n) l ->
  jp_push_all dbg J l = Ok J' -> jp_history dbg t o n (rev l ++ F) J'.
Proof.
  induction l as [|a l IH]; intros F J J' H R E; cbn [jp_push_all] in E.
  - injection E as <-. exact H.
  - destruct (jp_push dbg J a) as [J1| | | |] eqn:E1; cbn [bind] in E; try discriminate.
    cbn [rev]. rewrite <- app_assoc. cbn [app]. apply (IH (a :: F) J1 J'); [|exact (Forall_inv_tail R)|exact E].
    eapply hist_push; [exact H|exact (Forall_inv R)|exact E1].
Qed.

(** A polynomial of Z[x1..xn] from exponents and coefficients. *)
Definition pol (o : base_order) (n : nat) (l : list (list nat * Z)) : poly :=
  Poly TOP o n (map (fun x => (Mon (-1) (fst x), snd x)) l).
Definition run (fuel : nat) (dbg : bool) (l : list poly) : outcome jpoly :=
  do J <- jp_push_all dbg jp_empty l; jp_build fuel dbg J.

Lemma run_history fuel dbg o n l J : Forall (ring_input TOP o n) l -> run fuel dbg l = Ok J -> jp_history dbg TOP o n (rev l) J.
Proof.
  intros R E. unfold run in E. destruct (jp_push_all dbg jp_empty l) as [J0| | | |] eqn:E0; cbn [bind] in E; try discriminate.
  assert (H := history_push_all dbg TOP o n l [] jp_empty J0 (hist_new _ _ _ _) R E0). rewrite app_nil_r in H.
  eapply hist_build; [exact H|exact E].
Qed.

Ltac ring_in := split; [apply canonical_iff; split; [repeat constructor|split; repeat constructor; cbn; (lia || discriminate)]
  |split; [reflexivity|split; [reflexivity|split; [reflexivity|repeat constructor]]]].

(** deglex, x > y > z: y z^2 + x^2, -2 x y^2 - 4, x z. *)
Definition ex_f1 := pol ODegLex 3 [([0;1;2]%nat, 1); ([2;0;0]%nat, 1)].
Definition ex_f2 := pol ODegLex 3 [([1;2;0]%nat, -2); ([0;0;0]%nat, -4)].
Definition ex_f3 := pol ODegLex 3 [([1;0;1]%nat, 1)].
(** x * ex_f2 *)
Definition ex_f4 := pol ODegLex 3 [([2;2;0]%nat, -2); ([1;0;0]%nat, -4)].
Lemma ex_in : Forall (ring_input TOP ODegLex 3) [ex_f1; ex_f2; ex_f3] .
Proof. repeat constructor; cbn; try lia; try discriminate. Qed.
Definition ex_J : jpoly := match run 40 false [ex_f1; ex_f2; ex_f3] with Ok J => J | _ => jp_empty end.
Lemma ex_run : run 40 false [ex_f1; ex_f2; ex_f3] = Ok ex_J.
Proof. vm_compute. reflexivity. Qed.

Lemma ex_incomplete : jp_history false TOP ODegLex 3 [ex_f3; ex_f2; ex_f1] ex_J /\ jq ex_J = [] /\ ring_input TOP ODegLex 3 ex_f4 /\
  rational_member 3 (among [ex_f3; ex_f2; ex_f1]) (terms ex_f4) /\
  exists r, jp_nf 40 false ex_J ex_f4 = Ok r /\ terms r <> [].
Proof.
  split; [exact (run_history 40 false ODegLex 3 _ _ ex_in ex_run)|]. split; [vm_compute; reflexivity|].
  split; [repeat constructor; cbn; try lia; try discriminate|]. split.
  - change (terms ex_f4) with (shift [1;0;0]%nat (terms ex_f2)). apply mem_shift; [reflexivity|].
    apply (mem_among TOP ODegLex 3); [|right; left; reflexivity]. assert (H := ex_in). rewrite Forall_forall in H. apply H. right. left. reflexivity.
  - eexists. split; [vm_compute; reflexivity|discriminate].
Qed.

(** lex, x > y: x^2 and y^3. *)
Definition lx_f1 := pol OLex 2 [([2;0]%nat, 1)].
Definition lx_f2 := pol OLex 2 [([0;3]%nat, 1)].
Definition lx_f3 := pol OLex 2 [([1;3]%nat, 1)].
Lemma lx_in : Forall (ring_input TOP OLex 2) [lx_f1; lx_f2].
Proof. repeat constructor; cbn; try lia; try discriminate. Qed.
Definition lx_J : jpoly := match run 40 false [lx_f1; lx_f2] with Ok J => J | _ => jp_empty end.
Lemma lx_run : run 40 false [lx_f1; lx_f2] = Ok lx_J.
Proof. vm_compute. reflexivity. Qed.
Lemma lx_incomplete : jp_history false TOP OLex 2 [lx_f2; lx_f1] lx_J /\ jq lx_J = [] /\ ring_input TOP OLex 2 lx_f3 /\
  rational_member 2 (among [lx_f2; lx_f1]) (terms lx_f3) /\
  exists r, jp_nf 40 false lx_J lx_f3 = Ok r /\ terms r <> [].
Proof.
  split; [exact (run_history 40 false OLex 2 _ _ lx_in lx_run)|]. split; [vm_compute; reflexivity|].
  split; [repeat constructor; cbn; try lia; try discriminate|]. split.
  - change (terms lx_f3) with (shift [1;0]%nat (terms lx_f2)). apply mem_shift; [reflexivity|].
    apply (mem_among TOP OLex 2); [|left; reflexivity]. assert (H := lx_in). rewrite Forall_forall in H. apply H. right. left. reflexivity.
  - eexists. split; [vm_compute; reflexivity|discriminate].
Qed.

(** x + 1 and x generate 1, but isOne() is false. *)
Definition on_f1 := pol ODegLex 1 [([1]%nat, 1); ([0]%nat, 1)].
Definition on_f2 := pol ODegLex 1 [([1]%nat, 1)].
Lemma on_in : Forall (ring_input TOP ODegLex 1) [on_f1; on_f2].
Proof. repeat constructor; cbn; try lia; try discriminate. Qed.
Definition on_J : jpoly := match run 40 false [on_f1; on_f2] with Ok J => J | _ => jp_empty end.
Lemma on_run : run 40 false [on_f1; on_f2] = Ok on_J.
Proof. vm_compute. reflexivity. Qed.
Lemma on_not_one : jp_history false TOP ODegLex 1 [on_f2; on_f1] on_J /\ jq on_J = [] /\
  rational_member 1 (among [on_f2; on_f1]) (one 1) /\ jone on_J = None.
Proof.
  split; [exact (run_history 40 false ODegLex 1 _ _ on_in on_run)|]. split; [vm_compute; reflexivity|]. split; [|vm_compute; reflexivity].
  assert (H := on_in). rewrite Forall_forall in H.
  eapply (mem_lin 1 _ (terms on_f1) (terms on_f2) _ 1 (-1)).
  - apply (mem_among TOP ODegLex 1); [apply H|]; cbn; auto.
  - apply (mem_among TOP ODegLex 1); [apply H|]; cbn; auto.
  - intro m. unfold on_f1, on_f2, pol, one. cbn [terms map fst snd coef repeat].
    destruct (monom_eq_dec {| pos := -1; vars := [1%nat] |} m), (monom_eq_dec {| pos := -1; vars := [0%nat] |} m); lia.
Qed.

(** A module: the basis vector e0.  isOne() becomes true although the constant 1 is not in the module. *)
Definition md_f : poly := Poly TOP ODegLex 1 [(Mon 0 [0%nat], 1)].
Definition md_J : jpoly := match run 40 false [md_f] with Ok J => J | _ => jp_empty end.
Lemma comb_pos n (G : list term -> Prop) q m : (forall g x, G g -> In x g -> pos (fst x) = 0) -> combination n G q -> pos m = -1 -> coef q m = 0.
Proof.
  intros H C P. induction C as [p E|p q u g c C IH Hg Hu E]; [apply E|]. rewrite E, IH.
  assert (X : coef (shift u g) m = 0); [|lia]. apply coef_notin. intro I. apply in_map_iff in I as (x & <- & I). unfold shift in I.
  apply in_map_iff in I as (y & <- & I). cbn [fst] in P. assert (Y := H g y Hg I). unfold mprod in P. cbn [pos] in P. change (-1 =? -1) with true in P. cbn iota in P. lia.
Qed.
Lemma md_one : valid_poly md_f /\ run 40 false [md_f] = Ok md_J /\ jone md_J <> None /\
  exists g, basis md_J = [g] /\ ~ rational_member 1 (among [md_f]) (terms g).
Proof.
  split; [repeat constructor; cbn; try lia; try discriminate|]. split; [vm_compute; reflexivity|]. split; [vm_compute; discriminate|].
  eexists. split; [vm_compute; reflexivity|]. intros (k & q & K & C & E).
  specialize (E (Mon (-1) [0%nat])). rewrite (comb_pos 1 (among [md_f]) q) in E; [|intros g x (f & [<-|[]] & <-) [<-|[]]; reflexivity|exact C|reflexivity].
  cbn in E. lia.
Qed.

(** Debug build: an assertion fails for the ideal (x y^2 - y - 2, -2 y^3). *)
Definition as_f1 := pol ODegLex 2 [([1;2]%nat, 1); ([0;1]%nat, -1); ([0;0]%nat, -2)].
Definition as_f2 := pol ODegLex 2 [([0;3]%nat, -2)].
Lemma as_in : Forall (ring_input TOP ODegLex 2) [as_f1; as_f2].
Proof. repeat constructor; cbn; try lia; try discriminate. Qed.
Lemma as_fails : run 40 true [as_f1; as_f2] = AssertFail /\ exists J, run 40 false [as_f1; as_f2] = Ok J.
Proof. split; [vm_compute; reflexivity|]. eexists. vm_compute. reflexivity. Qed.

Lemma md_refuted : exists (a : poly) (J : jpoly) (g : poly), valid_poly a /\
  (do J0 <- jp_push false jp_empty a; jp_build 40 false J0) = Ok J /\ basis J = [g] /\ ~ rational_member 1 (among [a]) (terms g).
Proof.
  destruct md_one as (V & R & _ & g & B & N). exists md_f, md_J, g. split; [exact V|]. split; [|split; assumption].
  vm_compute. reflexivity.
Qed.
Lemma c46_deglex : exists (F : list poly) (J : jpoly) (a r : poly),
  jp_history false TOP ODegLex 3 F J /\ jq J = [] /\ ring_input TOP ODegLex 3 a /\
  rational_member 3 (among F) (terms a) /\ (exists fuel, jp_nf fuel false J a = Ok r) /\ terms r <> [].
Proof.
  destruct ex_incomplete as (A & B & C & D & r & E & N). exists [ex_f3; ex_f2; ex_f1], ex_J, ex_f4, r.
  split; [exact A|]. split; [exact B|]. split; [exact C|]. split; [exact D|]. split; [exists 40%nat; exact E|exact N].
Qed.
Lemma c46_lex : exists (F : list poly) (J : jpoly) (a r : poly),
  jp_history false TOP OLex 2 F J /\ jq J = [] /\ ring_input TOP OLex 2 a /\
  rational_member 2 (among F) (terms a) /\ (exists fuel, jp_nf fuel false J a = Ok r) /\ terms r <> [].
Proof.
  destruct lx_incomplete as (A & B & C & D & r & E & N). exists [lx_f2; lx_f1], lx_J, lx_f3, r.
  split; [exact A|]. split; [exact B|]. split; [exact C|]. split; [exact D|]. split; [exists 40%nat; exact E|exact N].
Qed.
Lemma c47_refuted : exists (F : list poly) (J : jpoly),
  jp_history false TOP ODegLex 1 F J /\ jq J = [] /\ rational_member 1 (among F) (one 1) /\ jone J = None.
Proof. exists [on_f2; on_f1], on_J. exact on_not_one. Qed.
Lemma c47_ex : exists J, jp_history false TOP ODegLex 1 [pol ODegLex 1 [([0]%nat, 3)]] J /\ jone J <> None.
Proof.
  destruct (run 40 false [pol ODegLex 1 [([0]%nat, 3)]]) as [J| | | |] eqn:E; try discriminate.
  exists J. split.
  - apply (run_history 40 false ODegLex 1 [pol ODegLex 1 [([0]%nat, 3)]] J); [|exact E]. repeat constructor; cbn; try lia; try discriminate.
  - vm_compute in E. injection E as <-. discriminate.
Qed.
Lemma c48_ex : exists J, jp_history false TOP ODegLex 3 [ex_f3; ex_f2; ex_f1] J /\ jp_build 40 false J = Ok ex_J.
Proof.
  assert (R := ex_run). unfold run in R. destruct (jp_push_all false jp_empty [ex_f1; ex_f2; ex_f3]) as [J| | | |] eqn:E; cbn [bind] in R; try discriminate.
  exists J. split; [|exact R]. exact (history_push_all false TOP ODegLex 3 [ex_f1; ex_f2; ex_f3] [] jp_empty J (hist_new _ _ _ _) ex_in E).
Qed.
Lemma c49_refuted : exists (F : list poly) (J : jpoly), jp_history true TOP ODegLex 2 F J /\
  jp_build 40 true J = AssertFail /\ exists J', jp_build 40 false J = Ok J'.
Proof.
  destruct (jp_push_all true jp_empty [as_f1; as_f2]) as [J| | | |] eqn:E; try discriminate.
  exists [as_f2; as_f1], J. split; [exact (history_push_all true TOP ODegLex 2 [as_f1; as_f2] [] jp_empty J (hist_new _ _ _ _) as_in E)|].
  vm_compute in E. injection E as <-. split; [vm_compute; reflexivity|]. eexists. vm_compute. reflexivity.
Qed.
