(** Walks through Janet trees of pyginv: variables x, y. *)
From Coq Require Import ZArith List Bool Arith Lia.
From Verif Require Import Outcome MonomModel MonomSpec PolySpec JanetSpec PyMonomModel PyMonomSpec PyPolyModel PyPolySpec PyExamples
  PyJanetModel PyJanetSpec PyJanetExamples PyForestModel PyForestSpec PyForestExamples PyWalkModel PyWalkProofs.
Import ListNotations.
Local Open Scope nat_scope.

(** y^3 + x and x^2; then the prolongation of the first by x is inserted. *)
Definition tree5 : pjanet := match pj_insert pj_empty [w_y3; w_x2] with Ok (J, _) => J | _ => pj_empty end.
Definition tree6 : pjanet * list pwrap := match pj_prolongAll TOPdeglex tree5 4 with Ok (J, l, _) => (J, l) | _ => (pj_empty, []) end.
Definition tree7 : pjanet := match pj_insert (fst tree6) (snd tree6) with Ok (J, _) => J | _ => pj_empty end.
Lemma built7 : built 2 tree7.
Proof.
  eapply (built_insert 2 (fst tree6) (snd tree6)); [| |vm_compute; reflexivity].
  - apply (built_prolong 2 TOPdeglex (fun _ _ => true) tree5 4 (fst tree6) (snd tree6) 5); [|vm_compute; reflexivity].
    eapply (built_insert 2 pj_empty [w_y3; w_x2]); [apply built_new| |vm_compute; reflexivity].
    constructor; [split; [reflexivity|split; reflexivity]|]. constructor; [split; [reflexivity|split; reflexivity]|constructor].
  - vm_compute. constructor; [split; [reflexivity|split; reflexivity]|constructor].
Qed.
Lemma GB7 : map exps (elems tree7) = [[0; 3]; [1; 3]; [2; 0]] /\ (exists l, pj_GB TOPdeglex tree7 = Ok l /\ map exps l = [[0; 3]; [2; 0]]) /\
  forall w, In w (elems tree7) -> mono 2 (pw_lm w) /\ mono 2 (pw_anc w) /\ pos (pw_anc w) = pos (pw_lm w) /\
    divides 2 (vars (pw_anc w)) (exps w) /\ exists u, In u (elems tree7) /\ divides 2 (exps u) (vars (pw_anc w)).
Proof.
  split; [vm_compute; reflexivity|]. split; [eexists; split; [vm_compute; reflexivity|reflexivity]|].
  assert (D : forall a b c d, a <= c -> b <= d -> divides 2 [a; b] [c; d]). { intros a b c d X Y i Hi. destruct i as [|[|i]]; cbn; lia. }
  intros w W.
  assert (E : elems tree7 = [nth 0 (elems tree7) w_x2; nth 1 (elems tree7) w_x2; nth 2 (elems tree7) w_x2]) by (vm_compute; reflexivity).
  rewrite E in W. destruct W as [<-|[<-|[<-|[]]]]; (split; [split; [reflexivity|vm_compute; discriminate]|]); (split; [split; [reflexivity|vm_compute; discriminate]|]); (split; [reflexivity|]);
    (split; [apply D; cbn; lia|]).
  - exists (nth 0 (elems tree7) w_x2). split; [rewrite E; left; reflexivity|apply D; cbn; lia].
  - exists (nth 0 (elems tree7) w_x2). split; [rewrite E; left; reflexivity|apply D; cbn; lia].
  - exists (nth 2 (elems tree7) w_x2). split; [rewrite E; right; right; left; reflexivity|apply D; cbn; lia].
Qed.

(** The tree of y alone. *)
Definition w_y := wrap_of 0 [(Mon (-1) [0; 1], 1%Z)].
Definition tree_y : pjanet := match pj_insert pj_empty [w_y] with Ok (J, _) => J | _ => pj_empty end.
Lemma built_y : built 2 tree_y.
Proof.
  eapply (built_insert 2 pj_empty [w_y]); [apply built_new| |vm_compute; reflexivity]. constructor; [split; [reflexivity|split; reflexivity]|constructor].
Qed.

Lemma setNonmut_fails : exists J m, built 2 J /\ mono 2 m /\ J <> pj_empty /\
  (forall u, In u (elems J) -> pos (pw_lm u) = pos m /\ exists i, i < 2 /\ expo (exps u) i < expo (vars m) i) /\ pj_setNonmut J m = Undef.
Proof.
  exists tree_y, (Mon (-1) [1; 0]). split; [exact built_y|]. split; [split; [reflexivity|cbn; lia]|]. split; [vm_compute; discriminate|]. split; [|vm_compute; reflexivity].
  intros u U. vm_compute in U. destruct U as [<-|[]]. split; [reflexivity|]. exists 0. cbn. lia.
Qed.
Lemma setNonmut_misses : exists J m J' u, built 2 J /\ mono 2 m /\ pj_setNonmut J m = Ok J' /\ In u (elems J) /\ In u (elems J') /\
  pos (pw_lm u) = pos m /\ expo (exps u) 0 < expo (vars m) 0 /\ nth 0 (pw_nonmult u) false = false.
Proof.
  exists tree1, (Mon (-1) [3; 4]). eexists. exists (nth 2 (elems tree1) w_y). split; [exact built1|]. split; [split; [reflexivity|cbn; lia]|].
  split; [vm_compute; reflexivity|]. split; [vm_compute; auto|]. split; [vm_compute; auto|]. split; [reflexivity|]. split; [cbn; lia|reflexivity].
Qed.
(** setNonmut(x^3 y^4) of x^2, x y, y^3 + x *)
Lemma setNonmut_case : exists J', mono 2 (Mon (-1) [3; 4]) /\ (forall w, In w (elems tree2) -> mono 2 (pw_lm w) /\ pos (pw_lm w) = (-1)%Z) /\
  pj_setNonmut tree2 (Mon (-1) [3; 4]) = Ok J' /\ map pw_nonmult (elems J') = [[true; false]; [true; false]; [true; false]].
Proof.
  eexists. split; [split; [reflexivity|cbn; lia]|]. split; [|split; [vm_compute; reflexivity|reflexivity]].
  intros w W. vm_compute in W. destruct W as [<-|[<-|[<-|[]]]]; (split; [split; [reflexivity|cbn; lia]|reflexivity]).
Qed.
Lemma forest_GB : (forall w, In w (pf_elems forest1) -> mono 2 (pw_lm w) /\ mono 2 (pw_anc w)) /\
  exists l, pf_GB TOPdeglex forest1 = Ok l /\ map pw_lm l = [Mon 0 [1; 0]; Mon 1 [0; 1]; Mon 1 [1; 1]].
Proof.
  split; [|eexists; split; [vm_compute; reflexivity|reflexivity]].
  intros w W. vm_compute in W. destruct W as [<-|[<-|[<-|[]]]]; (split; (split; [reflexivity|cbn; lia])).
Qed.
