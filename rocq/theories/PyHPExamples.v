(** The leading monomials of the example tree are a Janet basis. *)
From Coq Require Import ZArith List Bool Arith Lia.
From Verif Require Import MonomSpec JanetSpec PyJanetModel PyJanetSpec PyJanetExamples.
Import ListNotations.
Local Open Scope nat_scope.

Lemma tree2_basis : janet_basis 2 [[2; 0]; [1; 1]; [0; 3]] (tree_exps tree2).
Proof.
  change (tree_exps tree2) with (map exps (elems tree2)). rewrite (proj1 tree2_elems). split.
  - intros u U. exists u. split; [cbn in *; tauto|]. intros i _. lia.
  - intros m L (f & F & D). destruct m as [|a [|b [|c m]]]; try discriminate L.
    assert (X : 2 <= a \/ (a = 1 /\ 1 <= b) \/ (a = 0 /\ 3 <= b)).
    { pose proof (D 0 ltac:(lia)) as D0. pose proof (D 1 ltac:(lia)) as D1. destruct F as [<-|[<-|[<-|[]]]]; cbn in D0, D1; lia. }
    assert (Dv : forall x y, x <= a -> y <= b -> divides 2 [x; y] [a; b]) by (intros x y A B [|[|i]] Hi; cbn; lia).
    destruct X as [X|[[-> X]|[-> X]]].
    + exists [2; 0]. split; [cbn; tauto|]. split; [apply Dv; lia|]. intros [|[|i]] Hi _ (w & W & E & Lt); [| |lia].
      * destruct W as [<-|[<-|[<-|[]]]]; cbn in Lt; lia.
      * pose proof (E 0 ltac:(lia)) as E0. destruct W as [<-|[<-|[<-|[]]]]; cbn in Lt, E0; lia.
    + exists [1; 1]. split; [cbn; tauto|]. split; [apply Dv; lia|]. intros [|[|i]] Hi Gt (w & W & E & Lt); [cbn in Gt; lia| |lia].
      pose proof (E 0 ltac:(lia)) as E0. destruct W as [<-|[<-|[<-|[]]]]; cbn in Lt, E0; lia.
    + exists [0; 3]. split; [cbn; tauto|]. split; [apply Dv; lia|]. intros [|[|i]] Hi Gt (w & W & E & Lt); [cbn in Gt; lia| |lia].
      pose proof (E 0 ltac:(lia)) as E0. destruct W as [<-|[<-|[<-|[]]]]; cbn in Lt, E0; lia.
Qed.
