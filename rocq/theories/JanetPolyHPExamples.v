(** Witnesses for the Hilbert polynomial of JanetPolyInt. *)
From Coq Require Import ZArith List Bool Arith QArith Lia.
From Verif Require Import Outcome MonomModel MonomSpec MonomProofs PolyModel PolySpec PolyProofs PolyRedProofs PolyNfProofs
  JanetModel JanetSpec JanetPolyModel JanetPolySpec IdealProofs JanetPolyProofs JanetPolyTop JanetPolyExamples
  HilbertModel HilbertSpec InvolutiveProofs JanetPolyHPModel JanetPolyHPProofs.
Import ListNotations.
Local Open Scope Z_scope.

(** Ideals generated by x^2 and y^3. *)
Lemma lx_combination q : combination 2 (among [lx_f2; lx_f1]) q -> forall m, coef q m <> 0 ->
  (2 <= expo (vars m) 0)%nat \/ (3 <= expo (vars m) 1)%nat.
Proof.
  induction 1 as [p H|p q u g c Hq IH (f & If & <-) Lu H]; intros m N; [rewrite H in N; congruence|]. rewrite H in N.
  destruct (Z.eq_dec (coef q m) 0) as [E|E]; [|apply IH; exact E]. rewrite E in N.
  destruct u as [|a [|b [|? ?]]]; try discriminate. destruct If as [<-|[<-|[]]]; unfold lx_f1, lx_f2, pol in N; cbn [terms map shift fst snd coef] in N;
    match type of N with context [monom_eq_dec ?x m] => destruct (monom_eq_dec x m) as [<-|]; [|lia] end; cbn; lia.
Qed.

Lemma lx_leading m : length m = 2%nat -> (leading_in_ideal TOP OLex 2 [lx_f2; lx_f1] m <-> (2 <= expo m 0)%nat \/ (3 <= expo m 1)%nat).
Proof.
  intro L. split.
  - intros (f & Rf & Nf & (k & q & Nk & C & E) & <-). unfold lead. destruct (terms f) as [|[x c] l] eqn:Ef; [congruence|]. apply (lx_combination q C x).
    rewrite E. destruct Rf as (V & _). unfold valid_poly in V. rewrite Ef in V. destruct (canonical_coef _ _ _ _ x c V (or_introl eq_refl)) as [E1 N1]. rewrite E1. nia.
  - assert (X : forall f v, In f [lx_f2; lx_f1] -> terms f = [(Mon (-1) v, 1)] -> length v = 2%nat -> (forall i, (i < 2)%nat -> (expo v i <= expo m i)%nat) -> leading_in_ideal TOP OLex 2 [lx_f2; lx_f1] m).
    { intros f v If Ef Lv D. assert (R0 := lx_in). assert (Rf : ring_input TOP OLex 2 f) by (rewrite Forall_forall in R0; apply R0; destruct If as [<-|[<-|[]]]; cbn; auto).
      exists (Poly TOP OLex 2 (shift (subv m v) (terms f))). assert (Ls : length (subv m v) = 2%nat) by (rewrite subv_length; lia).
      destruct Rf as (V1 & V2 & V3 & V4 & V5). unfold valid_poly in V1. rewrite V2, V3, V4 in V1.
      split; [split; [apply shift_canonical; assumption|split; [reflexivity|split; [reflexivity|split; [reflexivity|apply ring_shift; exact V5]]]]|].
      cbn [terms]. split; [rewrite Ef; discriminate|]. split.
      - apply mem_shift; [exact Ls|]. apply (mem_among TOP OLex 2); [|exact If]. rewrite Forall_forall in R0. apply R0. destruct If as [<-|[<-|[]]]; cbn; auto.
      - unfold lead. cbn [terms]. rewrite Ef. cbn [shift map fst mprod vars]. rewrite vsum_addv. symmetry. apply (divides_split 2); auto. }
    intros [H|H]; [apply (X lx_f1 [2;0]%nat)|apply (X lx_f2 [0;3]%nat)]; try reflexivity; cbn [In]; auto; intros [|[|i]] Hi; cbn; lia.
Qed.

Lemma lx_number : number_of 2 5 (fun m => ~ leading_in_ideal TOP OLex 2 [lx_f2; lx_f1] m) 6.
Proof.
  exists [[0;0];[0;1];[0;2];[1;0];[1;1];[1;2]]%nat. split; [repeat constructor; cbn; intuition discriminate|]. split; [reflexivity|]. intro m. split.
  - intro I. cbn in I. repeat (destruct I as [<-|I]; [split; [reflexivity|]; split; [cbn; lia|]; rewrite lx_leading by reflexivity; cbn; lia|]). destruct I.
  - intros (L & _ & N). rewrite lx_leading in N by exact L. destruct m as [|a [|b [|? ?]]]; try discriminate. cbn in N.
    assert (a < 2)%nat by lia. assert (b < 3)%nat by lia. destruct a as [|[|a]]; [| |lia]; (destruct b as [|[|[|b]]]; [| | |lia]); cbn; tauto.
Qed.

(** The basis of x^2, y^3 (lex) is not complete, and its Hilbert polynomial is s + 3 instead of 6. *)
Lemma c52_refuted : exists (F : list poly) (J : jpoly) (h : hp) (s k : nat),
  jp_history false TOP OLex 2 F J /\ jq J = [] /\ jone J = None /\ (forall g, In g (basis J) -> (total (lead g) <= s)%nat) /\
  jp_build_hp true J hp_none = Ok h /\ number_of 2 s (fun m => ~ leading_in_ideal TOP OLex 2 F m) k /\
  ~ (peval h (inject_Z (Z.of_nat s)) == inject_Z (Z.of_nat k))%Q.
Proof.
  eexists [lx_f2; lx_f1], lx_J, _, 5%nat, 6%nat. split; [apply lx_incomplete|]. split; [vm_compute; reflexivity|]. split; [vm_compute; reflexivity|].
  split; [vm_compute; intuition (subst; lia)|]. split; [vm_compute; reflexivity|]. split; [exact lx_number|]. vm_compute. discriminate.
Qed.

(** x e0 in one variable. *)
Lemma c52_module : exists (a : poly) (J : jpoly) (h : hp), valid_poly a /\ in_component 0 (terms a) /\
  (do J0 <- jp_push false jp_empty a; jp_build 40 false J0) = Ok J /\ map lead (basis J) = [[1%nat]] /\
  jp_build_hp true J hp_none = Ok h /\ number_of 1 5 (fun m => forall u, ~ janet_divides 1 [[1%nat]] u m) 1 /\
  (peval h 5 == 7)%Q.
Proof.
  eexists (Poly TOP ODegLex 1 [(Mon 0 [1%nat], 1)]), _, _. split; [repeat constructor; cbn; try lia; discriminate|]. split; [repeat constructor|].
  split; [vm_compute; reflexivity|]. split; [vm_compute; reflexivity|]. split; [vm_compute; reflexivity|]. split; [|vm_compute; reflexivity].
  exists [[0%nat]]. split; [repeat constructor; intros []|]. split; [reflexivity|]. intro m. split.
  - intros [<-|[]]. split; [reflexivity|]. split; [cbn; lia|]. intros u ([<-|[]] & D & _). specialize (D 0%nat ltac:(lia)). cbn in D. lia.
  - intros (L & _ & H). destruct m as [|a [|? ?]]; try discriminate. destruct a as [|a]; [left; reflexivity|exfalso]. apply (H [1%nat]).
    split; [left; reflexivity|]. split; [intros [|i] Hi; cbn; lia|]. intros i Hi _ (w & [<-|[]] & _ & X). lia.
Qed.
