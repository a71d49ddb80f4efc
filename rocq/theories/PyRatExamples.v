(** 3x/2 - 2y/3, and x + 1/2, over x > y *)
From Coq Require Import ZArith QArith Qcanon List Bool Arith Lia Sorted.
From Verif Require Import Outcome MonomModel MonomSpec PyMonomModel PyMonomSpec PyMonomProofs PyRatModel PyRatSpec PyRatProofs.
Import ListNotations.
Local Open Scope Z_scope.

Definition rx (e : list nat) (c : Q) : monom * Qc := (Mon (-1) e, Q2Qc c).
Definition rp1 : rpoly := [rx [1;0]%nat (3#2); rx [0;1]%nat (-(2)#3)].
Definition rp2 : rpoly := [rx [1;0]%nat 1; rx [0;0]%nat (1#2)].
Lemma two_canonical (a b : list nat) (c d : Q) : length a = 2%nat -> length b = 2%nat -> py_cmp TOPdeglex (Mon (-1) a) (Mon (-1) b) = 1 -> Q2Qc c <> 0%Qc -> Q2Qc d <> 0%Qc ->
  rp_canonical TOPdeglex 2 0 [rx a c; rx b d].
Proof.
  intros A B E C D. split; [|split].
  - constructor; [constructor; constructor|]. constructor; [|constructor]. apply (py_meaning TOPdeglex 2); [split; [exact A|cbn; lia]|split; [exact B|cbn; lia]|exact E].
  - constructor; [|constructor; [|constructor]]; split; cbn; try lia; split; cbn; try assumption; lia.
  - constructor; [exact C|constructor; [exact D|constructor]].
Qed.
Lemma rp1_canonical : rp_canonical TOPdeglex 2 0 rp1.
Proof. apply two_canonical; try reflexivity; discriminate. Qed.
Lemma rp2_canonical : rp_canonical TOPdeglex 2 0 rp2.
Proof. apply two_canonical; try reflexivity; discriminate. Qed.

(** Rational numbers in lowest terms are equal when numerators and denominators are. *)
Definition seen (p : rpoly) : list (monom * Q) := map (fun x => (fst x, this (snd x))) p.
Lemma seen_eq p : forall q, seen p = seen q -> p = q.
Proof.
  induction p as [|[m c] p IH]; intros [|[m' c'] q] E; try discriminate; [reflexivity|]. cbn [seen map fst snd] in E. injection E as -> E1 E2.
  f_equal; [|exact (IH q E2)]. f_equal. apply Qc_is_canon. rewrite E1. reflexivity.
Qed.
Lemma seen_ok (e : outcome rpoly) q : match e with Ok p => Some (seen p) | _ => None end = Some (seen q) -> e = Ok q.
Proof. destruct e as [p| | | |]; try discriminate. intro E. injection E as E. f_equal. apply seen_eq. exact E. Qed.

Lemma rp_case : rp_canonical TOPdeglex 2 0 rp1 /\ rp_cancel TOPdeglex rp1 = Ok [rx [1;0]%nat 9; rx [0;1]%nat (-(4)#1)] /\
  rp_pp TOPdeglex rp1 = Ok [rx [1;0]%nat 9; rx [0;1]%nat (-(4)#1)] /\ rp_pp TOPdeglex [rx [1;0]%nat 6; rx [0;1]%nat (-(4)#1)] = Ok [rx [1;0]%nat 3; rx [0;1]%nat (-(2)#1)].
Proof. split; [exact rp1_canonical|]. split; [|split]; apply seen_ok; vm_compute; reflexivity. Qed.
Lemma half_not_integer : ~ integer (Q2Qc (1#2)).
Proof.
  intros H. assert (D : (r_den (Q2Qc (1#2)) | 1)). { apply den_spec. destruct H as [z ->]. exists z. rewrite zc_one. ring. }
  change (r_den (Q2Qc (1#2))) with 2 in D. destruct D as [w D]. lia.
Qed.
Lemma rp_half : exists (p r : rpoly), rp_canonical TOPdeglex 2 0 p /\ rp_pp TOPdeglex p = Ok r /\ In (Q2Qc (1#2)) (coefficients r) /\ ~ integer (Q2Qc (1#2)) /\ ~ primitive_q r.
Proof.
  assert (E : rp_pp TOPdeglex rp2 = Ok rp2) by (apply seen_ok; vm_compute; reflexivity).
  exists rp2, rp2. split; [exact rp2_canonical|]. split; [exact E|]. split; [right; left; reflexivity|]. split; [exact half_not_integer|].
  intro P. apply (proj1 (pp_exact TOPdeglex 2 0 rp2 rp2 rp2_canonical E) P).
  exists [1%Qc], [Q2Qc (1#2)]. split; [reflexivity|]. split.
  - split; [intros c [<- | []]; exists 1; reflexivity|]. intros h H. apply H. left. reflexivity.
  - split; [left; reflexivity|]. exists (Q2Qc (1#2)). split; [left; reflexivity|exact half_not_integer].
Qed.
