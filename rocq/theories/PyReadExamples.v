(** Expressions read by diff2poly, with coefficients in Z[x]. *)
From Coq Require Import ZArith List Bool Arith Lia.
From Verif Require Import Outcome MonomModel MonomSpec PyMonomModel PyMonomSpec PyDiffModel PyDiffSpec PyDiffExamples PyReadModel PyReadSpec PyReadProofs.
Import ListNotations.
Local Open Scope Z_scope.

(** x (u_xxy + 2 x^3) + u - 1 *)
Definition ex_read : dexpr Zx :=
  EAdd (EMul (@EAtom Zx (mk [0; 1])) (EAdd (@EDer Zx 0 [(0, 2); (1, 1)]%nat) (EMul (@EPow Zx (@EAtom Zx (mk [0; 1])) (mk [0; 0; 0; 1])) (@EAtom Zx (mk [2])))))
    (EAdd (EFun 0) (@EAtom Zx (mk [-1]))).
Lemma ex_read_linear : linear 2 1 ex_read.
Proof.
  apply li_add; [apply li_mul_l with (mk [0; 1]); [constructor|apply li_add]|apply li_add].
  - apply li_der; [lia| |].
    + constructor; [cbn; intros [X|[]]; discriminate|repeat constructor; intros []].
    + repeat constructor.
  - apply li_mul_r with (mk [2]); [|constructor]. eapply li_coef. apply co_pow with (d := mk [0; 1]). constructor.
  - apply li_fun. lia.
  - eapply li_coef. constructor.
Qed.
Lemma ex_read_value : diff2poly Zx TOPdeglex 2 1 ex_read = Ok [dt 2 1 [0; 1]; dt 0 0 [1]; (py_unit 2, mk [-1; 0; 0; 0; 2])].
Proof. vm_compute. reflexivity. Qed.
(** (x u_x - u_y) u is rejected *)
Lemma ex_product : diff2poly Zx TOPdeglex 2 1 (EAdd (EMul (@EAtom Zx (mk [0; 1])) (@EDer Zx 0 [(0, 1)%nat])) (EMul (@EAtom Zx (mk [-1])) (@EDer Zx 0 [(1, 1)%nat]))) = Ok eq2 /\
  mentions eq2 /\ diff2poly Zx TOPdeglex 2 1 (EFun 0) = Ok [dt 0 0 [1]] /\ mentions [dt 0 0 [1]].
Proof.
  split; [vm_compute; reflexivity|]. split; [exists (dt 1 0 [0; 1]); cbn; split; [now left|lia]|]. split; [vm_compute; reflexivity|exists (dt 0 0 [1]); cbn; split; [now left|lia]].
Qed.
Lemma power_accepted : exists (b : dexpr Zx) (c : ck Zx), ~ linear 2 1 (EPow b c) /\
  diff2poly Zx TOPdeglex 2 1 (EAdd (@EDer Zx 0 [(0, 2)%nat]) (EPow b c)) = Ok [dt 2 0 [1]; (py_unit 2, c)].
Proof.
  exists (EFun 0), (mk [1]). split; [|vm_compute; reflexivity]. intro L. inversion L as [a c A| | | | |]; subst. inversion A as [| | |b d c' B]; subst. inversion B.
Qed.

Lemma repeated_read : exists (l : list (nat * nat)) p (u : Z -> fs Zx_space), Forall (fun x => (fst x < 2)%nat) l /\
  diff2poly Zx TOPdeglex 2 1 (@EDer Zx 0 l) = Ok p /\
  value Zx_space u p <> fold_left (fun f x => der_times Zx_space (snd x) (fst x) f) l (u 0).
Proof.
  exists [(0, 1); (0, 1)]%nat, [dt 1 0 [1]], (fun _ => mk [0; 0; 1]).
  split; [repeat constructor|]. split; [reflexivity|]. intro E. apply (f_equal (@proj1_sig _ _)) in E. revert E. vm_compute. discriminate.
Qed.
