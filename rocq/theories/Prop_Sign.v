(** Property C97: the result does not depend on how the system is written. *)
From Coq Require Import ZArith List Bool Arith Lia Permutation.
From Verif Require Import Outcome MonomModel MonomSpec PolyModel PolySpec JanetModel JanetSpec JanetPolyModel TQModel JanetPolySpec
  JanetPolyExamples SignSpec SignMain SignTop SignExamples Sign2Main.
Import ListNotations.
Local Open Scope Z_scope.

(** Two programs that push the same polynomials up to the sign, after replacing some of the variables by
    their negatives in all of them, and complete at the same places: both end in the same way (also in
    asserts), after the same number of rounds, with the same basis up to signs, and every find and normal form
    is the same up to signs.  All orders, module terms allowed, with and without asserts. *)
Theorem C97_signs : forall (s : nat -> bool) (n : nat) (dbg : bool) (cs ds : list jcmd),
  Forall2 (cmd_flips n s) cs ds ->
  alike (fun J K => Forall2 (flips s) (basis J) (basis K) /\ is_one K = is_one J /\
           (forall m, alike (fun w v => match w, v with Some p, Some q => flips s p q | None, None => True | _, _ => False end)
                        (jp_find dbg J m) (jp_find dbg K m)) /\
           (forall fuel a b, sized n a -> flips s a b -> alike (flips s) (jp_nf fuel dbg J a) (jp_nf fuel dbg K b)))
    (jrun dbg jp_empty cs) (jrun dbg jp_empty ds).
Proof. exact c97_signs. Qed.
Print Assumptions C97_signs.

(** 3 x^2 + x y + 3 and x^2 + 2 y z + 3 x, with -x for x and the first equation negated. *)
Example C97_signs_ex : Forall2 (cmd_flips 3 sgs) [CPush sg2; CPush sg3; CBuild 30] [CPush sg2'; CPush sg3'; CBuild 30] /\
  exists J K, jrun false jp_empty [CPush sg2; CPush sg3; CBuild 30] = Ok J /\
  jrun false jp_empty [CPush sg2'; CPush sg3'; CBuild 30] = Ok K /\ map terms (basis J) <> map terms (basis K) /\ (length (basis J) = 3)%nat.
Proof. split; [exact sg_flips|exact sg_runs]. Qed.

(** The same for a call of algorithmTQ2 at the end. *)
Theorem C97_tq2_signs : forall (s : nat -> bool) (n : nat) (dbg : bool) (cs ds : list jcmd) (fuel : nat), Forall2 (cmd_flips n s) cs ds ->
  alike (fun J K => Forall2 (flips s) (basis2 J) (basis2 K) /\ (j2one K = None <-> j2one J = None) /\
           (forall m, alike (fun w v => match w, v with Some p, Some q => flips s p q | None, None => True | _, _ => False end)
                        (jp2_find dbg J m) (jp2_find dbg K m)) /\
           (forall fuel a b, sized n a -> flips s a b -> alike (flips s) (jp2_nf fuel dbg J a) (jp2_nf fuel dbg K b)))
    (do J <- jrun dbg jp_empty cs; jp_tq2 fuel dbg J) (do J <- jrun dbg jp_empty ds; jp_tq2 fuel dbg J).
Proof. exact c97_tq2_signs. Qed.
Print Assumptions C97_tq2_signs.
Example C97_tq2_signs_ex : Forall2 (cmd_flips 3 sgs) [CPush sg2; CPush sg3] [CPush sg2'; CPush sg3'] /\
  exists J K, (do J <- jrun false jp_empty [CPush sg2; CPush sg3]; jp_tq2 30 false J) = Ok J /\
  (do J <- jrun false jp_empty [CPush sg2'; CPush sg3']; jp_tq2 30 false J) = Ok K /\ map terms (basis2 J) <> map terms (basis2 K).
Proof.
  split; [exact sg_flips2|]. do 2 eexists. split; [vm_compute; reflexivity|]. split; [vm_compute; reflexivity|discriminate].
Qed.

(** Pushes of polynomials with different leading monomials (and of 0) can be made in any order: the object
    is the same, hence also everything computed with it. *)
Theorem C97_order : forall (t : pos_order) (o : base_order) (n : nat) (F : list poly) (J : jpoly) (l1 l2 : list poly),
  (0 < n)%nat -> o <> OAlex -> jp_history false t o n F J ->
  Forall (ring_input t o n) l1 -> NoDup (lead_monomials l1) -> Permutation l1 l2 -> jp_push_all false J l1 = jp_push_all false J l2.
Proof. exact c97_order. Qed.
Print Assumptions C97_order.

Theorem C97_order_fresh : forall (dbg : bool) (t : pos_order) (o : base_order) (n : nat) (l1 l2 : list poly),
  Forall (ring_input t o n) l1 -> NoDup (lead_monomials l1) -> Permutation l1 l2 ->
  jp_push_all dbg jp_empty l1 = jp_push_all dbg jp_empty l2.
Proof. exact c97_order_fresh. Qed.
Print Assumptions C97_order_fresh.

Example C97_order_ex : Forall (ring_input TOP ODegLex 3) [sg1; sg2] /\ NoDup (lead_monomials [sg1; sg2]) /\ Permutation [sg1; sg2] [sg2; sg1] /\
  exists J, jp_push_all false jp_empty [sg1; sg2] = Ok J /\ (length (jq J) = 2)%nat.
Proof.
  split; [apply Forall_cons; [exact sg1_in|]; apply Forall_cons; [exact sg2_in|apply Forall_nil]|].
  split; [cbn; constructor; [intros [X|[]]; discriminate|constructor; [intros []|constructor]]|].
  split; [apply perm_swap|]. eexists. split; [vm_compute; reflexivity|reflexivity].
Qed.

(** With equal leading monomials the order matters: the same four equations in the opposite order, and
    isOne() changes. *)
Theorem C97_order_refuted : exists (o : base_order) (n : nat) (l1 l2 : list poly) (J1 J2 : jpoly),
  (0 < n)%nat /\ o <> OAlex /\ Forall (ring_input TOP o n) l1 /\ Permutation l1 l2 /\
  (do J <- jp_push_all false jp_empty l1; jp_build 30 false J) = Ok J1 /\
  (do J <- jp_push_all false jp_empty l2; jp_build 30 false J) = Ok J2 /\
  is_one J1 = true /\ is_one J2 = false.
Proof. exact c97_order_witness. Qed.
Print Assumptions C97_order_refuted.

(** A positive constant factor of one equation matters too. *)
Theorem C97_scale_refuted : exists (o : base_order) (n : nat) (a b : poly) (k : Z) (l : list poly) (J1 J2 : jpoly),
  (0 < n)%nat /\ o <> OAlex /\ Forall (ring_input TOP o n) (a :: b :: l) /\ 0 < k /\ (forall m, coef (terms b) m = k * coef (terms a) m) /\
  (do J <- jp_push_all false jp_empty (a :: l); jp_build 30 false J) = Ok J1 /\
  (do J <- jp_push_all false jp_empty (b :: l); jp_build 30 false J) = Ok J2 /\
  is_one J1 = false /\ is_one J2 = true.
Proof. exact c97_scale_witness. Qed.
Print Assumptions C97_scale_refuted.
