(** Property C62: the forests (systems with several unknown functions) of the Python package pyginv. *)
From Coq Require Import ZArith List Bool Arith QArith Lia Permutation.
From Verif Require Import Outcome MonomModel MonomSpec PolySpec JanetSpec HilbertSpec PyMonomModel PyMonomSpec PyPolyModel PyPolySpec PyJanetModel PyJanetSpec
  PyHPModel PyHPSpec PyForestModel PyForestSpec PyForestProofs PyExamples PyForestExamples.
Import ListNotations.
Local Open Scope nat_scope.

(** findWrap: the Janet divisor of m among the leading monomials with the same unknown function. *)
Theorem C62_find : forall (n k : nat) (F : pforest), 0 < n -> fbuilt n k F -> forall m : monom, length (vars m) = n -> (0 <= pos m < Z.of_nat k)%Z ->
  (exists r, pf_findWrap F m = Ok r) /\
  (forall u, pf_findWrap F m = Ok (Some u) <-> In u (pf_elems F) /\ pos (pw_lm u) = pos m /\ janet_divides n (component F (pos m)) (exps u) (vars m)) /\
  (pf_findWrap F m = Ok None <-> forall x, ~ janet_divides n (component F (pos m)) x (vars m)).
Proof. exact pyf_find. Qed.
Print Assumptions C62_find.

(** A monomial without unknown function is never reducible; one with a function outside the system is an error. *)
Theorem C62_find_ring : forall (F : pforest) (m : monom), (pos m < 0)%Z -> pf_findWrap F m = Ok None.
Proof. exact pyf_find_ring. Qed.
Print Assumptions C62_find_ring.
Theorem C62_find_outside : forall (F : pforest) (m : monom), (Z.of_nat (length F) <= pos m)%Z -> pf_findWrap F m = Undef.
Proof. exact pyf_find_outside. Qed.
Print Assumptions C62_find_outside.

Theorem C62_flags : forall (n k : nat) (F : pforest), 0 < n -> fbuilt n k F -> forall (u : pwrap) (i : nat), In u (pf_elems F) -> i < n ->
  (nth i (pw_nonmult u) false = true <-> janet_nm (component F (pos (pw_lm u))) (exps u) i).
Proof. exact pyf_flags. Qed.
Print Assumptions C62_flags.

(** Inserting a Wrap that has no Janet divisor: exactly the elements it Janet-divides leave the forest. *)
Theorem C62_insert : forall (n k : nat) (F : pforest), 0 < n -> fbuilt n k F -> forall w : pwrap, clean n w ->
  (0 <= pos (pw_lm w) < Z.of_nat k)%Z -> (forall x, ~ janet_divides n (component F (pos (pw_lm w))) x (exps w)) ->
  exists F' lst kept, pf_insert F [w] = Ok (F', lst) /\ fbuilt n k F' /\ Permutation (pf_elems F) (kept ++ lst) /\
    (exists l, Permutation (pf_elems F') l /\ Forall2 same_wrap l (w :: kept)) /\
    forall u, In u (pf_elems F) -> (In u lst <-> pos (pw_lm u) = pos (pw_lm w) /\ janet_divides n (component F' (pos (pw_lm w))) (exps w) (exps u)).
Proof. exact pyf_insert. Qed.
Print Assumptions C62_insert.

(** Inserting a Wrap that has a Janet divisor or a function outside the system is an error. *)
Theorem C62_insert_fails : forall (n k : nat) (F : pforest), 0 < n -> fbuilt n k F -> forall w : pwrap, clean n w -> (0 <= pos (pw_lm w))%Z ->
  ((Z.of_nat k <= pos (pw_lm w))%Z \/ exists x, janet_divides n (component F (pos (pw_lm w))) x (exps w)) -> forall F' lst, pf_insert F [w] <> Ok (F', lst).
Proof. exact pyf_insert_fails. Qed.
Print Assumptions C62_insert_fails.

(** A Wrap whose leading monomial has no unknown function is not rejected: it goes to the tree of the last function, is not
    found again, and from then on a monomial of the last function is an error. *)
Theorem C62_insert_ring_refuted : exists (F F' : pforest) (w x : pwrap), fbuilt 2 2 F /\ clean 2 w /\ clean 2 x /\ pos (pw_lm w) = (-1)%Z /\ pos (pw_lm x) = 1%Z /\
  pf_insert F [w] = Ok (F', []) /\ pf_elems F' = [w] /\ pf_findWrap F' (pw_lm w) = Ok None /\
  pf_findWrap F' (pw_lm x) = AssertFail /\ pf_insert F' [x] = AssertFail.
Proof.
  exists forest0, forest_ring, w_ring, w_xv. split; [apply fbuilt_new; reflexivity|]. repeat split; vm_compute; reflexivity.
Qed.
Print Assumptions C62_insert_ring_refuted.

Theorem C62_count : forall (n k : nat) (F : pforest), 0 < n -> fbuilt n k F -> pf_count F = Z.of_nat (length (pf_elems F)) /\ NoDup (map pw_lm (pf_elems F)).
Proof. intros n k F N B. split; [exact (pyf_count n k F N B)|exact (pyf_distinct n k F N B)]. Qed.
Print Assumptions C62_count.

Theorem C62_degMinProlong : forall (n k : nat) (F : pforest), 0 < n -> fbuilt n k F ->
  ((forall w v, In w (pf_elems F) -> ~ pending w v) -> pf_degMinProlong F = 0) /\
  ((exists w v, In w (pf_elems F) /\ pending w v) ->
    (exists w v, In w (pf_elems F) /\ pending w v /\ fold_right Nat.add 0 (exps w) = pf_degMinProlong F) /\
    (forall w v, In w (pf_elems F) -> pending w v -> pf_degMinProlong F <= fold_right Nat.add 0 (exps w)) /\ 0 < pf_degMinProlong F).
Proof. exact pyf_degmin. Qed.
Print Assumptions C62_degMinProlong.

Theorem C62_prolongDeg : forall (n k : nat) (F : pforest), 0 < n -> fbuilt n k F -> forall (o : py_order) (kz : Z) (id : nat), (0 <= kz)%Z ->
  (forall w, In w (pf_elems F) -> leads w /\ py_canonical o n kz (pw_poly w)) -> forall d : nat,
  fprolongation o n k kz F id (fun w _ => d = 0 \/ fold_right Nat.add 0 (exps w) = d) (pf_prolongDeg o F d id).
Proof. exact pyf_prolongDeg. Qed.
Print Assumptions C62_prolongDeg.

Theorem C62_prolongMonom : forall (n k : nat) (F : pforest), 0 < n -> fbuilt n k F -> forall (o : py_order) (kz : Z) (id : nat), (0 <= kz)%Z ->
  (forall w, In w (pf_elems F) -> leads w /\ py_canonical o n kz (pw_poly w)) -> forall m : monom, mono n m ->
  fprolongation o n k kz F id (fun w v => ~ py_greater o (Mon (pos (pw_lm w)) (incr v (vars (pw_lm w)))) m) (pf_prolongMonom o F m id).
Proof. exact pyf_prolongMonom. Qed.
Print Assumptions C62_prolongMonom.

Theorem C62_prolongAll : forall (n k : nat) (F : pforest), 0 < n -> fbuilt n k F -> forall (o : py_order) (kz : Z) (id : nat), (0 <= kz)%Z ->
  (forall w, In w (pf_elems F) -> leads w /\ py_canonical o n kz (pw_poly w)) ->
  fprolongation o n k kz F id (fun _ _ => True) (pf_prolongAll o F id).
Proof. exact pyf_prolongAll. Qed.
Print Assumptions C62_prolongAll.

(** HP(verge): the sum over the first verge functions (all of them if there are not more) of the number of monomials of
    degree at most s without Janet divisor, for s from the largest degree on. *)
Theorem C62_HP : forall (n k : nat) (F : pforest), 0 < n -> fbuilt n k F -> forall verge : Z,
  exists h, pf_HP n F verge = Ok h /\ length h = S n /\
  forall s, (forall w, In w (pf_elems F) -> total (exps w) <= s) ->
    exists ks, length ks = upto k verge /\ (forall p, p < upto k verge -> janet_free n (component F (Z.of_nat p)) s (nth p ks 0)) /\
      (py_subs h (inject_Z (Z.of_nat s)) == inject_Z (Z.of_nat (fold_right Nat.add 0%nat ks)))%Q.
Proof. exact pyf_HP. Qed.
Print Assumptions C62_HP.

Theorem C62_HP_basis : forall (n k : nat) (F : pforest) (verge : Z) (Gs : nat -> list (list nat)), 0 < n -> fbuilt n k F ->
  (forall p, p < upto k verge -> janet_basis n (Gs p) (component F (Z.of_nat p))) ->
  exists h, pf_HP n F verge = Ok h /\ length h = S n /\
  forall s, (forall w, In w (pf_elems F) -> total (exps w) <= s) ->
    exists ks, length ks = upto k verge /\ (forall p, p < upto k verge -> hilbert_function n (Gs p) s (nth p ks 0)) /\
      (py_subs h (inject_Z (Z.of_nat s)) == inject_Z (Z.of_nat (fold_right Nat.add 0%nat ks)))%Q.
Proof. exact pyf_HP_basis. Qed.
Print Assumptions C62_HP_basis.

(** Leading monomials x*u; y*v, x*v; the element x*y*v was removed. *)
Example C62_ex : fbuilt 2 2 forest2 /\ (exists lst, pf_insert forest1 [w_xv] = Ok (forest2, lst) /\ map pw_id lst = [1]) /\
  component forest2 0 = [[1; 0]] /\ component forest2 1 = [[0; 1]; [1; 0]] /\ pf_count forest2 = 3%Z /\
  (forall w, In w (pf_elems forest2) -> leads w /\ py_canonical TOPdeglex 2 2 (pw_poly w)) /\
  (exists u, pf_findWrap forest2 (Mon 1 [0; 4]) = Ok (Some u) /\ exps u = [0; 1]) /\ pf_findWrap forest2 (Mon 0 [0; 4]) = Ok None /\
  pf_degMinProlong forest2 = 1 /\
  (exists F' new, pf_prolongAll TOPdeglex forest2 5 = Ok (F', new, 6) /\ map pw_poly new = [[(Mon 1 [1; 1], 1%Z)]] /\ pf_degMinProlong F' = 0) /\
  exists h h1, pf_HP 2 forest2 (-1) = Ok h /\ Forall2 Qeq h [2; 1; 0]%Q /\ pf_HP 2 forest2 1 = Ok h1 /\ Forall2 Qeq h1 [1; 1; 0]%Q.
Proof.
  destruct fbuilt2 as (lst & E & I & B). split; [exact B|]. split; [exists lst; split; assumption|]. split; [vm_compute; reflexivity|]. split; [vm_compute; reflexivity|]. split; [vm_compute; reflexivity|].
  split; [exact forest2_polys|]. split; [eexists; split; vm_compute; reflexivity|]. split; [vm_compute; reflexivity|]. split; [vm_compute; reflexivity|].
  split; [eexists; eexists; split; [vm_compute; reflexivity|]; repeat split; vm_compute; reflexivity|].
  eexists. eexists. split; [vm_compute; reflexivity|]. split; [vm_compute; repeat constructor|]. split; [vm_compute; reflexivity|]. vm_compute. repeat constructor.
Qed.
