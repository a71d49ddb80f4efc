(** Property C59: Poly objects of pyginv and the terms they have in common. *)
From Coq Require Import ZArith List Bool Arith Lia.
From Verif Require Import Outcome MonomModel MonomSpec PolySpec PyMonomModel PyMonomSpec PyPolyModel PyPolySpec PyExamples PyHeapModel PyHeapSpec PyHeapProofs PyHeapExamples.
Import ListNotations.
Local Open Scope Z_scope.

(* ---- C59 ---- *)
(** After any sequence of method calls, a call gives what it should, computed from the values of its operands,
    provided an object changed in place has no term in common with the other operand. *)
Theorem C59_value_partial : forall (o : py_order) (n fuel : nat) (s : hstate) (op : hop), reaches o n (fun _ => True) s ->
  (forall p, In p (operands op) -> (p < length (hobjs s))%nat) -> proper op ->
  (forall p q, changes op = Some p -> In q (operands op) -> q <> p -> ~ shares s p q) ->
  (do r <- h_step fuel o n op s; Ok (hval (fst r) (snd r))) = value_op fuel o n (hval s) op.
Proof. intros o n fuel s op R. exact (step_value fuel o n op s (reaches_fine _ _ _ _ R)). Qed.
Print Assumptions C59_value_partial.

(** A call leaves all other objects as they were, except those having a term in common with the object changed in place. *)
Theorem C59_others_partial : forall (o : py_order) (n fuel : nat) (s : hstate) (op : hop) (s' : hstate) (r x : nat), reaches o n (fun _ => True) s ->
  (forall p, In p (operands op) -> (p < length (hobjs s))%nat) -> h_step fuel o n op s = Ok (s', r) ->
  (x < length (hobjs s))%nat -> (forall p, changes op = Some p -> x <> p /\ ~ shares s p x) -> hval s' x = hval s x.
Proof. intros o n fuel s op s' r x R. exact (step_others fuel o n op s s' r x (reaches_fine _ _ _ _ R)). Qed.
Print Assumptions C59_others_partial.

(** Two objects come to have a term in common only by a sum or a difference: the result then has terms in common
    with what had terms in common with the left operand. *)
Theorem C59_sharing : forall (o : py_order) (n fuel : nat) (s : hstate) (op : hop) (s' : hstate) (r x y : nat), reaches o n (fun _ => True) s ->
  (forall p, In p (operands op) -> (p < length (hobjs s))%nat) -> h_step fuel o n op s = Ok (s', r) -> x <> y -> shares s' x y ->
  shares s x y \/
  (sum_op op = true /\ exists p z, hd_error (operands op) = Some p /\ shares s p z /\ (x = r /\ y = z \/ y = r /\ x = z)).
Proof. intros o n fuel s op s' r x y R. exact (step_shares fuel o n op s s' r x y (reaches_fine _ _ _ _ R)). Qed.
Print Assumptions C59_sharing.

(** In programs without sums and differences all objects are independent. *)
Theorem C59_without_sums : forall (o : py_order) (n : nat) (s : hstate), reaches o n (fun op => sum_op op = false) s ->
  forall x y, x <> y -> ~ shares s x y.
Proof. exact no_sums_apart. Qed.
Print Assumptions C59_without_sums.

(** With them a normal form is wrong: g = f + e; g.NFhead(f) ends with g = 0 (and with another f), though no
    multiple of g is a multiple of f. *)
Theorem C59_independent_refuted : exists (s s' : hstate) (f g : nat), reaches TOPdeglex 1 (fun _ => True) s /\ f <> g /\
  (f < length (hobjs s))%nat /\ (g < length (hobjs s))%nat /\
  py_canonical TOPdeglex 1 0 (hval s f) /\ py_canonical TOPdeglex 1 0 (hval s g) /\
  h_step 9 TOPdeglex 1 (HNFhead g f) s = Ok (s', g) /\ hval s' g = [] /\ ~ congruent 1 (eq (hval s f)) (hval s g) [] /\
  hval s' f <> hval s f.
Proof.
  exists h_st. eexists. exists 5%nat, 7%nat. split; [exact h_st_reached|]. split; [discriminate|]. split; [vm_compute; lia|]. split; [vm_compute; lia|].
  destruct h_st_vals as [-> ->]. split; [apply canonical_b_ok; vm_compute; reflexivity|]. split; [apply canonical_b_ok; vm_compute; reflexivity|].
  split; [vm_compute; reflexivity|]. split; [vm_compute; reflexivity|]. split; [exact h_not_multiple|]. vm_compute. discriminate.
Qed.
Print Assumptions C59_independent_refuted.

(** The same calls on a copy of the sum: g = Poly(f + e). *)
Example C59_ex :
  exists s s1, reaches TOPdeglex 1 (fun _ => True) s /\ hval s 5 = h_f /\ hval s 8 = h_g /\ shares s 5 7 /\
  (forall p, In p (operands (HNFhead 8 5)) -> (p < length (hobjs s))%nat) /\ proper (HNFhead 8 5) /\ ~ shares s 8 5 /\
  h_step 9 TOPdeglex 1 (HNFhead 8 5) s = Ok (s1, 8%nat) /\ hval s1 5 = h_f /\
  hval s1 8 = [(Mon (-1) [1]%nat, 7); (Mon (-1) [0]%nat, -3)] /\ value_op 9 TOPdeglex 1 (hval s) (HNFhead 8 5) = Ok (hval s1 8).
Proof.
  pose (s := match h_run TOPdeglex 1 (h_ops ++ [HCopy 7]) (H [] []) with Ok s => s | _ => H [] [] end). exists s. eexists.
  split. { apply (run_reaches _ _ _ (h_ops ++ [HCopy 7]) (H [] [])); [constructor|apply Forall_forall; auto|vm_compute; reflexivity|vm_compute; reflexivity]. }
  split; [vm_compute; reflexivity|]. split; [vm_compute; reflexivity|].
  split. { exists (hd 0%nat (obj s 5)). vm_compute. tauto. }
  split. { intros p P. apply (operands_b_ok (HNFhead 8 5) s); [vm_compute; reflexivity|exact P]. }
  split; [discriminate|]. split. { intros (a & A & B). vm_compute in A, B. repeat (destruct A as [A|A]; [subst a; repeat (destruct B as [B|B]; [discriminate B|]); exact B|]). exact A. }
  split; [vm_compute; reflexivity|]. repeat split; vm_compute; reflexivity.
Qed.
