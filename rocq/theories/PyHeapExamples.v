(** A program on which sharing of cells between Poly objects gives a wrong result. *)
From Coq Require Import ZArith List Bool Arith Lia.
From Verif Require Import Outcome MonomModel MonomSpec PolySpec PyMonomModel PyMonomSpec PyPolyModel PyPolySpec PyExamples PyHeapModel PyHeapSpec PyHeapProofs.
Import ListNotations.
Local Open Scope Z_scope.

(** sum of the coefficients: the value at (1, ..., 1) *)
Definition total (l : list (monom * Z)) : Z := fold_right Z.add 0 (map snd l).
Definition over (K : list monom) (f : monom -> Z) : Z := fold_right Z.add 0 (map f K).
Lemma over_add K f g : over K (fun m => f m + g m) = over K f + over K g.
Proof. unfold over. induction K as [|m K IH]; [reflexivity|]. cbn [map fold_right]. rewrite IH. lia. Qed.
Lemma over_scale K f c : over K (fun m => c * f m) = c * over K f.
Proof. unfold over. induction K as [|m K IH]; [cbn; lia|]. cbn [map fold_right]. rewrite IH. lia. Qed.
Lemma over_ext K f g : (forall m, f m = g m) -> over K f = over K g.
Proof. intro E. unfold over. f_equal. apply map_ext. exact E. Qed.
Lemma over_none K u c : ~ In u K -> over K (fun m => if monom_eq_dec u m then c else 0) = 0.
Proof.
  unfold over. induction K as [|m K IH]; intro N; [reflexivity|]. cbn [map fold_right In] in *. rewrite IH by tauto. destruct (monom_eq_dec u m) as [->|]; [tauto|reflexivity].
Qed.
Lemma over_one K u c : NoDup K -> In u K -> over K (fun m => if monom_eq_dec u m then c else 0) = c.
Proof.
  intros N. induction N as [|m K Nm N IH]; intro I; [destruct I|]. change (over (m :: K) (fun m => if monom_eq_dec u m then c else 0)) with ((if monom_eq_dec u m then c else 0) + over K (fun m => if monom_eq_dec u m then c else 0)).
  destruct (monom_eq_dec u m) as [->|D]; [rewrite over_none by exact Nm; lia|]. destruct I as [->|I]; [congruence|]. rewrite (IH I). reflexivity.
Qed.
Lemma total_over l : forall K, NoDup K -> (forall x, In x l -> In (fst x) K) -> total l = over K (coef l).
Proof.
  induction l as [|[u c] l IH]; intros K N I.
  - unfold total, over. cbn. clear. induction K; cbn in *; lia.
  - change (total ((u, c) :: l)) with (c + total l). rewrite (IH K N (fun x X => I x (or_intror X))).
    rewrite (over_ext K (coef ((u, c) :: l)) (fun m => (if monom_eq_dec u m then c else 0) + coef l m)) by reflexivity.
    rewrite over_add, over_one; [reflexivity|exact N|exact (I (u, c) (or_introl eq_refl))].
Qed.
Lemma total_linear p q r c : (forall m, coef p m = coef q m + c * coef r m) -> total p = total q + c * total r.
Proof.
  intro E. set (K := nodup monom_eq_dec (map fst (p ++ q ++ r))).
  assert (N : NoDup K) by apply NoDup_nodup.
  assert (I : forall x, In x (p ++ q ++ r) -> In (fst x) K) by (intros x X; apply nodup_In, in_map, X).
  rewrite (total_over p K N), (total_over q K N), (total_over r K N); try (intros x X; apply I; rewrite !in_app_iff; tauto).
  rewrite <- over_scale, <- over_add. apply over_ext, E.
Qed.
Lemma total_shift u f : total (shift u f) = total f.
Proof. unfold total, shift. rewrite map_map. reflexivity. Qed.
Lemma comb_total n (G : list (monom * Z) -> Prop) q : (forall g, G g -> total g = 0) -> combination n G q -> total q = 0.
Proof.
  intros Z0 C. induction C as [p E|p q u g c C IH Gg L E].
  - rewrite (total_linear p [] [] 0) by (intro m; rewrite E; reflexivity). reflexivity.
  - rewrite (total_linear p q (shift u g) c E), total_shift, IH, (Z0 g Gg). lia.
Qed.

(** f = 2*x^2 - 3*x + 1 *)
Definition h_f : ppoly := [(Mon (-1) [2]%nat, 2); (Mon (-1) [1]%nat, -3); (Mon (-1) [0]%nat, 1)].
(** g = f + x^3 *)
Definition h_g : ppoly := (Mon (-1) [3]%nat, 1) :: h_f.
(** The state after x = Poly(x); a = x**2; b = a*2; c = x*3; d = b - c; f = d + 1; e = x**3; g = f + e *)
Definition h_ops : list hop :=
  [HMonom (Mon (-1) [1]%nat); HPow 0 2; HMulInt 1 2; HMulInt 0 3; HSub 2 3; HAddInt 4 1; HPow 0 3; HAdd 5 6].
Fixpoint h_run (o : py_order) (n : nat) (ops : list hop) (s : hstate) : outcome hstate :=
  match ops with
  | [] => Ok s
  | op :: ops' => do r <- h_step 9 o n op s; h_run o n ops' (fst r)
  end.
Definition operands_b (op : hop) (s : hstate) : bool := forallb (fun p => Nat.ltb p (length (hobjs s))) (operands op).
Fixpoint h_run_ok (o : py_order) (n : nat) (ops : list hop) (s : hstate) : bool :=
  match ops with
  | [] => true
  | op :: ops' => operands_b op s && match h_step 9 o n op s with Ok r => h_run_ok o n ops' (fst r) | _ => false end
  end.
Lemma operands_b_ok op s : operands_b op s = true -> forall p, In p (operands op) -> (p < length (hobjs s))%nat.
Proof. unfold operands_b. rewrite forallb_forall. intros X p P. apply Nat.ltb_lt, X, P. Qed.
Lemma run_reaches o n (allowed : hop -> Prop) ops : forall s s', reaches o n allowed s -> Forall allowed ops -> h_run_ok o n ops s = true -> h_run o n ops s = Ok s' -> reaches o n allowed s'.
Proof.
  induction ops as [|op ops IH]; intros s s' R A B E; cbn [h_run h_run_ok] in *; [injection E as <-; exact R|]. apply andb_true_iff in B. destruct B as [B1 B2].
  inversion A; subst. destruct (h_step 9 o n op s) as [[s1 r]| | | |] eqn:E1; try discriminate E. cbn [bind fst] in *. apply (IH s1 s'); auto.
  exact (reach_step o n allowed 9 s op s1 r R H1 (operands_b_ok _ _ B1) E1).
Qed.
Definition h_st : hstate := match h_run TOPdeglex 1 h_ops (H [] []) with Ok s => s | _ => H [] [] end.
Lemma h_st_reached : reaches TOPdeglex 1 (fun _ => True) h_st.
Proof.
  apply (run_reaches _ _ _ h_ops (H [] [])); [constructor|apply Forall_forall; auto|vm_compute; reflexivity|vm_compute; reflexivity].
Qed.
Lemma h_st_vals : hval h_st 5 = h_f /\ hval h_st 7 = h_g.
Proof. split; vm_compute; reflexivity. Qed.
Lemma h_not_multiple : ~ congruent 1 (eq h_f) h_g [].
Proof.
  intros (k & q & Nk & C & E). assert (T : total q = 0) by (apply (comb_total 1 (eq h_f)); [intros g <-; reflexivity|exact C]).
  assert (L : total q = 0 + - k * total h_g) by (apply (total_linear q [] h_g); intro m; specialize (E m); cbn [coef] in E; change (coef [] m) with 0; lia).
  change (total h_g) with 1 in L. lia.
Qed.
