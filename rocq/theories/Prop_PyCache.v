(** Property C67: JanetCache.find and normal forms through it. *)
From Coq Require Import ZArith List Bool Arith Lia.
From Verif Require Import Outcome MonomModel MonomSpec PolySpec JanetSpec JanetPolySpec PyMonomModel PyMonomSpec PyPolyModel PyPolySpec PyJanetModel PyJanetSpec PyDiffModel PyDiffSpec PyDiffExamples
  PyCacheModel PyCacheSpec PyCacheProofs PyCacheExamples.
Import ListNotations.
Local Open Scope Z_scope.

(** find terminates.  It answers None exactly for the monomials without Janet divisor; otherwise the answer is a consequence
    of G that begins with m itself, and either belongs to the tree or is primitive with irreducible tail. *)
Theorem C67_find : forall (o : py_order) (n : nat) (k p : Z) (G : ppoly -> Prop), 0 <= k -> (0 < n)%nat ->
  forall (J : pjanet) (c : pcache) (m : monom), cache_history o n k p G J c -> pmono n k m -> pos m = p ->
  exists bound w c', (forall fuel, (bound <= fuel)%nat -> jc_find fuel o J c m = Ok (w, c')) /\ cache_history o n k p G J c' /\
  match w with
  | None => ~ janet_reducible n J m
  | Some r => janet_reducible n J m /\ consequence o n k p G r /\ exists d q, r = (m, d) :: q /\
      ((exists u, In u (elems J) /\ pw_lm u = m /\ pw_poly u = r) \/ (primitive r /\ Forall (fun x => ~ janet_reducible n J (fst x)) q))
  end.
Proof. exact cache_find. Qed.
Print Assumptions C67_find.

(** Asked again, with the same tree, it gives the same answer and the dictionary stays as it is. *)
Theorem C67_again : forall (o : py_order) (n : nat) (k p : Z) (G : ppoly -> Prop), 0 <= k -> (0 < n)%nat ->
  forall (J : pjanet) (c : pcache) (m : monom) (fuel : nat) (w : option ppoly) (c' : pcache), cache_history o n k p G J c -> pmono n k m -> pos m = p ->
  jc_find fuel o J c m = Ok (w, c') ->
  exists bound, forall fuel', (bound <= fuel')%nat -> jc_find fuel' o J c' m = Ok (w, c').
Proof. exact cache_again. Qed.
Print Assumptions C67_again.

(** Everything in the dictionary is a consequence of G that begins with its key, also after changes of the tree. *)
Theorem C67_entries : forall (o : py_order) (n : nat) (k p : Z) (G : ppoly -> Prop), 0 <= k -> (0 < n)%nat ->
  forall (J : pjanet) (c : pcache) (u : monom) (r : ppoly), cache_history o n k p G J c -> In (u, r) c ->
  consequence o n k p G r /\ exists d q, r = (u, d) :: q.
Proof. exact cache_entries. Qed.
Print Assumptions C67_entries.

(** NFhead and NFtail with a JanetCache terminate and reduce modulo the ideal of G. *)
Theorem C67_NFhead : forall (o : py_order) (n : nat) (k p : Z) (G : ppoly -> Prop), 0 <= k -> (0 < n)%nat ->
  forall (J : pjanet) (c : pcache) (f : ppoly), cache_history o n k p G J c -> py_canonical o n k f -> in_component p f ->
  exists bound r c', (forall fuel, (bound <= fuel)%nat -> jc_nfhead fuel o J c f = Ok (r, c')) /\
    py_canonical o n k r /\ reduces_to n G f r /\ (r = [] \/ exists m d q, r = (m, d) :: q /\ ~ janet_reducible n J m).
Proof. exact cache_head. Qed.
Print Assumptions C67_NFhead.
Theorem C67_NFtail : forall (o : py_order) (n : nat) (k p : Z) (G : ppoly -> Prop), 0 <= k -> (0 < n)%nat ->
  forall (J : pjanet) (c : pcache) (f : ppoly), cache_history o n k p G J c -> py_canonical o n k f -> in_component p f -> f <> [] ->
  exists bound r c' m d d' q q', (forall fuel, (bound <= fuel)%nat -> jc_nftail fuel o J c f = Ok (r, c')) /\
    py_canonical o n k r /\ reduces_to n G f r /\ f = (m, d) :: q /\ r = (m, d') :: q' /\ Forall (fun x => ~ janet_reducible n J (fst x)) q'.
Proof. exact cache_tail. Qed.
Print Assumptions C67_NFtail.

(** With several unknown functions (a Forest of JanetCache) find fails an assert in every order: it asks the tree of u
    for a derivative of v.  The tree holds x u + v, the monomial is x^2 u. *)
Theorem C67_module_refuted : forall o : py_order, exists J m, built 1 J /\ (forall w, In w (elems J) -> leads w /\ py_canonical o 1 2 (pw_poly w) /\ pos (pw_lm w) = pos m) /\
  janet_reducible 1 J m /\ forall fuel, (3 <= fuel)%nat -> jc_find fuel o J [] m = AssertFail.
Proof.
  intro o. exists cm_tree, (Mon 0 [2]%nat). split; [exact cm_built|]. split; [|split; [|exact (cm_fails o)]].
  - intros w W. destruct (cm_elems w W) as [L E]. split; [exact L|]. split; [rewrite E; apply cm_canonical|]. destruct L as (c & l & L). rewrite E in L. injection L as <- _. reflexivity.
  - exists [1]%nat. split; [vm_compute; auto|]. split; [intros [|i] H; cbn; lia|]. intros i Hi _ (v & V & _ & L). vm_compute in V. destruct V as [<-|[]]. exact (Nat.lt_irrefl _ L).
Qed.
Print Assumptions C67_module_refuted.

(** With differential polynomials whose coefficients depend on the variables the polynomial made for m is wrong:
    u = x solves the equation of the tree but not the polynomial that find returns for m. *)
Theorem C67_differential_refuted : exists (q r : list (monom * ck Zx)) (m : monom) (u : Z -> fs Zx_space), dp_canonical Zx TOPdeglex 2 1 q /\ value Zx_space u q = f_zero Zx_space /\
  dc_new Zx TOPdeglex q m = Ok r /\ dp_nftail Zx 4 TOPdeglex (dp_find Zx q) r = Ok r /\ value Zx_space u r <> f_zero Zx_space.
Proof. exists cd_p, cd_r, (Mon 0 [1; 2]%nat), cd_u. split; [exact cd_canonical|]. split; [exact cd_zero|]. split; [apply cd_new|]. split; [apply cd_new|exact cd_wrong]. Qed.
Print Assumptions C67_differential_refuted.

(** The tree of x^2 - y, x y - 1, y^2 - x: the answer for x^3 is x^3 - 1 (x (x^2 - y) with its tail reduced). *)
Example C67_example : cache_tree TOPdeglex 2 0 (-1) ca_set ca_tree /\
  jc_find 10 TOPdeglex ca_tree [] ca_x3 = Ok (Some [(ca_x3, 1); (Mon (-1) [0; 0]%nat, -1)], ca_cache) /\
  cache_history TOPdeglex 2 0 (-1) ca_set ca_tree ca_cache /\
  exists c, jc_nfhead 10 TOPdeglex ca_tree ca_cache [(Mon (-1) [4; 0]%nat, 1); (Mon (-1) [0; 1]%nat, 1)] = Ok ([(Mon (-1) [1; 0]%nat, 1); (Mon (-1) [0; 1]%nat, 1)], c) /\ length c = 3%nat.
Proof.
  split; [exact ca_tree_ok|]. split; [exact ca_ask|]. split.
  - apply (ch_find TOPdeglex 2 0 (-1) ca_set ca_tree [] ca_x3 10 (Some [(ca_x3, 1); (Mon (-1) [0; 0]%nat, -1)])); [apply ch_new, ca_tree_ok|repeat split; cbn; lia|reflexivity|exact ca_ask].
  - eexists. split; vm_compute; reflexivity.
Qed.
