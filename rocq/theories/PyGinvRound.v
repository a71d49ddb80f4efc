(** reduceAll of the queue and the insertion of an irreducible Wrap. *)
From Coq Require Import ZArith List Bool Arith Lia Permutation.
From Verif Require Import Outcome MonomModel MonomSpec MonomProofs PolyModel PolySpec PolyProofs PolyNfProofs PolyRedProofs IdealProofs JanetSpec JanetPolySpec JanetPolyProofs
  PyMonomModel PyMonomSpec PyMonomProofs PyPolyModel PyPolySpec PyPolyProofs PyRedProofs PyJanetModel PyJanetSpec PyJanetProofs PyJanetTop PyJanetProlong
  PyHPModel PyForestModel PyForestProofs PyQueueModel PyQueueProofs PyDivProofs PySpan PyGinvModel PyGinvBase PyGinvSweep.
Import ListNotations.
Local Open Scope nat_scope.

Section Round.
Variables (o : py_order) (n : nat) (k : Z) (F : ppoly -> Prop).
Hypothesis K : (0 <= k)%Z.
Hypothesis N : 0 < n.
Local Notation good := (good o n k).
Local Notation fine := (fine o n k F).
Local Notation treeok := (treeok o n k F).
Local Notation blt := (blt o n k).
Local Notation ble := (ble o n k).
Local Notation step_eq := (step_eq o n k).
Local Notation mul u := (mprod (Mon (-1) u)).

(** as constructed: no marks *)
Definition spotless (w : pwrap) : Prop := clean n w /\ pw_prolong w = repeat false n.
Definition irred (T : pdiv) (w : pwrap) : Prop := d_findWrap T (pw_lm w) = Ok None.

(** the queue q becomes q2; c1, c2: Wraps dropped by the criteria *)
Inductive reduced (T : pdiv) : list pwrap -> list pwrap -> nat -> nat -> Prop :=
| red_nil : reduced T [] [] 0 0
| red_crit1 w q q2 c1 c2 : ~ irred T w -> reduced T q q2 c1 c2 -> reduced T (w :: q) q2 (S c1) c2
| red_crit2 w q q2 c1 c2 : ~ irred T w -> reduced T q q2 c1 c2 -> reduced T (w :: q) q2 c1 (S c2)
| red_zero w q q2 c1 c2 : step_eq T w [] -> reduced T q q2 c1 c2 -> reduced T (w :: q) q2 c1 c2
| red_stay w q q2 c1 c2 : irred T w -> reduced T q q2 c1 c2 -> reduced T (w :: q) (w :: q2) c1 c2
| red_new w w' q q2 c1 c2 : fine T w' -> spotless w' -> pw_id w' = pw_id w -> blt (pw_lm w) (pw_lm w') -> irred T w' -> step_eq T w (pw_poly w') ->
    reduced T q q2 c1 c2 -> reduced T (w :: q) (w' :: q2) c1 c2.

Lemma step_eq_anc T T1 w r : anc_step T T1 -> step_eq T1 w r -> step_eq T w r.
Proof.
  intros A (g & j & l & c & u & d & G & Lu & Eu & Jd & Pg & J & L & D & Co). pose proof (anc_step_lms T T1 A) as El. rewrite (d_comp_lms T1 T _ El) in Jd. unfold polys in D. rewrite (anc_step_polys T T1 A) in D.
  destruct A as (f & -> & H). rewrite d_map_elems in G. apply in_map_iff in G. destruct G as (g0 & <- & G0). destruct (H g0 G0) as (_ & Ep & Em & _). rewrite Em in Eu, Pg. unfold exps in *. rewrite Em in Jd.
  exists g0, j, l, c, u, d. rewrite Ep in Co. auto 15.
Qed.
Lemma reduced_anc T T1 q q2 c1 c2 : anc_step T T1 -> reduced T1 q q2 c1 c2 -> reduced T q q2 c1 c2.
Proof.
  intros A R. pose proof (fun m => anc_step_findWrap T T1 m A) as H. induction R as [|w q q2 c1 c2 X R IH|w q q2 c1 c2 X R IH|w q q2 c1 c2 X R IH|w q q2 c1 c2 X R IH|w w' q q2 c1 c2 X1 X2 X3 X4 X5 X6 R IH].
  - constructor.
  - apply red_crit1; [unfold irred in *; rewrite <- H; exact X|exact IH].
  - apply red_crit2; [unfold irred in *; rewrite <- H; exact X|exact IH].
  - apply red_zero; [exact (step_eq_anc T T1 w [] A X)|exact IH].
  - apply red_stay; [apply H; exact X|exact IH].
  - apply (red_new T w w'); auto; [|apply H; exact X5|exact (step_eq_anc T T1 w _ A X6)]. apply (fine_kind o n k F T1); [|exact X1]. destruct A as (f & -> & _). destruct T; cbn; auto. now rewrite map_length.
Qed.
Lemma reduce_loop_ok nf : forall q T, treeok T -> (forall w, In w q -> fine T w) ->
  q_reduce_loop nf o T q = OutOfFuel \/ exists T2 q2 c1 c2, q_reduce_loop nf o T q = Ok (T2, q2, c1, c2) /\ anc_step T T2 /\ reduced T q q2 c1 c2.
Proof.
  induction q as [|w q IH]; intros T To Fq; cbn [q_reduce_loop].
  - right. exists T, [], 0, 0. split; [reflexivity|]. split; [apply anc_step_refl|constructor].
  - destruct (reduce1_ok o n k F K N nf T w To (Fq w (or_introl eq_refl))) as [E|(T1 & v & E & A & H)]; rewrite E; [now left|]. cbn [bind fst snd].
    pose proof (treeok_anc o n k F T T1 A To) as To1. destruct (IH T1 To1) as [X|(T2 & q2 & c1 & c2 & X & A2 & R)]; [intros u U; apply (fine_kind o n k F T); [exact (anc_step_kind T T1 A)|apply Fq; now right]|rewrite X; now left|].
    rewrite X. cbn [bind]. right. pose proof (reduced_anc T T1 q q2 c1 c2 A R) as R'. pose proof (anc_step_trans T T1 T2 A A2) as A'.
    destruct v as [| | |[|] w'].
    + exists T2, q2, (S c1), c2. split; [reflexivity|]. split; [exact A'|]. apply red_crit1; assumption.
    + exists T2, q2, c1, (S c2). split; [reflexivity|]. split; [exact A'|]. apply red_crit2; assumption.
    + exists T2, q2, c1, c2. split; [reflexivity|]. split; [exact A'|]. apply red_zero; assumption.
    + destruct H as [-> H]. exists T2, (w :: q2), c1, c2. split; [reflexivity|]. split; [exact A'|]. apply red_stay; assumption.
    + destruct H as (H1 & H2 & H3 & _ & H4 & H5 & H6 & _ & H7). exists T2, (w' :: q2), c1, c2. split; [reflexivity|]. split; [exact A'|]. apply red_new; auto. split; assumption.
Qed.
Lemma reduced_in T q q2 c1 c2 : reduced T q q2 c1 c2 -> (forall w, In w q -> fine T w) -> forall w, In w q2 -> fine T w /\ irred T w /\ (In w q \/ spotless w).
Proof.
  intro R. induction R as [|w q q2 c1 c2 X R IH|w q q2 c1 c2 X R IH|w q q2 c1 c2 X R IH|w q q2 c1 c2 X R IH|w w' q q2 c1 c2 X1 X2 X3 X4 X5 X6 R IH]; intros H x I.
  - destruct I.
  - destruct (IH (fun u U => H u (or_intror U)) x I) as (A & B & [C|C]); (split; [exact A|]); (split; [exact B|]); [left; now right|now right].
  - destruct (IH (fun u U => H u (or_intror U)) x I) as (A & B & [C|C]); (split; [exact A|]); (split; [exact B|]); [left; now right|now right].
  - destruct (IH (fun u U => H u (or_intror U)) x I) as (A & B & [C|C]); (split; [exact A|]); (split; [exact B|]); [left; now right|now right].
  - destruct I as [<-|I]; [split; [apply H; now left|]; split; [exact X|left; now left]|]. destruct (IH (fun u U => H u (or_intror U)) x I) as (A & B & [C|C]); (split; [exact A|]); (split; [exact B|]); [left; now right|now right].
  - destruct I as [<-|I]; [split; [exact X1|]; split; [exact X5|now right]|]. destruct (IH (fun u U => H u (or_intror U)) x I) as (A & B & [C|C]); (split; [exact A|]); (split; [exact B|]); [left; now right|now right].
Qed.
(** identity numbers *)
Inductive sublist {A} : list A -> list A -> Prop :=
| sub_nil l : sublist [] l
| sub_skip x l l' : sublist l l' -> sublist l (x :: l')
| sub_take x l l' : sublist l l' -> sublist (x :: l) (x :: l').
Lemma sublist_in {A} (l l' : list A) x : sublist l l' -> In x l -> In x l'.
Proof. intro S. induction S as [l|y l l' S IH|y l l' S IH]; intro I; [destruct I|right; auto|destruct I as [->|I]; [now left|right; auto]]. Qed.
Lemma sublist_nodup {A} (l l' : list A) : sublist l l' -> NoDup l' -> NoDup l.
Proof. intro S. induction S as [l|y l l' S IH|y l l' S IH]; intro H; [constructor|inversion H; subst; auto|]. inversion H as [|? ? X H']; subst. constructor; [|auto]. intro I. apply X. exact (sublist_in l l' y S I). Qed.
Lemma sublist_refl {A} (l : list A) : sublist l l.
Proof. induction l; [apply sub_nil|apply sub_take; assumption]. Qed.
Lemma sublist_app {A} (l l' a : list A) : sublist l l' -> sublist (a ++ l) (a ++ l').
Proof. intro S. induction a; cbn; [exact S|now apply sub_take]. Qed.
Lemma reduced_ids T q q2 c1 c2 : reduced T q q2 c1 c2 -> sublist (map pw_id q2) (map pw_id q).
Proof. intro R. induction R as [|? ? ? ? ? _ _ IH|? ? ? ? ? _ _ IH|? ? ? ? ? _ _ IH|? ? ? ? ? _ _ IH|? ? ? ? ? ? _ _ E _ _ _ _ IH]; cbn [map]; try exact (sub_nil _); try (apply sub_skip; exact IH); rewrite ?E; apply sub_take; exact IH. Qed.

(* ---- insertion ---- *)
Lemma fine_core T u u' : core u = core u' -> fine T u -> fine T u'.
Proof.
  intros E ((G1 & G2 & G3 & (c & l & G4) & G5) & P & S). pose proof (f_equal pw_poly E) as Ep. pose proof (f_equal pw_lm E) as El. pose proof (f_equal pw_prolong E) as Er. pose proof (f_equal (fun x => length (pw_nonmult x)) E) as En.
  cbn [core pw_poly pw_lm pw_prolong pw_nonmult] in *. rewrite !map_length in En. split; [|rewrite <- Ep; auto]. unfold PyJanetProlong.good, exps, leads in *. rewrite <- Ep, <- El, <- Er, <- En. split; [exact G1|]. split; [exact G2|]. split; [exact G3|]. split; [exists c, l; exact G4|exact G5].
Qed.
Lemma good_zone T w : fine T w -> zone T (pw_lm w).
Proof. intros ((_ & _ & _ & (c & l & E) & _) & P & _). rewrite E in P. exact (Forall_inv P). Qed.
Lemma irred_spec T w : dfit bare n k T -> fine T w -> irred T w -> forall x, ~ janet_divides n (d_comp T (pos (pw_lm w))) x (exps w).
Proof.
  intros D Fw I. destruct (d_find_ok bare n k bare_eraser N T (pw_lm w) D (good_pmono o n k w (proj1 Fw))) as (_ & _ & H). apply (H (good_zone T w Fw)). exact I.
Qed.
Lemma grown_core l l' : grown l l' -> Permutation (map core l') (map core l).
Proof. intros (l0 & P & G). rewrite P. clear P. replace (map core l0) with (map core l); [reflexivity|]. induction G as [|u u' l l0 [E _] G IH]; cbn [map]; [reflexivity|]. now rewrite E, IH. Qed.
Lemma perm_core_in l l' x : Permutation (map core l) (map core l') -> In x l -> exists y, In y l' /\ core y = core x.
Proof. intros P I. apply (in_map core) in I. apply (Permutation_in _ P) in I. apply in_map_iff in I. destruct I as (y & E & Y). exists y. auto. Qed.
Lemma perm_core {A} (g : pwrap -> A) l l' : (forall w, g (core w) = g w) -> Permutation (map core l) (map core l') -> Permutation (map g l) (map g l').
Proof. intros H P. apply (Permutation_map g) in P. rewrite !map_map in P. rewrite (map_ext (fun x => g (core x)) g H l) in P. rewrite (map_ext (fun x => g (core x)) g H l') in P. exact P. Qed.

(** w is inserted in T: the new tree, the Wraps removed *)
Definition inserted (T : pdiv) (w : pwrap) (T' : pdiv) (lst : list pwrap) : Prop :=
  same_kind T T' /\ Permutation (map core (d_elems T' ++ lst)) (map core (w :: d_elems T)) /\
  (forall u, In u lst -> pos (pw_lm u) = pos (pw_lm w) /\ janet_divides n (d_comp T' (pos (pw_lm w))) (exps w) (exps u)) /\
  (forall p x i, In x (d_comp T p) -> In x (d_comp T' p) -> i < n -> janet_nm (d_comp T p) x i -> janet_nm (d_comp T' p) x i) /\
  (forall p, p <> pos (pw_lm w) -> d_comp T' p = d_comp T p).
Lemma insert_any e T w : eraser e -> dfit e n k T -> fresh e n w -> dfit bare n k T -> fine T w -> irred T w -> exists T' lst, d_insert T [w] = Ok (T', lst) /\ dfit e n k T' /\ inserted T w T' lst.
Proof.
  intros He De Fr D Fw I. destruct (d_insert_ok e n k He N T w De Fr (good_pmono o n k w (proj1 Fw)) (good_zone T w Fw) (irred_spec T w D Fw I)) as (T' & lst & E & D' & Kd & Rm & (w' & l & P & Cw & Gl) & Nm & Ot).
  exists T', lst. split; [exact E|]. split; [exact D'|]. split; [exact Kd|]. split; [|auto]. rewrite P. cbn [map]. rewrite Cw. apply Permutation_cons; [reflexivity|]. apply grown_core. exact Gl.
Qed.
Lemma insert_tree T w T' lst : treeok T -> fine T w -> ~ In (pw_id w) (map pw_id (d_elems T)) -> dfit bare n k T' -> inserted T w T' lst ->
  treeok T' /\ (forall u, In u lst -> fine T' u) /\ NoDup (map pw_id (d_elems T' ++ lst)) /\ Permutation (map pw_poly (d_elems T' ++ lst)) (pw_poly w :: map pw_poly (d_elems T)) /\
  (forall x, In x (map pw_id (d_elems T' ++ lst)) -> x = pw_id w \/ In x (map pw_id (d_elems T))).
Proof.
  intros (D & Fi & Nd) Fw Nw D' (Kd & P & _). assert (Fa : forall u, In u (d_elems T' ++ lst) -> fine T' u).
  { intros u U. destruct (perm_core_in _ _ u P U) as (y & Y & E). apply (fine_kind o n k F T T' u Kd). apply (fine_core T y u E). destruct Y as [<-|Y]; [exact Fw|]. rewrite Forall_forall in Fi. exact (Fi y Y). }
  pose proof (perm_core pw_id _ _ (fun _ => eq_refl) P) as Pi. pose proof (perm_core pw_poly _ _ (fun _ => eq_refl) P) as Pp. cbn [map] in Pi, Pp.
  assert (Ni : NoDup (map pw_id (d_elems T' ++ lst))) by (apply (Permutation_NoDup (Permutation_sym Pi)); constructor; assumption).
  split; [|split; [|split; [|split]]]; auto.
  - split; [exact D'|]. split; [apply Forall_forall; intros u U; apply Fa, in_app_iff; auto|]. rewrite map_app in Ni. exact (NoDup_app_l _ _ Ni).
  - intros u U. apply Fa, in_app_iff; auto.
  - intros x X. apply (Permutation_in _ Pi) in X. destruct X; auto.
Qed.
End Round.
