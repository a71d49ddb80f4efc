From Coq Require Import ZArith List Bool Arith Permutation Lia.
From Verif Require Import Outcome MonomModel PolyModel PolyMemModel PolyMemSpec PolyLifeModel PolyLifeSpec PolyLifeProofs PolyWorldModel PolyWorldSpec.
Import ListNotations.
Local Open Scope nat_scope.

Lemma held_perm al os os' : Permutation os os' -> held al os = held al os'.
Proof. unfold held. induction 1; cbn [map list_sum fold_right] in *; [reflexivity|unfold list_sum in *; cbn [fold_right]; lia|unfold list_sum; cbn [fold_right]; lia|congruence]. Qed.
Lemma held_cons al x os : held al (x :: os) = held1 al x + held al os.
Proof. reflexivity. Qed.

Definition bare (x : obj) : Prop := oal x = None -> terms (oval x) = [].

Lemma wstep_bare dbg os al k g y os' : wstep dbg os al k g y os' -> Forall bare os -> Forall bare os'.
Proof.
  intros [al' c r os0 N|al' p c y' r os0 rest P C|x y' os0 rest P|x y' os0 rest P|y' os0 rest P|x os0 rest P] F.
  - constructor; [discriminate|exact F].
  - apply (Permutation_Forall P) in F. inversion_clear F. constructor; [discriminate|assumption].
  - apply (Permutation_Forall P) in F. inversion_clear F as [|? ? A F']. inversion_clear F' as [|? ? B F'']. constructor; [exact B|]. constructor; [exact A|exact F''].
  - apply (Permutation_Forall P) in F. inversion_clear F as [|? ? A F']. inversion_clear F' as [|? ? B F'']. constructor; [exact B|]. constructor; [intros _; reflexivity|exact F''].
  - apply (Permutation_Forall P) in F. inversion_clear F as [|? ? A F']. constructor; [exact A|]. constructor; [intros _; reflexivity|exact F'].
  - apply (Permutation_Forall P) in F. inversion_clear F. assumption.
Qed.
Lemma wrun_bare dbg os T G L : wrun dbg os T G L -> Forall bare os.
Proof. induction 1; [constructor|]. eapply wstep_bare; eassumption. Qed.

Definition at2 (al : option nat) (b n : nat) : nat := match al with Some a => if a =? b then n else 0 | None => 0 end.
Lemma held1_at b x : held1 b x = at2 (oal x) b (length (terms (oval x))).
Proof. reflexivity. Qed.
Lemma at2_add al b m n : at2 al b (m + n) = at2 al b m + at2 al b n.
Proof. destruct al as [a|]; cbn [at2]; [destruct (a =? b)|]; reflexivity. Qed.
Lemma at2_0 al b : at2 al b 0 = 0.
Proof. destruct al as [a|]; cbn [at2]; [destruct (a =? b)|]; reflexivity. Qed.
Lemma at2_destroy x b : at2 (oal x) b (obj_destroy x) = at2 (oal x) b (length (terms (oval x))).
Proof. unfold obj_destroy. destruct (oal x) as [a|]; reflexivity. Qed.
Lemma wstep_held dbg os al k g y os' : wstep dbg os al k g y os' -> forall b,
  held b os + at2 al b k = held b os' + at2 al b g + at2 al b y.
Proof.
  intros [al' c r os0 N|al' p c y' r os0 rest P C|x y' os0 rest P|x y' os0 rest P|y' os0 rest P|x os0 rest P] b.
  - apply c42_new in N as [_ N]. rewrite held_cons, held1_at. cbn [oal oval]. rewrite N, at2_add, at2_0.
    generalize (at2 (Some al') b (length (terms r))), (at2 (Some al') b (given c)), (held b os0). intros; lia.
  - apply c42_obj_call in C as [_ C]. rewrite (held_perm b _ _ P), !held_cons, !held1_at. cbn [oal oval].
    apply (f_equal (at2 (Some al') b)) in C. rewrite !at2_add in C. revert C.
    generalize (at2 (Some al') b (length (terms r))), (at2 (Some al') b (given c)), (held b rest), (at2 (Some al') b (length (terms p))), (at2 (Some al') b (taken c)), (at2 (Some al') b y').
    intros; lia.
  - rewrite (held_perm b _ _ P), !held_cons, !held1_at. unfold obj_swap. cbn [oal oval fst snd terms]. rewrite !at2_0.
    generalize (at2 (oal x) b (length (terms (oval x)))), (at2 (oal y') b (length (terms (oval y')))), (held b rest). intros; lia.
  - rewrite (held_perm b _ _ P), !held_cons, !held1_at. unfold obj_move, obj_swap. cbn [oal oval fst snd terms length clear_mem given]. rewrite !at2_0.
    generalize (at2 (oal x) b (length (terms (oval x)))), (at2 (oal y') b (length (terms (oval y')))), (held b rest). intros; lia.
  - rewrite (held_perm b _ _ P), !held_cons, !held1_at. unfold obj_steal. cbn [oal oval fst snd terms with_terms length]. rewrite !at2_0.
    generalize (at2 (oal y') b (length (terms (oval y')))), (held b rest). intros; lia.
  - rewrite (held_perm b _ _ P), held_cons, held1_at, at2_destroy, !at2_0.
    generalize (at2 (oal x) b (length (terms (oval x)))), (held b rest). intros; lia.
Qed.
Lemma add_at_split f al k b : add_at f al k b = f b + at2 al b k.
Proof. destruct al as [a|]; cbn [add_at at2]; [destruct (a =? b)|]; rewrite ?Nat.add_0_r; reflexivity. Qed.

Lemma c42_world dbg os T G L : wrun dbg os T G L -> forall al, T al = G al + held al os + L al.
Proof.
  induction 1 as [|os T G L al k g y os' R IH S]; intro b; [reflexivity|].
  pose proof (wstep_held _ _ _ _ _ _ _ S b) as Q. rewrite !(add_at_split _ al _ b). specialize (IH b). revert Q IH.
  generalize (at2 al b k), (at2 al b g), (at2 al b y), (held b os), (held b os'), (T b), (G b), (L b). intros; lia.
Qed.
Lemma c42_world_end dbg T G L : wrun dbg [] T G L -> forall al, T al = G al + L al.
Proof. intros R al. rewrite (c42_world _ _ _ _ _ R al). cbn. lia. Qed.
Lemma c42_moved dbg os T G L x : wrun dbg os T G L -> In x os -> oal x = None -> terms (oval x) = [].
Proof. intros R I0 N. apply wrun_bare in R. rewrite Forall_forall in R. exact (R x I0 N). Qed.
