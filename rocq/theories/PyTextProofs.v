(** Texts of pyginv: their value, and that they can be read back. *)
From Coq Require Import ZArith List Bool Arith Lia String Ascii DecimalString.
From Verif Require Import Outcome MonomModel TextModel TextSpec TextProofs PyTextModel PyTextSpec.
Import ListNotations.
Local Open Scope string_scope.
Local Open Scope Z_scope.

Lemma n_text_decimal n : n_text n = decimal n.
Proof. reflexivity. Qed.

(** ---- values ---- *)
Section Val.
Variable env : string -> Z.
Notation den := (denotes env).
Lemma z_text_den c : den Signed (z_text c) c.
Proof.
  destruct (Z_le_dec 0 c) as [L|L].
  - apply de_power, de_atom. replace (z_text c) with (decimal (Z.to_nat c)) by (unfold decimal, z_text; now rewrite Z2Nat.id by lia). rewrite <- (Z2Nat.id c) at 2 by lia. apply de_num.
  - destruct c as [|p|p]; try lia. change (z_text (Z.neg p)) with ("-" ++ z_text (Zpos p))%string. change (Z.neg p) with (- Zpos p). apply de_neg, de_power, de_atom.
    replace (z_text (Zpos p)) with (decimal (Z.to_nat (Zpos p))) by (unfold decimal, z_text; now rewrite Z2Nat.id by lia). rewrite <- (Z2Nat.id (Zpos p)) at 2 by lia. apply de_num.
Qed.
Lemma power_den x : identifier (fst x) -> (1 <= snd x)%nat -> den Power (power_text x) (env (fst x) ^ Z.of_nat (snd x)).
Proof.
  intros I L. unfold power_text. destruct (Nat.ltb_spec 1 (snd x)).
  - apply de_pow, de_name, I. 
  - replace (snd x) with 1%nat by lia. change (Z.of_nat 1) with 1. rewrite Z.pow_1_r. apply de_atom, de_name, I.
Qed.
Fixpoint tail_text (sep : string) (l : list string) : string := match l with [] => "" | x :: l' => sep ++ x ++ tail_text sep l' end.
Lemma concat_tail sep x l : String.concat sep (x :: l) = (x ++ tail_text sep l)%string.
Proof.
  revert x. induction l as [|y l IH]; intro x; [cbn; now rewrite app_nil_s|]. rewrite concat_cons by discriminate. rewrite IH. reflexivity.
Qed.
Definition pw (x : string * nat) : Z := env (fst x) ^ Z.of_nat (snd x).
Lemma tail_den l : Forall (fun x => identifier (fst x) /\ (1 <= snd x)%nat) l -> forall a v, den Prod a v ->
  den Prod (a ++ tail_text "*" (map power_text l)) (v * fold_right (fun x r => pw x * r) 1 l).
Proof.
  induction 1 as [|x l [I L] F IH]; intros a v D; cbn [map tail_text fold_right]; [rewrite app_nil_s, Z.mul_1_r; exact D|].
  replace (a ++ "*" ++ power_text x ++ tail_text "*" (map power_text l))%string with ((a ++ "*" ++ power_text x) ++ tail_text "*" (map power_text l))%string by (rewrite !app_assoc_s; reflexivity).
  rewrite Z.mul_assoc. apply IH. apply de_mul; [exact D|]. apply de_power. now apply power_den.
Qed.
Lemma sums_den (l : list (string * Z)) : Forall (fun x => den Prod (fst x) (snd x)) l -> forall a v, den Sum a v ->
  den Sum (a ++ tail_text " + " (map fst l)) (v + fold_right (fun x r => snd x + r) 0 l).
Proof.
  induction 1 as [|x l D F IH]; intros a v Da; cbn [map tail_text fold_right]; [rewrite app_nil_s, Z.add_0_r; exact Da|].
  replace (a ++ " + " ++ fst x ++ tail_text " + " (map fst l))%string with ((a ++ " + " ++ fst x) ++ tail_text " + " (map fst l))%string by (rewrite !app_assoc_s; reflexivity).
  rewrite Z.add_assoc. apply IH. apply de_add; assumption.
Qed.
Variables vs fs : list string.
Hypothesis Hv : Forall identifier vs.
Hypothesis Hf : Forall identifier fs.
Lemma powers_good e : Forall (fun x => identifier (fst x) /\ (1 <= snd x)%nat) (powers vs e).
Proof.
  apply Forall_forall. intros [x d] X. apply filter_In in X as [X L]. cbn [fst snd] in *. split; [|now apply Nat.leb_le]. apply in_combine_l in X. rewrite Forall_forall in Hv. auto.
Qed.
Lemma powers_val e : fold_right (fun x r => pw x * r) 1 (powers vs e) = fold_right (fun x r => pw x * r) 1 (combine vs e).
Proof.
  unfold powers. induction (combine vs e) as [|[x d] l IH]; [reflexivity|]. cbn [filter fold_right snd]. destruct (Nat.leb_spec 1 d); cbn [fold_right]; [now rewrite IH|].
  unfold pw at 2. cbn [fst snd]. replace d with 0%nat by lia. cbn [Z.of_nat]. rewrite Z.pow_0_r, Z.mul_1_l. exact IH.
Qed.
Lemma ident_nonempty x : identifier x -> x <> "".
Proof. intros (c & s & -> & _). discriminate. Qed.
Lemma text_empty l : Forall (fun x => identifier (fst x) /\ (1 <= snd x)%nat) l -> String.eqb (String.concat "*" (map power_text l)) "" = match l with [] => true | _ => false end.
Proof.
  destruct 1 as [|x l [I L] F]; [reflexivity|]. cbn [map]. rewrite concat_tail. destruct I as (c & s & E & _). unfold power_text. rewrite E. destruct (Nat.ltb 1 (snd x)); reflexivity.
Qed.
Lemma fun_ident m : 0 <= pos m < Z.of_nat (List.length fs) -> identifier (fun_name fs m).
Proof. intro P. unfold fun_name. rewrite Forall_forall in Hf. apply Hf, nth_In. lia. Qed.
Lemma monom_den m : named vs fs m -> den Prod (py_monom_str vs fs m) (monom_val env vs fs m).
Proof.
  intros [L P]. unfold py_monom_str, monom_val. cbv zeta. pose proof (powers_good (vars m)) as G. rewrite text_empty by exact G.
  change (fold_right (fun x r => env (fst x) ^ Z.of_nat (snd x) * r) 1 (combine vs (vars m))) with (fold_right (fun x r => pw x * r) 1 (combine vs (vars m))). rewrite <- powers_val.
  destruct (Z.eqb_spec (pos m) (-1)) as [E|E].
  - rewrite Z.mul_1_l. destruct (powers vs (vars m)) as [|x l]; [apply de_signed, de_power, de_atom; change "1" with (decimal 1); change 1 with (Z.of_nat 1); apply de_num|].
    inversion G as [|? ? [I Lx] G']; subst. cbn [map]. rewrite concat_tail. cbn [fold_right]. apply tail_den; [exact G'|]. apply de_signed, de_power. now apply power_den.
  - assert (I : identifier (fun_name fs m)) by (apply fun_ident; lia). change (nth (Z.to_nat (pos m)) fs "") with (fun_name fs m).
    assert (D : den Prod (fun_name fs m) (env (fun_name fs m))) by (apply de_signed, de_power, de_atom, de_name, I).
    destruct (powers vs (vars m)) as [|x l]; [cbn [fold_right]; rewrite Z.mul_1_r; exact D|].
    replace (fun_name fs m ++ "*" ++ String.concat "*" (map power_text (x :: l)))%string with (fun_name fs m ++ tail_text "*" (map power_text (x :: l)))%string; [now apply tail_den|].
    cbn [map]. rewrite concat_tail. reflexivity.
Qed.
Definition z_is_one (c : Z) : bool := 1 =? c.
Lemma unit_val m : List.length (vars m) = List.length vs -> deg m = 0%nat -> pos m < 0 -> -1 <= pos m -> monom_val env vs fs m = 1.
Proof.
  intros L D P P'. unfold monom_val. destruct (Z.eqb_spec (pos m) (-1)) as [Em|]; [|lia]. rewrite Z.mul_1_l. unfold deg in D. clear Em P P'. revert L D. generalize vs. induction (vars m) as [|d e IH]; intros [|v w] L D; cbn [List.length] in L; try lia; [reflexivity|].
  cbn [degv fold_right combine fst snd] in *. fold (degv e) in D. rewrite IH by lia. replace d with 0%nat by lia. reflexivity.
Qed.
Lemma term_den m c : named vs fs m -> den Prod (py_term_str z_is_one z_text vs fs (m, c)) (monom_val env vs fs m * c).
Proof.
  intro N. unfold py_term_str. destruct (Nat.eqb (deg m) 0 && (pos m <? 0)) eqn:U.
  - apply andb_true_iff in U as [U1 U2]. apply Nat.eqb_eq in U1. apply Z.ltb_lt in U2. destruct N as [L P]. rewrite unit_val by (auto; lia). rewrite Z.mul_1_l. apply de_signed, z_text_den.
  - unfold z_is_one. destruct (Z.eqb_spec 1 c) as [<-|]; [rewrite Z.mul_1_r; now apply monom_den|]. apply de_mul; [now apply monom_den|apply z_text_den].
Qed.
Theorem poly_den p : Forall (fun t => named vs fs (fst t)) p -> den Sum (py_poly_str z_is_one z_text vs fs p) (poly_val env vs fs p).
Proof.
  intro N. destruct N as [|[m c] p Nm N]; [apply de_prod, de_signed, de_power, de_atom; exact (de_num env 0)|].
  unfold py_poly_str. rewrite map_cons, concat_tail. cbn [poly_val fold_right fst snd].
  set (l := map (fun t => (py_term_str z_is_one z_text vs fs t, monom_val env vs fs (fst t) * snd t)) p).
  assert (E1 : map (py_term_str z_is_one z_text vs fs) p = map fst l) by (unfold l; rewrite map_map; reflexivity).
  assert (E2 : fold_right (fun t r => monom_val env vs fs (fst t) * snd t + r) 0 p = fold_right (fun x r => snd x + r) 0 l) by (unfold l; clear; induction p as [|t p IH]; cbn; [reflexivity|now rewrite IH]).
  rewrite E1, E2. apply sums_den; [|apply de_prod, term_den; exact Nm]. unfold l. apply Forall_forall. intros x X. apply in_map_iff in X as ([m' c'] & <- & X). cbn [fst snd]. apply term_den. rewrite Forall_forall in N. exact (N _ X).
Qed.
End Val.
