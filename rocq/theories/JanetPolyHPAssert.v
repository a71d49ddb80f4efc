(** When the assertion of JanetPolyInt::buildHP fails. *)
From Coq Require Import ZArith List Bool Arith QArith.
From Verif Require Import Outcome MonomModel PolyModel JanetModel JanetPolyModel HilbertModel JanetPolyHPModel TQ2HPProofs.
Import ListNotations.
Local Open Scope nat_scope.

Lemma jp_hp_loop_noassert js : forall l h x, jp_hp_loop js l h x <> AssertFail.
Proof.
  induction l as [|y l IH]; intros h x; cbn [jp_hp_loop]; [discriminate|].
  destruct (get_wrap js (fst y)) as [w|]; [|discriminate]. cbv zeta.
  unfold hp_binomial. destruct (Nat.ltb _ _); cbn [bind]; [|discriminate]. assert (Z := hp_zip_noassert (fun x y => Qred (x - y)) h). unfold hp_sub.
  match goal with |- context [hp_zip ?f h ?b] => specialize (Z b); destruct (hp_zip f h b) end; cbn [bind]; try discriminate; [apply IH|congruence].
Qed.
Lemma c52_assert J : (jp_build_hp true J hp_none = AssertFail <-> jone J <> None \/ jt J = []) /\
  (jone J = None -> jt J <> [] -> jp_build_hp true J hp_none = jp_build_hp false J hp_none).
Proof.
  unfold jp_build_hp. destruct (jone J) as [w|], (jt J) as [|x l]; unfold assert_; cbn [andb negb].
  - split; [|discriminate]. split; auto.
  - split; [|discriminate]. split; [left; discriminate|reflexivity].
  - split; [|intros _ N; destruct N; reflexivity]. split; auto.
  - split; [|reflexivity]. split; [|intros [N|N]; [destruct N; reflexivity|discriminate]]. intro E. exfalso. revert E. unfold hp_setDim, assert_, hp_none. cbn [andb negb bind]. cbv zeta.
    unfold hp_binomial. destruct (Nat.ltb _ _); cbn [bind]; [apply jp_hp_loop_noassert|discriminate].
Qed.
