(** C104: what a debug build computes without a failed assertion, a release build computes as well: the other classes. *)
From Coq Require Import ZArith List Bool Arith.
From Verif Require Import Outcome MonomModel JanetModel CompletionModel GBModel HilbertModel BoolModel DebugProofs DebugMisc.
Import ListNotations.
Local Open Scope Z_scope.

(* ---- monomials ---- *)
Theorem C104_monom_mul : forall a b r : cmonom, c_mul true a b = Ok r -> c_mul false a b = Ok r.
Proof. exact d_c_mul. Qed.
Print Assumptions C104_monom_mul.
Theorem C104_monom_pow : forall (a : cmonom) (n : Z) (r : cmonom), c_pow true a n = Ok r -> c_pow false a n = Ok r.
Proof. exact d_c_pow. Qed.
Print Assumptions C104_monom_pow.
Theorem C104_monom_div : forall m a r : cmonom, c_div true m a = Ok r -> c_div false m a = Ok r.
Proof. exact d_c_div. Qed.
Print Assumptions C104_monom_div.
Theorem C104_monom_compare : forall (o : base_order) (m a : cmonom) (r : Z), c_bcmp true o m a = Ok r -> c_bcmp false o m a = Ok r.
Proof. exact d_c_bcmp. Qed.
Print Assumptions C104_monom_compare.
Theorem C104_monom_compare3 : forall (o : base_order) (m a b : cmonom) (r : Z), c_bcmp3 true o m a b = Ok r -> c_bcmp3 false o m a b = Ok r.
Proof. exact d_c_bcmp3. Qed.
Print Assumptions C104_monom_compare3.

(* ---- monomial completions, forests, Hilbert polynomials ---- *)
Theorem C104_completion : forall (fuel : nat) (o : mc_order) (T T' : list wrap), mc_build fuel true o T = Ok T' -> mc_build fuel false o T = Ok T'.
Proof. exact d_mc_build. Qed.
Print Assumptions C104_completion.
Theorem C104_completion_janet : forall (fuel : nat) (J J' : janet), mj_build fuel true J = Ok J' -> mj_build fuel false J = Ok J'.
Proof. exact d_mj_build. Qed.
Print Assumptions C104_completion_janet.
Theorem C104_forest : forall (h : list (monom * monom)) (g g' : gb), gb_insert_all true g h = Ok g' -> gb_insert_all false g h = Ok g'.
Proof. exact d_gb_insert_all. Qed.
Print Assumptions C104_forest.
Theorem C104_hilbert : forall (J : janet) (h h' : hp), build_hp true J h = Ok h' -> build_hp false J h = Ok h'.
Proof. exact d_build_hp. Qed.
Print Assumptions C104_hilbert.

(* ---- Boolean polynomials ---- *)
Theorem C104_bool_add : forall p a r : BP, bp_add true p a = Ok r -> bp_add false p a = Ok r.
Proof. exact d_bp_add. Qed.
Print Assumptions C104_bool_add.
Theorem C104_bool_or : forall (p : BP) (v : Z) (negation : bool) (r : BP), bp_or true p v negation = Ok r -> bp_or false p v negation = Ok r.
Proof. exact d_bp_or. Qed.
Print Assumptions C104_bool_or.
Theorem C104_bool_nf : forall (fuel : nat) (a : finder) (p r : BP), bp_nf true fuel a p = Ok r -> bp_nf false fuel a p = Ok r.
Proof. exact d_bp_nf. Qed.
Print Assumptions C104_bool_nf.
Theorem C104_bool_nfTail : forall (fuel : nat) (a : finder) (p r : BP), bp_nfTail true fuel a p = Ok r -> bp_nfTail false fuel a p = Ok r.
Proof. exact d_bp_nfTail. Qed.
Print Assumptions C104_bool_nfTail.

Example C104_misc_case : c_mul true (CMon 2 (-1) 1 [1; 0]) (CMon 2 (-1) 2 [0; 2]) = Ok (CMon 2 (-1) 3 [1; 2]) /\
  (exists T, (do T0 <- mc_push_all true MLex [] [Mon (-1) [2; 0]%nat; Mon (-1) [0; 2]%nat]; mc_build 10 true MLex T0) = Ok T /\ length T = 3%nat) /\
  exists g, gb_insert_all true gb_new [(Mon (-1) [2; 0]%nat, Mon (-1) [2; 0]%nat); (Mon (-1) [0; 3]%nat, Mon (-1) [0; 3]%nat)] = Ok g /\ gsize g = 2%nat.
Proof. split; [vm_compute; reflexivity|]. split; eexists; split; vm_compute; reflexivity. Qed.
