From Coq Require Import ZArith List Bool Arith Lia String Ascii.
From Verif Require Import Outcome MonomModel TextModel PyMonomModel PyTextModel PyTextSpec TexModel TexSpec TexTop.
Import ListNotations.
Local Open Scope string_scope.
Local Open Scope list_scope.
Local Open Scope Z_scope.

Lemma idx : identifier "x". Proof. exists "x"%char, "". auto. Qed.
Lemma idy : identifier "y". Proof. exists "y"%char, "". auto. Qed.
Lemma idu : identifier "u". Proof. exists "u"%char, "". auto. Qed.
Lemma iduy : identifier "uy". Proof. exists "u"%char, "y". auto. Qed.
Lemma id_u : identifier "_u". Proof. exists "_"%char, "u". auto. Qed.
Lemma tex_names : good_names ["x"; "y"] ["u"; "uy"].
Proof.
  split.
  - repeat (apply Forall_cons; [first [exact idx|exact idy|exact idu|exact iduy]|]); apply Forall_nil.
  - repeat constructor; cbn; intuition discriminate.
Qed.
Lemma tex_exponent : exists vs fs m, good_names vs fs /\ named vs fs m /\ pos m = -1 /\
  tex (py_latex vs fs m) = Some [Sym "x" None (Some "1"); plain "2"] /\
  flat_map power_symbols (combine vs (vars m)) = [Sym "x" None (Some "12")].
Proof.
  exists ["x"], [], (Mon (-1) [12%nat]). split; [split; [apply Forall_cons; [exact idx|apply Forall_nil]|repeat constructor; cbn; tauto]|].
  repeat split; reflexivity || (cbn; lia).
Qed.
Lemma tex_clash : exists vs fs m m', good_names vs fs /\ named vs fs m /\ named vs fs m' /\ m <> m' /\ tex (py_latex vs fs m) = tex (py_latex vs fs m').
Proof.
  exists ["x"; "y"], ["u"; "uy"], (Mon 0 [0; 1]%nat), (Mon 1 [0; 0]%nat). split; [exact tex_names|]. repeat split; try (cbn; lia); discriminate.
Qed.
Lemma tex_underscore : exists vs fs m, good_names vs fs /\ named vs fs m /\ tex (py_latex vs fs m) = None.
Proof.
  exists ["x"], ["_u"], (Mon 0 [0]%nat). split; [split; [repeat (apply Forall_cons; [first [exact idx|exact id_u]|]); apply Forall_nil|repeat constructor; cbn; intuition discriminate]|].
  repeat split; reflexivity || (cbn; lia).
Qed.
