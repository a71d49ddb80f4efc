(** Data for the examples of Prop_RBTree.v. *)
From Coq Require Import ZArith List Lia.
From Verif Require Import Outcome RBModel RBSpec.
Import ListNotations.
Local Open Scope Z_scope.

Definition zcmp (a b : Z) : Z := a - b.
Lemma zcmp_order : key_order zcmp.
Proof. unfold zcmp. split; intros; lia. Qed.
Definition prog : list (op Z) :=
  [New; Insert 0 5; Insert 0 2; Insert 0 8; Insert 0 1; Insert 0 9; Insert 0 3; Insert 0 7; Insert 0 4; Insert 0 6;
   Remove 0 5; Copy 0; Remove 1 1; Find 0 6; Incr; Key; Decr; Key; Find 0 5; Good; FindPrev 0 5; Key; FindNext 0 5; Key;
   RemoveIt 0; Length 0; Length 1; MinKey 1; MaxKey 1; New; Insert 2 0; Assign 2 1; Swap 0 2; Length 0; Clear 1; NonEmpty 1].
Definition answers : list (obs Z) :=
  [ONone; ONone; ONone; ONone; ONone; ONone; ONone; ONone; ONone; ONone;
   ONone; ONone; ONone; ONone; ONone; OKey 7; ONone; OKey 6; ONone; OBool false; ONone; OKey 4; ONone; OKey 6;
   ONone; OLen 7; OLen 7; OKey 2; OKey 9; ONone; ONone; ONone; ONone; OLen 7; ONone; OBool false].
