(** Property C85: polynomials with module positions in JanetPolyInt. *)
From Coq Require Import ZArith List Bool Arith Lia.
From Verif Require Import Outcome MonomModel MonomSpec PolyModel PolySpec JanetModel JanetPolyModel JanetPolySpec JanetPolyExamples TQModel ModSpec ModProofs ModTree ModExamples.
Import ListNotations.
Local Open Scope Z_scope.

(** After build(), algorithmTQ() or algorithmTQ1() of an object whose basis was not 1, maxPos() is the largest position
    of all polynomials pushed so far (-1 without module terms). *)
Theorem C85_maxPos : forall dbg P F J fuel J', any_history dbg P F J -> jone J = None ->
  jp_build fuel dbg J = Ok J' \/ (exists one, jp_tq one fuel dbg J = Ok J') -> largest_position F (jpos J').
Proof. exact built_position. Qed.
Print Assumptions C85_maxPos.

(** In every history there is a tree for each position from -1 to maxPos(). *)
Theorem C85_trees : forall dbg P F J js m, any_history dbg P F J -> jtrees J = Some js -> jone J = None -> -1 <= m <= jpos J ->
  exists T, tree_at dbg js m = Ok T.
Proof. exact tree_of. Qed.
Print Assumptions C85_trees.

(** The tree of a position holds elements that entered with a leading monomial of this position only. *)
Theorem C85_tree_positions : forall dbg P F J js m T u, any_history dbg P F J -> jtrees J = Some js -> tree_at dbg js m = Ok T ->
  In u (wraps (jroot T)) -> pos (wlm u) = m.
Proof. exact tree_wraps. Qed.
Print Assumptions C85_tree_positions.

(** The rest a user expects of modules fails, for both module orders.  One unit vector makes the object answer that
    the whole module is generated: after push(e0) and build() isOne() is true and nf(e1) is 0. *)
Theorem C85_unit_refuted : forall t, exists F J a, any_history false (module_input t ODegLex 2 2) F J /\ jone J <> None /\
  module_input t ODegLex 2 2 a /\ ~ rational_member 2 (among F) (terms a) /\ exists fuel r, jp_nf fuel false J a = Ok r /\ terms r = [].
Proof. intro t. destruct (unit_wrong t) as (A & B & C & D & r & E). exists [u_f t], (u_J t), (u_a t). eauto 8. Qed.
Print Assumptions C85_unit_refuted.

(** The product criterion drops S-polynomials that it may drop for ideals only: of x e1 + y e0 and y e1 the basis lacks
    y^2 e0 = y (x e1 + y e0) - x (y e1). *)
Theorem C85_criterion_refuted : forall t, exists F J a, any_history false (module_input t ODegLex 2 2) F J /\ jq J = [] /\
  module_input t ODegLex 2 2 a /\ rational_member 2 (among F) (terms a) /\ exists fuel r, jp_nf fuel false J a = Ok r /\ terms r <> [].
Proof. intro t. destruct (criterion_wrong t) as (A & B & C & D & r & E). exists [c_g t; c_f t], (c_J t), (c_a t). eauto 8. Qed.
Print Assumptions C85_criterion_refuted.

(** A reduction that changes only the position of the leading monomial leaves the element in the tree of the old
    position (Wrap::update compares the exponents only).  The element is not found for its own leading monomial, and
    it is used for another one: the basis of x e1 and x y e1 + x y e0 + y e0 contains y e1, which is not in the module,
    and the normal form of x y e0 + y e0, which is, is not 0. *)
Theorem C85_position_refuted : forall t, exists F J a b, any_history false (module_input t ODegLex 2 2) F J /\ jq J = [] /\
  (In b (basis J) /\ ~ rational_member 2 (among F) (terms b)) /\
  (module_input t ODegLex 2 2 a /\ rational_member 2 (among F) (terms a) /\ exists fuel r, jp_nf fuel false J a = Ok r /\ terms r <> []).
Proof. intro t. destruct (position_wrong t) as (A & B & C & D & E & r & G). exists [p_g t; p_f t], (p_J t), (p_a t), (p_b t). repeat (split; [eassumption|]). eauto. Qed.
Print Assumptions C85_position_refuted.

(** x e1 + y e0 and y e1: a history as in C85_maxPos, with maxPos() = 1. *)
Example C85_example : exists J, any_history false (module_input TOP ODegLex 2 2) [c_g TOP; c_f TOP] J /\ jone J = None /\
  jp_build 40 false J = Ok (c_J TOP) /\ jpos (c_J TOP) = 1 /\ exists js, jtrees (c_J TOP) = Some js /\ length js = 3%nat.
Proof.
  exists (final (jp_push_all false jp_empty [c_f TOP; c_g TOP])).
  split; [apply (push_all_any false _ [c_f TOP; c_g TOP] [] jp_empty); [constructor|repeat apply Forall_cons; try apply Forall_nil; mod_in|vm_compute; reflexivity]|].
  split; [reflexivity|]. split; [vm_compute; reflexivity|]. split; [reflexivity|]. eexists. split; [vm_compute; reflexivity|reflexivity].
Qed.

(** There the element y e1 is in the tree of position 1. *)
Example C85_tree_example : exists js T u, jtrees (c_J TOP) = Some js /\ tree_at false js 1 = Ok T /\ In u (wraps (jroot T)) /\ vars (wlm u) = [0; 1]%nat.
Proof. do 3 eexists. split; [vm_compute; reflexivity|]. split; [vm_compute; reflexivity|]. split; [vm_compute; left; reflexivity|vm_compute; reflexivity]. Qed.
