(** What a build with assertions computes, one without computes as well: monomials, completions, Groebner forests, Hilbert polynomials and
    Boolean polynomials. *)
From Coq Require Import ZArith List Bool Arith Lia.
From Verif Require Import Outcome MonomModel JanetModel DebugProofs CompletionModel GBModel HilbertModel BoolModel.
Import ListNotations.
Local Open Scope Z_scope.

(* ---------------------------------------------------------------- monomials *)
Lemma d_assert_valid m : agree (assert_valid true m) (assert_valid false m).
Proof. unfold assert_valid. apply agree_skip. intros [|]; ag. Qed.
#[global] Hint Resolve d_assert_valid : ag.
Lemma d_c_unit sz p : agree (c_unit true sz p) (c_unit false sz p).
Proof. unfold c_unit. ag. Qed.
Lemma d_c_var v sz p : agree (c_var true v sz p) (c_var false v sz p).
Proof. unfold c_var. ag. Qed.
Lemma d_c_copy a : agree (c_copy true a) (c_copy false a).
Proof. unfold c_copy. ag. Qed.
Lemma d_c_mulvar v a : agree (c_mulvar true v a) (c_mulvar false v a).
Proof. unfold c_mulvar. ag. Qed.
Lemma d_c_mul a b : agree (c_mul true a b) (c_mul false a b).
Proof. unfold c_mul. ag. Qed.
Lemma d_c_pow a n : agree (c_pow true a n) (c_pow false a n).
Proof. unfold c_pow. ag. Qed.
Lemma d_c_mult m a : agree (c_mult true m a) (c_mult false m a).
Proof. unfold c_mult. ag. Qed.
Lemma d_c_multv m v a : agree (c_multv true m v a) (c_multv false m v a).
Proof. unfold c_multv. ag. Qed.
Lemma d_c_divisiable m a : agree (c_divisiable true m a) (c_divisiable false m a).
Proof. unfold c_divisiable. ag. Qed.
Lemma d_c_div m a : agree (c_div true m a) (c_div false m a).
Proof. unfold c_div. apply agree_skip. intro b. apply agree_check. cbn [bind assert_ andb]. ag. Qed.
Lemma d_c_gcd m a : agree (c_gcd true m a) (c_gcd false m a).
Proof. unfold c_gcd. ag. Qed.
Lemma d_c_lcm m a : agree (c_lcm true m a) (c_lcm false m a).
Proof. unfold c_lcm. ag. Qed.
Lemma d_c_eq m a : agree (c_eq true m a) (c_eq false m a).
Proof. unfold c_eq. ag. Qed.
Lemma d_c_bcmp o m a : agree (c_bcmp true o m a) (c_bcmp false o m a).
Proof. destruct o; cbn [c_bcmp]; unfold c_lex, c_deglex, c_alex; ag. Qed.
Lemma d_c_bcmp3 o m a b : agree (c_bcmp3 true o m a b) (c_bcmp3 false o m a b).
Proof. destruct o; cbn [c_bcmp3]; unfold c_lex3, c_deglex3, c_alex3; ag. Qed.

(* ---------------------------------------------------------------- completions *)
Lemma d_mark w u : agree (mark true w u) (mark false w u).
Proof. unfold mark. ag. Qed.
#[global] Hint Resolve d_mark : ag.
Lemma d_mark_all l : forall w, agree (mark_all true w l) (mark_all false w l).
Proof. induction l as [|u l IH]; intro w; cbn [mark_all]; ag. Qed.
#[global] Hint Resolve d_mark_all : ag.
Lemma d_mc_insert o T : forall w, agree (mc_insert true o T w) (mc_insert false o T w).
Proof. induction T as [|u T IH]; intro w; cbn [mc_insert]; ag. Qed.
Lemma d_prolong_vars cnt : forall k u Q, agree (prolong_vars true k cnt u Q) (prolong_vars false k cnt u Q).
Proof. induction cnt as [|cnt IH]; intros k u Q; cbn [prolong_vars]; ag. Qed.
#[global] Hint Resolve d_mc_insert d_prolong_vars : ag.
Lemma d_prolong_elem u Q : agree (prolong_elem true u Q) (prolong_elem false u Q).
Proof. unfold prolong_elem. ag. Qed.
#[global] Hint Resolve d_prolong_elem : ag.
Lemma d_prolong_list T : forall Q, agree (prolong_list true T Q) (prolong_list false T Q).
Proof. induction T as [|u T IH]; intro Q; cbn [prolong_list]; ag. Qed.
Lemma d_mc_find T m : agree (mc_find true T m) (mc_find false T m).
Proof. induction T as [|u T IH]; cbn [mc_find]; ag. Qed.
#[global] Hint Resolve d_prolong_list d_mc_find : ag.
Lemma d_mc_process o Q : forall T, agree (mc_process true o T Q) (mc_process false o T Q).
Proof. induction Q as [|w Q IH]; intro T; cbn [mc_process]; ag. Qed.
#[global] Hint Resolve d_mc_process : ag.
Lemma d_mc_loop fuel o : forall T Q, agree (mc_loop fuel true o T Q) (mc_loop fuel false o T Q).
Proof. induction fuel as [|fuel IH]; intros T Q; cbn [mc_loop]; ag. Qed.
#[global] Hint Resolve d_mc_loop : ag.
Lemma d_mc_build fuel o T : agree (mc_build fuel true o T) (mc_build fuel false o T).
Proof. unfold mc_build. ag. Qed.
Lemma d_mc_push_all o l : forall T, agree (mc_push_all true o T l) (mc_push_all false o T l).
Proof. induction l as [|m l IH]; intro T; cbn [mc_push_all]; ag. Qed.
Lemma d_prolong_tree t : forall Q, agree (prolong_tree true t Q) (prolong_tree false t Q).
Proof. induction t as [|dg ow nd IHd nv IHv]; intro Q; cbn [prolong_tree]; ag. Qed.
Lemma d_mj_process Q : forall J, agree (mj_process true J Q) (mj_process false J Q).
Proof. induction Q as [|w Q IH]; intro J; cbn [mj_process]; ag. Qed.
#[global] Hint Resolve d_prolong_tree d_mj_process : ag.
Lemma d_mj_loop fuel : forall J Q, agree (mj_loop fuel true J Q) (mj_loop fuel false J Q).
Proof. induction fuel as [|fuel IH]; intros J Q; cbn [mj_loop]; ag. Qed.
#[global] Hint Resolve d_mj_loop : ag.
Lemma d_mj_build fuel J : agree (mj_build fuel true J) (mj_build fuel false J).
Proof. unfold mj_build. ag. Qed.
Lemma d_mj_push_all l : forall J, agree (mj_push_all true J l) (mj_push_all false J l).
Proof. induction l as [|m l IH]; intro J; cbn [mj_push_all]; ag. Qed.

(* ---------------------------------------------------------------- forests *)
Lemma d_nmd_from u l : forall v, agree (nmd_from true u v l) (nmd_from false u v l).
Proof. induction l as [|x l IH]; intro v; cbn [nmd_from]; ag. Qed.
#[global] Hint Resolve d_nmd_from : ag.
Lemma d_forest_find f m : agree (forest_find true f m) (forest_find false f m).
Proof. induction f as [|J f IH]; cbn [forest_find]; ag. Qed.
Lemma d_set_mn_prec j : forall w v, agree (set_mn_prec true w v j) (set_mn_prec false w v j).
Proof. induction j as [|dg ow nd IHd nv IHv]; intros w v; cbn [set_mn_prec]; ag. Qed.
#[global] Hint Resolve d_forest_find d_set_mn_prec : ag.
Lemma d_prec_all f : forall w, agree (prec_all true f w) (prec_all false f w).
Proof. induction f as [|J f IH]; intro w; cbn [prec_all]; ag. Qed.
#[global] Hint Resolve d_prec_all : ag.
Lemma d_gb_insert g w : agree (gb_insert true g w) (gb_insert false g w).
Proof. unfold gb_insert. apply agree_skip. intros [u|]; [ag|]. cbn [bind]. ag. Qed.
#[global] Hint Resolve d_gb_insert : ag.
Lemma d_gb_insert_all h : forall g, agree (gb_insert_all true g h) (gb_insert_all false g h).
Proof. induction h as [|[m a] h IH]; intro g; cbn [gb_insert_all]; ag. Qed.

(* ---------------------------------------------------------------- Hilbert polynomials *)
Lemma d_setDim h d : agree (hp_setDim true h d) (hp_setDim false h d).
Proof. unfold hp_setDim. ag. Qed.
#[global] Hint Resolve d_setDim : ag.
Lemma d_build_one w s : agree (build_one true w s) (build_one false w s).
Proof. unfold build_one. ag. Qed.
#[global] Hint Resolve d_build_one : ag.
Lemma d_build_hp_tree t : forall s, agree (build_hp_tree true t s) (build_hp_tree false t s).
Proof. induction t as [|dg ow nd IHd nv IHv]; intro s; cbn [build_hp_tree]; ag. Qed.
#[global] Hint Resolve d_build_hp_tree : ag.
Lemma d_build_hp J h : agree (build_hp true J h) (build_hp false J h).
Proof. unfold build_hp. ag. Qed.

(* ---------------------------------------------------------------- Boolean polynomials *)
Lemma d_bm_check m : agree (bm_check true m) (bm_check false m).
Proof. unfold bm_check. apply agree_skip. intro b. apply agree_check, agree_refl. Qed.
#[global] Hint Resolve d_bm_check : ag.
Lemma d_bm_copy a : agree (bm_copy true a) (bm_copy false a).
Proof. unfold bm_copy. ag. Qed.
Lemma d_bm_mulvar a v : agree (bm_mulvar true a v) (bm_mulvar false a v).
Proof. unfold bm_mulvar. ag. Qed.
Lemma d_bm_mul a b : agree (bm_mul true a b) (bm_mul false a b).
Proof. unfold bm_mul. ag. Qed.
Lemma d_bm_assign a b : agree (bm_assign true a b) (bm_assign false a b).
Proof. unfold bm_assign. ag. Qed.
Lemma d_bm_get m i : agree (bm_get true m i) (bm_get false m i).
Proof. unfold bm_get. ag. Qed.
Lemma d_bquot cap ia : forall ib out, agree (bquot true cap ia ib out) (bquot false cap ia ib out).
Proof. induction ia as [|x ia IH]; intros ib out; cbn [bquot]; ag. Qed.
#[global] Hint Resolve d_bm_copy d_bm_mulvar d_bm_mul d_bm_assign d_bm_get d_bquot : ag.
Lemma d_bm_div a b : agree (bm_div true a b) (bm_div false a b).
Proof. unfold bm_div. apply agree_skip. intro c. apply agree_check. cbn [bind assert_ andb]. ag. Qed.
Lemma d_bp_check p : agree (bp_check true p) (bp_check false p).
Proof. unfold bp_check. apply agree_skip. intro b. apply agree_check, agree_refl. Qed.
#[global] Hint Resolve d_bm_div d_bp_check : ag.
Lemma d_bp_add1 p a : agree (bp_add1 true p a) (bp_add1 false p a).
Proof. unfold bp_add1. ag. Qed.
Lemma d_bp_map f g p : agree_f f g -> agree (bp_map f p) (bp_map g p).
Proof. intro H. induction p as [|m p IH]; cbn [bp_map]; ag; apply H. Qed.
#[global] Hint Resolve d_bp_add1 d_bp_map : ag.
Lemma d_bp_add_loop i : forall ia, agree (bp_add_loop true i ia) (bp_add_loop false i ia).
Proof.
  induction i as [|x i IH]; [intros [|y ia]; cbn [bp_add_loop]; try apply d_bp_map; try intro; ag|].
  induction ia as [|y ia IHa]; cbn [bp_add_loop] in *; ag.
Qed.
#[global] Hint Resolve d_bp_add_loop : ag.
Lemma d_bp_add p a : agree (bp_add true p a) (bp_add false p a).
Proof. unfold bp_add. ag. Qed.
Lemma d_bp_canon fuel : forall p, agree (bp_canon true fuel p) (bp_canon false fuel p).
Proof. induction fuel as [|fuel IH]; intro p; cbn [bp_canon]; ag. Qed.
#[global] Hint Resolve d_bp_add d_bp_canon : ag.
Lemma d_bp_canonicalize p : agree (bp_canonicalize true p) (bp_canonicalize false p).
Proof. unfold bp_canonicalize. ag. Qed.
#[global] Hint Resolve d_bp_canonicalize : ag.
Lemma d_mv v : agree_f (fun m => bm_mulvar true m v) (fun m => bm_mulvar false m v).
Proof. intro m. ag. Qed.
Lemma d_mm v : agree_f (fun m => bm_mul true m v) (fun m => bm_mul false m v).
Proof. intro m. ag. Qed.
#[global] Hint Resolve d_mv d_mm : ag.
Lemma d_bp_mulvar a v : agree (bp_mulvar true a v) (bp_mulvar false a v).
Proof. unfold bp_mulvar. ag. Qed.
Lemma d_bp_mulmon a m : agree (bp_mulmon true a m) (bp_mulmon false a m).
Proof. unfold bp_mulmon. ag. Qed.
#[global] Hint Resolve d_bp_mulvar d_bp_mulmon : ag.
Lemma d_bp_addmulvar p a v : agree (bp_addmulvar true p a v) (bp_addmulvar false p a v).
Proof. unfold bp_addmulvar. ag. Qed.
Lemma d_bp_addmulmon p a m : agree (bp_addmulmon true p a m) (bp_addmulmon false p a m).
Proof. unfold bp_addmulmon. ag. Qed.
Lemma d_bp_or_loop v p : agree (bp_or_loop true v p) (bp_or_loop false v p).
Proof. induction p as [|m p IH]; cbn [bp_or_loop]; ag. Qed.
#[global] Hint Resolve d_bp_addmulvar d_bp_addmulmon d_bp_or_loop : ag.
Lemma d_bp_or p v b : agree (bp_or true p v b) (bp_or false p v b).
Proof. unfold bp_or. ag. Qed.
Lemma d_bp_cancel p m f : agree (bp_cancel true p m f) (bp_cancel false p m f).
Proof. unfold bp_cancel. ag. Qed.
#[global] Hint Resolve d_bp_cancel : ag.
Lemma d_bp_nf_loop a fuel : forall p, agree (bp_nf_loop true fuel a p) (bp_nf_loop false fuel a p).
Proof. induction fuel as [|fuel IH]; intro p; cbn [bp_nf_loop]; ag. Qed.
#[global] Hint Resolve d_bp_nf_loop : ag.
Lemma d_bp_nf fuel a p : agree (bp_nf true fuel a p) (bp_nf false fuel a p).
Proof. unfold bp_nf. ag. Qed.
Lemma d_bp_tail_loop a fuel : forall done rest, agree (bp_tail_loop true fuel a done rest) (bp_tail_loop false fuel a done rest).
Proof. induction fuel as [|fuel IH]; intros done rest; cbn [bp_tail_loop]; ag. Qed.
#[global] Hint Resolve d_bp_tail_loop : ag.
Lemma d_bp_nfTail fuel a p : agree (bp_nfTail true fuel a p) (bp_nfTail false fuel a p).
Proof.
  unfold bp_nfTail. destruct p as [|m p]; [ag|]. apply agree_bind; [ag|]. intro r. apply agree_skip. intro v. apply agree_check. cbn [bind assert_ andb]. ag.
Qed.
