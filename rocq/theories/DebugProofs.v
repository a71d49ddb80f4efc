(** What a build with assertions computes, one without computes as well. *)
From Coq Require Import ZArith List Bool Arith Lia.
From Verif Require Import Outcome MonomModel JanetModel PolyModel JanetPolyModel TQModel.
Import ListNotations.
Local Open Scope Z_scope.

(** The first outcome, if it is a value, is that of the second. *)
Definition agree {A} (x y : outcome A) : Prop := forall r, x = Ok r -> y = Ok r.
Lemma agree_refl {A} (x : outcome A) : agree x x.
Proof. intros r E. exact E. Qed.
Lemma agree_bind {A B} (x y : outcome A) (f g : A -> outcome B) : agree x y -> (forall a, agree (f a) (g a)) -> agree (bind x f) (bind y g).
Proof. intros H K r E. destruct x as [a| | | |]; try discriminate E. rewrite (H a eq_refl). exact (K a r E). Qed.
(** Code that only a debug build runs *)
Lemma agree_skip {A B} (x : outcome A) (f : A -> outcome B) (y : outcome B) : (forall a, agree (f a) y) -> agree (bind x f) y.
Proof. intros K r E. destruct x as [a| | | |]; try discriminate E. exact (K a r E). Qed.
Lemma agree_assert {A} c (x y : outcome A) : agree x y -> agree (assert_ true c x) (assert_ false c y).
Proof. intros H r E. destruct c; [exact (H r E)|discriminate E]. Qed.
Lemma agree_check {A} b (x y : outcome A) : agree x y -> agree (assert_ true b x) y.
Proof. intros H r E. destruct b; [exact (H r E)|discriminate E]. Qed.
Lemma agree_fail {A} (y : outcome A) : agree AssertFail y.
Proof. intros r E. discriminate E. Qed.
Lemma agree_undef {A} (y : outcome A) : agree Undef y.
Proof. intros r E. discriminate E. Qed.
Lemma agree_fuel {A} (y : outcome A) : agree OutOfFuel y.
Proof. intros r E. discriminate E. Qed.
Lemma agree_null {A} (y : outcome A) : agree (null_head true) y.
Proof. intros r E. discriminate E. Qed.
Lemma agree_oob {A} (y : outcome A) : agree (oob true) y.
Proof. intros r E. discriminate E. Qed.
Create HintDb ag.
#[global] Hint Resolve agree_refl agree_fail agree_undef agree_fuel agree_null agree_oob : ag.

Ltac ag1 :=
  cbv beta zeta;
  match goal with
  | |- agree (bind ?x ?f) (bind ?y ?g) => apply agree_bind; [|intro]
  | |- agree (assert_ true _ _) (assert_ false _ _) => apply agree_assert
  | |- agree (if ?c then _ else _) (if ?c then _ else _) => destruct c
  | |- agree (match ?c with _ => _ end) (match ?c with _ => _ end) => destruct c
  | |- agree (let (_, _) := ?c in _) (let (_, _) := ?c in _) => destruct c
  end.
Ltac ag := repeat first [solve [auto 3 with ag] | ag1]; auto with ag.

(* ---------------------------------------------------------------- Janet trees *)
Lemma d_mget m i : agree (mget true m i) (mget false m i).
Proof. unfold mget. ag. Qed.
Lemma d_set_nm w i : agree (set_nm true w i) (set_nm false w i).
Proof. unfold set_nm. ag. Qed.
Lemma d_set_nmd w i : agree (set_nmd true w i) (set_nmd false w i).
Proof. unfold set_nmd. ag. Qed.
Lemma d_set_build w i : agree (set_build true w i) (set_build false w i).
Proof. unfold set_build. ag. Qed.
Lemma d_get_flag l i : agree (get_flag true l i) (get_flag false l i).
Proof. unfold get_flag. ag. Qed.
#[global] Hint Resolve d_mget d_set_nm d_set_nmd d_set_build d_get_flag : ag.
Lemma d_prolong_wrap k a : agree (prolong_wrap true k a) (prolong_wrap false k a).
Proof. unfold prolong_wrap. ag. Qed.
Lemma d_build_chain w l : forall d next, agree (build_chain true w d l next) (build_chain false w d l next).
Proof. induction l as [|x l IH]; intros d next; cbn [build_chain]; ag. Qed.
#[global] Hint Resolve d_prolong_wrap d_build_chain : ag.
Lemma d_build_at w d var next : agree (build_at true w d var next) (build_at false w d var next).
Proof. unfold build_at. ag. Qed.
Lemma d_opt_set_nm ow v : agree (opt_set_nm true ow v) (opt_set_nm false ow v).
Proof. unfold opt_set_nm. ag. Qed.
#[global] Hint Resolve d_build_at d_opt_set_nm : ag.
Lemma d_set_nm_tree t v : agree (set_nm_tree true t v) (set_nm_tree false t v).
Proof. induction t as [|dg ow nd IHd nv IHv]; cbn [set_nm_tree]; ag. Qed.
Lemma d_check_from u l : forall v, agree (check_from true u v l) (check_from false u v l).
Proof. induction l as [|x l IH]; intro v; cbn [check_from]; ag. Qed.
#[global] Hint Resolve d_set_nm_tree d_check_from : ag.
Lemma d_check_div u m : agree (check_div true u m) (check_div false u m).
Proof. unfold check_div. ag. Qed.
#[global] Hint Resolve d_check_div : ag.
Lemma d_find_loop m j : forall d var, agree (find_loop true m d var j) (find_loop false m d var j).
Proof. induction j as [|dg ow nd IHd nv IHv]; intros d var; cbn [find_loop]; unfold assert_div; ag. Qed.
#[global] Hint Resolve d_find_loop : ag.
Lemma d_find t m : agree (find true t m) (find false t m).
Proof. unfold find. destruct t; ag. Qed.
Lemma d_first_nz a : forall v, agree (first_nz true a v) (first_nz false a v).
Proof. induction a as [|x a IH]; intro v; cbn [first_nz]; ag. Qed.
Lemma d_walk j : forall w var, agree (JanetModel.walk true w var j) (JanetModel.walk false w var j).
Proof. induction j as [|dg ow nd IHd nv IHv]; intros w var; cbn [JanetModel.walk]; ag. Qed.
#[global] Hint Resolve d_find d_first_nz d_walk : ag.
Lemma d_ins_loop j : forall w d var, agree (ins_loop true w d var j) (ins_loop false w d var j).
Proof. induction j as [|dg ow nd IHd nv IHv]; intros w d var; cbn [ins_loop]; ag. Qed.
#[global] Hint Resolve d_ins_loop : ag.
Lemma d_ins_root t w : agree (ins_root true t w) (ins_root false t w).
Proof. unfold ins_root. destruct t; ag. Qed.
Lemma d_insert J w : agree (insert true J w) (insert false J w).
Proof.
  unfold insert. apply agree_skip. intros [u|]; [apply agree_fail|]. cbn [bind]. apply agree_bind; [apply d_ins_root|]. intro t. apply agree_skip. intros [u|]; [|apply agree_fail].
  apply agree_check, agree_refl.
Qed.
#[global] Hint Resolve d_insert : ag.

(* ---------------------------------------------------------------- polynomials *)
Lemma d_checked p : agree (checked true p) (checked false p).
Proof. unfold checked. ag. Qed.
#[global] Hint Resolve d_checked : ag.
Lemma d_mul a b : agree (mul_ true a b) (mul_ false a b).
Proof. unfold mul_. ag. Qed.
Lemma d_cmp2 t o m a b : agree (cmp2_ true t o m a b) (cmp2_ false t o m a b).
Proof. unfold cmp2_. ag. Qed.
Lemma d_const t o n c : agree (p_const true t o n c) (p_const false t o n c).
Proof. unfold p_const. ag. Qed.
Lemma d_monom t o m : agree (p_monom true t o m) (p_monom false t o m).
Proof. unfold p_monom. ag. Qed.
Lemma d_mul_var k a : agree (p_mul_var true k a) (p_mul_var false k a).
Proof. unfold p_mul_var. ag. Qed.
Lemma d_copy a : agree (p_copy true a) (p_copy false a).
Proof. unfold p_copy. ag. Qed.
Lemma d_lm p : agree (p_lm true p) (p_lm false p).
Proof. unfold p_lm. ag. Qed.
Lemma d_minus p : agree (p_minus true p) (p_minus false p).
Proof. unfold p_minus. ag. Qed.
Lemma d_add p a : agree (p_add true p a) (p_add false p a).
Proof. unfold p_add. ag. Qed.
Lemma d_sub p a : agree (p_sub true p a) (p_sub false p a).
Proof. unfold p_sub. ag. Qed.
Lemma d_add_const p c : agree (p_add_const true p c) (p_add_const false p c).
Proof. unfold p_add_const. ag. Qed.
Lemma d_sub_const p c : agree (p_sub_const true p c) (p_sub_const false p c).
Proof. unfold p_sub_const. ag. Qed.
Lemma d_mult_const p c : agree (p_mult_const true p c) (p_mult_const false p c).
Proof. unfold p_mult_const. ag. Qed.
#[global] Hint Resolve d_mul d_cmp2 d_const d_monom d_mul_var d_copy d_lm d_minus d_add d_sub d_add_const d_sub_const d_mult_const : ag.
Lemma d_mulmon m c l : agree (mulmon true m c l) (mulmon false m c l).
Proof. induction l as [|[u d] l IH]; cbn [mulmon]; ag. Qed.
#[global] Hint Resolve d_mulmon : ag.
Lemma d_mult_loop t o p : forall sum a, agree (mult_loop true t o sum p a) (mult_loop false t o sum p a).
Proof. induction p as [|[m c] p IH]; intros sum a; cbn [mult_loop]; ag. Qed.
#[global] Hint Resolve d_mult_loop : ag.
Lemma d_mult_terms t o p a : agree (mult_terms true t o p a) (mult_terms false t o p a).
Proof. unfold mult_terms. ag. Qed.
#[global] Hint Resolve d_mult_terms : ag.
Lemma d_mult p a : agree (p_mult true p a) (p_mult false p a).
Proof. unfold p_mult. ag. Qed.
#[global] Hint Resolve d_mult : ag.
Lemma d_pow_loop k : forall tmp p, agree (pow_loop true k tmp p) (pow_loop false k tmp p).
Proof. induction k as [|k IH]; intros tmp p; cbn [pow_loop]; ag. Qed.
#[global] Hint Resolve d_pow_loop : ag.
Lemma d_pow p k : agree (p_pow true p k) (p_pow false p k).
Proof. unfold p_pow. ag. Qed.
Lemma d_int_gcd a b : agree (int_gcd true a b) (int_gcd false a b).
Proof. unfold int_gcd. ag. Qed.
Lemma d_int_div a b : agree (int_div true a b) (int_div false a b).
Proof. unfold int_div. ag. Qed.
#[global] Hint Resolve d_int_gcd d_int_div : ag.
Lemma d_red_terms t o k1 k2 m2 p : forall a, agree (red_terms true t o k1 k2 m2 p a) (red_terms false t o k1 k2 m2 p a).
Proof.
  induction p as [|[m c] p IH]; [intros [|[n d] a]; cbn [red_terms]; ag|].
  induction a as [|[n d] a IHa]; [cbn [red_terms]; ag|]. cbn [red_terms] in *. ag.
Qed.
Lemma d_red_factors m c n d : agree (red_factors true m c n d) (red_factors false m c n d).
Proof. unfold red_factors. cbn [andb]. destruct (negb (divisiable m n)); [apply agree_fail|]. ag. Qed.
#[global] Hint Resolve d_red_terms d_red_factors : ag.
Lemma d_reduction p a : agree (p_reduction true p a) (p_reduction false p a).
Proof. unfold p_reduction. ag. Qed.
Lemma d_red_tail p pre rest a : agree (red_tail true p pre rest a) (red_tail false p pre rest a).
Proof. unfold red_tail. ag. Qed.
#[global] Hint Resolve d_reduction d_red_tail : ag.
Lemma d_redMaybe p a : agree (p_redMaybe true p a) (p_redMaybe false p a).
Proof. unfold p_redMaybe. ag. Qed.
Lemma d_gcd_loop l : forall g, agree (gcd_loop true g l) (gcd_loop false g l).
Proof. induction l as [|[m c] l IH]; intro g; cbn [gcd_loop]; ag. Qed.
#[global] Hint Resolve d_redMaybe d_gcd_loop : ag.
Lemma d_isPp p : agree (p_isPp true p) (p_isPp false p).
Proof. unfold p_isPp. ag. Qed.
Lemma d_div_terms g l : agree (div_terms true g l) (div_terms false g l).
Proof. induction l as [|[m c] l IH]; cbn [div_terms]; ag. Qed.
#[global] Hint Resolve d_isPp d_div_terms : ag.
Lemma d_pp p : agree (p_pp true p) (p_pp false p).
Proof. unfold p_pp. ag. Qed.
#[global] Hint Resolve d_pp : ag.

(** Two ways to look for reducers *)
Definition agree_f {A B} (f g : A -> outcome B) : Prop := forall a, agree (f a) (g a).
Lemma d_nf_loop fuel : forall f g r p, agree_f f g -> agree (nf_loop fuel true f r p) (nf_loop fuel false g r p).
Proof. induction fuel as [|fuel IH]; intros f g r p H; cbn [nf_loop]; ag; apply H. Qed.
Lemma d_nf fuel f g p : agree_f f g -> agree (p_nf fuel true f p) (p_nf fuel false g p).
Proof. apply d_nf_loop. Qed.
Lemma d_nft_loop fuel : forall f g r p pre rest, agree_f f g -> agree (nft_loop fuel true f r p pre rest) (nft_loop fuel false g r p pre rest).
Proof. induction fuel as [|fuel IH]; intros f g r p pre rest H; cbn [nft_loop]; ag; apply H. Qed.
#[global] Hint Resolve d_nft_loop d_nf : ag.
Lemma d_nfTail fuel f g p : agree_f f g -> agree (p_nfTail fuel true f p) (p_nfTail fuel false g p).
Proof. intro H. unfold p_nfTail. ag. Qed.
#[global] Hint Resolve d_nfTail : ag.

(* ---------------------------------------------------------------- the algorithms *)
Lemma d_cmp p a : agree (p_cmp true p a) (p_cmp false p a).
Proof. unfold p_cmp. ag. Qed.
#[global] Hint Resolve d_cmp : ag.
Lemma d_place l w : agree (place true l w) (place false l w).
Proof. induction l as [|u l IH]; cbn [place]; ag. Qed.
#[global] Hint Resolve d_place : ag.
Lemma d_jinsert l w : agree (jp_insert true l w) (jp_insert false l w).
Proof. unfold jp_insert. ag. Qed.
Lemma d_tree_at js p : agree (tree_at true js p) (tree_at false js p).
Proof. unfold tree_at. ag. Qed.
#[global] Hint Resolve d_jinsert d_tree_at : ag.
Lemma d_find_wrap mpos tr m : agree (find_wrap true mpos tr m) (find_wrap false mpos tr m).
Proof. unfold find_wrap. ag. Qed.
#[global] Hint Resolve d_find_wrap : ag.
Lemma d_find_poly mpos tr objs : agree_f (find_poly true mpos tr objs) (find_poly false mpos tr objs).
Proof. intro m. unfold find_poly. ag. Qed.
#[global] Hint Resolve d_find_poly : ag.
Lemma d_jp_find J : agree_f (jp_find true J) (jp_find false J).
Proof. intro m. unfold jp_find. destruct (jone J); [ag|]. apply d_find_poly. Qed.
#[global] Hint Resolve d_jp_find : ag.
Lemma d_push J a : agree (jp_push true J a) (jp_push false J a).
Proof. unfold jp_push. ag. Qed.
Lemma d_set_one t o n mpos : agree (set_one true t o n mpos) (set_one false t o n mpos).
Proof. unfold set_one. ag. Qed.
#[global] Hint Resolve d_push d_set_one : ag.
Lemma d_prolong mpos cnt : forall k js w p q, agree (jp_prolong true mpos cnt k js w p q) (jp_prolong false mpos cnt k js w p q).
Proof. induction cnt as [|cnt IH]; intros k js w p q; cbn [jp_prolong]; ag. Qed.
#[global] Hint Resolve d_prolong : ag.
Lemma d_prolong_entry mpos js e q : agree (prolong_entry true mpos js e q) (prolong_entry false mpos js e q).
Proof. unfold prolong_entry. ag. Qed.
#[global] Hint Resolve d_prolong_entry : ag.
Lemma d_prolong_if mpos dg js e q : agree (prolong_if true mpos dg js e q) (prolong_if false mpos dg js e q).
Proof. unfold prolong_if. ag. Qed.
#[global] Hint Resolve d_prolong_if : ag.
Lemma d_take_block fuel f g dg : agree_f f g -> forall q tmp, agree (take_block fuel true f dg q tmp) (take_block fuel false g dg q tmp).
Proof. intros H. induction q as [|u q IH]; intro tmp; cbn [take_block]; ag. Qed.
Lemma d_same_deg d l : agree (same_deg true d l) (same_deg false d l).
Proof. induction l as [|u l IH]; cbn [same_deg]; ag. Qed.
Lemma d_same_lm m l : agree (same_lm true m l) (same_lm false m l).
Proof. induction l as [|u l IH]; cbn [same_lm]; ag. Qed.
Lemma d_red_all a l : agree (red_all true a l) (red_all false a l).
Proof. induction l as [|u l IH]; cbn [red_all]; ag. Qed.
#[global] Hint Resolve d_take_block d_same_deg d_same_lm d_red_all : ag.
Lemma d_scan cnt : forall pre l, agree (scan cnt true pre l) (scan cnt false pre l).
Proof. induction cnt as [|cnt IH]; intros pre [|u l]; cbn [scan]; ag. Qed.
Lemma d_red_by a l : forall tmp, agree (red_by true a l tmp) (red_by false a l tmp).
Proof. induction l as [|u l IH]; intro tmp; cbn [red_by]; ag. Qed.
#[global] Hint Resolve d_scan d_red_by : ag.
Lemma d_block_loop fuel : forall tmp q, agree (block_loop fuel true tmp q) (block_loop fuel false tmp q).
Proof. induction fuel as [|fuel IH]; intros [|u tmp] q; cbn [block_loop]; ag. Qed.
Lemma d_enter l : forall js, agree (enter true js l) (enter false js l).
Proof. induction l as [|u l IH]; intro js; cbn [enter]; ag. Qed.
Lemma d_tail_reduce fuel mpos js others e : agree (tail_reduce fuel true mpos js others e) (tail_reduce fuel false mpos js others e).
Proof. unfold tail_reduce. ag. Qed.
#[global] Hint Resolve d_block_loop d_enter d_tail_reduce : ag.
Lemma d_merge_loop fuel mpos dg cnt : forall js q d j k, agree (merge_loop cnt fuel true mpos dg js q d j k) (merge_loop cnt fuel false mpos dg js q d j k).
Proof.
  induction cnt as [|cnt IH]; intros js q d j k; cbn [merge_loop]; [ag|].
  assert (Put : forall e j' k', agree
    (bind (p_isNf (find_poly true mpos (Some js) (d ++ j ++ k)) (snd e)) (fun b => assert_ true b (bind (prolong_if true mpos dg js e q) (fun r => merge_loop cnt fuel true mpos dg (fst r) (snd r) (d ++ [e]) j' k'))))
    (bind (Ok true) (fun b => assert_ false b (bind (prolong_if false mpos dg js e q) (fun r => merge_loop cnt fuel false mpos dg (fst r) (snd r) (d ++ [e]) j' k'))))).
  { intros e j' k'. apply agree_skip. intro b. apply agree_check. cbn [bind assert_ andb]. ag. }
  destruct j as [|e j]; destruct k as [|e' k]; [ag| | |]; cbv zeta.
  - ag.
  - apply Put.
  - apply agree_bind; [apply d_cmp|]. intro c. destruct (c <? 0); [apply Put|ag].
Qed.
#[global] Hint Resolve d_merge_loop : ag.
Lemma d_block_tq fuel : forall mpos js q t, agree (block_tq fuel true mpos js q t) (block_tq fuel false mpos js q t).
Proof.
  induction fuel as [|fuel IH]; intros mpos js [|u q] t; cbn [block_tq]; try solve [ag].
  apply agree_bind; [ag|]. intro m. apply agree_bind; [ag|]. intros [[q1 tmp]|]; [|ag]. apply agree_assert. destruct tmp as [|v tmp]; [ag|].
  apply agree_bind; [ag|]. intros [[tmp2 q2] dg]. apply agree_bind; [ag|]. intros [js2 new]. apply agree_bind; [ag|]. intros [[js3 q3] t3].
  apply agree_skip. intro b. apply agree_check. apply IH.
Qed.
#[global] Hint Resolve d_block_tq : ag.
Lemma d_build fuel J : agree (jp_build fuel true J) (jp_build fuel false J).
Proof. unfold jp_build. ag. Qed.
Lemma d_jp_nf fuel J a : agree (jp_nf fuel true J a) (jp_nf fuel false J a).
Proof. unfold jp_nf. ag. Qed.
