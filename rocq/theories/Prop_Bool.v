(** Properties C37, C38, C50 (ginv/bmonom, ginv/bpoly). *)
From Coq Require Import ZArith List Bool Arith Lia.
From Verif Require Import Outcome BoolModel BoolSpec BoolProofs BoolPolyProofs BoolNfProofs BoolTop.
Import ListNotations.
Local Open Scope Z_scope.

(** The constructors and operator= give the empty set, a one-element set and the same set. *)
Theorem C37_make : forall (dbg : bool) (v : Z) (a b : BM) (la lb : list Z), shows a la -> shows b lb ->
  shows bm_one [] /\ shows (bm_var v) [v] /\
  (exists c, bm_copy dbg a = Ok c /\ shows c la) /\ (exists c, bm_assign dbg b a = Ok c /\ shows c la).
Proof.
  exact (fun dbg v a b la lb Ha Hb => conj one_ok (conj (var_ok v) (conj (copy_ok dbg a la Ha) (assign_ok dbg b a lb la Hb Ha)))).
Qed.
Print Assumptions C37_make.
(** The product is the union of the variable sets. *)
Theorem C37_product : forall (dbg : bool) (a b : BM) (la lb : list Z), shows a la -> shows b lb ->
  exists c u, bm_mul dbg a b = Ok c /\ shows c u /\ forall x, In x u <-> In x la \/ In x lb.
Proof. exact mul_ok. Qed.
Print Assumptions C37_product.
Theorem C37_times_variable : forall (dbg : bool) (a : BM) (la : list Z) (v : Z), shows a la ->
  exists c u, bm_mulvar dbg a v = Ok c /\ shows c u /\ forall x, In x u <-> x = v \/ In x la.
Proof. exact mulvar_ok. Qed.
Print Assumptions C37_times_variable.
(** Divisibility is inclusion, the quotient is the difference. *)
Theorem C37_divisible : forall (a b : BM) (la lb : list Z), shows a la -> shows b lb ->
  exists r, bm_divisible a b = Ok r /\ (r = true <-> incl lb la).
Proof. exact divisible_ok. Qed.
Print Assumptions C37_divisible.
Theorem C37_quotient : forall (dbg : bool) (a b : BM) (la lb : list Z), shows a la -> shows b lb -> incl lb la ->
  exists c u, bm_div dbg a b = Ok c /\ shows c u /\ forall x, In x u <-> In x la /\ ~ In x lb.
Proof. exact div_ok. Qed.
Print Assumptions C37_quotient.
(** A divisor that does not divide is caught in debug builds only; in a release build the quotient of two variables is 1. *)
Theorem C37_quotient_unchecked : forall (a b : BM) (la lb : list Z), shows a la -> shows b lb -> ~ incl lb la ->
  bm_div true a b = AssertFail /\ bm_div false (bm_var 1) (bm_var 2) = Ok bm_one.
Proof. exact (fun a b la lb Ha Hb H => conj (div_not a b la lb Ha Hb H) eq_refl). Qed.
Print Assumptions C37_quotient_unchecked.
(** compare decides the order, which is a strict total order, kept by multiplication with variables not in the larger one. *)
Theorem C37_compare : forall (a b : BM) (la lb : list Z), shows a la -> shows b lb ->
  exists c, bm_compare a b = Ok c /\ (c > 0 <-> larger la lb) /\ (c < 0 <-> larger lb la) /\ (c = 0 <-> la = lb).
Proof. exact compare_ok. Qed.
Print Assumptions C37_compare.
Theorem C37_order : forall a b c : list Z, decreasing a -> decreasing b ->
  ~ larger a a /\ (larger a b -> larger b c -> larger a c) /\ (a = b \/ larger a b \/ larger b a).
Proof. exact c37_order. Qed.
Print Assumptions C37_order.
Theorem C37_order_products : forall a b m am bm : list Z,
  decreasing a -> decreasing b -> decreasing m -> decreasing am -> decreasing bm ->
  (forall x, In x am <-> In x a \/ In x m) -> (forall x, In x bm <-> In x b \/ In x m) ->
  (forall x, In x a -> ~ In x m) -> larger a b -> larger am bm.
Proof. exact larger_mul. Qed.
Print Assumptions C37_order_products.
(** Without that condition it is not kept: x2 x1 > x3 but times x2 x1 the order is reversed. *)
Theorem C37_order_products_overlap : larger [2; 1] [3] /\ larger [3; 2; 1] [2; 1].
Proof. split; left; cbn; lia. Qed.
Print Assumptions C37_order_products_overlap.
Example C37_ex : exists a b c d, shows a [5; 3; 1] /\ shows b [3; 2] /\ bm_mul true a b = Ok c /\ shows c [5; 3; 2; 1] /\
  bm_div true c b = Ok d /\ shows d [5; 1] /\ bm_compare a b = Ok 1 /\ bm_divisible a b = Ok false.
Proof.
  exists (bm [5; 3; 1]), (bm [3; 2]), (mkBM 5 4 [5; 3; 2; 1]), (mkBM 2 2 [5; 1]).
  split; [apply bm_shows; dec|]. split; [apply bm_shows; dec|]. split; [reflexivity|]. split; [apply (shows_mk 5 [5; 3; 2; 1]); [dec|cbn; lia]|].
  split; [reflexivity|]. split; [apply (shows_mk 2 [5; 1]); [dec|cbn; lia]|]. split; reflexivity.
Qed.

(** Every operation keeps polynomials canonical and computes the Boolean operation on the values. *)
Theorem C38_set : forall (dbg : bool) (v : Z) (neg : bool) (m : BM) (l : list Z), shows m l ->
  means [] (fun _ => false) /\ means bp_setOne (fun _ => true) /\ means (bp_setVar v neg) (fun s => if neg then negb (s v) else s v) /\
  exists r, bp_setMonom dbg m = Ok r /\ means r (fun s => mval s l).
Proof. exact c38_set. Qed.
Print Assumptions C38_set.
Theorem C38_add : forall (dbg : bool) (p q : BP) f g, means p f -> means q g ->
  exists r, bp_add dbg p q = Ok r /\ means r (fun s => xorb (f s) (g s)).
Proof. exact c38_add. Qed.
Print Assumptions C38_add.
Theorem C38_mult_variable : forall (dbg : bool) (p : BP) (v : Z) f, means p f ->
  exists r, bp_mulvar dbg p v = Ok r /\ means r (fun s => f s && s v).
Proof. exact c38_mulvar. Qed.
Print Assumptions C38_mult_variable.
Theorem C38_mult_monomial : forall (dbg : bool) (p : BP) (m : BM) (l : list Z) f, means p f -> shows m l ->
  exists r, bp_mulmon dbg p m = Ok r /\ means r (fun s => f s && mval s l).
Proof. exact c38_mulmon. Qed.
Print Assumptions C38_mult_monomial.
Theorem C38_addmult_variable : forall (dbg : bool) (p q : BP) (v : Z) f g, means p f -> means q g ->
  exists r, bp_addmulvar dbg p q v = Ok r /\ means r (fun s => xorb (f s) (g s && s v)).
Proof. exact c38_addmulvar. Qed.
Print Assumptions C38_addmult_variable.
Theorem C38_addmult_monomial : forall (dbg : bool) (p q : BP) (m : BM) (l : list Z) f g, means p f -> means q g -> shows m l ->
  exists r, bp_addmulmon dbg p q m = Ok r /\ means r (fun s => xorb (f s) (g s && mval s l)).
Proof. exact c38_addmulmon. Qed.
Print Assumptions C38_addmult_monomial.
Theorem C38_addOne : forall (p : BP) f, means p f -> means (bp_addOne p) (fun s => negb (f s)).
Proof. exact c38_addOne. Qed.
Print Assumptions C38_addOne.
Theorem C38_or : forall (dbg : bool) (p : BP) (v : Z) (neg : bool) f, means p f ->
  exists r, bp_or dbg p v neg = Ok r /\ means r (fun s => f s || (if neg then negb (s v) else s v)).
Proof. exact c38_or. Qed.
Print Assumptions C38_or.
(** canonicalize sorts any list of monomials and cancels equal pairs. *)
Theorem C38_canonicalize : forall (dbg : bool) (p : BP) (ls : list (list Z)), polys p ls ->
  exists r, bp_canonicalize dbg p = Ok r /\ means r (fun s => pval s ls).
Proof. exact c38_canonicalize. Qed.
Print Assumptions C38_canonicalize.
(** Two polynomials have the same monomials exactly if they have the same values. *)
Theorem C38_unique : forall (p q : BP) f g, means p f -> means q g -> ((forall s, f s = g s) <-> exists ls, polys p ls /\ polys q ls).
Proof. exact c38_unique. Qed.
Print Assumptions C38_unique.
(** isZero, isOne and tailOne tell the constant functions 0 and 1 and the value at 0. *)
Theorem C38_tests : forall (p : BP) f, means p f ->
  (bp_isZero p = true <-> forall s, f s = false) /\ (bp_isOne p = true <-> forall s, f s = true) /\ bp_tailOne p = f (fun _ => false).
Proof. exact c38_tests. Qed.
Print Assumptions C38_tests.
(** Normal form: terminates if the variables are bounded below; the first monomial of the result is not reducible
    and not larger than before; the value is kept wherever the reducing polynomials vanish. *)
Theorem C50_nf : forall (dbg : bool) (a : finder) (G : BP -> Prop) (lo : Z) (p : BP) (ls : list (list Z)),
  finds a G -> (forall f fs, G f -> polys f fs -> bounded lo fs) -> polys p ls -> canon ls -> ls <> [] -> bounded lo ls ->
  exists n r rs, (forall fuel, (n <= fuel)%nat -> bp_nf dbg fuel a p = Ok r) /\ polys r rs /\ canon rs /\
    match r with [] => True | m :: _ => a m = None end /\
    match ls, rs with l :: _, y :: _ => l = y \/ larger l y | _, _ => True end /\
    forall s, zero_of s G -> pval s rs = pval s ls.
Proof. exact c38_nf. Qed.
Print Assumptions C50_nf.
Theorem C50_nfTail : forall (dbg : bool) (a : finder) (G : BP -> Prop) (lo : Z) (p : BP) (l : list Z) (ls : list (list Z)),
  finds a G -> (forall f fs, G f -> polys f fs -> bounded lo fs) -> polys p (l :: ls) -> canon (l :: ls) -> bounded lo (l :: ls) ->
  exists n m r rs, (forall fuel, (n <= fuel)%nat -> bp_nfTail dbg fuel a p = Ok (m :: r)) /\ polys (m :: r) (l :: rs) /\ canon (l :: rs) /\
    (forall x, In x r -> a x = None) /\ forall s, zero_of s G -> pval s (l :: rs) = pval s (l :: ls).
Proof. exact c38_nfTail. Qed.
Print Assumptions C50_nfTail.
Example C38_C50_ex :
  (finds (from_list G1) (fun f => In f G1) /\ (forall f fs, In f G1 -> polys f fs -> bounded 1 fs) /\
   polys P1 [[3; 2; 1]; [4; 3]; [2]] /\ canon [[3; 2; 1]; [4; 3]; [2]] /\ bounded 1 [[3; 2; 1]; [4; 3]; [2]]) /\
  bp_nf true 5 (from_list G1) P1 = Ok [bm [4; 1]; bm [3]; bm [2]] /\
  bp_nfTail true 5 (from_list G1) P1 = Ok [bm [3; 2; 1]; bm [4; 1]; bm [2]] /\
  bp_or true P1 2 false = Ok [bm [4; 3; 2]; bm [4; 3]; bm [2]] /\
  means P1 (fun s => pval s [[3; 2; 1]; [4; 3]; [2]]).
Proof.
  split; [exact (conj finds_G1 (conj G1_bounded (conj (proj1 P1_ok) (conj (proj2 P1_ok) P1_bounded))))|].
  split; [vm_compute; reflexivity|]. split; [vm_compute; reflexivity|]. split; [vm_compute; reflexivity|].
  exists [[3; 2; 1]; [4; 3]; [2]]. exact (conj (proj1 P1_ok) (conj (proj2 P1_ok) (fun s => eq_refl))).
Qed.

(** The checks of debug builds (assert(assertValid())) abort exactly if the variables of a monomial, or the monomials of a
    polynomial, are not strictly decreasing. *)
Theorem C37_checked : forall m : BM, (bdeg m <= bsize m)%nat -> (bdeg m <= length (bcells m))%nat ->
  (decreasing (firstn (bdeg m) (bcells m)) -> bm_check true m = Ok m) /\
  (~ decreasing (firstn (bdeg m) (bcells m)) -> bm_check true m = AssertFail) /\ bm_check false m = Ok m.
Proof. exact c37_valid. Qed.
Print Assumptions C37_checked.
Theorem C38_checked : forall (p : BP) (ls : list (list Z)), polys p ls ->
  (canon ls -> bp_check true p = Ok p) /\ (~ canon ls -> bp_check true p = AssertFail) /\ bp_check false p = Ok p.
Proof. exact c38_valid. Qed.
Print Assumptions C38_checked.
Example C37_checked_case : bm_check true (mkBM 2 2 [1; 3]) = AssertFail /\ bm_check true (mkBM 2 2 [3; 1]) = Ok (mkBM 2 2 [3; 1]) /\
  bp_check true [bm_one; bm_var 2] = AssertFail /\ bp_check true [bm_var 2; bm_one] = Ok [bm_var 2; bm_one].
Proof. repeat split; reflexivity. Qed.

(** C50: nf, isNfTail and nfTail of the zero polynomial fail an assertion, and read an empty list in release builds;
    isNfTail says whether no monomial behind the first has a divisor. *)
Theorem C50_zero : forall (fuel : nat) (a : finder),
  (bp_nf true fuel a [] = AssertFail /\ bp_isNfTail true a [] = AssertFail /\ bp_nfTail true fuel a [] = AssertFail) /\
  (bp_nf false fuel a [] = Undef /\ bp_isNfTail false a [] = Undef /\ bp_nfTail false fuel a [] = Undef).
Proof. exact c50_zero. Qed.
Print Assumptions C50_zero.
Theorem C50_isNfTail : forall (dbg : bool) (a : finder) (m : BM) (t : BP), exists b,
  bp_isNfTail dbg a (m :: t) = Ok b /\ (b = true <-> forall x, In x t -> a x = None).
Proof. exact c50_isNfTail. Qed.
Print Assumptions C50_isNfTail.
Example C50_isNfTail_case : bp_isNfTail true (from_list G1) P1 = Ok false /\ bp_isNfTail true (from_list G1) [bm [3]; bm [2]] = Ok true.
Proof. split; vm_compute; reflexivity. Qed.
