(** What a program on polynomial objects should show: polynomials are objects that can be known by several names,
    lm() and lc() are values.  And a check of the text of a program, without polynomials, under which memory is not
    misused.  From the model only the commands and what can be seen are used. *)
From Coq Require Import ZArith List Bool Arith.
From Verif Require Import MonomModel MonomSpec PolyModel PolySpec CyHeapModel.
Import ListNotations.
Local Open Scope Z_scope.

(** Names of objects. *)
Definition names : Type := var -> option nat.
Definition set_name (x : var) (v : option nat) (e : names) : names := fun y => if Nat.eqb y x then v else e y.
Definition replace {A} (a : nat) (v : A) (l : list A) : list A := firstn a l ++ v :: skipn (S a) l.

(* ---- the meaning of a program ---- *)
Inductive thing := TPoly (p : poly) | TMonom (m : monom) | TInteger (c : Z).
Definition world : Type := list thing * names.

Definition value_of (p : poly) (r : poly) (f : monom -> Z) : Prop := valid_poly r /\ same_ring p r /\ forall m, coef (terms r) m = f m.
Definition means (op : binop) (p q r : poly) : Prop :=
  match op with
  | BAdd => value_of p r (fun m => coef (terms p) m + coef (terms q) m)
  | BSub => value_of p r (fun m => coef (terms p) m - coef (terms q) m)
  | BMul => value_of p r (prod_coef (terms p) (terms q))
  end.
(** r is p reduced by q: a combination of p and a multiple of q without the leading monomial of p. *)
Definition reduced (p q r : poly) : Prop :=
  valid_poly r /\ same_ring p r /\ exists m c p' n d q' k1 k2 u, terms p = (m, c) :: p' /\ terms q = (n, d) :: q' /\ mprod (Mon (-1) u) n = m /\
    k1 <> 0 /\ (forall w, coef (terms r) w = k1 * coef (terms p) w - k2 * coef (shift u (terms q)) w) /\ all_below (pto p) (pbo p) m (terms r).
(** r is the primitive part of p. *)
Definition primitive_part (p r : poly) : Prop :=
  valid_poly r /\ same_ring p r /\ primitive (terms r) /\ exists g, g <> 0 /\ forall m, coef (terms p) m = g * coef (terms r) m.
Definition can_reduce (p q : poly) : Prop :=
  same_ring p q /\ exists m c p' n d q', terms p = (m, c) :: p' /\ terms q = (n, d) :: q' /\ mdivides n m.

Definition poly_at (w : world) (x : var) (a : nat) (p : poly) : Prop := snd w x = Some a /\ nth_error (fst w) a = Some (TPoly p).
Definition no_poly_at (w : world) (x : var) : Prop := exists a v, snd w x = Some a /\ nth_error (fst w) a = Some v /\ forall p, v <> TPoly p.
Definition added (x : var) (v : thing) (w : world) : world := (fst w ++ [v], set_name x (Some (length (fst w))) (snd w)).

Inductive reply := RGo (w : world) (o : list obs) | RStop (e : exn).
Inductive meaning (w : world) : cmd -> reply -> Prop :=
| m_new x t o m p : pto p = t -> pbo p = o -> psize p = length (vars m) -> terms p = [(m, 1)] -> meaning w (CNew x t o m) (RGo (added x (TPoly p) w) [])
| m_bin op x y z a p b q r : poly_at w y a p -> poly_at w z b q -> same_ring p q -> means op p q r ->
    meaning w (CBin op x y z) (RGo (added x (TPoly r) w) [])
| m_bin_ring op x y z a p b q : poly_at w y a p -> poly_at w z b q -> ~ same_ring p q -> meaning w (CBin op x y z) (RStop EAssertionError)
| m_bin_name1 op x y z : snd w y = None -> meaning w (CBin op x y z) (RStop ENameError)
| m_bin_type1 op x y z : no_poly_at w y -> meaning w (CBin op x y z) (RStop ETypeError)
| m_bin_name2 op x y z a p : poly_at w y a p -> snd w z = None -> meaning w (CBin op x y z) (RStop ENameError)
| m_bin_type2 op x y z a p : poly_at w y a p -> no_poly_at w z -> meaning w (CBin op x y z) (RStop ETypeError)
| m_neg x y a p r : poly_at w y a p -> value_of p r (fun m => - coef (terms p) m) -> meaning w (CNeg x y) (RGo (added x (TPoly r) w) [])
| m_neg_name x y : snd w y = None -> meaning w (CNeg x y) (RStop ENameError)
| m_neg_type x y : no_poly_at w y -> meaning w (CNeg x y) (RStop ETypeError)
| m_alias x y a : snd w y = Some a -> meaning w (CAlias x y) (RGo (fst w, set_name x (Some a) (snd w)) [])
| m_alias_name x y : snd w y = None -> meaning w (CAlias x y) (RStop ENameError)
| m_del x a : snd w x = Some a -> meaning w (CDel x) (RGo (fst w, set_name x None (snd w)) [])
| m_del_name x : snd w x = None -> meaning w (CDel x) (RStop ENameError)
| m_reduce y z a p b q r : poly_at w y a p -> poly_at w z b q -> can_reduce p q -> reduced p q r ->
    meaning w (CReduce y z) (RGo (replace a (TPoly r) (fst w), snd w) [])
| m_reduce_not y z a p b q : poly_at w y a p -> poly_at w z b q -> ~ can_reduce p q -> meaning w (CReduce y z) (RStop EAssertionError)
| m_reduce_name1 y z : snd w y = None -> meaning w (CReduce y z) (RStop ENameError)
| m_reduce_type1 y z : no_poly_at w y -> meaning w (CReduce y z) (RStop EAttributeError)
| m_reduce_name2 y z a p : poly_at w y a p -> snd w z = None -> meaning w (CReduce y z) (RStop ENameError)
| m_reduce_type2 y z a p : poly_at w y a p -> no_poly_at w z -> meaning w (CReduce y z) (RStop ETypeError)
| m_pp y a p r : poly_at w y a p -> terms p <> [] -> ~ primitive (terms p) -> primitive_part p r ->
    meaning w (CPp y) (RGo (replace a (TPoly r) (fst w), snd w) [])
| m_pp_not y a p : poly_at w y a p -> terms p = [] \/ primitive (terms p) -> meaning w (CPp y) (RStop EAssertionError)
| m_pp_name y : snd w y = None -> meaning w (CPp y) (RStop ENameError)
| m_pp_type y : no_poly_at w y -> meaning w (CPp y) (RStop EAttributeError)
| m_lm x y a p m c l : poly_at w y a p -> terms p = (m, c) :: l -> meaning w (CLm x y) (RGo (added x (TMonom m) w) [])
| m_lm_zero x y a p : poly_at w y a p -> terms p = [] -> meaning w (CLm x y) (RStop EAssertionError)
| m_lm_name x y : snd w y = None -> meaning w (CLm x y) (RStop ENameError)
| m_lm_type x y : no_poly_at w y -> meaning w (CLm x y) (RStop EAttributeError)
| m_lc x y a p m c l : poly_at w y a p -> terms p = (m, c) :: l -> meaning w (CLc x y) (RGo (added x (TInteger c) w) [])
| m_lc_zero x y a p : poly_at w y a p -> terms p = [] -> meaning w (CLc x y) (RStop EAssertionError)
| m_lc_name x y : snd w y = None -> meaning w (CLc x y) (RStop ENameError)
| m_lc_type x y : no_poly_at w y -> meaning w (CLc x y) (RStop EAttributeError)
| m_show x a v : snd w x = Some a -> nth_error (fst w) a = Some v ->
    meaning w (CShow x) (RGo w [match v with TPoly p => VPoly (terms p) | TMonom m => VMonom m | TInteger c => VInteger c end])
| m_show_name x : snd w x = None -> meaning w (CShow x) (RStop ENameError)
| m_same x y a b : snd w x = Some a -> snd w y = Some b -> meaning w (CSame x y) (RGo w [VBool (Nat.eqb a b)])
| m_same_name x y : snd w x = None \/ snd w y = None -> meaning w (CSame x y) (RStop ENameError).

Inductive means_run : world -> list cmd -> list obs -> option exn -> Prop :=
| mr_end w : means_run w [] [] None
| mr_stop w c cs e : meaning w c (RStop e) -> means_run w (c :: cs) [] (Some e)
| mr_go w c cs w' o os e : meaning w c (RGo w' o) -> means_run w' cs os e -> means_run w (c :: cs) (o ++ os) e.
Definition new_world : world := ([], fun _ => None).

(* ---- careful programs ---- *)
(** What the text of a program tells about its objects, as long as no exception is raised: how often a polynomial has
    been reduced or divided; of which object, and at which of its reductions and divisions, a view is one. *)
Inductive mark := MPoly (reds pps : nat) | MMonom (src reds : nat) | MInteger (src reds pps : nat).
Definition marks : Type := list mark * names.
Definition marked (x : var) (v : mark) (w : marks) : marks := (fst w ++ [v], set_name x (Some (length (fst w))) (snd w)).
Definition mark_of (w : marks) (x : var) : option (nat * mark) :=
  match snd w x with Some a => match nth_error (fst w) a with Some k => Some (a, k) | None => None end | None => None end.
Definition follow (w : marks) (c : cmd) : marks :=
  match c with
  | CNew x _ _ _ | CBin _ x _ _ | CNeg x _ => marked x (MPoly 0 0) w
  | CAlias x y => (fst w, set_name x (snd w y) (snd w))
  | CDel x => (fst w, set_name x None (snd w))
  | CReduce y _ => match mark_of w y with Some (a, MPoly r k) => (replace a (MPoly (S r) k) (fst w), snd w) | _ => w end
  | CPp y => match mark_of w y with Some (a, MPoly r k) => (replace a (MPoly r (S k)) (fst w), snd w) | _ => w end
  | CLm x y => match mark_of w y with Some (a, MPoly r k) => marked x (MMonom a r) w | _ => w end
  | CLc x y => match mark_of w y with Some (a, MPoly r k) => marked x (MInteger a r k) w | _ => w end
  | CShow _ | CSame _ _ => w
  end.
(** No polynomial is reduced by itself, and a view is looked at only while its polynomial still has a name and has not
    been reduced (for a coefficient: nor divided) since. *)
Definition careful_step (w : marks) (c : cmd) : Prop :=
  match c with
  | CReduce y z => snd w y <> snd w z \/ snd w y = None
  | CShow x =>
      match mark_of w x with
      | Some (_, MMonom a r) => (exists y, snd w y = Some a) /\ exists k, nth_error (fst w) a = Some (MPoly r k)
      | Some (_, MInteger a r k) => (exists y, snd w y = Some a) /\ nth_error (fst w) a = Some (MPoly r k)
      | _ => True
      end
  | _ => True
  end.
Fixpoint careful_from (w : marks) (cs : list cmd) : Prop :=
  match cs with [] => True | c :: cs' => careful_step w c /\ careful_from (follow w c) cs' end.
Definition careful (cs : list cmd) : Prop := careful_from ([], fun _ => None) cs.
(** Only ring polynomials are made. *)
Definition ring_program (cs : list cmd) : Prop :=
  Forall (fun c => match c with CNew _ _ _ m => pos m = -1 /\ vars m <> [] | _ => True end) cs.

(** Commands that bind a name to a new polynomial; commands that bind a name to a view of a polynomial. *)
Definition makes_poly (t : var) (c : cmd) : Prop := match c with CNew x _ _ _ | CBin _ x _ _ | CNeg x _ => x = t | _ => False end.
Definition looks (x y : var) (c : cmd) : Prop := c = CLm x y \/ c = CLc x y.
