(** The life of a PolyInt object, from a constructor on. *)
From Coq Require Import ZArith List Bool Arith.
From Verif Require Import Outcome MonomModel PolyModel PolyMemModel PolyMemSpec PolyLifeModel.
Import ListNotations.
Local Open Scope Z_scope.

(** A constructor that returns, with what it takes and gives back. *)
Inductive obj_new (dbg : bool) : counted -> poly -> Prop :=
| new_empty t o n : obj_new dbg (new_mem []) (Poly t o n [])
| new_const t o n c r : p_const dbg t o n c = Ok r -> obj_new dbg (new_mem [(unit_monom n (-1), c)]) r
| new_monom t o m r : p_monom dbg t o m = Ok r -> obj_new dbg (new_mem [(m, 1)]) r
| new_copy a r : p_copy dbg a = Ok r -> obj_new dbg (new_mem (terms a)) r
| new_mul_var k a r : p_mul_var dbg k a = Ok r -> obj_new dbg (new_mem (map (fun x => (mul_var k (fst x), snd x)) (terms a))) r.

(** A call that returns: what it takes and gives back, and how many terms it loses; only the product of
    at least two terms by one term loses any. *)
Inductive obj_call (dbg : bool) (p : poly) : counted -> nat -> poly -> Prop :=
| obj_mem c r : mem_call dbg p c r -> obj_call dbg p c 0 r
| obj_minus r : p_minus dbg p = Ok r -> obj_call dbg p (Cnt (terms r) 0 0) 0 r
| obj_pp r : p_pp dbg p = Ok r -> obj_call dbg p (Cnt (terms r) 0 0) 0 r
| obj_pow k r : p_pow dbg p k = Ok r -> obj_call dbg p (pow_mem (pto p) (pbo p) (terms p) k) 0 r
| obj_clear : obj_call dbg p (clear_mem (terms p)) 0 (with_terms p [])
| obj_leak a r : p_mult dbg p a = Ok r -> length (terms a) = 1%nat -> (1 < length (terms p))%nat ->
    obj_call dbg p (mult_mem (pto p) (pbo p) (terms p) (terms a)) (length (terms p) - 1) r.

(** A constructor, then any calls: total taken, given back and lost. *)
Inductive obj_life (dbg : bool) : nat -> nat -> nat -> poly -> Prop :=
| life_new c r : obj_new dbg c r -> obj_life dbg (taken c) (given c) 0 r
| life_call k g x p c y r : obj_life dbg k g x p -> obj_call dbg p c y r -> obj_life dbg (k + taken c) (g + given c) (x + y) r.
