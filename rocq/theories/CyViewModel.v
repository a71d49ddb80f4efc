(** The Python objects that point into a janet_poly_int: wrap_poly_int (cython/ginv.pyx:602-630), made by the iteration
    and by find, and const_janet (643-663), made by janet(pos).  They hold a bare C++ address; they hold no reference to the
    janet_poly_int, so that Python may delete it (__dealloc__, ginv.pyx:699-700) while they still have names.

    The C++ object is the one of OwnModel.v, with addresses of the WrapPolyInt objects; here the array mJanet gets an
    identity too.  Addresses are not used again after a delete.  One janet_poly_int; arguments of the right classes
    (others are C77).  Not modelled: build() during a running iteration, other methods (C77). *)
From Coq Require Import ZArith List Bool Arith.
From Verif Require Import Outcome MonomModel JanetModel PolyModel JanetPolyModel OwnModel.
Import ListNotations.
Local Open Scope Z_scope.

(** wrap_poly_int.ptr; const_janet.ptr = &mJanet[pos+1] *)
Inductive view : Type := VWrap (i : nat) | VTree (a : nat) (p : Z).

(** The object, whether the variable that names it still does, mJanet, and the variables naming the views made so far. *)
Record vst : Type := VS { vobj : ojp; valive : bool; varr : option nat; vnext : nat; views : list view }.
(** ginv.pyx:697-698 __cinit__, poly_int.h:377-389 *)
Definition v_new (s : heap) : vst := VS (o_empty s) true None 0 [].

(** Statements of a program that uses it; [del b]: the last reference goes away.  Views are numbered in the order in which
    they were made. *)
Inductive vop : Type :=
| VPush (a : poly)            (* b.push(p) *)
| VBuild                      (* b.build() *)
| VList                       (* list(b) *)
| VFind (m : monom)           (* b.find(m) *)
| VJanet (p : Z)              (* b.janet(p) *)
| VDel                        (* del b *)
| VLm (k : nat)               (* str(w.lm()) *)
| VPoly (k : nat)             (* str(w.poly()) *)
| VSize (k : nat).            (* t.size() *)
Inductive vans : Type := ANone | AMonom (m : monom) | APoly (p : poly) | ASize (n : nat) | ARaise.

(** The object at an address. *)
Definition at_address (O : ojp) (i : nat) : option entry :=
  match oone O with
  | Some (j, w) => if Nat.eqb j i then Some (wlm (wwrap w), wpol w) else None
  | None => option_map snd (List.find (fun x => Nat.eqb (fst x) i) (ot O))
  end.
(** An address is followed.  The last case does not occur (C87). *)
Definition look (O : ojp) (i : nat) : outcome entry :=
  if is_live (oheap O) i then match at_address O i with Some e => Ok e | None => Undef end else Undef.

(** poly_int.h:426-433 find: the address. *)
Definition v_find (dbg : bool) (O : ojp) (m : monom) : outcome (option nat) :=
  match oone O with
  | Some w => Ok (Some (fst w))
  | None =>
      deref (oheap O) (otid O)
        (do r <- find_wrap dbg (opos O) (otrees O) m;
         match r with
         | None => Ok None
         | Some u => match List.find (fun x => same_key (fst (snd x)) (wlm u)) (ot O) with
                     | Some x => Ok (Some (fst x))
                     | None => Undef
                     end
         end)
  end.

(** build(): setPos makes a new array if mPos grows (poly_int.cpp:590-598), setOne deletes it (poly_int.cpp:608-609). *)
Definition v_build (fuel : nat) (dbg : bool) (S : vst) : outcome vst :=
  do O' <- o_build fuel dbg (vobj S);
  let '(a, n) := if opos (vobj S) <? opos O' then (Some (vnext S), Datatypes.S (vnext S)) else (varr S, vnext S) in
  Ok (VS O' true (match oone O' with Some _ => None | None => a end) n (views S)).

(** janet(pos), poly_int.h:441-445; &mJanet[pos+1] with mJanet null is no address. *)
Definition v_janet (dbg : bool) (S : vst) (p : Z) : outcome (vst * vans) :=
  if (-1 <=? p) && (p <=? opos (vobj S)) then
    match varr S with
    | Some a => Ok (VS (vobj S) true (varr S) (vnext S) (views S ++ [VTree a p]), ANone)
    | None => if dbg then AssertFail else Undef
    end
  else Ok (S, ARaise).

(** One statement.  Without a name for the basis Python raises NameError, as for a view that was not made. *)
Definition v_step (fuel : nat) (dbg : bool) (S : vst) (c : vop) : outcome (vst * vans) :=
  match c with
  | VLm k =>
      match nth_error (views S) k with
      | Some (VWrap i) => do e <- look (vobj S) i; Ok (S, AMonom (fst e))
      | _ => Ok (S, ARaise)
      end
  | VPoly k =>
      match nth_error (views S) k with
      | Some (VWrap i) => do e <- look (vobj S) i; Ok (S, APoly (snd e))
      | _ => Ok (S, ARaise)
      end
  | VSize k =>
      match nth_error (views S) k with
      | Some (VTree a p) =>
          match varr S with
          | Some a' => if Nat.eqb a a'
                       then do J <- tree_at dbg (match otrees (vobj S) with Some js => js | None => [] end) p; Ok (S, ASize (jsize J))
                       else Undef
          | None => Undef
          end
      | _ => Ok (S, ARaise)
      end
  | _ =>
      if negb (valive S) then Ok (S, ARaise)
      else match c with
           | VPush a =>
               do b <- o_comparable (vobj S) a;
               if b then do O' <- o_push dbg (vobj S) a; Ok (VS O' true (varr S) (vnext S) (views S), ANone) else Ok (S, ARaise)
           | VBuild => do S' <- v_build fuel dbg S; Ok (S', ANone)
           | VList => Ok (VS (vobj S) true (varr S) (vnext S) (views S ++ map (fun x => VWrap (fst x)) (ot (vobj S))), ANone)
           | VFind m =>
               do r <- v_find dbg (vobj S) m;
               Ok (VS (vobj S) true (varr S) (vnext S) (views S ++ match r with Some i => [VWrap i] | None => [] end), ANone)
           | VJanet p => v_janet dbg S p
           | _ => (* VDel *)
               do s <- o_destroy (vobj S);
               Ok (VS (OJ (oone (vobj S)) (oq (vobj S)) (ot (vobj S)) (opos (vobj S)) (otrees (vobj S)) (otid (vobj S)) s)
                      false None (vnext S) (views S), ANone)
           end
  end.

(** A program; the answers are those of its statements. *)
Fixpoint v_run (fuel : nat) (dbg : bool) (S : vst) (l : list vop) : outcome (vst * list vans) :=
  match l with
  | [] => Ok (S, [])
  | c :: l' => do r <- v_step fuel dbg S c;
               do r' <- v_run fuel dbg (fst r) l';
               Ok (fst r', snd r :: snd r')
  end.
