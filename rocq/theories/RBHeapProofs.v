(** Trees in the heap: representation, rotations, recolouring. *)
From Coq Require Import ZArith List Bool Arith Lia Permutation.
From Verif Require Import Outcome RandPermModel RandPermProofs RBModel.
Import ListNotations.
Local Open Scope nat_scope.

Section RB.
Context {T : Type}.
Notation heap := (heap T).
Notation node := (node T).
Notation st := (st T).

(** A tree with the addresses of its nodes; c = true: red. *)
Inductive tr := E | N (a : nat) (c : bool) (l : tr) (k : T) (r : tr).

Definition ad (t : tr) : option nat := match t with E => None | N a _ _ _ _ => Some a end.
Fixpoint addrs (t : tr) : list nat := match t with E => [] | N a _ l _ r => addrs l ++ a :: addrs r end.
(** addresses and keys in order *)
Fixpoint ents (t : tr) : list (nat * T) := match t with E => [] | N a _ l k r => ents l ++ (a, k) :: ents r end.
Definition isred (t : tr) : bool := match t with E => false | N _ c _ _ _ => c end.
Fixpoint height (t : tr) : nat := match t with E => 0 | N _ _ l _ r => S (max (height l) (height r)) end.
Fixpoint size (t : tr) : nat := match t with E => 0 | N _ _ l _ r => S (size l + size r) end.

Lemma addrs_ents t : addrs t = map fst (ents t).
Proof. induction t; cbn; [reflexivity|]. rewrite map_app; cbn. congruence. Qed.
Lemma size_ents t : size t = length (ents t).
Proof. induction t; cbn; [reflexivity|]. rewrite app_length; cbn. lia. Qed.
Lemma height_size t : height t <= size t.
Proof. induction t; cbn; lia. Qed.

(** Contexts: the hole is the left (true) or right (false) child of the first frame. *)
Record frame := F { fs : bool; fa : nat; fc : bool; fsib : tr; fk : T }.
Definition grow1 (f : frame) (t : tr) : tr :=
  if fs f then N (fa f) (fc f) t (fk f) (fsib f) else N (fa f) (fc f) (fsib f) (fk f) t.
Fixpoint plug (z : list frame) (t : tr) : tr := match z with [] => t | f :: z' => plug z' (grow1 f t) end.
Definition cpar (z : list frame) : option nat := match z with [] => None | f :: _ => Some (fa f) end.

(** counting occurrences of an address *)
Definition cnt (b : nat) (t : tr) : nat := count_occ Nat.eq_dec (addrs t) b.
Definition one (a b : nat) : nat := if Nat.eq_dec a b then 1 else 0.
Fixpoint cntz (b : nat) (z : list frame) : nat :=
  match z with [] => 0 | f :: z' => one (fa f) b + cnt b (fsib f) + cntz b z' end.

Lemma cnt_E b : cnt b E = 0. Proof. reflexivity. Qed.
Lemma cnt_N b a c l k r : cnt b (N a c l k r) = one a b + cnt b l + cnt b r.
Proof. unfold cnt, one; cbn. rewrite count_occ_app; cbn. destruct (Nat.eq_dec a b); lia. Qed.
Lemma cnt_grow1 b f t : cnt b (grow1 f t) = one (fa f) b + cnt b (fsib f) + cnt b t.
Proof. unfold grow1. destruct (fs f); rewrite cnt_N; lia. Qed.
Lemma cnt_plug b z : forall t, cnt b (plug z t) = cntz b z + cnt b t.
Proof. induction z as [|f z IH]; cbn [plug cntz]; intro t; [reflexivity|]. rewrite IH, cnt_grow1. lia. Qed.
Lemma cnt_in b t : In b (addrs t) <-> 1 <= cnt b t.
Proof. unfold cnt. rewrite (count_occ_In Nat.eq_dec). lia. Qed.
Lemma one_eq a : one a a = 1. Proof. unfold one. destruct (Nat.eq_dec a a); congruence. Qed.

Definition nodup (t : tr) : Prop := forall b, cnt b t <= 1.
Lemma nodup_NoDup t : nodup t <-> NoDup (addrs t).
Proof. unfold nodup, cnt. symmetry. apply (NoDup_count_occ Nat.eq_dec). Qed.

(** Heap access *)
Lemma get_lt (h : heap) a n : get h a = Ok n -> a < length h.
Proof.
  unfold get, rd. destruct (nth_error h a) eqn:E; [|discriminate]. intros _. apply nth_error_Some. congruence.
Qed.
Lemma length_put (h : heap) a n : length (put h a n) = length h.
Proof. unfold put. revert a; induction h as [|x h IH]; intros [|a]; cbn; auto. Qed.
Lemma nth_upd_eq {A} (l : list A) a x : a < length l -> nth_error (upd l a x) a = Some x.
Proof. revert a; induction l as [|y l IH]; intros [|a]; cbn; intro; try lia; auto. apply IH; lia. Qed.
Lemma nth_upd_ne {A} (l : list A) a b x : a <> b -> nth_error (upd l a x) b = nth_error l b.
Proof. revert a b; induction l as [|y l IH]; intros [|a] [|b]; cbn; intro; try congruence; auto. Qed.
Lemma get_put_eq (h : heap) a n : a < length h -> get (put h a n) a = Ok n.
Proof. intro H. unfold get, rd, put. rewrite nth_upd_eq by exact H. reflexivity. Qed.
Lemma get_put_ne (h : heap) a b n : a <> b -> get (put h a n) b = get h b.
Proof. intro H. unfold get, rd, put. rewrite nth_upd_ne by exact H. reflexivity. Qed.

(** Representation *)
Fixpoint repT (h : heap) (p : option nat) (t : tr) : Prop :=
  match t with
  | E => True
  | N a c l k r => get h a = Ok (Node k c p (ad l) (ad r)) /\ repT h (Some a) l /\ repT h (Some a) r
  end.
Fixpoint repC (h : heap) (z : list frame) (q : option nat) : Prop :=
  match z with
  | [] => True
  | f :: z' =>
    get h (fa f) = Ok (Node (fk f) (fc f) (cpar z') (if fs f then q else ad (fsib f)) (if fs f then ad (fsib f) else q))
    /\ repT h (Some (fa f)) (fsib f) /\ repC h z' (Some (fa f))
  end.
Definition rep (s : st) (t : tr) : Prop := repT (hp s) None t /\ rt s = ad t /\ nodup t.

Lemma ad_grow1 f t : ad (grow1 f t) = Some (fa f).
Proof. unfold grow1. destruct (fs f); reflexivity. Qed.
Lemma rep_grow1 h p f t :
  repT h p (grow1 f t) <->
  (get h (fa f) = Ok (Node (fk f) (fc f) p (if fs f then ad t else ad (fsib f)) (if fs f then ad (fsib f) else ad t))
   /\ repT h (Some (fa f)) (fsib f) /\ repT h (Some (fa f)) t).
Proof. unfold grow1. destruct (fs f); cbn [repT]; tauto. Qed.
Lemma rep_plug h z : forall t, repT h None (plug z t) <-> repC h z (ad t) /\ repT h (cpar z) t.
Proof.
  induction z as [|f z IH]; intro t; cbn [plug repC cpar]; [tauto|].
  rewrite IH, rep_grow1, ad_grow1. tauto.
Qed.

Lemma repT_put h a n : forall t p, cnt a t = 0 -> repT h p t -> repT (put h a n) p t.
Proof.
  induction t as [|b c l IHl k r IHr]; intros p Hc Ht; [exact I|].
  rewrite cnt_N in Hc. cbn [repT] in *. destruct Ht as (H1 & H2 & H3).
  split; [|split; [apply IHl; [lia|exact H2]|apply IHr; [lia|exact H3]]].
  rewrite get_put_ne; [exact H1|]. intros ->. rewrite one_eq in Hc. lia.
Qed.
Lemma repC_put h a n : forall z q, cntz a z = 0 -> repC h z q -> repC (put h a n) z q.
Proof.
  induction z as [|f z IH]; intros q Hc Hz; [exact I|].
  cbn [repC cntz] in *. destruct Hz as (H1 & H2 & H3).
  split; [|split; [apply repT_put; [lia|exact H2]|apply IH; [lia|exact H3]]].
  rewrite get_put_ne; [exact H1|]. intros ->. rewrite one_eq in Hc. lia.
Qed.

(** a node of the tree *)
Lemma repT_live h : forall t p a, repT h p t -> 1 <= cnt a t -> exists n, get h a = Ok n.
Proof.
  induction t as [|b c l IHl k r IHr]; intros p a Ht Hc; [cbn in Hc; lia|].
  rewrite cnt_N in Hc. cbn [repT] in Ht. destruct Ht as (H1 & H2 & H3).
  unfold one in Hc. destruct (Nat.eq_dec b a) as [<-|Hn]; [eauto|].
  destruct (cnt a l) eqn:El; [apply (IHr _ _ H3); lia|apply (IHl _ _ H2); lia].
Qed.
Lemma rep_get s z a c l k r :
  rep s (plug z (N a c l k r)) -> get (hp s) a = Ok (Node k c (cpar z) (ad l) (ad r)).
Proof. intros (H & _). apply rep_plug in H. destruct H as (_ & H & _). exact H. Qed.
Lemma top_ad z : forall t t', ad t = ad t' -> ad (plug z t) = ad (plug z t').
Proof. induction z as [|f z IH]; intros t t' H; [exact H|]. cbn [plug]. apply IH. rewrite !ad_grow1. reflexivity. Qed.
Lemma ad_plug z t : z <> [] -> forall t', ad (plug z t) = ad (plug z t').
Proof. destruct z as [|f z]; [congruence|]. intros _ t'. cbn [plug]. apply top_ad. rewrite !ad_grow1. reflexivity. Qed.

(** what a function on one tree leaves alone *)
Definition fr (s s' : st) (t : tr) : Prop :=
  length (hp s') = length (hp s) /\ forall e, cnt e t = 0 -> get (hp s') e = get (hp s) e.
Ltac cn H := repeat first [rewrite cnt_plug in H | rewrite cnt_N in H | rewrite cnt_E in H | rewrite one_eq in H | progress cbn [cntz fs fa fc fsib fk] in H].
Ltac solve_fr := split; [cbn [hp]; rewrite ?length_put; reflexivity|
  let e := fresh "e" in let He := fresh "He" in intros e He; cn He; cbn [hp];
  repeat (rewrite get_put_ne by (intros ->; cn He; lia)); reflexivity].

(** recolouring *)
Lemma rep_color s z a c l k r c' :
  rep s (plug z (N a c l k r)) ->
  exists s', set_color s a c' = Ok s' /\ rep s' (plug z (N a c' l k r)) /\ fr s s' (plug z (N a c l k r)).
Proof.
  intros Hr. pose proof (rep_get _ _ _ _ _ _ _ Hr) as Hg. destruct Hr as (Ht & Hroot & Hnd).
  unfold set_color, set_red. rewrite Hg. cbn [bind mKey mParent mLeft mRight].
  eexists; split; [reflexivity|]. cbn [hp rt]. split; [|solve_fr].
  pose proof (Hnd a) as Ha. rewrite cnt_plug, cnt_N, one_eq in Ha.
  apply rep_plug in Ht. destruct Ht as (Hz & _ & Hl & Hr). cbn [ad] in Hz.
  split; [|split].
  - apply rep_plug. split; [apply repC_put; [lia|exact Hz]|]. cbn [repT hp].
    split; [apply get_put_eq; eapply get_lt; exact Hg|].
    split; apply repT_put; solve [lia|assumption].
  - cbn [rt]. rewrite Hroot. apply top_ad. reflexivity.
  - intro b. specialize (Hnd b). rewrite cnt_plug, cnt_N in *. exact Hnd.
Qed.

(** rotations *)
Ltac neq a b := let H := fresh in assert (H : a <> b) by
  (intros ->; match goal with Hnd : forall _, _ <= 1 |- _ => specialize (Hnd b); cn Hnd; lia end).
Ltac nocnt := let H := fresh in match goal with
  | Hnd : forall _, _ <= 1 |- cnt ?a _ = 0 => pose proof (Hnd a) as H; cn H; lia
  | Hnd : forall _, _ <= 1 |- cntz ?a _ = 0 => pose proof (Hnd a) as H; cn H; lia end.
Ltac simp := cbn [bind deref mKey mRed mParent mLeft mRight hp rt].
Ltac hs := simp; repeat (match goal with
  | |- context [get (put ?h ?a ?n) ?a] => rewrite (get_put_eq h a n) by (rewrite ?length_put; assumption)
  | |- context [get (put ?h ?a ?n) ?b] => rewrite (get_put_ne h a b n) by congruence
  | H : get ?h ?a = Ok _ |- context [get ?h ?a] => rewrite H
  end; simp).
Ltac framed := match goal with
  | |- repT (put _ _ _) _ _ => apply repT_put; [nocnt|framed]
  | |- repC (put _ _ _) _ _ => apply repC_put; [nocnt|framed]
  | |- _ => assumption
  end.

Lemma one_sym a b : one a b = one b a.
Proof. unfold one. destruct (Nat.eq_dec a b), (Nat.eq_dec b a); congruence. Qed.

Lemma ptr_eqb_refl a : ptr_eqb (Some a) (Some a) = true.
Proof. cbn. apply Nat.eqb_refl. Qed.
Lemma ptr_eqb_ne a b : a <> b -> ptr_eqb (Some a) (Some b) = false.
Proof. intro. cbn. apply Nat.eqb_neq. assumption. Qed.

Lemma rep_rotateLeft s z x cx A kx y cy B ky C :
  rep s (plug z (N x cx A kx (N y cy B ky C))) ->
  exists s', rotateLeft s x = Ok s' /\ rep s' (plug z (N y cy (N x cx A kx B) ky C)) /\ fr s s' (plug z (N x cx A kx (N y cy B ky C))).
Proof.
  intros (Ht & Hroot & Hnd). unfold nodup in Hnd. apply rep_plug in Ht. destruct Ht as (Hz & Hx & HA & Hy & HB & HC).
  cbn [ad] in *.
  pose proof (get_lt _ _ _ Hx) as Lx. pose proof (get_lt _ _ _ Hy) as Ly.
  neq x y. neq y x.
  unfold rotateLeft, relink_left, set_left, set_right, set_parent, parent, left, right.
  rewrite Hx. cbn [bind mRight deref]. rewrite Hy. cbn [bind mLeft].
  assert (Hnd' : nodup (plug z (N y cy (N x cx A kx B) ky C))).
  { intro b. specialize (Hnd b). rewrite !cnt_plug, !cnt_N in *. lia. }
  destruct B as [|b cb Bl kb Br].
  - (* no middle subtree *)
    cbn [ad]. hs.
    destruct z as [|f z].
    + cbn [cpar]. hs. eexists; split; [reflexivity|]. split; [|solve_fr].
      split; [|split; [reflexivity|exact Hnd']].
      cbn [plug repT ad hp]. hs. repeat split; framed.
    + cbn [cpar]. cbn [repC] in Hz. destruct Hz as (Hf & Hs & Hz). pose proof (get_lt _ _ _ Hf) as Lf.
      destruct f as [sd q cq sib kq]; cbn [fs fa fc fsib fk] in *.
      neq q x. neq q y. neq x q. neq y q.
      hs. destruct sd.
      * rewrite ptr_eqb_refl. hs. eexists; split; [reflexivity|]. split; [|solve_fr].
        split; [|split; [rewrite Hroot; apply ad_plug; congruence|exact Hnd']].
        apply rep_plug. cbn [repC repT fs fa fc fsib fk ad cpar hp]. hs. repeat split; framed.
      * assert (Hp : ptr_eqb (Some x) (ad sib) = false).
        { destruct sib as [|e]; [reflexivity|]. apply ptr_eqb_ne. cbn [repT] in Hs. neq x e. assumption. }
        rewrite Hp. hs. eexists; split; [reflexivity|]. split; [|solve_fr].
        split; [|split; [rewrite Hroot; apply ad_plug; congruence|exact Hnd']].
        apply rep_plug. cbn [repC repT fs fa fc fsib fk ad cpar hp]. hs. repeat split; framed.
  - cbn [ad repT] in *. destruct HB as (Hb & HBl & HBr). pose proof (get_lt _ _ _ Hb) as Lb.
    neq b x. neq b y. neq x b. neq y b. hs.
    destruct z as [|f z].
    + cbn [cpar]. hs. eexists; split; [reflexivity|]. split; [|solve_fr].
      split; [|split; [reflexivity|exact Hnd']].
      cbn [plug repT ad hp]. hs. repeat split; framed.
    + cbn [cpar]. cbn [repC] in Hz. destruct Hz as (Hf & Hs & Hz). pose proof (get_lt _ _ _ Hf) as Lf.
      destruct f as [sd q cq sib kq]; cbn [fs fa fc fsib fk] in *.
      neq q x. neq q y. neq x q. neq y q. neq b q. neq q b.
      hs. destruct sd.
      * rewrite ptr_eqb_refl. hs. eexists; split; [reflexivity|]. split; [|solve_fr].
        split; [|split; [rewrite Hroot; apply ad_plug; congruence|exact Hnd']].
        apply rep_plug. cbn [repC repT fs fa fc fsib fk ad cpar hp]. hs. repeat split; framed.
      * assert (Hp : ptr_eqb (Some x) (ad sib) = false).
        { destruct sib as [|e]; [reflexivity|]. apply ptr_eqb_ne. cbn [repT] in Hs. neq x e. assumption. }
        rewrite Hp. hs. eexists; split; [reflexivity|]. split; [|solve_fr].
        split; [|split; [rewrite Hroot; apply ad_plug; congruence|exact Hnd']].
        apply rep_plug. cbn [repC repT fs fa fc fsib fk ad cpar hp]. hs. repeat split; framed.
Qed.

Lemma rep_rotateRight s z x cx y cy A ky B kx C :
  rep s (plug z (N x cx (N y cy A ky B) kx C)) ->
  exists s', rotateRight s x = Ok s' /\ rep s' (plug z (N y cy A ky (N x cx B kx C))) /\ fr s s' (plug z (N x cx (N y cy A ky B) kx C)).
Proof.
  intros (Ht & Hroot & Hnd). unfold nodup in Hnd. apply rep_plug in Ht. destruct Ht as (Hz & Hx & (Hy & HA & HB) & HC).
  cbn [ad] in *.
  pose proof (get_lt _ _ _ Hx) as Lx. pose proof (get_lt _ _ _ Hy) as Ly.
  neq x y. neq y x.
  unfold rotateRight, relink_right, set_left, set_right, set_parent, parent, left, right.
  rewrite Hx. cbn [bind mLeft deref]. rewrite Hy. cbn [bind mRight].
  assert (Hnd' : nodup (plug z (N y cy A ky (N x cx B kx C)))).
  { intro b. specialize (Hnd b). rewrite !cnt_plug, !cnt_N in *. lia. }
  destruct B as [|b cb Bl kb Br].
  - (* no middle subtree *)
    cbn [ad]. hs.
    destruct z as [|f z].
    + cbn [cpar]. hs. eexists; split; [reflexivity|]. split; [|solve_fr].
      split; [|split; [reflexivity|exact Hnd']].
      cbn [plug repT ad hp]. hs. repeat split; framed.
    + cbn [cpar]. cbn [repC] in Hz. destruct Hz as (Hf & Hs & Hz). pose proof (get_lt _ _ _ Hf) as Lf.
      destruct f as [sd q cq sib kq]; cbn [fs fa fc fsib fk] in *.
      neq q x. neq q y. neq x q. neq y q.
      hs. destruct sd.
      * assert (Hp : ptr_eqb (Some x) (ad sib) = false).
        { destruct sib as [|e]; [reflexivity|]. apply ptr_eqb_ne. cbn [repT] in Hs. neq x e. assumption. }
        rewrite Hp. hs. eexists; split; [reflexivity|]. split; [|solve_fr].
        split; [|split; [rewrite Hroot; apply ad_plug; congruence|exact Hnd']].
        apply rep_plug. cbn [repC repT fs fa fc fsib fk ad cpar hp]. hs. repeat split; framed.
      * rewrite ptr_eqb_refl. hs. eexists; split; [reflexivity|]. split; [|solve_fr].
        split; [|split; [rewrite Hroot; apply ad_plug; congruence|exact Hnd']].
        apply rep_plug. cbn [repC repT fs fa fc fsib fk ad cpar hp]. hs. repeat split; framed.
  - cbn [ad repT] in *. destruct HB as (Hb & HBl & HBr). pose proof (get_lt _ _ _ Hb) as Lb.
    neq b x. neq b y. neq x b. neq y b. hs.
    destruct z as [|f z].
    + cbn [cpar]. hs. eexists; split; [reflexivity|]. split; [|solve_fr].
      split; [|split; [reflexivity|exact Hnd']].
      cbn [plug repT ad hp]. hs. repeat split; framed.
    + cbn [cpar]. cbn [repC] in Hz. destruct Hz as (Hf & Hs & Hz). pose proof (get_lt _ _ _ Hf) as Lf.
      destruct f as [sd q cq sib kq]; cbn [fs fa fc fsib fk] in *.
      neq q x. neq q y. neq x q. neq y q. neq b q. neq q b.
      hs. destruct sd.
      * assert (Hp : ptr_eqb (Some x) (ad sib) = false).
        { destruct sib as [|e]; [reflexivity|]. apply ptr_eqb_ne. cbn [repT] in Hs. neq x e. assumption. }
        rewrite Hp. hs. eexists; split; [reflexivity|]. split; [|solve_fr].
        split; [|split; [rewrite Hroot; apply ad_plug; congruence|exact Hnd']].
        apply rep_plug. cbn [repC repT fs fa fc fsib fk ad cpar hp]. hs. repeat split; framed.
      * rewrite ptr_eqb_refl. hs. eexists; split; [reflexivity|]. split; [|solve_fr].
        split; [|split; [rewrite Hroot; apply ad_plug; congruence|exact Hnd']].
        apply rep_plug. cbn [repC repT fs fa fc fsib fk ad cpar hp]. hs. repeat split; framed.
Qed.
End RB.
