(** * Copying and destroying trees. *)

From stdpp Require Import base gmap list.
From Verif Require Import Lang Common Client Spec Rep RunLemmas Headers Hist Tree.
From Verif Require Import Indirect20 Indirect14 Polymorphic20 Polymorphic14.

(** ** Maps, pointwise *)
Section maps.
Context {K : Type} `{Countable K} {X : Type}.
Implicit Types m : gmap K X.

Lemma lookup_diff m1 m2 i :
  (m1 ∖ m2) !! i = match m2 !! i with None => m1 !! i | Some _ => None end.
Proof.
  destruct (m2 !! i) eqn:H2.
  - apply lookup_difference_None. right. eauto.
  - destruct (m1 !! i) eqn:H1; [by apply lookup_difference_Some|].
    apply lookup_difference_None. by left.
Qed.

Lemma lookup_un m1 m2 i :
  (m1 ∪ m2) !! i = match m1 !! i with Some x => Some x | None => m2 !! i end.
Proof.
  destruct (m1 !! i) eqn:H1; [by apply lookup_union_Some_l|]. by rewrite lookup_union_r.
Qed.

Lemma sub_at m1 m2 i : m1 ⊆ m2 -> m1 !! i = None \/ m1 !! i = m2 !! i.
Proof.
  intros Hs. destruct (m1 !! i) eqn:Hi; [right|by left]. symmetry. exact (lookup_weaken _ _ _ _ Hi Hs).
Qed.

Lemma sub_all m1 m2 : (forall i, m1 !! i = None \/ m1 !! i = m2 !! i) -> m1 ⊆ m2.
Proof. intros Hs. apply map_subseteq_spec. intros i x Hi. destruct (Hs i); congruence. Qed.

Lemma dis_at m1 m2 i : m1 ##ₘ m2 -> m1 !! i = None \/ m2 !! i = None.
Proof. intros Hd. by apply map_disjoint_alt. Qed.

Lemma dis_all m1 m2 : (forall i, m1 !! i = None \/ m2 !! i = None) -> m1 ##ₘ m2.
Proof. intros Hd. by apply map_disjoint_alt. Qed.

Lemma lookup_ins m i j x : <[i := x]> m !! j = if decide (i = j) then Some x else m !! j.
Proof. destruct (decide (i = j)) as [->|Hne]; [by rewrite lookup_insert|by rewrite lookup_insert_ne]. Qed.

Lemma lookup_del m i j : delete i m !! j = if decide (i = j) then None else m !! j.
Proof. destruct (decide (i = j)) as [->|Hne]; [by rewrite lookup_delete|by rewrite lookup_delete_ne]. Qed.

Lemma lookup_sing i j (x : X) : ({[ i := x ]} : gmap K X) !! j = if decide (i = j) then Some x else None.
Proof. destruct (decide (i = j)) as [->|Hne]; [by rewrite lookup_singleton|by rewrite lookup_singleton_ne]. Qed.

End maps.

(** Facts about maps at key [i]. *)
Ltac at_key i :=
  repeat match goal with
  | H : _ ⊆ _ |- _ => apply (fun Q => sub_at _ _ i Q) in H
  | H : _ ##ₘ _ |- _ => apply (fun Q => dis_at _ _ i Q) in H
  | H : @eq (@gmap _ _ _ _) _ _ |- _ => apply (f_equal (fun m => m !! i)) in H
  end.
Ltac at_norm :=
  repeat (progress (rewrite ?lookup_un, ?lookup_diff, ?lookup_ins, ?lookup_del, ?lookup_sing, ?lookup_empty in * )).
Ltac at_split :=
  repeat match goal with
  | H : _ \/ _ |- _ => destruct H
  | |- context [decide (?a = ?b)] => destruct (decide (a = b)); subst
  | H : context [decide (?a = ?b)] |- _ => destruct (decide (a = b)); subst
  | |- context [match ?m !! ?i with _ => _ end] => destruct (m !! i) eqn:?
  | H : context [match ?m !! ?i with _ => _ end] |- _ => destruct (m !! i) eqn:?
  end.
Ltac map_solve :=
  match goal with
  | |- @eq (@gmap _ _ _ _) _ _ => apply map_eq; let i := fresh "i" in intros i; at_key i; at_norm; at_split; congruence
  | |- _ ⊆ _ => apply sub_all; let i := fresh "i" in intros i; at_key i; at_norm; at_split;
                first [left; congruence|right; congruence]
  | |- _ ##ₘ _ => apply dis_all; let i := fresh "i" in intros i; at_key i; at_norm; at_split;
                first [left; congruence|right; congruence]
  end.

Section tree.
Context {E : Env} (Sh : Shape E) (HS : ShapeReq Sh).
Notation A := (eA E).
Notation V := (eV E).
Notation wst := (option (tree E) * A)%type.
Implicit Types s : store E.
Notation wrap_heap := (wrap_heap Sh).
Notation mem_heap := (mem_heap Sh).
Notation nodeTP := (nodeTP Sh).
Notation node_impl := (node_impl Sh).

(** ** Steps *)
Lemma st_readP {X} w p a (f : option loc -> prog E X) s :
  wraps s !! w = Some (mkW p a) -> p <> PIndet ->
  run (bind (act (PReadP w)) f) s = run (f (match p with PLoc l => Some l | _ => None end)) s.
Proof. intros Hw Hp. cbn. rewrite Hw. by destruct p. Qed.

Lemma st_readA {X} w p a (f : A -> prog E X) s :
  wraps s !! w = Some (mkW p a) -> run (bind (act (PReadA w)) f) s = run (f a) s.
Proof. intros Hw. cbn. by rewrite Hw. Qed.

Lemma st_deref {X} w l a (f : loc -> prog E X) s :
  wraps s !! w = Some (mkW (PLoc l) a) -> run (bind (deref_p w) f) s = run (f l) s.
Proof. intros Hw. cbn. by rewrite Hw. Qed.

Lemma st_valueless {X} w p a (f : bool -> prog E X) s :
  wraps s !! w = Some (mkW p a) -> p <> PIndet ->
  run (bind (Indirect20.valueless_after_move w) f) s = run (f (match p with PLoc _ => false | _ => true end)) s.
Proof. intros Hw Hp. cbn. rewrite Hw. by destruct p. Qed.

Lemma st_cbty {X} l b t p (f : ty -> prog E X) s :
  blocks s !! l = Some b -> b_hdr b = HCb t p -> run (bind (act (PCbTy l)) f) s = run (f t) s.
Proof. intros Hl Hb. cbn. by rewrite Hl, Hb. Qed.

Lemma st_ctor w p a (body : prog E unit) s :
  wraps s !! w = None ->
  run (ctor w p a body) s =
  match run body (set_wraps (<[w := mkW p a]> (wraps s)) s) with
  | OThrow e s1 => match run (act (PDelW w)) s1 with
                   | ORet _ s2 => OThrow e s2 | OThrow e' s2 => OThrow e' s2 | OUB u => OUB u | OTerm => OTerm end
  | r => r
  end.
Proof.
  intros Hw. unfold ctor. rewrite run_bind. cbn [act run exec]. rewrite Hw. cbn [run]. rewrite run_catch.
  by destruct (run body _); rewrite ?run_bind.
Qed.

(** ** Destruction *)

(** [s'] is [s] without [B] and [W]. *)
Record minus s s' (B : gmap loc (block E)) (W : gmap wl (wrapper E)) : Prop := {
  mi_b : blocks s' = blocks s ∖ B;
  mi_w : wraps s' = wraps s ∖ W;
  mi_x : exts s' = exts s;
}.

Definition dtor_ok (n : nat) : Prop :=
  forall h x k B W s, wrap_heap h x k B W -> fits n k.1 -> B ⊆ blocks s -> W ⊆ wraps s ->
    exists s', run (i_dtor (node_impl n h) x) s = ORet tt s' /\ minus s s' B W.

Lemma mem_nil_inv hs nm i B W : mem_heap hs nm i [] B W -> B = ∅ /\ W = ∅.
Proof. intros H. by inversion H. Qed.

Lemma mem_cons_inv hs nm i k ks B W :
  mem_heap hs nm i (k :: ks) B W ->
  exists B1 W1 B2 W2, B = B1 ∪ B2 /\ W = W1 ∪ W2 /\ B1 ##ₘ B2 /\ W1 ##ₘ W2 /\
    wrap_heap (hs i) (nm i) k B1 W1 /\ mem_heap hs nm (S i) ks B2 W2.
Proof. intros H. inversion H; subst. eauto 12. Qed.

Lemma wrap_inv h w k B W :
  wrap_heap h w k B W ->
  match k with
  | (None, a) => B = ∅ /\ W = {[ w := mkW PNull a ]}
  | (Some (TNode t v kids), a) =>
      exists l b B1 W1, B = <[l := b]> B1 /\ W = <[w := mkW (PLoc l) a]> W1 /\
        B1 !! l = None /\ W1 !! w = None /\ block_ok (header_cls h) l t v a b /\
        length kids = n_kids Sh t v /\ mem_heap (k_hdr Sh t) (WMem l) 0 kids B1 W1
  end.
Proof. intros H. inversion H; subst; [done|]. eauto 15. Qed.

Lemma minus_refl s : minus s s ∅ ∅.
Proof. split; [map_solve|map_solve|done]. Qed.

Lemma minus_trans s1 s2 s3 B1 W1 B2 W2 :
  minus s1 s2 B1 W1 -> minus s2 s3 B2 W2 -> minus s1 s3 (B2 ∪ B1) (W2 ∪ W1).
Proof.
  intros [X1 X2 X3] [Y1 Y2 Y3]. split.
  - rewrite Y1, X1. clear. map_solve.
  - rewrite Y2, X2. clear. map_solve.
  - congruence.
Qed.

Lemma destroy_loop n hs nm i ks B W s :
  dtor_ok n -> mem_heap hs nm i ks B W -> Forall (fun k => fits n k.1) ks ->
  B ⊆ blocks s -> W ⊆ wraps s ->
  exists s', run (destroy_members (fun j => i_dtor (node_impl n (hs j)) (nm j)) i (length ks)) s = ORet tt s' /\
    minus s s' B W.
Proof.
  intros HD. revert i B W s. induction ks as [|k ks IH]; intros i B W s Hm Hf HB HW.
  - apply mem_nil_inv in Hm as [-> ->]. exists s. split; [done|apply minus_refl].
  - apply mem_cons_inv in Hm as (B1 & W1 & B2 & W2 & -> & -> & DB & DW & H1 & H2).
    inversion Hf as [|k' ks' Hf1 Hf2]; subst.
    destruct (IH (S i) B2 W2 s H2 Hf2) as (s1 & R1 & M1); [map_solve|map_solve|].
    destruct (HD _ _ _ _ _ s1 H1 Hf1) as (s2 & R2 & M2).
    { rewrite (mi_b _ _ _ _ M1). clear - DB HB. map_solve. }
    { rewrite (mi_w _ _ _ _ M1). clear - DW HW. map_solve. }
    exists s2. cbn [length destroy_members]. rewrite run_bind, R1. split; [done|].
    by eapply minus_trans.
Qed.

(** Destruction of a node. *)
Lemma node_destroy n a t l v kids b B W s :
  dtor_ok n -> blocks s !! l = Some b -> b_obj b = OLive t v ->
  length kids = n_kids Sh t v -> mem_heap (k_hdr Sh t) (WMem l) 0 kids B W ->
  Forall (fun k => fits n k.1) kids -> B ⊆ blocks s -> W ⊆ wraps s -> B !! l = None ->
  exists s', run (tp_destroy (nodeTP (S n)) a t l) s = ORet tt s' /\
    blocks s' = <[l := set_obj ORaw b]> (blocks s ∖ B) /\ wraps s' = wraps s ∖ W /\ exts s' = exts s.
Proof.
  intros HD Hb Ho Hlen Hm Hf HB HW Hl. cbn -[destroy_members].
  rewrite Hb, Ho. cbn -[destroy_members]. rewrite Hb, Ho. rewrite bool_decide_eq_true_2 by done.
  rewrite run_bind, <- Hlen.
  set (s1 := log _ _).
  destruct (destroy_loop n (k_hdr Sh t) (WMem l) 0 kids B W s1 HD Hm Hf) as (s2 & R2 & [M1 M2 M3]).
  { simpl. clear - HB Hl. apply sub_all. intros i. at_key i. at_norm. at_split; auto. }
  { done. }
  unfold Tree.node_impl in R2. rewrite R2. cbn. rewrite M1. cbn. at_norm.
  rewrite Hl, decide_True by done. cbn. rewrite bool_decide_eq_true_2 by done.
  eexists. split; [done|]. cbn. rewrite ?M1, M2, M3. cbn. split_and!; [|done|done].
  apply map_eq. intros i. at_norm. at_split; first [done|congruence].
Qed.

Definition reset_of (k : cls) (T : TP E) (w : wl) : prog E unit :=
  match k with Ind => Indirect20.reset T w | Poly => Polymorphic20.reset T w end.

Definition reset_ok (n : nat) : Prop :=
  forall h x k B W s, wrap_heap h x k B W -> fits n k.1 -> B ⊆ blocks s -> W ⊆ wraps s ->
    exists s', run (reset_of (header_cls h) (nodeTP n) x) s = ORet tt s' /\
      blocks s' = blocks s ∖ B /\ wraps s' = <[x := mkW PNull k.2]> (wraps s ∖ W) /\ exts s' = exts s.

Lemma reset_null n h x a s :
  wraps s !! x = Some (mkW PNull a) -> run (reset_of (header_cls h) (nodeTP n) x) s = ORet tt s.
Proof. intros Hx. destruct h; cbn; by rewrite Hx. Qed.

Lemma reset_null_ok n h x a B W s :
  wrap_heap h x (None, a) B W -> W ⊆ wraps s ->
  exists s', run (reset_of (header_cls h) (nodeTP n) x) s = ORet tt s' /\
      blocks s' = blocks s ∖ B /\ wraps s' = <[x := mkW PNull a]> (wraps s ∖ W) /\ exts s' = exts s.
Proof.
  intros Hh HW. apply wrap_inv in Hh as [-> ->].
  assert (Hx : wraps s !! x = Some (mkW PNull a)).
  { eapply lookup_weaken; [|exact HW]. apply lookup_singleton. }
  exists s. split; [by eapply reset_null|]. split_and!; [clear; map_solve| |done].
  clear - Hx. map_solve.
Qed.

Lemma reset_step n : dtor_ok n -> reset_ok (S n).
Proof.
  intros HD h x k B W s Hh Hf HB HW. destruct k as [[[t v kids]|] a]; [|by eapply reset_null_ok].
  apply wrap_inv in Hh.
  destruct Hh as (l & b & B1 & W1 & -> & -> & HBl & HWx & (Hres & Hobj & Hty & Hhdr & HT) & Hlen & Hm).
  simpl in Hf.
  assert (Hl : blocks s !! l = Some b).
  { eapply lookup_weaken; [|exact HB]. apply lookup_insert. }
  assert (Hx : wraps s !! x = Some (mkW (PLoc l) a)).
  { eapply lookup_weaken; [|exact HW]. apply lookup_insert. }
  destruct (node_destroy n a t l v kids b B1 W1 s HD Hl Hobj Hlen Hm Hf) as (s1 & R1 & E1 & E2 & E3);
    [clear - HB HBl; map_solve|clear - HW HWx; map_solve|done|].
  assert (Hx1 : wraps s1 !! x = Some (mkW (PLoc l) a)).
  { rewrite E2. at_norm. by rewrite HWx. }
  assert (Hl1 : blocks s1 !! l = Some (set_obj ORaw b)).
  { rewrite E1. by rewrite lookup_insert. }
  assert (Htail : forall bt, b_ty b = bt -> exists s',
    match run (act (PDealloc a bt l)) s1 with
    | ORet _ s2 => run (act (PWriteP x None)) s2
    | OThrow e s2 => OThrow e s2 | OUB u => OUB u | OTerm => OTerm end = ORet tt s' /\
    wraps s' = <[x := mkW PNull a]> (wraps s1) /\ blocks s' = delete l (blocks s1) /\ exts s' = exts s1).
  { intros bt Hbt. cbn [act run exec]. rewrite Hl1. cbn [b_ty set_obj b_a b_obj].
    rewrite Hbt, bool_decide_eq_true_2, Hres, Nat.eqb_refl by done. cbn [negb run exec].
    cbn [log set_blocks wraps]. rewrite Hx1. eexists. split; [done|]. done. }
  assert (Hfin : forall s', wraps s' = <[x := mkW PNull a]> (wraps s1) -> blocks s' = delete l (blocks s1) -> exts s' = exts s1 ->
    blocks s' = blocks s ∖ <[l := b]> B1 /\ wraps s' = <[x := mkW PNull a]> (wraps s ∖ <[x := mkW (PLoc l) a]> W1) /\ exts s' = exts s).
  { intros s' F1 F2 F3. split_and!; [rewrite F2, E1; clear; map_solve|rewrite F1, E2; clear; map_solve|congruence]. }
  destruct (header_cls h); simpl in Hty, Hhdr, HT; cbn [reset_of snd].
  - rewrite (HT eq_refl) in *. unfold Indirect20.reset, Indirect20.destroy_with. rewrite run_noexcept.
    erewrite st_readP by done. cbv beta iota. erewrite st_readA by done. cbv beta.
    rewrite !run_bind, R1. destruct (Htail _ Hty) as (s2 & R2 & F1 & F2 & F3). rewrite R2. eauto.
  - unfold Polymorphic20.reset, Polymorphic20.cb_destroy. rewrite run_noexcept.
    erewrite st_readP by done. cbv beta iota. erewrite st_readA by done. cbv beta.
    rewrite run_bind. erewrite st_cbty by done. cbv beta.
    rewrite run_bind, R1. destruct (Htail _ Hty) as (s2 & R2 & F1 & F2 & F3). rewrite R2. eauto.
Qed.

Lemma dtor_of_reset n : reset_ok n -> dtor_ok n.
Proof.
  intros HR h x k B W s Hh Hf HB HW.
  destruct (HR h x k B W s Hh Hf HB HW) as (s1 & R1 & E1 & E2 & E3).
  assert (Hx : W !! x <> None).
  { apply wrap_inv in Hh. destruct k as [[[t v kids]|] a].
    - destruct Hh as (l & b & B1 & W1 & -> & -> & _). by rewrite lookup_insert.
    - destruct Hh as [-> ->]. by rewrite lookup_singleton. }
  exists (set_wraps (delete x (wraps s1)) s1). split.
  - assert (Hd : run (noexcept_if true (reset_of (header_cls h) (nodeTP n) x) ;; act (PDelW x))%prog s =
      ORet tt (set_wraps (delete x (wraps s1)) s1)).
    { rewrite run_bind, run_noexcept, R1. cbn [act run exec]. by rewrite E2, lookup_insert. }
    by destruct h.
  - split; cbn; [done| |done]. rewrite E2. clear - Hx. map_solve.
Qed.

Lemma reset_all n : reset_ok n.
Proof.
  induction n as [|n IH]; [|by apply reset_step, dtor_of_reset].
  intros h x k B W s Hh Hf HB HW. destruct k as [[[t v kids]|] a]; [done|]. by eapply reset_null_ok.
Qed.

Lemma dtor_all n : dtor_ok n.
Proof. apply dtor_of_reset, reset_all. Qed.

(** ** Copying *)

Record adds s s' (B : gmap loc (block E)) (W : gmap wl (wrapper E)) : Prop := {
  ad_b : blocks s' = B ∪ blocks s;
  ad_w : wraps s' = W ∪ wraps s;
  ad_x : exts s' = exts s;
  ad_db : B ##ₘ blocks s;
  ad_dw : W ##ₘ wraps s;
}.
Record same s s' : Prop := {
  sm_b : blocks s' = blocks s;
  sm_w : wraps s' = wraps s;
  sm_x : exts s' = exts s;
}.

(** [p] either completes and adds exactly memory described by [Q], or throws and leaves
    memory as it was. *)
Definition makes {X} (p : prog E X) s (Q : X -> gmap loc (block E) -> gmap wl (wrapper E) -> Prop) : Prop :=
  match run p s with
  | ORet x s' => exists B W, Q x B W /\ adds s s' B W
  | OThrow _ s' => same s s'
  | _ => False
  end.

Definition copy_ok (n : nat) : Prop :=
  forall h x y k B W s, mem_ok s -> home s x -> wraps s !! x = None ->
    wrap_heap h y k B W -> fits n k.1 -> B ⊆ blocks s -> W ⊆ wraps s ->
    makes (i_copy (node_impl n h) x y) s (fun _ => wrap_heap h x (copy_w k)).

Scheme wrap_heap_mind := Induction for Tree.wrap_heap Sort Prop
  with mem_heap_mind := Induction for Tree.mem_heap Sort Prop.

(** The wrappers of a heap are the root or members of its blocks. *)
Lemma wrap_dom h w k B W :
  wrap_heap h w k B W -> forall u, is_Some (W !! u) -> u = w \/ exists l i, u = WMem l i /\ is_Some (B !! l).
Proof.
  intros H. 
  refine (wrap_heap_mind E Sh
    (fun h w k B W _ => forall u, is_Some (W !! u) -> u = w \/ exists l i, u = WMem l i /\ is_Some (B !! l))
    (fun hs nm i ks B W _ => forall u, is_Some (W !! u) -> (exists j, i <= j < i + length ks /\ u = nm j) \/ exists l i, u = WMem l i /\ is_Some (B !! l))
    _ _ _ _ _ _ _ _ _ H).
  - intros _ w' a u [q Hu]. left. at_norm. at_split; congruence.
  - intros h' w' a l t v kids b B' W' Hb Hlen Hm IH _ _ u [q Hu]. at_norm. at_split; [by left|right].
    destruct (IH u) as [(j & _ & ->)|(l' & i & -> & [b' Hb'])]; [by eexists| |].
    + exists l, j. split; [done|]. rewrite lookup_insert. by eexists.
    + exists l', i. split; [done|]. rewrite lookup_ins. case_decide; by eexists.
  - intros hs nm i u [q Hu]. by rewrite lookup_empty in Hu.
  - intros hs nm i k' ks B1 W1 B2 W2 Hw IH1 Hm IH2 _ _ u [q Hu]. at_norm. destruct (W1 !! u) eqn:H1.
    + destruct (IH1 u) as [->|(l' & i' & -> & [b' Hb'])]; [by eexists| |].
      * left. exists i. simpl. split; [lia|done].
      * right. exists l', i'. split; [done|]. at_norm. rewrite Hb'. by eexists.
    + destruct (IH2 u) as [(j & Hj & ->)|(l' & i' & -> & [b' Hb'])]; [by eexists| |].
      * left. exists j. simpl. split; [lia|done].
      * right. exists l', i'. split; [done|]. at_norm. rewrite Hb'. destruct (B1 !! l'); by eexists.
Qed.

Lemma mem_dom hs nm i ks B W :
  mem_heap hs nm i ks B W -> forall u, is_Some (W !! u) ->
  (exists j, i <= j < i + length ks /\ u = nm j) \/ exists l j, u = WMem l j /\ is_Some (B !! l).
Proof.
  revert i B W. induction ks as [|k ks IH]; intros i B W Hm u [q Hu].
  - apply mem_nil_inv in Hm as [-> ->]. by rewrite lookup_empty in Hu.
  - apply mem_cons_inv in Hm as (B1 & W1 & B2 & W2 & -> & -> & DB & DW & H1 & H2).
    at_norm. destruct (W1 !! u) eqn:Hu1.
    + destruct (wrap_dom _ _ _ _ _ H1 u) as [->|(l' & i' & -> & [b' Hb'])]; [by eexists| |].
      * left. exists i. simpl. split; [lia|done].
      * right. exists l', i'. split; [done|]. at_norm. rewrite Hb'. by eexists.
    + destruct (IH _ _ _ H2 u) as [(j & Hj & ->)|(l' & i' & -> & [b' Hb'])]; [by eexists| |].
      * left. exists j. simpl. split; [lia|done].
      * right. exists l', i'. split; [done|]. at_norm. rewrite Hb'. destruct (B1 !! l'); by eexists.
Qed.

Lemma adds_refl s : adds s s ∅ ∅.
Proof. split; [map_solve|map_solve|done|map_solve|map_solve]. Qed.

Lemma adds_home s s' B W x : adds s s' B W -> home s x -> home s' x.
Proof.
  intros HA. destruct x; [done|]. simpl. intros [b Hb]. rewrite (ad_b _ _ _ _ HA). at_norm.
  rewrite Hb. destruct (B !! l); by eexists.
Qed.

Lemma adds_mem_ok s s' B W h x k :
  mem_ok s -> home s x -> adds s s' B W -> wrap_heap h x k B W -> mem_ok s'.
Proof.
  intros HM Hx HA Hh l i [w Hw]. rewrite (ad_w _ _ _ _ HA) in Hw. at_norm.
  rewrite (ad_b _ _ _ _ HA). at_norm.
  destruct (W !! WMem l i) eqn:HW.
  - destruct (wrap_dom _ _ _ _ _ Hh (WMem l i)) as [<-|(l' & i' & Heq & [b Hb])]; [by eexists| |].
    + destruct Hx as [b Hb]. rewrite Hb. destruct (B !! l); by eexists.
    + simplify_eq. rewrite Hb. by eexists.
  - destruct (HM l i) as [b Hb]; [by eexists|]. rewrite Hb. destruct (B !! l); by eexists.
Qed.

Lemma copy_tree_eq a t v kids :
  copy_tree a (TNode t v kids) = TNode t (t_cons E ConstL t t a v).1 (map copy_w kids).
Proof. done. Qed.

Lemma copy_fits n a (T : option (tree E)) : fits n T -> fits n (copy_tree a <$> T).
Proof.
  revert a T. induction n as [|n IH]; intros a [[t v kids]|]; try done.
  cbn [fmap option_fmap option_map]. rewrite copy_tree_eq. cbn [fits].
  induction 1 as [|k kids Hk Hkids IHk]; [by constructor|]. cbn [map]. constructor; [|done].
  destruct k as [T' a']. by apply IH.
Qed.

Lemma copy_loop n hs src dst i ks B W s :
  copy_ok n -> mem_ok s -> (forall j, i <= j -> home s (dst j)) -> (forall j, i <= j -> wraps s !! dst j = None) ->
  (forall j j', dst j = dst j' -> j = j') ->
  mem_heap hs src i ks B W -> Forall (fun k => fits n k.1) ks -> B ⊆ blocks s -> W ⊆ wraps s ->
  makes (make_members (fun j => i_copy (node_impl n (hs j)) (dst j) (src j))
                      (fun j => i_dtor (node_impl n (hs j)) (dst j)) i (length ks)) s
        (fun _ => mem_heap hs dst i (map copy_w ks)).
Proof.
  intros HC HM Hhome Hfree Hinj. revert i B W s HM Hhome Hfree.
  induction ks as [|k ks IH]; intros i B W s HM Hhome Hfree Hm Hf HB HW.
  - exists ∅, ∅. split; [constructor|apply adds_refl].
  - apply mem_cons_inv in Hm as (B1 & W1 & B2 & W2 & -> & -> & DB & DW & H1 & H2).
    inversion Hf as [|k' ks' Hf1 Hf2]; subst.
    unfold makes. cbn [length make_members]. rewrite run_bind.
    assert (C1 := HC (hs i) (dst i) (src i) k B1 W1 s HM (Hhome i (le_n i)) (Hfree i (le_n i)) H1 Hf1).
    feed specialize C1; [clear - HB; map_solve|clear - HW DW; map_solve|].
    unfold makes in C1. destruct (run (i_copy _ _ _) s) as [u s1|e s1| |]; [|done|done|done].
    destruct C1 as (B1' & W1' & Hw1 & A1).
    rewrite run_catch.
    specialize (IH (S i) B2 W2 s1). feed specialize IH; [| | |exact H2|exact Hf2| | |].
    { by eapply adds_mem_ok; eauto. }
    { intros j Hj. eapply adds_home; [done|]. apply Hhome. lia. }
    { intros j Hj. rewrite (ad_w _ _ _ _ A1). at_norm. destruct (W1' !! dst j) eqn:Hj'; [|apply Hfree; lia].
      exfalso. destruct (wrap_dom _ _ _ _ _ Hw1 (dst j)) as [Heq|(l' & i' & Heq & [b Hb])]; [by eexists| |].
      - apply Hinj in Heq. lia.
      - assert (Hh := Hhome j ltac:(lia)). rewrite Heq in Hh. destruct Hh as [b' Hb'].
        destruct (dis_at _ _ l' (ad_db _ _ _ _ A1)); congruence. }
    { rewrite (ad_b _ _ _ _ A1). assert (D := ad_db _ _ _ _ A1). clear - HB D DB. map_solve. }
    { rewrite (ad_w _ _ _ _ A1). assert (D := ad_dw _ _ _ _ A1). clear - HW D DW. map_solve. }
    unfold makes in IH. destruct (run (make_members _ _ _ _) s1) as [u2 s2|e s2| |]; [| |done|done].
    + destruct IH as (B2' & W2' & Hm2 & A2).
      destruct A1 as [A1b A1w A1x A1d1 A1d2], A2 as [A2b A2w A2x A2d1 A2d2]. rewrite A1b in A2d1. rewrite A1w in A2d2.
      exists (B1' ∪ B2'), (W1' ∪ W2'). split.
      { cbn [map]. constructor; [done|done| |]; [clear - A2d1; map_solve|clear - A2d2; map_solve]. }
      split; [rewrite A2b, A1b|rewrite A2w, A1w|congruence| |].
      * clear - A2d1. map_solve.
      * clear - A2d2. map_solve.
      * clear - A2d1 A1d1. map_solve.
      * clear - A2d2 A1d2. map_solve.
    + destruct IH as [I1 I2 I3]. destruct A1 as [A1b A1w A1x A1d1 A1d2]. rewrite run_bind.
      destruct (dtor_all n (hs i) (dst i) (copy_w k) B1' W1' s2 Hw1) as (s3 & R3 & [M1 M2 M3]).
      { simpl. by apply copy_fits. }
      { rewrite I1, A1b. clear. map_solve. }
      { rewrite I2, A1w. clear. map_solve. }
      rewrite R3. simpl. split; [rewrite M1, I1, A1b; clear - A1d1; map_solve|
        rewrite M2, I2, A1w; clear - A1d2; map_solve|congruence].
Qed.

(** Copy construction of a node in raw storage. *)
Lemma node_copy n a t l c o v kids b bo B W s :
  copy_ok n -> c <> RVal -> mem_ok s -> (forall j, wraps s !! WMem l j = None) -> o <> l ->
  blocks s !! l = Some b -> b_obj b = ORaw -> storage_for t b = true ->
  blocks s !! o = Some bo -> b_obj bo = OLive t v ->
  length kids = n_kids Sh t v -> mem_heap (k_hdr Sh t) (WMem o) 0 kids B W ->
  Forall (fun k => fits n k.1) kids -> B ⊆ blocks s -> W ⊆ wraps s -> B !! l = None ->
  match run (tp_cons (nodeTP (S n)) a t l (ARef c (RBlk o))) s with
  | ORet _ s' => exists B' W', mem_heap (k_hdr Sh t) (WMem l) 0 (map copy_w kids) B' W' /\
      blocks s' = <[l := set_obj (OLive t (t_cons E ConstL t t a v).1) b]> (B' ∪ blocks s) /\
      wraps s' = W' ∪ wraps s /\ exts s' = exts s /\ B' ##ₘ blocks s /\ W' ##ₘ wraps s
  | OThrow _ s' => same s s'
  | _ => False
  end.
Proof.
  intros HC Hc HM Hmem Hol Hb Hraw Hst Hbo Hobj Hlen Hm Hf HB HW HBl.
  set (v' := (t_cons E ConstL t t a v).1).
  assert (R0 : run (tp_cons (nodeTP (S n)) a t l (ARef c (RBlk o))) s =
    run (node_cons Sh a t l (ARef ConstL (RBlk o))
           (fun i => i_copy (node_impl n (k_hdr Sh t i)) (WMem l i) (WMem o i))
           (fun i => i_dtor (node_impl n (k_hdr Sh t i)) (WMem l i))) s) by (destruct c; done).
  rewrite R0. clear R0. unfold node_cons. rewrite run_bind. cbn [act_thr run exec].
  rewrite Hb, Hst. cbn [negb]. rewrite Hraw. cbn [cons_vals deref]. rewrite Hbo, Hobj.
  destruct (t_cons E ConstL t t a v) as [w1 w2] eqn:Ht. simpl in v'.
  destruct (pop_eq s) as (r & orc' & -> & _). destruct r as [h|e]; cbn [upd_src run]; [|done].
  set (s1 := log _ _). rewrite run_bind. cbn [act run exec deref].
  assert (Hl1 : blocks s1 !! l = Some (set_obj (OLive t v') b)).
  { subst s1. cbn. by rewrite lookup_alter, Hb. }
  assert (Hother : blocks s1 = <[l := set_obj (OLive t v') b]> (blocks s)).
  { subst s1. cbn. apply map_eq. intros i. destruct (decide (l = i)) as [<-|Hne].
    - by rewrite lookup_alter, Hb, lookup_insert.
    - by rewrite lookup_alter_ne, lookup_insert_ne. }
  assert (Hw1 : wraps s1 = wraps s) by done. assert (Hx1 : exts s1 = exts s) by done. clearbody s1.
  rewrite Hl1. cbn [b_obj set_obj run snd].
  rewrite run_catch.
  assert (Hn : n_kids Sh t v' = length kids).
  { rewrite Hlen. subst v'. change w1 with ((w1, w2).1). rewrite <- Ht. apply HS. }
  rewrite Hn.
  assert (CL := copy_loop n (k_hdr Sh t) (WMem o) (WMem l) 0 kids B W s1 HC).
  feed specialize CL; [| | | |exact Hm|exact Hf| |by rewrite Hw1|].
  { intros l' i' Hi'. rewrite Hw1 in Hi'. rewrite Hother. at_norm. case_decide; [by eexists|]. by apply (HM l' i'). }
  { intros j _. simpl. rewrite Hl1. by eexists. }
  { intros j _. rewrite Hw1. apply Hmem. }
  { congruence. }
  { rewrite Hother. clear - HB HBl. map_solve. }
  unfold makes in CL. destruct (run (make_members _ _ _ _) s1) as [u s2|e s2| |]; [| |done|done].
  - destruct CL as (B' & W' & Hm' & [A1 A2 A3 A4 A5]). rewrite Hw1 in *. rewrite Hx1 in *. exists B', W'. split_and!; [done| |done|done| |done].
    + rewrite A1, Hother. rewrite Hother in A4. clear - A4. map_solve.
    + rewrite Hother in A4. clear - A4. map_solve.
  - destruct CL as [I1 I2 I3]. cbn. rewrite I1, Hl1. cbn. rewrite bool_decide_eq_true_2 by done. cbn.
    split; cbn; [|congruence|congruence]. rewrite ?I1, Hother, insert_insert.
    replace (set_obj ORaw (set_obj (OLive t v') b)) with b; [by apply insert_id|].
    destruct b. cbn in *. by subst.
Qed.

(** What creating an owned object yields: a block [l] for it and what it owns. *)
Definition fresh_node k a T l B W : Prop :=
  match T with
  | TNode t v kids => exists b B1, B = <[l := b]> B1 /\ B1 !! l = None /\ block_ok k l t v a b /\
      length kids = n_kids Sh t v /\ mem_heap (k_hdr Sh t) (WMem l) 0 kids B1 W
  end.

Lemma ind_copy n a c o v kids bo B W s :
  copy_ok n -> c <> RVal -> mem_ok s -> blocks s !! o = Some bo -> b_obj bo = OLive (tT E) v ->
  length kids = n_kids Sh (tT E) v -> mem_heap (k_hdr Sh (tT E)) (WMem o) 0 kids B W ->
  Forall (fun k => fits n k.1) kids -> B ⊆ blocks s -> W ⊆ wraps s ->
  makes (Indirect20.construct_from (nodeTP (S n)) a (ARef c (RBlk o))) s
        (fresh_node Ind a (copy_tree a (TNode (tT E) v kids))).
Proof.
  intros HC Hc HM Hbo Hobj Hlen Hm Hf HB HW. rewrite copy_tree_eq. unfold makes, Indirect20.construct_from.
  rewrite run_bind. cbn [act_thr run exec].
  destruct (pop_eq s) as (r & orc' & -> & _). destruct r as [h|e]; cbn [run]; [|done].
  assert (Hfr := choose_fresh h (blocks s)). set (l := choose h (blocks s)) in *. clearbody l.
  set (b := mkB a (BObj (tT E)) HNone ORaw). set (s1 := log _ _).
  assert (H1b : blocks s1 = <[l := b]> (blocks s)) by done.
  assert (H1w : wraps s1 = wraps s) by done. assert (H1x : exts s1 = exts s) by done. clearbody s1.
  assert (Hol : o <> l) by congruence.
  assert (HNC := node_copy n a (tT E) l c o v kids b bo B W s1 HC Hc).
  feed specialize HNC; [| |done| |done| | |done|done|done|done| | | |].
  { intros l' i' Hi'. rewrite H1w in Hi'. rewrite H1b. at_norm. case_decide; [by eexists|]. by apply (HM l' i'). }
  { intros j. rewrite H1w. apply eq_None_not_Some. intros HH. apply HM in HH as [? ?]. congruence. }
  { by rewrite H1b, lookup_insert. }
  { cbn. by rewrite bool_decide_eq_true_2. }
  { by rewrite H1b, lookup_insert_ne. }
  { rewrite H1b. etrans; [done|by apply insert_subseteq]. }
  { by rewrite H1w. }
  { destruct (sub_at _ _ l HB); congruence. }
  rewrite run_catch, run_bind.
  destruct (run (tp_cons _ _ _ _ _) s1) as [u s2|e s2| |]; [| |done|done].
  - destruct HNC as (B' & W' & Hm' & F1 & F2 & F3 & D1 & D2). cbn [run].
    rewrite H1b in F1, D1. rewrite H1w in F2, D2.
    exists (<[l := set_obj (OLive (tT E) (t_cons E ConstL (tT E) (tT E) a v).1) b]> B'), W'. split.
    { eexists _, B'. split_and!; [done| |done| |done].
      - destruct (dis_at _ _ l D1) as [|HX]; [done|]. by rewrite lookup_insert in HX.
      - rewrite map_length, Hlen. symmetry. apply HS. }
    split; [rewrite F1|done|congruence| |done].
    + clear - D1. map_solve.
    + clear - D1 Hfr. map_solve.
  - destruct HNC as [I1 I2 I3]. cbn. rewrite I1, H1b, lookup_insert. cbn.
    rewrite bool_decide_eq_true_2, Nat.eqb_refl by done. cbn. split; cbn; [|congruence|congruence].
    rewrite ?I1, ?H1b. by apply delete_insert.
Qed.

Lemma poly_copy n a o t v kids bo B W s :
  copy_ok n -> mem_ok s -> blocks s !! o = Some bo -> b_obj bo = OLive t v -> b_hdr bo = HCb t (Some o) ->
  length kids = n_kids Sh t v -> mem_heap (k_hdr Sh t) (WMem o) 0 kids B W ->
  Forall (fun k => fits n k.1) kids -> B ⊆ blocks s -> W ⊆ wraps s ->
  makes (Polymorphic20.cb_clone (nodeTP (S n)) o a) s
        (fresh_node Poly a (copy_tree a (TNode t v kids))).
Proof.
  intros HC HM Hbo Hobj Hhdr Hlen Hm Hf HB HW. rewrite copy_tree_eq. unfold makes, Polymorphic20.cb_clone, Polymorphic20.cb_ctor.
  rewrite run_bind. cbn [act run exec]. rewrite Hbo, Hhdr. cbn [run].
  rewrite run_bind. cbn [act_thr run exec].
  destruct (pop_eq s) as (r & orc' & -> & _). destruct r as [h|e]; cbn [run]; [|done].
  assert (Hfr := choose_fresh h (blocks s)). set (l := choose h (blocks s)) in *. clearbody l.
  set (s0 := log _ _).
  rewrite run_catch, run_bind, run_bind. cbn [act run exec].
  assert (H0b : blocks s0 !! l = Some (mkB a (BCb t) HNone ORaw)) by (cbn; by rewrite lookup_insert).
  rewrite H0b. cbn [b_hdr b_obj b_ty]. rewrite bool_decide_eq_true_2 by done.
  set (b := mkB a (BCb t) (HCb t None) ORaw).
  set (s1 := set_blocks _ _).
  assert (H1b : blocks s1 = <[l := b]> (blocks s)) by (cbn; by rewrite insert_insert).
  assert (H1w : wraps s1 = wraps s) by done. assert (H1x : exts s1 = exts s) by done. clearbody s1. clear s0 H0b.
  assert (Hol : o <> l) by congruence.
  assert (HNC := node_copy n a t l NonConstL o v kids b bo B W s1 HC).
  feed specialize HNC; [done| | |done| |done| | |done|done|done|done| | | |].
  { intros l' i' Hi'. rewrite H1w in Hi'. rewrite H1b. at_norm. case_decide; [by eexists|]. by apply (HM l' i'). }
  { intros j. rewrite H1w. apply eq_None_not_Some. intros HH. apply HM in HH as [? ?]. congruence. }
  { by rewrite H1b, lookup_insert. }
  { cbn. by rewrite bool_decide_eq_true_2. }
  { by rewrite H1b, lookup_insert_ne. }
  { rewrite H1b. etrans; [done|by apply insert_subseteq]. }
  { by rewrite H1w. }
  { destruct (sub_at _ _ l HB); congruence. }
  cbn [run]. rewrite run_bind.
  destruct (run (tp_cons _ _ _ _ _) s1) as [u s2|e s2| |]; [| |done|done].
  - destruct HNC as (B' & W' & Hm' & F1 & F2 & F3 & D1 & D2). cbn [run exec].
    rewrite H1b in F1, D1. rewrite H1w in F2, D2.
    unfold act; cbn [run exec]; rewrite F1, lookup_insert. cbn [b_hdr set_obj b run].
    set (b2 := set_hdr _ _).
    exists (<[l := b2]> B'), W'. split.
    { eexists _, B'. split_and!; [done| |done| |done].
      - destruct (dis_at _ _ l D1) as [|HX]; [done|]. by rewrite lookup_insert in HX.
      - rewrite map_length, Hlen. symmetry. apply HS. }
    split; cbn; [|done|congruence| |done].
    + rewrite ?F1, insert_insert. clear - D1. map_solve.
    + clear - D1 Hfr. map_solve.
  - destruct HNC as [I1 I2 I3]. cbn. rewrite I1, H1b, lookup_insert. cbn.
    rewrite bool_decide_eq_true_2, Nat.eqb_refl by done. cbn. split; cbn; [|congruence|congruence].
    rewrite ?I1, ?H1b. by apply delete_insert.
Qed.

Definition copya_ok (n : nat) : Prop :=
  forall h x y k a B W s, mem_ok s -> home s x -> wraps s !! x = None ->
    wrap_heap h y k B W -> fits n k.1 -> B ⊆ blocks s -> W ⊆ wraps s ->
    makes (i_copy_a (node_impl n h) x a y) s (fun _ => wrap_heap h x (copy_as a k)).

Lemma copya_null n h x y a a0 s :
  wraps s !! x = None -> wraps s !! y = Some (mkW PNull a0) ->
  makes (i_copy_a (node_impl n h) x a y) s (fun _ => wrap_heap h x (None, a)).
Proof.
  intros Hx Hy. assert (Hne : y <> x) by congruence.
  assert (Hcore : forall s', run (i_copy_a (node_impl n h) x a y) s = ORet tt s' ->
    wraps s' = <[x := mkW PNull a]> (wraps s) -> blocks s' = blocks s -> exts s' = exts s ->
    makes (i_copy_a (node_impl n h) x a y) s (fun _ => wrap_heap h x (None, a))).
  { intros s' R E1 E2 E3. unfold makes. rewrite R. exists ∅, {[ x := mkW PNull a ]}. split; [constructor|].
    split; [rewrite E2; clear; map_solve|rewrite E1; clear; map_solve|done|clear; map_solve|].
    apply map_disjoint_singleton_l. done. }
  assert (Hy' : forall w, <[x := w]> (wraps s) !! y = Some (mkW PNull a0)) by (intros w; by rewrite lookup_insert_ne).
  destruct h; (eapply Hcore;
    [ cbn; rewrite Hx; cbn; rewrite Hy'; cbn; rewrite lookup_insert; reflexivity
    | cbn; by rewrite insert_insert | done | done]).
Qed.

Lemma copya_step n : copy_ok n -> copya_ok (S n).
Proof.
  intros HC h x y [[[t v kids]|] a0] a B W s HM Hhome Hx Hh Hf HB HW.
  2:{ apply wrap_inv in Hh as [-> ->]. eapply copya_null; [done|].
      eapply lookup_weaken; [|exact HW]. apply lookup_singleton. }
  apply wrap_inv in Hh as (o & bo & B1 & W1 & -> & -> & HBo & HWy & (Hres & Hobj & Hty & Hhdr & HT) & Hlen & Hm).
  assert (Hbo : blocks s !! o = Some bo).
  { eapply lookup_weaken; [|exact HB]. apply lookup_insert. }
  assert (Hy : wraps s !! y = Some (mkW (PLoc o) a0)).
  { eapply lookup_weaken; [|exact HW]. apply lookup_insert. }
  assert (Hne : y <> x) by congruence.
  set (s0 := set_wraps (<[x := mkW PIndet a]> (wraps s)) s).
  assert (Hfin : forall (p : prog E loc),
    (wraps s0 !! x = Some (mkW PIndet a) -> wraps s0 !! y = Some (mkW (PLoc o) a0) ->
     run (i_copy_a (node_impl (S n) h) x a y) s =
      match run p s0 with
      | ORet l s1 => run (act (PWriteP x (Some l))) s1
      | OThrow e s1 => match run (act (PDelW x)) s1 with
                       | ORet _ s2 => OThrow e s2 | OThrow e' s2 => OThrow e' s2 | OUB u => OUB u | OTerm => OTerm end
      | OUB u => OUB u | OTerm => OTerm end) ->
    makes p s0 (fresh_node (header_cls h) a (copy_tree a (TNode t v kids))) ->
    makes (i_copy_a (node_impl (S n) h) x a y) s (fun _ => wrap_heap h x (copy_as a (Some (TNode t v kids), a0)))).
  { intros p Hrun Hp. unfold makes in *. rewrite Hrun; [|by cbn; rewrite lookup_insert|by cbn; rewrite lookup_insert_ne].
    destruct (run p s0) as [l s1|e s1| |]; [| |done|done].
    - destruct Hp as (B' & W' & Hnode & [A1 A2 A3 A4 A5]). cbn in A1, A2, A3, A4, A5.
      cbn [act run exec]. rewrite A2. at_norm.
      destruct (dis_at _ _ x A5) as [HWx|HX]; [|by rewrite lookup_insert in HX].
      rewrite HWx, decide_True by done. cbn [w_a run].
      rewrite copy_tree_eq in Hnode. destruct Hnode as (b & B2 & -> & HBl & Hok & Hlen' & Hm').
      exists (<[l := b]> B2), (<[x := mkW (PLoc l) a]> W'). split.
      { unfold copy_as. cbn [fst fmap option_fmap option_map]. rewrite copy_tree_eq. by constructor. }
      split; cbn; [done| |done|done|].
      + rewrite ?A2. clear. map_solve.
      + clear - A5 Hx. map_solve.
    - destruct Hp as [I1 I2 I3]. cbn in *. rewrite I2, lookup_insert. cbn. split; cbn; [done| |done].
      rewrite ?I2. by apply delete_insert. }
  assert (HM0 : mem_ok s0).
  { intros l i [w Hw]. cbn in Hw |- *. at_norm. at_split; [done|]. apply (HM l i). by eexists. }
  assert (HW0 : W1 ⊆ wraps s0).
  { cbn. etrans; [|by apply insert_subseteq]. clear - HW HWy. map_solve. }
  assert (HB0 : B1 ⊆ blocks s0).
  { cbn. clear - HB HBo. map_solve. }
  simpl in Hf.
  assert (Hind : header_cls h = Ind -> makes (Indirect20.construct_from (nodeTP (S n)) a (ARef ConstL (RBlk o))) s0
     (fresh_node Ind a (copy_tree a (TNode t v kids)))).
  { intros Hcls. rewrite Hcls in *. rewrite (HT eq_refl) in *. by eapply ind_copy; eauto. }
  assert (Hpoly : header_cls h = Poly -> makes (Polymorphic20.cb_clone (nodeTP (S n)) o a) s0
     (fresh_node Poly a (copy_tree a (TNode t v kids)))).
  { intros Hcls. rewrite Hcls in *. by eapply poly_copy; eauto. }
  destruct h; simpl header_cls in *.
  1,2: apply (Hfin _) in Hind; [done| |done]; intros H1 H2;
    cbn [Tree.node_impl hdr_impl i_copy_a indirect20 indirect14];
    change (@Indirect14.ctor_copy_a E) with (@Indirect20.ctor_copy_a E);
    unfold Indirect20.ctor_copy_a;
    rewrite st_ctor by done; fold s0; erewrite st_valueless by done; cbv beta iota;
    erewrite st_readA by done; unfold Indirect20.op_star; erewrite st_deref by done; rewrite run_bind;
    (destruct (run (Indirect20.construct_from _ _ _) s0) as [x0 s1| | |]; [|done..]); cbn; by destruct (wraps s1 !! x).
  all: apply (Hfin _) in Hpoly; [done| |done]; intros H1 H2;
    cbn [Tree.node_impl hdr_impl i_copy_a polymorphic20 polymorphic14];
    change (@Polymorphic14.ctor_copy_a E) with (@Polymorphic20.ctor_copy_a E);
    unfold Polymorphic20.ctor_copy_a;
    change (@Polymorphic20.valueless_after_move E) with (@Indirect20.valueless_after_move E);
    rewrite st_ctor by done; fold s0; erewrite st_valueless by done; cbv beta iota delta [negb];
    erewrite st_deref by done; erewrite st_readA by done; rewrite run_bind;
    (destruct (run (Polymorphic20.cb_clone _ _ _) s0) as [x0 s1| | |]; [|done..]); cbn; by destruct (wraps s1 !! x).
Qed.

Lemma copy_of_copya n : copya_ok n -> copy_ok n.
Proof.
  intros HA h x y k B W s HM Hhome Hx Hh Hf HB HW.
  assert (Hy : exists p, wraps s !! y = Some (mkW p k.2)).
  { apply wrap_inv in Hh. destruct k as [[[t v kids]|] a0].
    - destruct Hh as (o & bo & B1 & W1 & -> & -> & _). exists (PLoc o).
      eapply lookup_weaken; [|exact HW]. apply lookup_insert.
    - destruct Hh as [-> ->]. exists PNull. eapply lookup_weaken; [|exact HW]. apply lookup_singleton. }
  destruct Hy as [p Hy].
  assert (Hrun : run (i_copy (node_impl n h) x y) s = run (i_copy_a (node_impl n h) x (a_soccc E k.2) y) s).
  { destruct h; cbn [Tree.node_impl hdr_impl i_copy i_copy_a indirect20 indirect14 polymorphic20 polymorphic14];
    unfold Indirect20.ctor_copy, Indirect14.ctor_copy, Polymorphic20.ctor_copy, Polymorphic14.ctor_copy;
    by erewrite st_readA by done. }
  unfold makes. rewrite Hrun. apply (HA h x y k (a_soccc E k.2) B W s); done.
Qed.

Lemma copya_all n : copya_ok n.
Proof.
  induction n as [|n IH]; [|by apply copya_step, copy_of_copya].
  intros h x y [[[t v kids]|] a0] a B W s HM Hhome Hx Hh Hf HB HW; [done|].
  apply wrap_inv in Hh as [-> ->]. eapply copya_null; [done|].
  eapply lookup_weaken; [|exact HW]. apply lookup_singleton.
Qed.

Lemma copy_all n : copy_ok n.
Proof. apply copy_of_copya, copya_all. Qed.

End tree.
