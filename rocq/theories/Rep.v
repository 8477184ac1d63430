(** * The ownership invariant and its elementary transitions. *)

From stdpp Require Import base gmap list fin_maps.
From Verif Require Import Lang Common Client Spec.

(** ** Facts about the machine *)
Section machine.
Context {E : Env}.
Implicit Types s : store E.

Lemma run_bind {X Y} (p : prog E X) (f : X -> prog E Y) s :
  run (bind p f) s =
  match run p s with
  | ORet x s' => run (f x) s'
  | OThrow e s' => OThrow e s'
  | OUB u => OUB u
  | OTerm => OTerm
  end.
Proof.
  revert s; induction p as [x|e|R a k IH]; intros s; simpl; try done.
  destruct (exec a s); simpl; auto.
Qed.

Lemma run_catch {X} (p : prog E X) h s :
  run (catch p h) s =
  match run p s with
  | OThrow e s' => run (h e) s'
  | o => o
  end.
Proof.
  revert s; induction p as [x|e|R a k IH]; intros s; simpl; try done.
  destruct (exec a s); simpl; auto.
Qed.

Lemma run_noexcept {X} b (p : prog E X) s :
  run (noexcept_if b p) s =
  match run p s with
  | OThrow e s' => if b then OTerm else OThrow e s'
  | o => o
  end.
Proof.
  destruct b; simpl; [|by destruct (run p s)].
  rewrite run_catch. by destruct (run p s).
Qed.

Lemma le_foldr_max (l : list nat) z : z ∈ l -> z <= foldr Nat.max 0 l.
Proof.
  induction l as [|y l IH]; intros Hin; [by apply elem_of_nil in Hin|].
  apply elem_of_cons in Hin as [->|Hin]; simpl; [lia|]. specialize (IH Hin). lia.
Qed.

Lemma choose_fresh h (B : gmap loc (block E)) : B !! choose h B = None.
Proof.
  unfold choose. destruct (B !! h) eqn:Hh; [|done].
  apply eq_None_not_Some. intros [b' HS].
  apply elem_of_map_to_list in HS.
  apply (elem_of_list_fmap_1 fst) in HS. simpl in HS.
  apply le_foldr_max in HS. unfold loc in *. revert HS. apply Nat.nle_succ_diag_l.
Qed.

Lemma pop_eq s : exists r o, pop s = (r, set_orc o s)
  /\ ((orc s = [] /\ o = [] /\ r = RespOk 0) \/ orc s = r :: o).
Proof.
  unfold pop. destruct (orc s) as [|r o] eqn:Ho.
  - exists (RespOk 0), []. split; [|auto]. f_equal.
    destruct s; simpl in *; by subst.
  - exists r, o. auto.
Qed.
End machine.

(** ** Ownership *)
Section rep.
Context {E : Env} (k : cls).
Notation A := (eA E).
Notation V := (eV E).
Implicit Types s : store E.

Definition kbty (t : ty) : bty := match k with Ind => BObj t | Poly => BCb t end.
Definition khdr (t : ty) (l : loc) : hdr :=
  match k with Ind => HNone | Poly => HCb t (Some l) end.

(** The block [b] at [l] is a proper home for an object [(t, v)] owned by a
    wrapper whose allocator is [a]. *)
Definition block_ok (l : loc) (t : ty) (v : V) (a : A) (b : block E) : Prop :=
  a_res E (b_a b) = a_res E a /\ b_obj b = OLive t v /\ b_ty b = kbty t /\
  b_hdr b = khdr t l /\ (k = Ind -> t = tT E).

(** A view: for each live wrapper, its owned object with address, and its
    allocator. *)
Notation viewmap := (gmap wl (option (loc * ty * V) * A)).

Definition to_wrapper (o : option (loc * ty * V) * A) : wrapper E :=
  mkW (match o.1 with Some (l, _, _) => PLoc l | None => PNull end) o.2.

(** [Rep B W ω]: the wrappers [W] are exactly those described by [ω], each
    engaged one owns a proper block, every block is owned, and no block has two owners. *)
Record Rep (B : gmap loc (block E)) (W : gmap wl (wrapper E)) (ω : viewmap) : Prop := {
  rep_wraps : W = to_wrapper <$> ω;
  rep_own : forall w l t v a, ω !! w = Some (Some (l, t, v), a) ->
            exists b, B !! l = Some b /\ block_ok l t v a b;
  rep_all : forall l b, B !! l = Some b ->
            exists w t v a, ω !! w = Some (Some (l, t, v), a);
  rep_inj : forall w1 w2 l t1 v1 a1 t2 v2 a2,
            ω !! w1 = Some (Some (l, t1, v1), a1) ->
            ω !! w2 = Some (Some (l, t2, v2), a2) -> w1 = w2;
}.

Definition owns_nothing (ω : viewmap) (w : wl) : Prop :=
  forall o a, ω !! w = Some (o, a) -> o = None.

Lemma rep_lookup B W ω w o a :
  Rep B W ω -> ω !! w = Some (o, a) -> W !! w = Some (to_wrapper (o, a)).
Proof. intros HR Hw. rewrite (rep_wraps _ _ _ HR), lookup_fmap, Hw. done. Qed.

Lemma rep_lookup_none B W ω w : Rep B W ω -> ω !! w = None -> W !! w = None.
Proof. intros HR Hw. rewrite (rep_wraps _ _ _ HR), lookup_fmap, Hw. done. Qed.

Lemma rep_lookup_inv B W ω w c :
  Rep B W ω -> W !! w = Some c -> exists o a, ω !! w = Some (o, a) /\ c = to_wrapper (o, a).
Proof.
  intros HR Hw. rewrite (rep_wraps _ _ _ HR), lookup_fmap in Hw.
  destruct (ω !! w) as [[o a]|]; simplify_eq/=; eauto.
Qed.

Lemma rep_fresh B W ω l w t v a :
  Rep B W ω -> B !! l = None -> ω !! w = Some (Some (l, t, v), a) -> False.
Proof. intros HR Hl Hw. destruct (rep_own _ _ _ HR _ _ _ _ _ Hw) as (b & Hb & _). congruence. Qed.

(** *** Elementary transitions *)

Lemma rep_null B W ω w a :
  Rep B W ω -> owns_nothing ω w ->
  Rep B (<[w := mkW PNull a]> W) (<[w := (None, a)]> ω).
Proof.
  intros HR Hn. split.
  - by rewrite (rep_wraps _ _ _ HR), fmap_insert.
  - intros w' l t v a' Hw'. destruct (decide (w = w')) as [<-|Hne].
    + rewrite lookup_insert in Hw'. congruence.
    + rewrite lookup_insert_ne in Hw' by done. by eapply rep_own.
  - intros l b Hb. destruct (rep_all _ _ _ HR _ _ Hb) as (w' & t & v & a' & Hw').
    exists w', t, v, a'. rewrite lookup_insert_ne; [done|]. intros <-.
    apply Hn in Hw'. congruence.
  - intros w1 w2 l t1 v1 a1 t2 v2 a2 H1 H2.
    destruct (decide (w = w1)) as [<-|?]; [rewrite lookup_insert in H1; congruence|].
    destruct (decide (w = w2)) as [<-|?]; [rewrite lookup_insert in H2; congruence|].
    rewrite lookup_insert_ne in H1, H2 by done. by eapply rep_inj.
Qed.

Lemma rep_fill B W ω w l t v a b :
  Rep B W ω -> owns_nothing ω w -> B !! l = None -> block_ok l t v a b ->
  Rep (<[l := b]> B) (<[w := mkW (PLoc l) a]> W) (<[w := (Some (l, t, v), a)]> ω).
Proof.
  intros HR Hn Hl Hb. split.
  - by rewrite (rep_wraps _ _ _ HR), fmap_insert.
  - intros w' l' t' v' a' Hw'. destruct (decide (w = w')) as [<-|Hne].
    + rewrite lookup_insert in Hw'. simplify_eq. exists b. by rewrite lookup_insert.
    + rewrite lookup_insert_ne in Hw' by done.
      destruct (rep_own _ _ _ HR _ _ _ _ _ Hw') as (b' & Hb' & Hok).
      exists b'. rewrite lookup_insert_ne; [done|]. congruence.
  - intros l' b' Hb'. destruct (decide (l = l')) as [<-|Hne].
    + exists w, t, v, a. by rewrite lookup_insert.
    + rewrite lookup_insert_ne in Hb' by done.
      destruct (rep_all _ _ _ HR _ _ Hb') as (w' & t' & v' & a' & Hw').
      exists w', t', v', a'. rewrite lookup_insert_ne; [done|]. intros <-.
      apply Hn in Hw'. congruence.
  - intros w1 w2 l' t1 v1 a1 t2 v2 a2 H1 H2.
    destruct (decide (w = w1)) as [<-|?]; destruct (decide (w = w2)) as [<-|?]; try done.
    + rewrite lookup_insert in H1. rewrite lookup_insert_ne in H2 by done. simplify_eq.
      exfalso. by eapply rep_fresh.
    + rewrite lookup_insert in H2. rewrite lookup_insert_ne in H1 by done. simplify_eq.
      exfalso. by eapply rep_fresh.
    + rewrite lookup_insert_ne in H1, H2 by done. by eapply rep_inj.
Qed.

Lemma rep_clear B W ω w l t v a0 a :
  Rep B W ω -> ω !! w = Some (Some (l, t, v), a0) ->
  Rep (delete l B) (<[w := mkW PNull a]> W) (<[w := (None, a)]> ω).
Proof.
  intros HR Hw. split.
  - by rewrite (rep_wraps _ _ _ HR), fmap_insert.
  - intros w' l' t' v' a' Hw'. destruct (decide (w = w')) as [<-|Hne].
    + rewrite lookup_insert in Hw'. congruence.
    + rewrite lookup_insert_ne in Hw' by done.
      destruct (rep_own _ _ _ HR _ _ _ _ _ Hw') as (b' & Hb' & Hok).
      exists b'. rewrite lookup_delete_ne; [done|]. intros <-.
      apply Hne. by eapply rep_inj.
  - intros l' b' Hb'. apply lookup_delete_Some in Hb' as [Hne Hb'].
    destruct (rep_all _ _ _ HR _ _ Hb') as (w' & t' & v' & a' & Hw').
    exists w', t', v', a'. rewrite lookup_insert_ne; [done|]. congruence.
  - intros w1 w2 l' t1 v1 a1 t2 v2 a2 H1 H2.
    destruct (decide (w = w1)) as [<-|?]; [rewrite lookup_insert in H1; congruence|].
    destruct (decide (w = w2)) as [<-|?]; [rewrite lookup_insert in H2; congruence|].
    rewrite lookup_insert_ne in H1, H2 by done. by eapply rep_inj.
Qed.

Lemma rep_del B W ω w :
  Rep B W ω -> owns_nothing ω w -> Rep B (delete w W) (delete w ω).
Proof.
  intros HR Hn. split.
  - by rewrite (rep_wraps _ _ _ HR), fmap_delete.
  - intros w' l t v a' Hw'. apply lookup_delete_Some in Hw' as [_ Hw']. by eapply rep_own.
  - intros l b Hb. destruct (rep_all _ _ _ HR _ _ Hb) as (w' & t & v & a' & Hw').
    exists w', t, v, a'. rewrite lookup_delete_ne; [done|]. intros <-.
    apply Hn in Hw'. congruence.
  - intros w1 w2 l t1 v1 a1 t2 v2 a2 H1 H2.
    apply lookup_delete_Some in H1 as [_ H1]. apply lookup_delete_Some in H2 as [_ H2].
    by eapply rep_inj.
Qed.

Lemma rep_val B W ω w l t v v' a :
  Rep B W ω -> ω !! w = Some (Some (l, t, v), a) ->
  Rep (alter (set_obj (OLive t v')) l B) W (<[w := (Some (l, t, v'), a)]> ω).
Proof.
  intros HR Hw. split.
  - rewrite (rep_wraps _ _ _ HR), fmap_insert. symmetry. apply insert_id.
    rewrite lookup_fmap, Hw. done.
  - intros w' l' t' v'' a' Hw'. destruct (decide (w = w')) as [<-|Hne].
    + rewrite lookup_insert in Hw'. simplify_eq.
      destruct (rep_own _ _ _ HR _ _ _ _ _ Hw) as (b & Hb & Hok).
      exists (set_obj (OLive t' v'') b). rewrite lookup_alter, Hb. split; [done|].
      destruct Hok as (?&?&?&?&?). by repeat split.
    + rewrite lookup_insert_ne in Hw' by done.
      destruct (rep_own _ _ _ HR _ _ _ _ _ Hw') as (b & Hb & Hok).
      exists b. rewrite lookup_alter_ne; [done|]. intros <-. apply Hne. by eapply rep_inj.
  - intros l' b' Hb'. destruct (decide (l = l')) as [<-|Hne].
    + exists w, t, v', a. by rewrite lookup_insert.
    + rewrite lookup_alter_ne in Hb' by done.
      destruct (rep_all _ _ _ HR _ _ Hb') as (w' & t' & v'' & a' & Hw').
      exists w', t', v'', a'. rewrite lookup_insert_ne; [done|]. congruence.
  - intros w1 w2 l' t1 v1 a1 t2 v2 a2 H1 H2.
    destruct (decide (w = w1)) as [<-|?]; destruct (decide (w = w2)) as [<-|?]; try done.
    + rewrite lookup_insert in H1. rewrite lookup_insert_ne in H2 by done. simplify_eq.
      by eapply rep_inj.
    + rewrite lookup_insert in H2. rewrite lookup_insert_ne in H1 by done. simplify_eq.
      by eapply rep_inj.
    + rewrite lookup_insert_ne in H1, H2 by done. by eapply rep_inj.
Qed.

(** Change the allocator of [w] to one of the same resource. *)
Lemma rep_seta B W ω w o a0 a :
  Rep B W ω -> ω !! w = Some (o, a0) -> (is_Some o -> a_res E a = a_res E a0) ->
  Rep B (<[w := to_wrapper (o, a)]> W) (<[w := (o, a)]> ω).
Proof.
  intros HR Hw Hres. split.
  - by rewrite (rep_wraps _ _ _ HR), fmap_insert.
  - intros w' l t v a' Hw'. destruct (decide (w = w')) as [<-|Hne].
    + rewrite lookup_insert in Hw'. simplify_eq.
      destruct (rep_own _ _ _ HR _ _ _ _ _ Hw) as (b & Hb & Hok).
      exists b. split; [done|]. destruct Hok as (?&?&?&?&?).
      repeat split; try done. rewrite Hres by done. done.
    + rewrite lookup_insert_ne in Hw' by done. by eapply rep_own.
  - intros l b Hb. destruct (rep_all _ _ _ HR _ _ Hb) as (w' & t & v & a' & Hw').
    destruct (decide (w = w')) as [<-|Hne].
    + rewrite Hw in Hw'. simplify_eq. exists w, t, v, a. by rewrite lookup_insert.
    + exists w', t, v, a'. by rewrite lookup_insert_ne.
  - intros w1 w2 l t1 v1 a1 t2 v2 a2 H1 H2.
    assert (Hx : forall w' t' v' a', <[w:=(o, a)]> ω !! w' = Some (Some (l, t', v'), a') ->
                 exists a'', ω !! w' = Some (Some (l, t', v'), a'')).
    { intros w' t' v' a' H. destruct (decide (w = w')) as [<-|Hne].
      - rewrite lookup_insert in H. simplify_eq. eauto.
      - rewrite lookup_insert_ne in H by done. eauto. }
    apply Hx in H1 as [? H1]. apply Hx in H2 as [? H2]. by eapply rep_inj.
Qed.

(** Ownership of [y]'s object passes to [w]. *)
Lemma rep_xfer B W ω w y l t v ay ay' a :
  Rep B W ω -> owns_nothing ω w -> ω !! y = Some (Some (l, t, v), ay) ->
  a_res E a = a_res E ay ->
  Rep B (<[w := mkW (PLoc l) a]> (<[y := mkW PNull ay']> W))
        (<[w := (Some (l, t, v), a)]> (<[y := (None, ay')]> ω)).
Proof.
  intros HR Hn Hy Hres.
  assert (Hwy : w <> y). { intros ->. apply Hn in Hy. congruence. }
  destruct (rep_own _ _ _ HR _ _ _ _ _ Hy) as (b & Hb & Hok).
  pose proof (rep_clear _ _ _ _ _ _ _ _ ay' HR Hy) as HR1.
  assert (Hn1 : owns_nothing (<[y:=(None, ay')]> ω) w).
  { intros o a1. rewrite lookup_insert_ne by done. apply Hn. }
  assert (Hok1 : block_ok l t v a b).
  { destruct Hok as (?&?&?&?&?). repeat split; try done. congruence. }
  pose proof (rep_fill _ _ _ _ l t v a b HR1 Hn1 (lookup_delete _ _) Hok1) as HR2.
  by rewrite insert_delete in HR2.
Qed.

(** Exchange of two owned states; each keeps a resource-compatible allocator. *)
Lemma rep_swap B W ω x y ox ax oy ay ax' ay' :
  Rep B W ω -> ω !! x = Some (ox, ax) -> ω !! y = Some (oy, ay) -> x <> y ->
  (is_Some oy -> a_res E ax' = a_res E ay) -> (is_Some ox -> a_res E ay' = a_res E ax) ->
  Rep B (<[y := to_wrapper (ox, ay')]> (<[x := to_wrapper (oy, ax')]> W))
        (<[y := (ox, ay')]> (<[x := (oy, ax')]> ω)).
Proof.
  intros HR Hx Hy Hne Hr1 Hr2.
  destruct ox as [[[lx tx] vx]|], oy as [[[ly ty'] vy]|].
  - destruct (rep_own _ _ _ HR _ _ _ _ _ Hx) as (bx & Hbx & Hokx).
    destruct (rep_own _ _ _ HR _ _ _ _ _ Hy) as (by' & Hby & Hoky).
    assert (Hll : lx <> ly). { intros <-. apply Hne. by eapply rep_inj. }
    pose proof (rep_clear _ _ _ _ _ _ _ _ ax HR Hx) as HR1.
    assert (Hy1 : <[x:=(None, ax)]> ω !! y = Some (Some (ly, ty', vy), ay)).
    { by rewrite lookup_insert_ne. }
    assert (Hn1 : owns_nothing (<[x:=(None, ax)]> ω) x).
    { intros o a. rewrite lookup_insert. by intros [= <- <-]. }
    pose proof (rep_xfer _ _ _ _ _ _ _ _ _ ay' ax' HR1 Hn1 Hy1 (Hr1 (ex_intro _ _ eq_refl))) as HR2.
    assert (Hn2 : owns_nothing (<[x:=(Some (ly, ty', vy), ax')]>
                     (<[y:=(None, ay')]> (<[x:=(None, ax)]> ω))) y).
    { intros o a. rewrite lookup_insert_ne by done. rewrite lookup_insert. by intros [= <- <-]. }
    assert (Hok2 : block_ok lx tx vx ay' bx).
    { destruct Hokx as (?&?&?&?&?). repeat split; try done.
      rewrite Hr2 by eauto. done. }
    pose proof (rep_fill _ _ _ _ lx tx vx ay' bx HR2 Hn2 (lookup_delete _ _) Hok2) as HR3.
    rewrite insert_delete in HR3 by done.
    do 2 rewrite (insert_commute _ x y) in HR3 by done.
    rewrite !insert_insert in HR3. done.
  - unfold to_wrapper; simpl.
    eapply rep_xfer; try done; [|by apply Hr2].
    intros o a. rewrite Hy. by intros [= <- <-].
  - rewrite (insert_commute W), (insert_commute ω) by done.
    unfold to_wrapper; simpl.
    eapply rep_xfer; try done; [|by apply Hr1].
    intros o a. rewrite Hx. by intros [= <- <-].
  - pose proof (rep_null _ _ _ x ax' HR) as HR1.
    eapply rep_null; [apply HR1|].
    + intros o a. rewrite Hx. by intros [= <- <-].
    + intros o a. rewrite lookup_insert_ne by done. rewrite Hy. by intros [= <- <-].
Qed.

(** *** Views and the specification *)

Definition erase_obj (o : option (loc * ty * V) * A) : option (ty * V) * A :=
  ((fun p : loc * ty * V => (p.1.2, p.2)) <$> o.1, o.2).

Definition absv (ω : viewmap) : gmap wl (option (ty * V) * A) := erase_obj <$> ω.

Definition abs_spec (ω : viewmap) (X : gmap nat (ty * V)) : spec E := mkSpec (absv ω) X.

(** The view and abstract state of a store, read off directly. *)
Definition view_obj (B : gmap loc (block E)) (c : wrapper E) : option (loc * ty * V) * A :=
  (match w_p c with
   | PLoc l => match B !! l with
               | Some b => match b_obj b with OLive t v => Some (l, t, v) | _ => None end
               | None => None
               end
   | _ => None
   end, w_a c).

Definition view s : viewmap := view_obj (blocks s) <$> wraps s.

Definition abs s : spec E := abs_spec (view s) (exts s).

Definition Inv s : Prop := Rep (blocks s) (wraps s) (view s).

Lemma rep_view s ω : Rep (blocks s) (wraps s) ω -> view s = ω.
Proof.
  intros HR. unfold view. rewrite (rep_wraps _ _ _ HR). apply map_eq. intros w.
  rewrite !lookup_fmap. destruct (ω !! w) as [[o a]|] eqn:Hw; simpl; [|done].
  destruct o as [[[l t] v]|]; [|done].
  destruct (rep_own _ _ _ HR _ _ _ _ _ Hw) as (b & Hb & (_ & Ho & _)).
  unfold view_obj; simpl. by rewrite Hb, Ho.
Qed.

Lemma rep_inv s ω : Rep (blocks s) (wraps s) ω -> Inv s /\ view s = ω.
Proof. intros HR. unfold Inv. rewrite (rep_view _ _ HR). auto. Qed.

Lemma lookup_absv ω w : absv ω !! w = erase_obj <$> ω !! w.
Proof. apply lookup_fmap. Qed.

Lemma absv_insert ω w o : absv (<[w := o]> ω) = <[w := erase_obj o]> (absv ω).
Proof. apply fmap_insert. Qed.

Lemma absv_delete ω w : absv (delete w ω) = delete w (absv ω).
Proof. apply fmap_delete. Qed.

End rep.

Arguments block_ok {E} _ _ _ _ _ _.
Arguments Rep {E} _ _ _ _.
Arguments Inv {E} _ _.
Arguments view {E} _.
Arguments abs {E} _.
Arguments absv {E} _.
Arguments abs_spec {E} _ _.
Arguments owns_nothing {E} _ _.
Arguments to_wrapper {E} _.
Arguments erase_obj {E} _.
