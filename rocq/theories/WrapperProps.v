From stdpp Require Import base gmap list.
From Verif Require Import Wrapper.

Section props.
Context {T : vtype}.
Implicit Types s : wstate T.

(** Every wrapper points to an object of its own, and every object is owned. *)
Record wsound s : Prop := {
  ws_live : forall x p, wr s !! x = Some p -> is_Some (heap s !! p);
  ws_inj : forall x y p, wr s !! x = Some p -> wr s !! y = Some p -> x = y;
  ws_own : forall p v, heap s !! p = Some v -> exists x, wr s !! x = Some p;
  ws_made : forall p v, heap s !! p = Some v -> p < made s;
}.

(** Assignments from an object to itself. *)
Definition no_assign (o : wop) : Prop :=
  match o with WAssign x y => x = y | _ => True end.

Lemma wsound_empty : wsound (wempty (T := T)).
Proof. split; simpl; intros *; by rewrite lookup_empty. Qed.

Lemma wnew_sound r x v s : wsound s -> wr s !! x = None ->
  match wnew r x v s with WOk _ s' | WThrown _ s' => wsound s' | _ => False end.
Proof.
  intros [H1 H2 H3 H4] Hx. destruct r as [|e]; simpl; [|done].
  assert (Hn : heap s !! made s = None).
  { destruct (heap s !! made s) as [w|] eqn:Hw; [|done]. apply H4 in Hw. lia. }
  assert (Hf : forall y, wr s !! y <> Some (made s)).
  { intros y Hy. apply H1 in Hy as [? Hy]. congruence. }
  split; simpl.
  - intros y p Hy. destruct (decide (x = y)) as [->|Hne].
    + rewrite lookup_insert in Hy. simplify_eq. by rewrite lookup_insert.
    + rewrite lookup_insert_ne in Hy by done. destruct (decide (made s = p)) as [<-|Hp].
      * by rewrite lookup_insert.
      * rewrite lookup_insert_ne by done. eauto.
  - intros y z p Hy Hz. destruct (decide (x = y)) as [->|Hne1], (decide (y = z)) as [->|Hne2]; try done.
    + rewrite lookup_insert in Hy. rewrite lookup_insert_ne in Hz by done. simplify_eq. by apply Hf in Hz.
    + rewrite lookup_insert_ne in Hy by done. destruct (decide (x = z)) as [->|Hne3].
      * rewrite lookup_insert in Hz. simplify_eq. by apply Hf in Hy.
      * rewrite lookup_insert_ne in Hz by done. eauto.
  - intros p w Hp. destruct (decide (made s = p)) as [<-|Hne].
    + exists x. by rewrite lookup_insert.
    + rewrite lookup_insert_ne in Hp by done. destruct (H3 _ _ Hp) as [y Hy]. exists y.
      rewrite lookup_insert_ne; [done|]. intros ->. congruence.
  - intros p w Hp. destruct (decide (made s = p)) as [<-|Hne]; [lia|].
    rewrite lookup_insert_ne in Hp by done. apply H4 in Hp. lia.
Qed.

Lemma wstep_sound o r s : wsound s -> no_assign o ->
  match wstep o r s with WOk _ s' | WThrown _ s' => wsound s' | WUB => False | WIll => True end.
Proof.
  intros Hs Ho. pose proof Hs as [H1 H2 H3 H4].
  destruct o as [x|x y|x y|x|x y]; simpl in *.
  - unfold w_default. destruct (wr s !! x) eqn:Hx; [done|].
    pose proof (wnew_sound r x (vt_new T) s Hs Hx). by destruct (wnew _ _ _ _).
  - unfold w_copy. destruct (wr s !! x) eqn:Hx; [done|]. destruct (wr s !! y) as [p|] eqn:Hy; [|done].
    destruct (H1 _ _ Hy) as [v Hv]. rewrite Hv.
    pose proof (wnew_sound r x (vt_copy T v) s Hs Hx). by destruct (wnew _ _ _ _).
  - subst y. unfold w_assign. destruct (wr s !! x) as [p|] eqn:Hx; [|done].
    rewrite insert_id by done. by destruct s.
  - unfold w_destroy. destruct (wr s !! x) as [p|] eqn:Hx; [|done].
    destruct (H1 _ _ Hx) as [v Hv]. rewrite Hv. split; simpl.
    + intros y q Hy. apply lookup_delete_Some in Hy as [Hne Hy].
      rewrite lookup_delete_ne; [eauto|]. intros ->. apply Hne. eauto.
    + intros y z q Hy Hz. apply lookup_delete_Some in Hy as [? Hy], Hz as [? Hz]. eauto.
    + intros q w Hq. apply lookup_delete_Some in Hq as [Hne Hq]. destruct (H3 _ _ Hq) as [y Hy].
      exists y. rewrite lookup_delete_ne; [done|]. intros ->. congruence.
    + intros q w Hq. apply lookup_delete_Some in Hq as [Hne Hq]. eauto.
  - unfold w_eq. destruct (wr s !! x) as [p|] eqn:Hx; [|done]. destruct (wr s !! y) as [q|] eqn:Hy; [|done].
    destruct (H1 _ _ Hx) as [v ->], (H1 _ _ Hy) as [w ->]. done.
Qed.

Lemma wrun_sound h s : wsound s -> Forall (fun p => no_assign p.1) h ->
  match wrun h s with WOk _ s' => wsound s' | WThrown _ _ | WUB => False | WIll => True end.
Proof.
  intros Hs Hh. revert s Hs. induction Hh as [|[o r] h Ho Hh IH]; intros s Hs; simpl; [done|].
  pose proof (wstep_sound o r s Hs Ho) as Hst. destruct (wstep o r s); try done; by apply IH.
Qed.

Lemma sound_empty s : wsound s -> wr s = ∅ -> heap s = ∅.
Proof.
  intros [_ _ H3 _] Hw. apply map_empty. intros p. destruct (heap s !! p) as [v|] eqn:Hv; [|done].
  apply H3 in Hv as [x Hx]. by rewrite Hw, lookup_empty in Hx.
Qed.

(** The number of objects equals the number of wrappers. *)
Lemma sound_size s : wsound s -> size (heap s) = size (wr s).
Proof.
  destruct s as [H W n]. revert H. induction W as [|x p W Hx IH] using map_ind; intros H Hs.
  { rewrite (sound_empty _ Hs eq_refl). simpl. by rewrite !map_size_empty. }
  pose proof (wstep_sound (WDestroy x) NewOk _ Hs I) as Hd. simpl in Hd. unfold w_destroy in Hd. simpl in Hd.
  rewrite lookup_insert in Hd. destruct (ws_live _ Hs x p) as [v Hv]; [simpl; by rewrite lookup_insert|].
  simpl in Hv. rewrite Hv in Hd. rewrite delete_insert in Hd by done.
  apply IH in Hd. simpl in *. rewrite map_size_insert_None by done.
  rewrite map_size_delete, Hv in Hd. simpl in Hd.
  assert (size H <> 0); [|lia]. intros Hz. apply map_size_empty_iff in Hz. subst. by rewrite lookup_empty in Hv.
Qed.

(** An object that is on the heap but not pointed to stays there for ever. *)
Definition lost s (p : nat) : Prop :=
  is_Some (heap s !! p) /\ (forall x, wr s !! x <> Some p) /\ p < made s.

Lemma wstep_lost o r s p : lost s p ->
  match wstep o r s with WOk _ s' | WThrown _ s' => lost s' p | _ => True end.
Proof.
  intros (Hp & Hx & Hm).
  assert (Hn : forall x v, match wnew r x v s with WOk _ s' | WThrown _ s' => lost s' p | _ => True end).
  { intros x v. destruct r; simpl; [|done]. split_and!; simpl.
    - rewrite lookup_insert_ne by lia. done.
    - intros y. destruct (decide (x = y)) as [->|Hne].
      + rewrite lookup_insert. intros [=]. lia.
      + rewrite lookup_insert_ne by done. apply Hx.
    - lia. }
  destruct o as [x|x y|x y|x|x y]; simpl.
  - unfold w_default. destruct (wr s !! x); [done|]. apply Hn.
  - unfold w_copy. destruct (wr s !! x); [done|]. destruct (wr s !! y) as [q|]; [|done].
    destruct (heap s !! q); [|done]. apply Hn.
  - unfold w_assign. destruct (wr s !! x); [|done]. destruct (wr s !! y) as [q|] eqn:Hy; [|done].
    split_and!; simpl; [done| |done]. intros z. destruct (decide (x = z)) as [->|Hne].
    + rewrite lookup_insert. rewrite <- Hy. apply Hx.
    + rewrite lookup_insert_ne by done. apply Hx.
  - unfold w_destroy. destruct (wr s !! x) as [q|] eqn:Hq; [|done]. destruct (heap s !! q); [|done].
    split_and!; simpl; [|intros z; rewrite lookup_delete_Some; intros [_ Hz]; by eapply Hx|done].
    rewrite lookup_delete_ne; [done|]. intros ->. by eapply Hx.
  - unfold w_eq. destruct (wr s !! x); [|done]. destruct (wr s !! y); [|done].
    repeat (case_match; simplify_eq; try done); exact (conj Hp (conj Hx Hm)).
Qed.

Lemma wrun_lost h s p : lost s p ->
  match wrun h s with WOk _ s' | WThrown _ s' => lost s' p | _ => True end.
Proof.
  revert s. induction h as [|[o r] h IH]; intros s Hs; simpl; [done|].
  pose proof (wstep_lost o r s p Hs) as Hl. destruct (wstep o r s); try done; by apply IH.
Qed.

Lemma assign_leaks s x y p q h b s' :
  wsound s -> wr s !! x = Some p -> wr s !! y = Some q -> x <> y ->
  wrun ((WAssign x y, NewOk) :: h) s = WOk b s' -> is_Some (heap s' !! p).
Proof.
  intros Hs Hx Hy Hne Hr. simpl in Hr. unfold w_assign in Hr. rewrite Hx, Hy in Hr.
  set (s1 := mkWS (heap s) (<[x := q]> (wr s)) (made s)) in *.
  assert (Hl : lost s1 p).
  { destruct (ws_live _ Hs _ _ Hx) as [v Hv]. split_and!; simpl; [eauto| |by eapply ws_made].
    intros z. destruct (decide (x = z)) as [->|Hz].
    - rewrite lookup_insert. intros [=]. subst. apply Hne. by eapply ws_inj.
    - rewrite lookup_insert_ne by done. intros Hw. apply Hz. by eapply ws_inj. }
  pose proof (wrun_lost h s1 p Hl) as Hf. rewrite Hr in Hf. apply Hf.
Qed.

(** Two wrappers with one pointer cannot both be destroyed. [clash s q x y]: [x] and [y]
    both hold [q]. *)
Definition clash s (q x y : nat) : Prop :=
  wr s !! x = Some q /\ wr s !! y = Some q /\ q < made s.

Lemma destroy_both s q x y h : clash s q x y -> x <> y ->
  Forall (fun o : wop * answer => match o.1 with
            | WAssign z _ | WDestroy z => z <> x /\ z <> y | _ => True end) h ->
  forall b s', wrun (h ++ [(WDestroy x, NewOk); (WDestroy y, NewOk)]) s <> WOk b s'.
Proof.
  intros Hc Hne Hh. revert s Hc. induction Hh as [|[o r] h Ho Hh IH]; intros s (Hx & Hy & Hm) b s'; simpl.
  - unfold w_destroy. rewrite Hx. destruct (heap s !! q); [|done]. simpl.
    rewrite lookup_delete_ne by done. rewrite Hy, lookup_delete. done.
  - assert (Hn : forall z v, wr s !! z = None ->
      match wnew r z v s with WOk _ s' | WThrown _ s' => clash s' q x y | _ => True end).
    { intros z v Hz. destruct r; simpl; [|done]. split_and!; simpl; [| |lia];
        (rewrite lookup_insert_ne; [done|intros ->; congruence]). }
    enough (match wstep o r s with WOk _ s' | WThrown _ s' => clash s' q x y | _ => True end) as He.
    { destruct (wstep o r s); try done; by apply IH. }
    destruct o as [z|z w|z w|z|z w]; simpl in *.
    + unfold w_default. destruct (wr s !! z) eqn:Hz; [done|]. by apply Hn.
    + unfold w_copy. destruct (wr s !! z) eqn:Hz; [done|]. destruct (wr s !! w) as [p|]; [|done].
      destruct (heap s !! p); [|done]. by apply Hn.
    + unfold w_assign. destruct (wr s !! z); [|done]. destruct (wr s !! w); [|done].
      split_and!; simpl; [| |done]; by rewrite lookup_insert_ne by naive_solver.
    + unfold w_destroy. destruct (wr s !! z) as [p|]; [|done]. destruct (heap s !! p); [|done].
      split_and!; simpl; [| |done]; by rewrite lookup_delete_ne by naive_solver.
    + unfold w_eq. destruct (wr s !! z); [|done]. destruct (wr s !! w); [|done].
      repeat (case_match; simplify_eq; try done); exact (conj Hx (conj Hy Hm)).
Qed.

Lemma assign_then_destroy s x y p q :
  wsound s -> wr s !! x = Some p -> wr s !! y = Some q -> x <> y ->
  wrun [(WAssign x y, NewOk); (WDestroy x, NewOk); (WDestroy y, NewOk)] s = WUB.
Proof.
  intros Hs Hx Hy Hne. simpl. unfold w_assign. rewrite Hx, Hy. simpl. unfold w_destroy. simpl.
  rewrite lookup_insert. destruct (ws_live _ Hs _ _ Hy) as [v ->]. simpl.
  rewrite delete_insert_delete, lookup_delete_ne by done. rewrite Hy, lookup_delete. done.
Qed.

(** Copies are independent. *)
Lemma copy_spec s x y p v :
  wsound s -> wr s !! x = None -> wr s !! y = Some p -> heap s !! p = Some v ->
  exists s', wstep (WCopy x y) NewOk s = WOk None s' /\
    (exists q, wr s' !! x = Some q /\ q <> p /\ heap s' !! q = Some (vt_copy T v)) /\
    (forall z, z <> x -> wr s' !! z = wr s !! z) /\
    (forall q w, heap s !! q = Some w -> heap s' !! q = Some w).
Proof.
  intros Hs Hx Hy Hv. simpl. unfold w_copy. rewrite Hx, Hy, Hv. eexists. split; [done|]. simpl. split_and!.
  - exists (made s). rewrite !lookup_insert. split_and!; try done.
    intros Heq. apply (ws_made _ Hs) in Hv. lia.
  - intros z Hz. by rewrite lookup_insert_ne.
  - intros q w Hq. rewrite lookup_insert_ne; [done|]. intros Heq. apply (ws_made _ Hs) in Hq. lia.
Qed.

(** All-destroyed histories: clean exactly when every assignment is a self-assignment. *)
Lemma clean_iff h s :
  wsound s ->
  (exists b s', wrun h s = WOk b s' /\ wr s' = ∅ /\ heap s' = ∅) ->
  Forall (fun p => no_assign p.1) h.
Proof.
  revert s. induction h as [|[o r] h IH]; intros s Hs (b & s' & Hr & Hw & Hh); [done|].
  assert (no_assign o \/ ~ no_assign o) as [Ho|Ho].
  { destruct o as [x|x y|x y|x|x y]; simpl; try (by left). destruct (decide (x = y)); auto. }
  - constructor; [done|]. simpl in Hr. pose proof (wstep_sound o r s Hs Ho) as Hst.
    destruct (wstep o r s) as [b1 s1|e s1| |]; try done; apply (IH s1 Hst); eauto.
  - exfalso. destruct o as [x|x y|x y|x|x y]; simpl in Ho; try tauto.
    destruct (wr s !! x) as [p|] eqn:Hx; [|by simpl in Hr; unfold w_assign in Hr; rewrite Hx in Hr].
    destruct (wr s !! y) as [q|] eqn:Hy; [|by simpl in Hr; unfold w_assign in Hr; rewrite Hx, Hy in Hr].
    assert (Hr' : wrun ((WAssign x y, NewOk) :: h) s = WOk b s') by exact Hr.
    destruct (assign_leaks s x y p q h b s' Hs Hx Hy Ho Hr') as [v Hv].
    by rewrite Hh, lookup_empty in Hv.
Qed.

Lemma safe_without_assign (h : list (wop * answer)) :
  Forall (fun p => no_assign p.1) h ->
  match wrun h (wempty (T := T)) with
  | WOk _ s =>
      size (heap s) = size (wr s) /\
      (forall x p, wr s !! x = Some p -> is_Some (heap s !! p)) /\
      (forall x y p, wr s !! x = Some p -> wr s !! y = Some p -> x = y) /\
      (wr s = ∅ -> heap s = ∅)
  | WIll => True
  | _ => False
  end.
Proof.
  intros Hh. pose proof (wrun_sound h _ wsound_empty Hh) as H. destruct (wrun h wempty) as [b s|e s| |]; try done.
  split_and!; [by apply sound_size|apply ws_live, H|apply ws_inj, H|by apply sound_empty].
Qed.

Lemma clean_histories h b s :
  wrun h wempty = WOk b s -> wr s = ∅ -> (heap s = ∅ <-> Forall (fun p => no_assign p.1) h).
Proof.
  intros Hr Hw. split.
  - intros Hh. apply (clean_iff h wempty wsound_empty). eauto.
  - intros Hh. pose proof (safe_without_assign h Hh) as H. rewrite Hr in H. by apply H.
Qed.

(** ** Wrappers as plain values *)

(** Specification: the wrappers in scope have values.  Results as in [wres]; [None]: no such program. *)
Definition vstep (o : wop) (r : answer) (σ : gmap nat (vt T)) : option (option bool + nat) * gmap nat (vt T) :=
  let new x v := match r with NewOk => (Some (inl None), <[x := v]> σ) | NewFails e => (Some (inr e), σ) end in
  match o with
  | WDefault x => match σ !! x with None => new x (vt_new T) | Some _ => (None, σ) end
  | WCopy x y => match σ !! x, σ !! y with None, Some v => new x (vt_copy T v) | _, _ => (None, σ) end
  | WAssign x y => match σ !! x, σ !! y with Some _, Some v => (Some (inl None), <[x := v]> σ) | _, _ => (None, σ) end
  | WDestroy x => match σ !! x with Some _ => (Some (inl None), delete x σ) | None => (None, σ) end
  | WEq x y => match σ !! x, σ !! y with Some v, Some w => (Some (inl (Some (vt_eqb T v w))), σ) | _, _ => (None, σ) end
  end.

(** All results of a history, up to the first operation that does not exist; and the values at the end. *)
Fixpoint vouts (h : list (wop * answer)) (σ : gmap nat (vt T)) : list (option bool + nat) * gmap nat (vt T) :=
  match h with
  | [] => ([], σ)
  | (o, r) :: h' =>
      match vstep o r σ with
      | (Some x, σ') => let res := vouts h' σ' in (x :: res.1, res.2)
      | (None, σ') => ([], σ')
      end
  end.
(** What the class gives; undefined behaviour has no results. *)
Fixpoint wouts (h : list (wop * answer)) s : option (list (option bool + nat) * wstate T) :=
  match h with
  | [] => Some ([], s)
  | (o, r) :: h' =>
      match wstep o r s with
      | WOk b s' => res ← wouts h' s'; Some (inl b :: res.1, res.2)
      | WThrown e s' => res ← wouts h' s'; Some (inr e :: res.1, res.2)
      | WUB => None
      | WIll => Some ([], s)
      end
  end.

(** The value of wrapper [x]. *)
Definition wval s (x : nat) : option (vt T) := p ← wr s !! x; heap s !! p.

Lemma wval_none s x : wsound s -> wr s !! x = None <-> wval s x = None.
Proof.
  intros Hs. unfold wval. destruct (wr s !! x) as [p|] eqn:Hx; simpl; [|done].
  destruct (ws_live _ Hs _ _ Hx) as [v ->]. done.
Qed.
Lemma wval_some s x v : wsound s -> wval s x = Some v -> exists p, wr s !! x = Some p /\ heap s !! p = Some v.
Proof. intros Hs. unfold wval. destruct (wr s !! x) as [p|]; simpl; [|done]. by exists p. Qed.

Lemma wstep_values o r s σ : wsound s -> no_assign o -> (forall x, wval s x = σ !! x) ->
  match wstep o r s, vstep o r σ with
  | WOk b s', (Some (inl b'), σ') => b = b' /\ forall x, wval s' x = σ' !! x
  | WThrown e s', (Some (inr e'), σ') => e = e' /\ forall x, wval s' x = σ' !! x
  | WIll, (None, σ') => σ' = σ
  | _, _ => False
  end.
Proof.
  intros Hs Ho Hv.
  assert (Hnew : forall x v, σ !! x = None ->
    match wnew r x v s, match r with NewOk => (Some (inl None), <[x := v]> σ) | NewFails e => (Some (inr e), σ) end with
    | WOk b s', (Some (inl b'), σ') => b = b' /\ forall x, wval s' x = σ' !! x
    | WThrown e s', (Some (inr e'), σ') => e = e' /\ forall x, wval s' x = σ' !! x
    | _, _ => False
    end).
  { intros x v Hx. destruct r as [|e]; simpl; [|done]. split; [done|]. intros y. unfold wval. simpl.
    destruct (decide (x = y)) as [->|Hne]; [by rewrite !lookup_insert; simpl; rewrite lookup_insert|].
    rewrite !lookup_insert_ne by done. rewrite <- Hv. unfold wval. destruct (wr s !! y) as [p|] eqn:Hy; simpl; [|done].
    rewrite lookup_insert_ne; [done|]. intros <-. destruct (ws_live _ Hs _ _ Hy) as [w Hw]. apply (ws_made _ Hs) in Hw. lia. }
  destruct o as [x|x y|x y|x|x y]; simpl in *.
  - unfold w_default. destruct (σ !! x) as [v|] eqn:Hx; rewrite <- Hv in Hx.
    + apply wval_some in Hx as (p & -> & _); done.
    + pose proof Hx as Hx'. apply wval_none in Hx; [|done]. rewrite Hx. rewrite Hv in Hx'.
      specialize (Hnew x (vt_new T) Hx'). by destruct r.
  - unfold w_copy. destruct (σ !! x) as [v|] eqn:Hx.
    + rewrite <- Hv in Hx. apply wval_some in Hx as (p & -> & _); done.
    + pose proof Hx as Hx'. rewrite <- Hv in Hx'. apply wval_none in Hx'; [|done]. rewrite Hx'.
      destruct (σ !! y) as [w|] eqn:Hy; rewrite <- Hv in Hy.
      * apply wval_some in Hy as (p & -> & ->); [|done]. specialize (Hnew x (vt_copy T w) Hx). by destruct r.
      * apply wval_none in Hy; [|done]. by rewrite Hy.
  - subst y. unfold w_assign. destruct (σ !! x) as [v|] eqn:Hx.
    + pose proof Hx as Hx'. rewrite <- Hv in Hx. apply wval_some in Hx as (p & Hp & Hh); [|done]. rewrite Hp.
      split; [done|]. intros y. rewrite (insert_id (wr s)), (insert_id σ) by done. rewrite <- Hv. by destruct s.
    + rewrite <- Hv in Hx. apply wval_none in Hx; [|done]. by rewrite Hx.
  - unfold w_destroy. destruct (σ !! x) as [v|] eqn:Hx; rewrite <- Hv in Hx.
    + apply wval_some in Hx as (p & Hp & Hh); [|done]. rewrite Hp, Hh. split; [done|]. intros y. unfold wval. simpl.
      destruct (decide (x = y)) as [->|Hne]; [by rewrite !lookup_delete|]. rewrite !lookup_delete_ne by done.
      rewrite <- Hv. unfold wval. destruct (wr s !! y) as [q|] eqn:Hy; simpl; [|done].
      rewrite lookup_delete_ne; [done|]. intros ->. apply Hne. by eapply ws_inj.
    + apply wval_none in Hx; [|done]. by rewrite Hx.
  - unfold w_eq. destruct (σ !! x) as [v|] eqn:Hx; rewrite <- Hv in Hx.
    + apply wval_some in Hx as (p & -> & Hp); [|done]. destruct (σ !! y) as [w|] eqn:Hy; rewrite <- Hv in Hy.
      * apply wval_some in Hy as (q & -> & ->); [|done]. by rewrite Hp.
      * apply wval_none in Hy; [|done]. by rewrite Hy.
    + apply wval_none in Hx; [|done]. by rewrite Hx.
Qed.

Lemma wrun_values h s σ : wsound s -> Forall (fun p => no_assign p.1) h -> (forall x, wval s x = σ !! x) ->
  exists s', wouts h s = Some ((vouts h σ).1, s') /\ forall x, wval s' x = (vouts h σ).2 !! x.
Proof.
  intros Hs Hh. revert s σ Hs. induction Hh as [|[o r] h Ho Hh IH]; intros s σ Hs Hv; simpl; [by exists s|].
  pose proof (wstep_sound o r s Hs Ho) as Hs'. pose proof (wstep_values o r s σ Hs Ho Hv) as Hst.
  destruct (wstep o r s) as [b s1|e s1| |], (vstep o r σ) as [[[b'|e']|] σ1]; try done.
  - destruct Hst as [<- Hv1]. destruct (IH s1 σ1 Hs' Hv1) as (s' & -> & H'). by exists s'.
  - destruct Hst as [<- Hv1]. destruct (IH s1 σ1 Hs' Hv1) as (s' & -> & H'). by exists s'.
  - subst σ1. by exists s.
Qed.

End props.

Lemma double_delete (T : vtype) : exists h, wrun h (wempty (T := T)) = WUB /\
    h = [(WDefault 0, NewOk); (WDefault 1, NewOk); (WAssign 0 1, NewOk);
         (WDestroy 0, NewOk); (WDestroy 1, NewOk)].
Proof. eexists. split; [|reflexivity]. reflexivity. Qed.

Lemma sound_two :
  exists s : wstate (mkVT nat 0 id Nat.eqb), wsound s /\ wr s !! 0 = Some 0 /\ wr s !! 1 = Some 1 /\
    exists b s', wrun [(WAssign 0 1, NewOk); (WDestroy 0, NewOk)] s = WOk b s'.
Proof.
  set (h := [(WDefault 0, NewOk); (WCopy 1 0, NewOk)]).
  assert (Hh : Forall (fun p => no_assign p.1) h) by (repeat constructor).
  pose proof (wrun_sound (T := mkVT nat 0 id Nat.eqb) h wempty wsound_empty Hh) as H.
  destruct (wrun h wempty) as [b s|e s| |] eqn:Hr; try done.
  exists s. injection Hr as <- <-. split; [done|]. split_and!; try done. do 2 eexists. reflexivity.
Qed.
