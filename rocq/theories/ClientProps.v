(** * Client-level properties: proofs. *)

From stdpp Require Import base gmap list.
From Verif Require Import Lang Common Client Spec SpecRun Rep Effect RunLemmas Refine Headers Hist
  LogSpec LogProof OpSpec Taint OpProps OpProps2 OpProps3 Draft Complete.

Section proofs.
Context {E : Env} (HA : AllocReq E).
Notation A := (eA E).
Notation V := (eV E).
Implicit Types s : store E.

(** ** The vocabulary of OpProps.v in terms of the raw store *)
Lemma owns_raw k s x l t v a :
  Inv k s ->
  owns s x l t v a <->
  wraps s !! x = Some (mkW (PLoc l) a) /\
  exists b, blocks s !! l = Some b /\ b_obj b = OLive t v.
Proof.
  intros HI. unfold owns. split.
  - intros Hx. split; [by apply (inv_wrap _ _ _ _ _ HI Hx)|].
    destruct (rep_own _ _ _ _ HI _ _ _ _ _ Hx) as (b & Hb & _ & Ho & _). eauto.
  - intros [Hw (b & Hb & Ho)]. pose proof (rep_wraps _ _ _ _ HI) as HW.
    rewrite HW, lookup_fmap in Hw. destruct (view s !! x) as [[[[[l' t'] v']|] a']|] eqn:Hx; try done.
    simpl in Hw. unfold to_wrapper in Hw. simpl in Hw. simplify_eq.
    destruct (rep_own _ _ _ _ HI _ _ _ _ _ Hx) as (b' & Hb' & _ & Ho' & _).
    rewrite Hb in Hb'. simplify_eq. rewrite Ho in Ho'. by simplify_eq.
Qed.

Lemma valueless_raw k s x a :
  Inv k s -> valueless_at s x a <-> wraps s !! x = Some (mkW PNull a).
Proof.
  intros HI. unfold valueless_at. split.
  - intros Hx. by apply (inv_wrap _ _ _ _ _ HI Hx).
  - intros Hw. pose proof (rep_wraps _ _ _ _ HI) as HW.
    rewrite HW, lookup_fmap in Hw. destruct (view s !! x) as [[[[[l' t'] v']|] a']|] eqn:Hx; try done.
    simpl in Hw. unfold to_wrapper in Hw. simpl in Hw. by simplify_eq.
Qed.

Lemma absent_raw k s x : Inv k s -> absent s x <-> wraps s !! x = None.
Proof.
  intros HI. unfold absent. pose proof (rep_wraps _ _ _ _ HI) as HW. rewrite HW, lookup_fmap.
  by destruct (view s !! x).
Qed.

Lemma settled k s x w :
  Inv k s -> wraps s !! x = Some w ->
  (exists l t v, owns s x l t v (w_a w)) \/ valueless_at s x (w_a w).
Proof.
  intros HI Hw. pose proof (rep_wraps _ _ _ _ HI) as HW.
  rewrite HW, lookup_fmap in Hw. destruct (view s !! x) as [[[[[l t] v]|] a]|] eqn:Hx; try done;
  simpl in Hw; simplify_eq; [left; eauto|by right].
Qed.

Lemma abs_raw s x t v a :
  (sv (abs s) !! x = Some (Some (t, v), a) <-> exists l, owns s x l t v a) /\
  (sv (abs s) !! x = Some (None, a) <-> valueless_at s x a) /\
  (sv (abs s) !! x = None <-> absent s x).
Proof.
  unfold owns, valueless_at, absent. rewrite sv_abs.
  destruct (view s !! x) as [[[[[l' t'] v']|] a']|]; unfold erase_obj; simpl; split_and!; split; intros H;
    repeat match goal with H : exists _, _ |- _ => destruct H end; simplify_eq/=; eauto.
Qed.

(** ** C01-C04 *)
Lemma no_ub h (c : client E) X O :
  safe_with (header_cfg h) (adm h) c (mkSpec ∅ X) ->
  forall u, run_client (header_impl h) c (init X O) <> HUB u.
Proof.
  intros Hsafe u Hrun.
  pose proof (client_correct HA _ _ _ c (init X O) (header_implements HA h) (init_inv _ _ _)) as H.
  rewrite Hrun, init_abs in H. by apply H.
Qed.

(** ** C05 *)
Lemma unique_owner h s l b :
  reachable h s -> blocks s !! l = Some b ->
  exists x a, wraps s !! x = Some (mkW (PLoc l) a) /\
    (exists t v, b_obj b = OLive t v) /\
    forall x' a', wraps s !! x' = Some (mkW (PLoc l) a') -> x' = x.
Proof.
  intros Hr Hb. pose proof (reachable_inv HA h s Hr) as HI.
  destruct (rep_all _ _ _ _ HI _ _ Hb) as (x & t & v & a & Hx).
  apply (owns_raw _ _ _ _ _ _ _ HI) in Hx as [Hw (b' & Hb' & Ho)]. simplify_eq.
  exists x, a. split; [done|]. split; [eauto|].
  intros x' a' Hw'.
  assert (H1 : owns s x' l t v a') by (apply (owns_raw _ _ _ _ _ _ _ HI); eauto).
  assert (H2 : owns s x l t v a) by (apply (owns_raw _ _ _ _ _ _ _ HI); eauto).
  by eapply (rep_inj _ _ _ _ HI).
Qed.

Lemma no_dangling h s x l a :
  reachable h s -> wraps s !! x = Some (mkW (PLoc l) a) ->
  exists b t v, blocks s !! l = Some b /\ b_obj b = OLive t v /\ b_ty b = hbty h t /\
    a_res E (b_a b) = a_res E a.
Proof.
  intros Hr Hw. pose proof (reachable_inv HA h s Hr) as HI.
  pose proof (rep_wraps _ _ _ _ HI) as HW.
  rewrite HW, lookup_fmap in Hw. destruct (view s !! x) as [[[[[l' t'] v']|] a']|] eqn:Hx; try done.
  simpl in Hw. unfold to_wrapper in Hw. simpl in Hw. simplify_eq.
  destruct (rep_own _ _ _ _ HI _ _ _ _ _ Hx) as (b & Hb & Hres & Ho & Hty & _).
  exists b, t', v'. done.
Qed.

Lemma blocks_engaged h s :
  reachable h s ->
  exists D : gset wl, (forall x, x ∈ D <-> exists l a, wraps s !! x = Some (mkW (PLoc l) a)) /\
    size (blocks s) = size D.
Proof.
  intros Hr. pose proof (reachable_inv HA h s Hr) as HI.
  exists (engaged_wraps s). split; [|by eapply blocks_count].
  intros x. rewrite elem_engaged. split.
  - intros (l & t & v & a & Hx). exists l, a. by apply (owns_raw _ s x l t v a HI).
  - intros (l & a & Hw). destruct (no_dangling h s x l a Hr Hw) as (b & t & v & Hb & Ho & _).
    exists l, t, v, a. apply (owns_raw _ s x l t v a HI). eauto.
Qed.

Lemma all_destroyed h s : reachable h s -> wraps s = ∅ -> blocks s = ∅.
Proof.
  intros Hr Hw. apply map_eq. intros l. rewrite lookup_empty.
  destruct (blocks s !! l) as [b|] eqn:Hb; [|done].
  destruct (unique_owner h s l b Hr Hb) as (x & a & Hx & _). by rewrite Hw, lookup_empty in Hx.
Qed.

(** ** C05, C06: the log *)
Lemma reachable_logged h s : reachable h s -> logged s.
Proof.
  intros (c & X & O & outs & _ & Hrun). pose proof (client_logged (header_impl h) c (init X O)) as H.
  rewrite Hrun in H. apply H, init_logged.
Qed.

Definition ev_alloc (e : event E) : bool := match e with EvAlloc _ _ _ => true | _ => false end.
Definition ev_dealloc (e : event E) : bool := match e with EvDealloc _ _ _ => true | _ => false end.
Definition ev_cons (e : event E) : bool := match e with EvCons _ _ _ _ => true | _ => false end.
Definition ev_destroy (e : event E) : bool := match e with EvDestroy _ _ _ => true | _ => false end.

Lemma check_total tr m :
  check tr = Some m -> count ev_alloc tr = count ev_dealloc tr + size m.
Proof.
  revert m. induction tr as [|e tr IH]; simpl; intros m Hm.
  { simplify_eq. by rewrite map_size_empty. }
  destruct (check tr) as [m0|] eqn:H0; [|done]. specialize (IH m0 eq_refl).
  rewrite !count_cons. destruct e as [a b l|a b e|a b l|a t l x|a t l x e|a t l|t l x|t l x e]; simpl in *.
  - destruct (m0 !! l) eqn:Hl; simplify_eq. rewrite map_size_insert_None by done. lia.
  - simplify_eq. lia.
  - destruct (m0 !! l) as [[[a' b'] [t|]]|] eqn:Hl; try done. destruct (_ && _); simplify_eq.
    rewrite map_size_delete, Hl.
    assert (size m0 <> 0). { intros H. apply map_size_empty_iff in H. subst. by rewrite lookup_empty in Hl. }
    simpl. lia.
  - destruct (m0 !! l) as [[[a' b'] [t'|]]|] eqn:Hl; try done. destruct (_ && _); simplify_eq.
    rewrite map_size_insert, Hl. simpl. lia.
  - destruct (m0 !! l) as [[[a' b'] [t'|]]|] eqn:Hl; try done. destruct (_ && _); simplify_eq. lia.
  - destruct (m0 !! l) as [[[a' b'] [t'|]]|] eqn:Hl; try done. destruct (bool_decide _); simplify_eq.
    rewrite map_size_insert, Hl. simpl. lia.
  - destruct (m0 !! l) as [[[a' b'] [t'|]]|] eqn:Hl; try done. destruct (_ && _); simplify_eq. lia.
  - destruct (m0 !! l) as [[[a' b'] [t'|]]|] eqn:Hl; try done. destruct (_ && _); simplify_eq. lia.
Qed.

Definition constructed (m : gmap loc (A * bty * option ty)) : gmap loc (A * bty * option ty) :=
  filter (fun p : loc * (A * bty * option ty) => is_Some p.2.2) m.

Lemma check_total_cons tr m :
  check tr = Some m -> count ev_cons tr = count ev_destroy tr + size (constructed m).
Proof.
  revert m. induction tr as [|e tr IH]; simpl; intros m Hm.
  { simplify_eq. unfold constructed. by rewrite map_filter_empty, map_size_empty. }
  destruct (check tr) as [m0|] eqn:H0; [|done]. specialize (IH m0 eq_refl).
  assert (Hraw : forall l a b, (m0 !! l = None \/ exists a' b', m0 !! l = Some (a', b', None)) ->
    constructed (<[l := (a, b, None)]> m0) = constructed m0).
  { intros l a b Hl. unfold constructed. apply map_eq. intros l'. rewrite !map_filter_lookup.
    destruct (decide (l = l')) as [<-|Hne]; [|by rewrite lookup_insert_ne].
    rewrite lookup_insert. by destruct Hl as [->|(a' & b' & ->)]. }
  assert (Hnone : forall l, (m0 !! l = None \/ exists a' b', m0 !! l = Some (a', b', None)) ->
    constructed m0 !! l = None).
  { intros l Hl. unfold constructed. apply map_filter_lookup_None.
    destruct Hl as [Hl|(a' & b' & Hl)]; [by left|]. right. intros x Hx. rewrite Hl in Hx. simplify_eq. simpl.
    apply is_Some_None. }
  rewrite !count_cons. destruct e as [a b l|a b e|a b l|a t l x|a t l x e|a t l|t l x|t l x e]; simpl in *.
  - destruct (m0 !! l) eqn:Hl; simplify_eq. rewrite Hraw by auto. lia.
  - simplify_eq. lia.
  - destruct (m0 !! l) as [[[a' b'] [t|]]|] eqn:Hl; try done. destruct (_ && _); simplify_eq.
    unfold constructed at 1. rewrite map_filter_delete. fold (constructed m0).
    rewrite map_size_delete, Hnone by eauto. simpl. lia.
  - destruct (m0 !! l) as [[[a' b'] [t'|]]|] eqn:Hl; try done. destruct (_ && _); simplify_eq.
    unfold constructed at 1. rewrite map_filter_insert_True by (simpl; eauto). fold (constructed m0).
    rewrite map_size_insert, Hnone by eauto. simpl. lia.
  - destruct (m0 !! l) as [[[a' b'] [t'|]]|] eqn:Hl; try done. destruct (_ && _); simplify_eq. lia.
  - destruct (m0 !! l) as [[[a' b'] [t'|]]|] eqn:Hl; try done. destruct (bool_decide _); simplify_eq.
    assert (Hc : constructed (<[l := (a', b', None)]> m0) = delete l (constructed m0)).
    { unfold constructed. rewrite map_filter_insert_False by (simpl; apply is_Some_None).
      apply map_filter_delete. }
    assert (Hin : constructed m0 !! l = Some (a', b', Some t')).
    { unfold constructed. apply map_filter_lookup_Some. simpl. eauto. }
    rewrite Hc, map_size_delete, Hin.
    assert (size (constructed m0) <> 0).
    { intros H. apply map_size_empty_iff in H. rewrite H in Hin. by rewrite lookup_empty in Hin. }
    simpl. lia.
  - destruct (m0 !! l) as [[[a' b'] [t'|]]|] eqn:Hl; try done. destruct (_ && _); simplify_eq. lia.
  - destruct (m0 !! l) as [[[a' b'] [t'|]]|] eqn:Hl; try done. destruct (_ && _); simplify_eq. lia.
Qed.

Lemma log_balance h s :
  reachable h s ->
  count ev_alloc (trc s) = count ev_dealloc (trc s) + size (blocks s) /\
  count ev_cons (trc s) = count ev_destroy (trc s) + size (blocks s).
Proof.
  intros Hr. pose proof (reachable_logged h s Hr) as HL. unfold logged in HL. split.
  - rewrite (check_total _ _ HL). unfold summary. by rewrite map_size_fmap.
  - rewrite (check_total_cons _ _ HL).
    replace (constructed (summary (blocks s))) with (summary (blocks s)).
    { unfold summary. by rewrite map_size_fmap. }
    symmetry. apply map_eq. intros l. unfold constructed. rewrite map_filter_lookup.
    destruct (summary (blocks s) !! l) as [c|] eqn:Hl; [|done]. simpl.
    rewrite option_guard_True; [done|].
    rewrite summary_lookup in Hl. destruct (blocks s !! l) as [b|] eqn:Hb; [|done]. simpl in Hl. simplify_eq.
    destruct (unique_owner h s l b Hr Hb) as (x & a & _ & (t & v & Ho) & _).
    unfold sum_block. rewrite Ho. simpl. eauto.
Qed.

Lemma log_balance_all h s :
  reachable h s ->
  count ev_alloc (trc s) = count ev_dealloc (trc s) + size (blocks s) /\
  count ev_cons (trc s) = count ev_destroy (trc s) + size (blocks s) /\
  forall l, count (is_alloc l) (trc s) = count (is_dealloc l) (trc s) + (if blocks s !! l then 1 else 0) /\
    count (is_cons l) (trc s) = count (is_destroy l) (trc s) + (if blocks s !! l then 1 else 0).
Proof.
  intros Hr. destruct (log_balance h s Hr) as [H1 H2]. split; [done|]. split; [done|].
  intros l. pose proof (reachable_logged h s Hr) as HL.
  destruct (check_balance _ _ l HL) as [H3 H4]. rewrite H3, H4, summary_lookup.
  destruct (blocks s !! l) as [b|] eqn:Hb; [|done]. simpl.
  destruct (unique_owner h s l b Hr Hb) as (x & a & _ & (t & v & Ho) & _).
  unfold sum_block. by rewrite Ho.
Qed.

Lemma log_ok h s tr : reachable h s -> trc s = tr -> is_Some (check tr).
Proof. intros Hr <-. rewrite (reachable_logged h s Hr). eauto. Qed.

Lemma log_dealloc h s later a b l earlier :
  reachable h s -> trc s = later ++ EvDealloc a b l :: earlier ->
  exists mid a' before, earlier = mid ++ EvAlloc a' b l :: before /\ a_res E a = a_res E a' /\
    count (is_alloc l) mid = 0 /\ count (is_dealloc l) mid = 0 /\
    count (is_cons l) mid = count (is_destroy l) mid.
Proof. intros Hr Ht. eapply check_dealloc, log_ok; eauto. Qed.
Lemma log_destroy h s later a t l earlier :
  reachable h s -> trc s = later ++ EvDestroy a t l :: earlier ->
  exists mid a' x before, earlier = mid ++ EvCons a' t l x :: before /\
    count (is_cons l) mid = 0 /\ count (is_destroy l) mid = 0 /\
    count (is_alloc l) mid = 0 /\ count (is_dealloc l) mid = 0.
Proof. intros Hr Ht. eapply check_destroy, log_ok; eauto. Qed.
Lemma log_cons h s later a t l x earlier :
  reachable h s -> trc s = later ++ EvCons a t l x :: earlier ->
  exists mid a' b before, earlier = mid ++ EvAlloc a' b l :: before /\ bty_obj b = t /\
    count (is_dealloc l) mid = 0 /\ count (is_cons l) mid = count (is_destroy l) mid.
Proof. intros Hr Ht. eapply check_cons, log_ok; eauto. Qed.
Lemma log_asgn h s later t l x earlier :
  reachable h s -> trc s = later ++ EvAsgn t l x :: earlier ->
  exists mid a' x' before, earlier = mid ++ EvCons a' t l x' :: before /\
    count (is_destroy l) mid = 0 /\ count (is_dealloc l) mid = 0.
Proof. intros Hr Ht. eapply check_asgn, log_ok; eauto. Qed.
Lemma log_source h s later e earlier c l :
  reachable h s -> trc s = later ++ e :: earlier -> ev_source e = Some (c, l) ->
  exists mid a t x before, earlier = mid ++ EvCons a t l x :: before /\
    count (is_destroy l) mid = 0 /\ count (is_dealloc l) mid = 0.
Proof. intros Hr Ht He. eapply check_source; [|done]. eapply log_ok; eauto. Qed.

(** ** C17 *)
Lemma valueless_moved h (c : client E) X O outs s :
  safe_with (header_cfg h) (adm h) c (mkSpec ∅ X) ->
  run_client (header_impl h) c (init X O) = HOk outs s ->
  forall x a, valueless_at s x a -> x ∈ taint_run c outs ∅.
Proof.
  intros Hsafe Hrun x a Hx.
  pose proof (client_correct HA _ _ _ c (init X O) (header_implements HA h) (init_inv _ _ _)) as H.
  rewrite Hrun, init_abs in H. destruct (H Hsafe) as [HI Hsr].
  apply (run_taint _ _ _ _ _ ∅ Hsr).
  - intros w [b Hw]. simpl in Hw. by rewrite lookup_empty in Hw.
  - exists a. rewrite sv_abs, Hx. done.
Qed.

Lemma never_valueless h (c : client E) X O outs s :
  safe_with (header_cfg h) (adm h) c (mkSpec ∅ X) ->
  client_all (fun o => is_move o = false) c ->
  run_client (header_impl h) c (init X O) = HOk outs s ->
  forall x a, ~ valueless_at s x a.
Proof.
  intros Hsafe Hall Hrun x a Hx. pose proof (valueless_moved h c X O outs s Hsafe Hrun x a Hx) as Hin.
  rewrite run_nomove in Hin by done. set_solver.
Qed.

(** ** C07, C08 against the draft wording *)
Lemma client_draft (HC : CopyReq E) h (c : client E) X O :
  safe_with (draft_cfg h) (adm h) c (mkSpec ∅ X) ->
  match run_client (header_impl h) c (init X O) with
  | HOk outs s => spec_run (draft_cfg h) c (mkSpec ∅ X) outs (abs s)
  | HUB _ => False
  | HTerm => spec_term (draft_cfg h) c (mkSpec ∅ X)
  end.
Proof.
  intros Hsafe. apply (safe_draft HC (header_cfg h)) in Hsafe; [|apply header_lvalue].
  pose proof (client_correct HA _ _ _ c (init X O) (header_implements HA h) (init_inv _ _ _)) as H.
  rewrite init_abs in H. specialize (H Hsafe).
  destruct (run_client (header_impl h) c (init X O)) as [outs s|u|] eqn:Hrun; [|done|].
  2:{ apply (spec_term_draft HC (header_cfg h)); [apply header_lvalue|done]. }
  apply (spec_run_draft HC (header_cfg h)); [apply header_lvalue|]. apply H.
Qed.

Lemma init_nothrow h (c : client E) X O :
  safe_with (header_cfg h) (adm h) c (mkSpec ∅ X) -> (forall e, RespFail e ∉ O) ->
  exists outs s, run_client (header_impl h) c (init X O) = HOk (inl <$> outs) s /\
    spec_exec (header_cfg h) c (mkSpec ∅ X) = Some (outs, abs s).
Proof.
  intros Hsafe Hno. destruct (client_nothrow HA h c (init X O)) as (outs & s & H1 & H2).
  - apply init_inv.
  - by rewrite init_abs.
  - done.
  - rewrite init_abs in H2. eauto.
Qed.

Lemma draft_exact (HC : CopyReq E) h (c : client E) X outs σ' :
  safe_with (draft_cfg h) (adm h) c (mkSpec ∅ X) ->
  (exists O s', run_client (header_impl h) c (init X O) = HOk outs s' /\ abs s' = σ') <->
  spec_run (draft_cfg h) c (mkSpec ∅ X) outs σ'.
Proof.
  intros Hsafe. apply (safe_draft HC (header_cfg h)) in Hsafe; [|apply header_lvalue].
  rewrite (behaviours_exact HA h c X outs σ' Hsafe).
  apply (spec_run_draft HC (header_cfg h)), header_lvalue.
Qed.

End proofs.
