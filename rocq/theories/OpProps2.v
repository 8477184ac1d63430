(** * Operation-level properties, continued: exact preconditions, exceptions,
    termination, stability, costs, value assignment, forwarding. *)

From stdpp Require Import base gmap list.
From Verif Require Import Lang Common Client Spec SpecRun Rep Effect RunLemmas RunOps Refine
  RunInd RunPoly Headers Hist OpSpec OpFacts Draft OpProps.
From Verif Require Import Indirect20 Indirect14 Polymorphic20 Polymorphic14.

Section proofs.
Context {E : Env} (HA : AllocReq E).
Notation A := (eA E).
Notation V := (eV E).
Implicit Types s : store E.

(** ** C16: exact preconditions *)

Lemma inv_wrap k s x o a :
  Inv k s -> view s !! x = Some (o, a) -> wraps s !! x = Some (to_wrapper (o, a)).
Proof. intros HI Hx. by eapply rep_lookup. Qed.

Lemma swap_unequal h s x y ox ax oy ay :
  Inv (header_cls h) s -> view s !! x = Some (ox, ax) -> view s !! y = Some (oy, ay) ->
  pocs E = false -> a_eqb E ax ay = false ->
  run (interp (header_impl h) (OSwap x y)) s = OUB UBUnreachable.
Proof.
  intros HI Hx Hy Hp Hne.
  pose proof (inv_wrap _ _ _ _ _ HI Hx) as Wx. pose proof (inv_wrap _ _ _ _ _ HI Hy) as Wy.
  unfold to_wrapper in Wx, Wy. simpl in Wx, Wy.
  destruct h; cbn [interp header_impl indirect20 indirect14 polymorphic20 polymorphic14 i_swap];
    unfold quiet; rewrite run_bind;
    unfold Indirect20.swap, Indirect14.swap, Polymorphic20.swap, Polymorphic14.swap;
    rewrite run_noexcept, Hp; ex; rewrite Wx; ex; rewrite Wy; ex; rewrite Hne; done.
Qed.

Lemma star_valueless h s x a :
  Inv (header_cls h) s -> valueless_at s x a ->
  run (i_star (header_impl h) x) s = OUB UBNull.
Proof.
  intros HI Hx. pose proof (inv_wrap _ _ _ _ _ HI Hx) as Wx. unfold to_wrapper in Wx. simpl in Wx.
  destruct h; cbn [header_impl indirect20 indirect14 polymorphic20 polymorphic14 i_star];
    unfold Indirect20.op_star, Indirect14.op_star, Polymorphic20.op_star, Polymorphic14.op_star, deref_p;
    ex; rewrite Wx; ex; done.
Qed.

(** All objects an operation names are in the right phase of their life: the one to be
    created is absent, all others are alive; the client's own object exists;
    value assignment is only used on indirect. *)
Definition arg_exists s (g : carg E) : Prop :=
  match g with
  | GArgs _ => True
  | GExt _ n => is_Some (exts s !! n)
  | GDeref _ y => is_Some (view s !! y)
  end.

Definition objects_exist (h : header) s (o : op E) : Prop :=
  match o with
  | ODefault x | ODefaultA x _ => absent s x
  | OValue x _ g | OInPlace x _ g | OIlist x _ g
  | OValueA x _ _ g | OInPlaceA x _ _ g | OIlistA x _ _ g => absent s x /\ arg_exists s g
  | OCopy x y | OCopyA x _ y | OMove x y | OMoveA x _ y => absent s x /\ is_Some (view s !! y)
  | ODestroy x | OValueless x | OGetAlloc x | OMutate x _ | OGet x => is_Some (view s !! x)
  | OAssignC x y | OAssignM x y | OSwap x y => is_Some (view s !! x) /\ is_Some (view s !! y)
  | OAssignV x g => header_cls h = Ind /\ is_Some (view s !! x) /\ arg_exists s g
  | OExtSet _ _ _ => True
  end.

(** The operation dereferences a valueless object, or swaps without propagation
    between unequal allocators. *)
Definition derefs_valueless s (o : op E) : Prop :=
  let bad g := match g with GDeref _ y => exists a, valueless_at s y a | _ => False end in
  match o with
  | OValue _ _ g | OInPlace _ _ g | OIlist _ _ g
  | OValueA _ _ _ g | OInPlaceA _ _ _ g | OIlistA _ _ _ g | OAssignV _ g => bad g
  | OMutate x _ | OGet x => exists a, valueless_at s x a
  | _ => False
  end.
Definition swaps_unequal s (o : op E) : Prop :=
  match o with
  | OSwap x y => pocs E = false /\
      exists ox ax oy ay, view s !! x = Some (ox, ax) /\ view s !! y = Some (oy, ay) /\
        a_eqb E ax ay = false
  | _ => False
  end.

Lemma is_some_live s x : is_Some (view s !! x) -> live x (abs s) = true.
Proof. intros [[o a] H]. by eapply live_abs. Qed.

Lemma arg_pre_exists s g :
  arg_exists s g ->
  (arg_pre g (abs s) = true /\ ~ match g with GDeref _ y => exists a, valueless_at s y a | _ => False end) \/
  (arg_pre g (abs s) = false /\ match g with GDeref _ y => exists a, valueless_at s y a | _ => False end).
Proof.
  destruct g as [c|c n|c y]; simpl.
  - intros _. left. split; [done|tauto].
  - intros H. left. split; [|tauto]. by apply bool_decide_eq_true.
  - intros [[[[[l t] v]|] a] Hy].
    + left. split; [by eapply engaged_abs|]. intros [a' H]. unfold valueless_at in H. congruence.
    + right. split; [by eapply valueless_abs|]. by exists a.
Qed.

Lemma eval_valueless h s y c a :
  Inv (header_cls h) s -> valueless_at s y a ->
  forall X (f : arg E -> prog E X), run (bind (eval_arg (header_impl h) (GDeref c y)) f) s = OUB UBNull.
Proof.
  intros HI Hy X f. cbn [eval_arg]. rewrite !run_bind. by rewrite (star_valueless h s y a).
Qed.

Lemma exact_precondition h s (o : op E) :
  Inv (header_cls h) s -> objects_exist h s o -> adm h o (abs s) = true ->
  (exists u, run (interp (header_impl h) o) s = OUB u) <-> derefs_valueless s o \/ swaps_unequal s o.
Proof.
  intros HI Hex Hadm.
  assert (Hgood : pre (header_cfg h) o (abs s) = true -> ~ exists u, run (interp (header_impl h) o) s = OUB u).
  { intros Hpre [u Hu].
    destruct (op_correct HA (header_cfg h) (adm h) (header_impl h) s o
                (header_implements HA h) HI Hpre Hadm) as (res & _ & H). by rewrite Hu in H. }
  assert (Harg : forall g (f : arg E -> prog E unit), arg_exists s g ->
     (arg_pre g (abs s) = true /\ ~ match g with GDeref _ y => exists a, valueless_at s y a | _ => False end) \/
     (run (quiet (bind (eval_arg (header_impl h) g) f)) s = OUB UBNull /\
      match g with GDeref _ y => exists a, valueless_at s y a | _ => False end)).
  { intros g f Hg. destruct (arg_pre_exists s g Hg) as [?|[_ Hb]]; [by left|right].
    split; [|done]. destruct g as [| |c y]; try done. destruct Hb as [a Hb].
    unfold quiet. rewrite run_bind. by rewrite (eval_valueless h s y c a). }
  assert (Hfin : forall (P Q : Prop), ((pre (header_cfg h) o (abs s) = true /\ ~ P /\ ~ Q) \/
     ((exists u, run (interp (header_impl h) o) s = OUB u) /\ (P \/ Q))) ->
     ((exists u, run (interp (header_impl h) o) s = OUB u) <-> P \/ Q)).
  { intros P Q [(H1 & H2 & H3)|[H1 H2]]; [|tauto]. apply Hgood in H1. tauto. }
  apply Hfin. clear Hfin.
  assert (Hc : forall x g f, absent s x /\ arg_exists s g ->
    interp (header_impl h) o = quiet (bind (eval_arg (header_impl h) g) f) ->
    pre (header_cfg h) o (abs s) = negb (live x (abs s)) && arg_pre g (abs s) ->
    derefs_valueless s o = match g with GDeref _ y => exists a, valueless_at s y a | _ => False end ->
    swaps_unequal s o = False ->
    (pre (header_cfg h) o (abs s) = true /\ ~ derefs_valueless s o /\ ~ swaps_unequal s o) \/
    ((exists u, run (interp (header_impl h) o) s = OUB u) /\ (derefs_valueless s o \/ swaps_unequal s o))).
  { intros x g f [Hx Hg] -> -> -> ->. destruct (Harg g f Hg) as [[Hp Hb]|[Hp Hb]].
    - left. rewrite (dead_abs _ _ Hx), Hp. auto.
    - right. eauto. }
  assert (Hs : pre (header_cfg h) o (abs s) = true -> derefs_valueless s o = False ->
    swaps_unequal s o = False ->
    (pre (header_cfg h) o (abs s) = true /\ ~ derefs_valueless s o /\ ~ swaps_unequal s o) \/
    ((exists u, run (interp (header_impl h) o) s = OUB u) /\ (derefs_valueless s o \/ swaps_unequal s o))).
  { intros Hp -> ->. left. auto. }
  destruct o; simpl in Hex;
    try (eapply Hc; [exact Hex|reflexivity|reflexivity|reflexivity|reflexivity]).
  - apply Hs; [|done|done]. simpl. by rewrite dead_abs.
  - apply Hs; [|done|done]. simpl. by rewrite dead_abs.
  - apply Hs; [|done|done]. simpl. destruct Hex. by rewrite dead_abs, is_some_live.
  - apply Hs; [|done|done]. simpl. destruct Hex. by rewrite dead_abs, is_some_live.
  - apply Hs; [|done|done]. simpl. destruct Hex. by rewrite dead_abs, is_some_live.
  - apply Hs; [|done|done]. simpl. destruct Hex. by rewrite dead_abs, is_some_live.
  - apply Hs; [|done|done]. simpl. by rewrite is_some_live.
  - apply Hs; [|done|done]. simpl. destruct Hex. by rewrite !is_some_live.
  - apply Hs; [|done|done]. simpl. destruct Hex. by rewrite !is_some_live.
  - destruct Hex as (Hk & Hx & Hg).
    destruct (Harg g (i_value_assign (header_impl h) x) Hg) as [[Hp Hb]|[Hp Hb]].
    + left. split; [|split; [exact Hb|tauto]]. simpl. unfold header_cls in Hk. rewrite Hk.
      by rewrite is_some_live, Hp.
    + right. split; [|left; exact Hb]. eexists. exact Hp.
  - destruct Hex as [[[ox ax] Hx] [[oy ay] Hy]].
    destruct (pocs E || a_eqb E ax ay) eqn:Heq.
    + left. split; [|split; [tauto|]].
      * simpl. rewrite (live_abs _ _ _ _ Hx), (live_abs _ _ _ _ Hy).
        unfold equal_allocs. rewrite !sv_abs, Hx, Hy. done.
      * intros (Hp & ox' & ax' & oy' & ay' & Hx' & Hy' & Hne). simplify_eq.
        by rewrite Hp, Hne in Heq.
    + apply orb_false_iff in Heq as [Hp Hne]. right. split.
      * eexists. by eapply swap_unequal.
      * right. simpl. split; [done|]. eauto 10.
  - destruct Hex as [[[[[l t] v]|] a] Hx].
    + left. split; [by eapply engaged_abs|]. split; [|simpl; tauto].
      simpl. intros [a' H]. unfold valueless_at in H. congruence.
    + right. split; [|left; simpl; eauto]. exists UBNull.
      cbn [interp]. unfold quiet. rewrite !run_bind. by erewrite star_valueless.
  - destruct Hex as [[[[[l t] v]|] a] Hx].
    + left. split; [by eapply engaged_abs|]. split; [|simpl; tauto].
      simpl. intros [a' H]. unfold valueless_at in H. congruence.
    + right. split; [|left; simpl; eauto]. exists UBNull.
      cbn [interp]. rewrite !run_bind. by erewrite star_valueless.
  - apply Hs; [|done|done]. simpl. by rewrite is_some_live.
  - apply Hs; [|done|done]. simpl. by rewrite is_some_live.
  - by apply Hs.
Qed.

(** ** C18: failed construction *)

(** The object an operation's constructor argument refers to, and how it is passed. *)
Definition source (h : header) (o : op E) : option (cat * wl) :=
  match o with
  | OValue _ _ (GDeref c y) | OInPlace _ _ (GDeref c y) | OIlist _ _ (GDeref c y)
  | OValueA _ _ _ (GDeref c y) | OInPlaceA _ _ _ (GDeref c y) | OIlistA _ _ _ (GDeref c y) =>
      Some (c, y)
  | OCopy _ y | OCopyA _ _ y => Some (hcc h, y)
  | OMove _ y | OMoveA _ _ y => Some (RVal, y)
  | _ => None
  end.

(** [w] owns the same object at the same address as before, with the same
    allocator; its value may differ. *)
Definition same_shape s s' (w : wl) : Prop :=
  (fun o : option (loc * ty * V) * A => (fst <$> o.1, o.2)) <$> view s' !! w =
  (fun o : option (loc * ty * V) * A => (fst <$> o.1, o.2)) <$> view s !! w.

Lemma same_shape_obj s s' w l t v a :
  same_shape s s' w -> owns s w l t v a -> exists v', owns s' w l t v' a.
Proof.
  unfold same_shape, owns. intros H Hw. rewrite Hw in H.
  destruct (view s' !! w) as [[[[[l' t'] v']|] a']|]; simplify_eq/=. eauto.
Qed.

Lemma dom_blocks k s l :
  Inv k s -> is_Some (blocks s !! l) <-> exists w t v a, owns s w l t v a.
Proof.
  intros HI. split.
  - intros [b Hb]. by eapply rep_all.
  - intros (w & t & v & a & Hw). destruct (rep_own _ _ _ _ HI _ _ _ _ _ Hw) as (b & Hb & _). eauto.
Qed.

Lemma same_blocks k s s' :
  Inv k s -> Inv k s' -> (forall w, same_shape s s' w) ->
  forall l, is_Some (blocks s' !! l) <-> is_Some (blocks s !! l).
Proof.
  intros HI HI' Hsh l. rewrite (dom_blocks _ _ _ HI), (dom_blocks _ _ _ HI'). split.
  - intros (w & t & v & a & Hw).
    assert (H : same_shape s' s w) by (unfold same_shape; symmetry; apply Hsh).
    destruct (same_shape_obj _ _ _ _ _ _ _ H Hw) as [v' ?]. eauto 10.
  - intros (w & t & v & a & Hw).
    destruct (same_shape_obj _ _ _ _ _ _ _ (Hsh w) Hw) as [v' ?]. eauto 10.
Qed.

(** Every constructor builds its object from some argument, or does not throw. *)
Lemma ctor_veff h (o : op E) ω X r x :
  creates o = Some x -> pre (header_cfg h) o (abs_spec ω X) = true ->
  veff (header_cls h) (hcc h) (hca h) o ω X r ->
  (exists a t g, vconstruct (header_cls h) x a t g ω X r /\
     (forall c y, g = GDeref c y -> source h o = Some (c, y))) \/
  (exists ω' evs, r = VRet ObsUnit ω' X evs).
Proof.
  intros Hc Hpre Hr.
  assert (Hcc : forall x a y, vcopy_construct (header_cls h) (hcc h) x a y ω X r ->
    source h o = Some (hcc h, y) ->
    (exists a t g, vconstruct (header_cls h) x a t g ω X r /\
     (forall c y, g = GDeref c y -> source h o = Some (c, y))) \/
    (exists ω' evs, r = VRet ObsUnit ω' X evs)).
  { intros x0 a y Hv Hs. unfold vcopy_construct, vquiet in Hv.
    destruct (ω !! y) as [[[[[l t] v]|] ay]|]; [left|right; eauto|done].
    eexists _, _, _. split; [exact Hv|]. intros c y' Hg. injection Hg. by intros <- <-. }
  assert (Hmc : forall x a y, vmove_construct (header_cls h) x a y ω X r ->
    source h o = Some (RVal, y) ->
    (exists a t g, vconstruct (header_cls h) x a t g ω X r /\
     (forall c y, g = GDeref c y -> source h o = Some (c, y))) \/
    (exists ω' evs, r = VRet ObsUnit ω' X evs)).
  { intros x0 a y Hv Hs. unfold vmove_construct, vquiet in Hv.
    destruct (ω !! y) as [[[[[l t] v]|] ay]|]; [|right; eauto|done].
    destruct (_ || _); [right; eauto|left].
    eexists _, _, _. split; [exact Hv|]. intros c y' Hg. injection Hg. by intros <- <-. }
  destruct o; simpl in Hc; try done; injection Hc; intros <-; cbn [veff] in Hr;
    try (left; eexists _, _, _; split; [exact Hr|]; intros c' y' Hg; first [done|by rewrite Hg]).
  - destruct (ω !! y) as [[]|]; [|done]. by eapply Hcc.
  - by eapply Hcc.
  - destruct (ω !! y) as [[]|]; [|done]. by eapply Hmc.
  - by eapply Hmc.
Qed.

Lemma failed_construction h s (o : op E) x e s' :
  Inv (header_cls h) s -> creates o = Some x ->
  pre (header_cfg h) o (abs s) = true -> adm h o (abs s) = true ->
  run (interp (header_impl h) o) s = OThrow e s' ->
  RespFail e ∈ orc s /\ absent s' x /\
  (forall w, same_shape s s' w) /\
  (forall w, (forall c, source h o = Some (c, w) -> c = ConstL) -> same_at s s' w) /\
  (forall l, is_Some (blocks s' !! l) <-> is_Some (blocks s !! l)) /\
  ((exists a b, trc s' = EvAllocFail a b e :: trc s) \/
   (exists a b t l xa, trc s' = EvDealloc a b l :: EvConsFail a t l xa e :: EvAlloc a b l :: trc s)).
Proof.
  intros HI Hc Hpre Hadm Hrun.
  destruct (run_effect HA h s o HI Hpre Hadm) as (r & Hr & Hm).
  destruct (ctor_veff h o _ _ r x Hc Hpre Hr) as [(a & t & g & Hcon & Hsrc)|(ω' & evs & ->)].
  2:{ destruct Hm as (s1 & Hs1 & _). congruence. }
  assert (Hx : absent s x).
  { assert (Hl : live x (abs s) = false).
    { destruct o; simpl in Hc; simplify_eq; simpl in Hpre;
      rewrite ?andb_true_iff, negb_true_iff in Hpre; tauto. }
    unfold live in Hl. apply bool_decide_eq_false in Hl. rewrite sv_abs in Hl. unfold absent.
    destruct (view s !! x); [|done]. exfalso. apply Hl. simpl. eauto. }
  pose proof (construct_run _ _ _ _ _ _ _ _ HI Hcon Hm) as H.
  rewrite Hrun in H. destruct H as (Hin & HI' & H). split; [done|].
  assert (Hsh : forall w, same_shape s s' w).
  { intros w. unfold same_shape. destruct H as [(-> & _)|(l & xa & v & v1 & v2 & _ & _ & _ & -> & _)]; [done|].
    apply vset_owned. }
  assert (Hx' : absent s' x).
  { specialize (Hsh x). unfold same_shape, absent in *. rewrite Hx in Hsh.
    by destruct (view s' !! x). }
  split; [done|]. split; [done|]. split.
  { intros w Hw. unfold same_at. destruct H as [(-> & _)|(l & xa & v & v1 & v2 & _ & _ & _ & -> & _)]; [done|].
    apply vset_keeps. destruct g as [|c n|c y]; [done|done|]. simpl.
    destruct (decide (w = y)) as [->|]; [|by rewrite bool_decide_false].
    rewrite (Hw c); [by rewrite orb_true_r|]. by apply Hsrc. }
  split; [by eapply same_blocks|].
  destruct H as [(_ & _ & Ht)|(l & xa & v & v1 & v2 & _ & _ & _ & _ & _ & Ht)]; [left|right]; eauto 10.
Qed.

(** ** C19: copy assignment *)

Lemma copy_assign_effect h s x y :
  Inv (header_cls h) s -> is_Some (view s !! x) -> is_Some (view s !! y) ->
  exists r, vcopy_assign (header_cls h) (hca h) x y (view s) (exts s) r /\
            agrees_run h s r (run (interp (header_impl h) (OAssignC x y)) s).
Proof.
  intros HI Hx Hy. apply (run_effect HA h s (OAssignC x y)); [done| |by destruct h].
  simpl. by rewrite !is_some_live.
Qed.

Lemma copy_assign_throws h s x y e s' :
  Inv (header_cls h) s -> is_Some (view s !! x) -> is_Some (view s !! y) ->
  run (interp (header_impl h) (OAssignC x y)) s = OThrow e s' ->
  RespFail e ∈ orc s /\ (forall w, w <> x -> w <> y -> same_at s s' w) /\
  (forall l, is_Some (blocks s' !! l) <-> is_Some (blocks s !! l)) /\ exts s' = exts s /\
  exists l t v ay, owns s y l t v ay /\
    ((same_at s s' x /\
      (same_at s s' y \/ owns s' y l t (t_cons_fail E NonConstL t t v) ay)) \/
     (header_cls h = Ind /\ same_at s s' y /\
      exists lx tx vx ax, owns s x lx tx vx ax /\
        owns s' x lx tx (t_asgn_fail E ConstL tx t vx v).1 ax /\
        trc s' = EvAsgnFail tx lx (ARef ConstL (RBlk l)) e :: trc s)).
Proof.
  intros HI Hx Hy Hrun. destruct (copy_assign_effect h s x y HI Hx Hy) as (r & Hr & Hm).
  destruct Hx as [[ox ax] Hx]. destruct Hy as [[oy ay] Hy].
  unfold vcopy_assign, vquiet in Hr. case_bool_decide as Hxy.
  { subst r. destruct Hm as (s1 & Hs1 & _). congruence. }
  rewrite Hx, Hy in Hr. destruct oy as [[[l t] v]|].
  2:{ subst r. destruct Hm as (s1 & Hs1 & _). congruence. }
  destruct (match header_cls h, ox with | Ind, Some _ => t_assignable E && a_eqb E ax ay | _, _ => false end) eqn:Hip.
  - pose proof (assign_run _ _ _ _ _ _ _ Hr Hm) as H. rewrite Hrun in H.
    destruct H as (Hin & HI' & lx & tx & vx & ax' & xa & d & v1 & Hx' & Hxa & Hv & HX & Ht & Hd).
    simpl in Hxa. rewrite Hy in Hxa. unfold owns in Hx'. simplify_eq. simpl in Hv, HX.
    rewrite bool_decide_false in Hd by done. destruct Hd as (t' & v' & Ho & Hd). simpl in Ho.
    rewrite lookup_absv, Hy in Ho. simpl in Ho. simplify_eq.
    split; [done|]. unfold same_at, owns. rewrite Hv. split.
    { intros w Hw _. by rewrite lookup_insert_ne. }
    split.
    { eapply same_blocks; [done|done|]. intros w. unfold same_shape. rewrite Hv.
      destruct (decide (w = x)) as [->|]; [rewrite lookup_insert, Hx; done|by rewrite lookup_insert_ne]. }
    split; [done|]. exists l, t', v', ay. split; [done|]. right.
    split; [by destruct h|]. split; [by rewrite lookup_insert_ne|].
    exists lx, tx, vx, ax. split; [done|]. split; [|done]. rewrite lookup_insert.
    simpl in Hd. by rewrite <- Hd.
  - pose proof (construct_run _ _ _ _ _ _ _ _ HI Hr Hm) as H. rewrite Hrun in H.
    destruct H as (Hin & HI' & H). split; [done|].
    assert (Hsh : forall w, same_shape s s' w).
    { intros w. unfold same_shape. destruct H as [(-> & _)|(l' & xa & v0 & v1 & v2 & _ & _ & _ & -> & _)]; [done|].
      apply vset_owned. }
    assert (Hne : forall w, w <> y -> same_at s s' w).
    { intros w Hw. unfold same_at. destruct H as [(-> & _)|(l' & xa & v0 & v1 & v2 & _ & _ & _ & -> & _)]; [done|].
      apply vset_lookup_ne. intros c y0 Hg. injection Hg. intros <- _. done. }
    split; [intros; by apply Hne|]. split; [by eapply same_blocks|].
    split; [by destruct H as [(_ & -> & _)|(l' & xa & v0 & v1 & v2 & _ & _ & _ & _ & -> & _)]|].
    exists l, t, v, ay. split; [done|]. left. split; [by apply Hne|].
    destruct H as [(Hv & _)|(l' & xa & v0 & v1 & v2 & _ & _ & Hmk & Hv & _)].
    + left. unfold same_at. by rewrite Hv.
    + right. unfold owns. rewrite Hv.
      assert (Hca : hca h = NonConstL) by (by destruct h). rewrite Hca in *.
      unfold vmake in Hmk. simpl in Hmk. rewrite lookup_absv, Hy in Hmk. simpl in Hmk.
      destruct (t_cons E NonConstL t t _ v). simplify_eq. simpl.
      by rewrite lookup_alter, Hy.
Qed.

(** ** C20: move assignment *)

Lemma move_assign_throws h s x y e s' :
  Inv (header_cls h) s -> is_Some (view s !! x) -> is_Some (view s !! y) ->
  run (interp (header_impl h) (OAssignM x y)) s = OThrow e s' ->
  RespFail e ∈ orc s /\ (forall w, w <> y -> same_at s s' w) /\ exts s' = exts s /\
  exists l t v a, owns s y l t v a /\
    (same_at s s' y \/ owns s' y l t (t_cons_fail E RVal t t v) a).
Proof.
  intros HI [[ox ax] Hx] [[oy ay] Hy] Hrun.
  destruct (decide (x = y)) as [->|Hne].
  { rewrite (proj2 (self_assign h s y)) in Hrun. done. }
  destruct oy as [[[l t] v]|].
  - destruct (a_eqb E ax ay) eqn:Heq.
    { destruct (move_assign_equal HA h s x y _ _ _ _ HI Hne Hx Hy Heq) as (s1 & H1 & _). congruence. }
    pose proof (move_assign_unequal HA h s x y _ _ l t v ay HI Hne Hx Hy Heq) as H.
    cbv zeta in H. rewrite Hrun in H. destruct H as (_ & Hin & Hw & HX & Hy').
    split; [done|]. split; [done|]. split; [done|]. exists l, t, v, ay. done.
  - destruct (move_assign_valueless HA h s x y _ _ _ HI Hne Hx Hy) as (s1 & H1 & _). congruence.
Qed.

(** ** C21: noexcept *)

Lemma no_terminate h s (o : op E) :
  Inv (header_cls h) s -> pre (header_cfg h) o (abs s) = true -> adm h o (abs s) = true ->
  may_terminate o (abs s) = false -> run (interp (header_impl h) o) s <> OTerm.
Proof.
  intros HI Hpre Hadm Hmt Hrun.
  destruct (op_correct HA (header_cfg h) (adm h) (header_impl h) s o
              (header_implements HA h) HI Hpre Hadm) as (res & _ & H).
  rewrite Hrun in H. congruence.
Qed.

(** The exception is thrown whenever the oracle says so. *)
Lemma does_terminate h s x y ox ax l t v ay e :
  Inv (header_cls h) s -> x <> y -> view s !! x = Some (ox, ax) -> owns s y l t v ay ->
  pocma E = true -> a_eqb E ax ay = false ->
  run (interp (header_impl h) (OAssignM x y)) (set_orc [RespFail e] s) = OTerm.
Proof.
  intros HI Hne Hx Hy Hp Heq.
  pose proof (inv_wrap _ _ _ _ _ HI Hx) as Wx. pose proof (inv_wrap _ _ _ _ _ HI Hy) as Wy.
  destruct (rep_own _ _ _ _ HI _ _ _ _ _ Hy) as (b & Hb & (_ & Ho & _ & Hh & _)).
  unfold to_wrapper in Wx, Wy. simpl in Wx, Wy.
  destruct s as [B W X O tr]. cbn [wraps blocks] in *.
  destruct h; cbn [interp header_impl indirect20 indirect14 polymorphic20 polymorphic14 i_move_assign];
    unfold quiet; rewrite run_bind;
    unfold Indirect20.move_assign, Indirect14.move_assign, Polymorphic20.move_assign, Polymorphic14.move_assign;
    rewrite run_noexcept, decide_False by done; rewrite Hp;
    unfold Indirect20.valueless_after_move, Indirect14.valueless_after_move,
      Polymorphic20.valueless_after_move, Polymorphic14.valueless_after_move; ex; rewrite Wy; ex;
    rewrite Wx; ex; rewrite Wy; ex; rewrite Heq; ex; rewrite ?Wy; ex; unfold deref_p; ex; rewrite ?Wy; ex;
    unfold Indirect20.construct_from, Indirect14.construct_from; ex; rewrite ?Wy; ex;
    unfold Polymorphic20.cb_move, Polymorphic14.cb_move; ex; rewrite ?Hb; ex; rewrite ?Hh; ex; done.
Qed.

End proofs.
