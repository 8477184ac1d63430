(** * Operation-level properties, continued: independence, allocators, stability,
    costs, value assignment, forwarding, sources of copies. *)

From stdpp Require Import base gmap list.
From Verif Require Import Lang Common Client Spec SpecRun Rep Effect RunLemmas RunOps Refine
  RunInd RunPoly Headers Hist OpSpec OpFacts Draft OpProps OpProps2.

Section proofs.
Context {E : Env} (HA : AllocReq E).
Notation A := (eA E).
Notation V := (eV E).
Implicit Types s : store E.

(** ** C09 *)

(** [s'] is the store after [o], whether it returned or threw. *)
Definition after (h : header) s (o : op E) s' : Prop :=
  (exists r, run (interp (header_impl h) o) s = ORet r s') \/
  (exists e, run (interp (header_impl h) o) s = OThrow e s').

Lemma after_effect h s o s' :
  Inv (header_cls h) s -> pre (header_cfg h) o (abs s) = true -> adm h o (abs s) = true ->
  after h s o s' ->
  exists r, veff (header_cls h) (hcc h) (hca h) o (view s) (exts s) r /\
    agrees_run h s r (run (interp (header_impl h) o) s) /\
    match r with VRet _ ω _ _ | VThrow _ ω _ _ => view s' = ω | VTerm => False end.
Proof.
  intros HI Hpre Hadm Haft. destruct (run_effect HA h s o HI Hpre Hadm) as (r & Hr & Hm).
  exists r. split; [done|]. split; [done|].
  destruct Haft as [[ob Hrun]|[e Hrun]]; rewrite Hrun in Hm; destruct r; simpl in Hm;
    (try by destruct Hm as (? & ? & _)); try (by destruct Hm as (? & _)).
  - destruct Hm as (s1 & ? & _ & ? & _). by simplify_eq.
  - destruct Hm as (s1 & ? & _ & ? & _). by simplify_eq.
Qed.

Lemma independence h s o s' w :
  Inv (header_cls h) s -> pre (header_cfg h) o (abs s) = true -> adm h o (abs s) = true ->
  after h s o s' -> w ∉ names o -> same_at s s' w.
Proof.
  intros HI Hpre Hadm Haft Hw. destruct (after_effect h s o s' HI Hpre Hadm Haft) as (r & Hr & _ & Hv).
  pose proof (veff_frame (header_cls h) (hcc h) (hca h) o _ _ r w Hr Hw) as H. unfold same_at.
  destruct r; [by rewrite Hv|by rewrite Hv|done].
Qed.

(** Whole client programs. *)
Lemma client_independence h (c : client E) s outs s' w :
  Inv (header_cls h) s -> safe_with (header_cfg h) (adm h) c (abs s) ->
  run_client (header_impl h) c s = HOk outs s' -> client_all (fun o => w ∉ names o) c ->
  same_at s s' w.
Proof.
  revert s outs. induction c as [|o next IH]; intros s outs HI Hsafe Hrun Hall; simpl in Hrun.
  { simplify_eq. done. }
  destruct Hsafe as (Hpre & Hadm & Hnext). destruct Hall as [Hw Hall].
  destruct (op_correct HA _ _ _ s o (header_implements HA h) HI Hpre Hadm) as (res & Hstep & Hc).
  destruct (Hnext res Hstep) as [Hok Hexn].
  destruct (run (interp (header_impl h) o) s) as [x s1|e s1|u|] eqn:Hr1; try done.
  - destruct Hc as (HI1 & -> & Habs). rewrite <- Habs in Hok.
    destruct (run_client _ (next (inl (r_obs res))) s1) as [outs1 s2| |] eqn:Hr2; simplify_eq/=.
    assert (H1 : same_at s s1 w) by (eapply independence; eauto; left; eauto).
    assert (H2 : same_at s1 s' w) by (eapply IH; eauto). unfold same_at in *. congruence.
  - destruct Hc as (HI1 & Hin & _). specialize (Hexn e _ Hin).
    destruct (run_client _ (next (inr e)) s1) as [outs1 s2| |] eqn:Hr2; simplify_eq/=.
    assert (H1 : same_at s s1 w) by (eapply independence; eauto; right; eauto).
    assert (H2 : same_at s1 s' w) by (eapply IH; eauto). unfold same_at in *. congruence.
Qed.

(** ** C22 *)
Definition get_alloc s (w : wl) : option A := w_a <$> wraps s !! w.

Lemma get_alloc_view s w : get_alloc s w = valloc (view s) w.
Proof.
  unfold get_alloc, valloc, view. rewrite lookup_fmap. by destruct (wraps s !! w).
Qed.

Lemma allocator_after h s o :
  Inv (header_cls h) s -> pre (header_cfg h) o (abs s) = true -> adm h o (abs s) = true ->
  match run (interp (header_impl h) o) s with
  | ORet _ s' => forall w, get_alloc s' w = alloc_after o (get_alloc s) w
  | OThrow _ s' => forall w, get_alloc s' w = get_alloc s w
  | _ => True
  end.
Proof.
  intros HI Hpre Hadm. destruct (run_effect HA h s o HI Hpre Hadm) as (r & Hr & Hm).
  pose proof (veff_alloc (header_cls h) (hcc h) (hca h) o _ _ r Hpre Hr) as H.
  destruct r as [ob ω X evs|e ω X evs|]; simpl in Hm.
  - destruct Hm as (s' & -> & _ & Hv & _). intros w. rewrite get_alloc_view, Hv.
    simpl in H. rewrite H. clear.
    destruct o; simpl; rewrite ?get_alloc_view; try done; repeat case_decide; rewrite ?get_alloc_view; try done;
    destruct (pocs E); try done; repeat case_decide; by rewrite ?get_alloc_view.
  - destruct Hm as (s' & -> & _ & Hv & _). intros w. rewrite !get_alloc_view, Hv. apply H.
  - by destruct Hm as [-> _].
Qed.

(** ** C24 *)
Lemma stability h s o x l t v a :
  Inv (header_cls h) s -> pre (header_cfg h) o (abs s) = true -> adm h o (abs s) = true ->
  owns s x l t v a ->
  match run (interp (header_impl h) o) s with
  | ORet _ s' =>
      match owner_after (header_cls h) o (abs s) x with
      | Some w => exists v' a', owns s' w l t v' a' /\
                    (keeps (header_cfg h) o (abs s) x = true -> v' = v)
      | None => exists a0 new, trc s' = new ++ trc s /\
                    EvDestroy a0 t l ∈ new /\ EvDealloc a0 (hbty h t) l ∈ new
      end
  | OThrow _ s' => exists v', owns s' x l t v' a /\
                    (keeps (header_cfg h) o (abs s) x = true -> v' = v)
  | _ => True
  end.
Proof.
  intros HI Hpre Hadm Hx. destruct (run_effect HA h s o HI Hpre Hadm) as (r & Hr & Hm).
  pose proof (veff_owner (header_cls h) (hcc h) (hca h) o _ _ r x l t v a Hpre Hr Hx) as H.
  change (mkCfg (header_cls h) (hcc h) (hca h)) with
    (mkCfg (c_cls (header_cfg h)) (c_cc (header_cfg h)) (c_ca (header_cfg h))) in H.
  replace (mkCfg (c_cls (header_cfg h)) (c_cc (header_cfg h)) (c_ca (header_cfg h)))
    with (header_cfg h) in H by (by destruct h).
  destruct r as [ob ω X evs|e ω X evs|]; simpl in Hm.
  - destruct Hm as (s' & -> & _ & Hv & _ & Ht). unfold owner_result in H.
    fold (abs s) in H. change (abs_spec (view s) (exts s)) with (abs s) in H.
    destruct (owner_after (header_cls h) o (abs s) x).
    + unfold owns. rewrite Hv. exact H.
    + destruct H as (a0 & H1 & H2). exists a0, evs. done.
  - destruct Hm as (s' & -> & _ & Hv & _ & Ht & _). unfold owner_result in H.
    change (abs_spec (view s) (exts s)) with (abs s) in H. unfold owns. rewrite Hv. exact H.
  - by destruct Hm as [-> _].
Qed.

(** ** C25 *)
Lemma exact_cost h s o :
  Inv (header_cls h) s -> pre (header_cfg h) o (abs s) = true -> adm h o (abs s) = true ->
  match run (interp (header_impl h) o) s with
  | ORet _ s' => exists new, trc s' = new ++ trc s /\ tally new = cost (header_cls h) o (abs s)
  | _ => True
  end.
Proof.
  intros HI Hpre Hadm. destruct (run_effect HA h s o HI Hpre Hadm) as (r & Hr & Hm).
  pose proof (veff_cost (header_cls h) (hcc h) (hca h) o _ _ r Hpre Hr) as H.
  destruct r as [ob ω X evs|e ω X evs|]; simpl in Hm.
  - destruct Hm as (s' & -> & _ & Hv & _ & Ht). simpl in H. exists evs. done.
  - by destruct Hm as (s' & -> & _).
  - by destruct Hm as [-> _].
Qed.

(** ** C26: value assignment *)
Lemma value_assign_effect h s x g ox ax :
  Inv (header_cls h) s -> header_cls h = Ind -> view s !! x = Some (ox, ax) ->
  arg_pre g (abs s) = true ->
  exists r, vvalue_assign (header_cls h) x g (view s) (exts s) r /\
            agrees_run h s r (run (interp (header_impl h) (OAssignV x g)) s).
Proof.
  intros HI Hk Hx Hg. apply (run_effect HA h s (OAssignV x g)); [done| |by destruct h].
  simpl. unfold header_cls in Hk. rewrite Hk. by rewrite (live_abs _ _ _ _ Hx), Hg.
Qed.

Lemma value_assign_engaged h s x g l t v a :
  Inv (header_cls h) s -> header_cls h = Ind -> owns s x l t v a -> arg_pre g (abs s) = true ->
  assign_outcome h s x a g (run (interp (header_impl h) (OAssignV x g)) s).
Proof.
  intros HI Hk Hx Hg. destruct (value_assign_effect h s x g _ _ HI Hk Hx Hg) as (r & Hr & Hm).
  unfold vvalue_assign in Hr. rewrite Hx in Hr. by eapply assign_run.
Qed.

Lemma value_assign_valueless h s x g a :
  Inv (header_cls h) s -> header_cls h = Ind -> valueless_at s x a -> arg_pre g (abs s) = true ->
  construct_outcome h s x a (tT E) g (run (interp (header_impl h) (OAssignV x g)) s).
Proof.
  intros HI Hk Hx Hg. destruct (value_assign_effect h s x g _ _ HI Hk Hx Hg) as (r & Hr & Hm).
  unfold vvalue_assign in Hr. rewrite Hx in Hr. by eapply construct_run.
Qed.

(** ** C27: forwarding *)

(** A constructor taking an argument: the new object, its allocator, the requested
    type and the argument. *)
Definition ctor_arg (o : op E) : option (wl * A * ty * carg E) :=
  match o with
  | ODefault x => Some (x, a_default E, tT E, GArgs (c_empty E))
  | ODefaultA x a => Some (x, a, tT E, GArgs (c_empty E))
  | OValue x t g | OInPlace x t g | OIlist x t g => Some (x, a_default E, t, g)
  | OValueA x a t g | OInPlaceA x a t g | OIlistA x a t g => Some (x, a, t, g)
  | _ => None
  end.

(** The type of the object it creates: indirect always creates a T. *)
Definition created_type (h : header) (t : ty) : ty := match header_cls h with Ind => tT E | Poly => t end.

Lemma forwarding h s o x a t g :
  Inv (header_cls h) s -> ctor_arg o = Some (x, a, t, g) ->
  pre (header_cfg h) o (abs s) = true -> adm h o (abs s) = true ->
  construct_outcome h s x a (created_type h t) g (run (interp (header_impl h) o) s).
Proof.
  intros HI Ho Hpre Hadm. destruct (run_effect HA h s o HI Hpre Hadm) as (r & Hr & Hm).
  eapply construct_run; [done| |done].
  assert (Hw : forall t, vwant (E := E) (header_cls h) t = created_type h t) by (by destruct h).
  destruct o; simplify_eq/=; rewrite <- ?Hw; try done.
  all: replace (vwant (E := E) (header_cls h) (tT E)) with (tT E) by (by destruct h); done.
Qed.

(** Exceptions come from the environment, unchanged. *)
Definition raises (e : exn) (ev : event E) : bool :=
  match ev with
  | EvAllocFail _ _ e' | EvConsFail _ _ _ _ e' | EvAsgnFail _ _ _ e' => Nat.eqb e e'
  | _ => false
  end.
Definition is_fail (ev : event E) : bool :=
  match ev with EvAllocFail _ _ _ | EvConsFail _ _ _ _ _ | EvAsgnFail _ _ _ _ => true | _ => false end.

Lemma vconstruct_exn k x a t g ω X r :
  vconstruct k x a t g ω X r ->
  match r with
  | VThrow e _ _ evs => List.filter is_fail evs = [EvAllocFail a (kbty k t) e] \/
      exists l xa, List.filter is_fail evs = [EvConsFail a t l xa e]
  | VRet _ _ _ evs => List.filter is_fail evs = []
  | VTerm => True
  end.
Proof.
  intros H. apply vconstruct_inv in H as [(l & v & v' & X' & xa & -> & _)|[(e & ->)|
    (e & l & v' & X' & xa & -> & _)]]; simpl; [|by left|right; eauto].
  by destruct (ω !! x) as [[[[[]]|]]|].
Qed.

Lemma vassign_exn (x : wl) a' g ω X r :
  vassign x a' g ω X r ->
  match r with
  | VThrow e _ _ evs => exists t l xa, List.filter is_fail evs = [EvAsgnFail (E := E) t l xa e]
  | VRet _ _ _ evs => List.filter is_fail evs = []
  | VTerm => True
  end.
Proof.
  intros H. apply vassign_inv in H as (l & t0 & v0 & a & xa & Hx & _ &
    [(d & v1 & X' & ->)|(e & d & v1 & X' & ->)]); simpl; eauto.
Qed.

Definition fails_of (r : vres E) : Prop :=
  match r with
  | VThrow e _ _ evs => exists ev, List.filter is_fail evs = [ev] /\ raises e ev = true
  | VRet _ _ _ evs => List.filter is_fail evs = []
  | VTerm => True
  end.

Lemma veff_exn k cc ca o ω X r : veff k cc ca o ω X r -> fails_of r.
Proof.
  assert (Hcon : forall x a t g, vconstruct k x a t g ω X r -> fails_of r).
  { intros x a t g H. apply vconstruct_exn in H. destruct r; simpl; try done.
    destruct H as [H|(l & xa & H)]; eexists; (split; [exact H|]); simpl; apply Nat.eqb_refl. }
  assert (Has : forall x a g, vassign x a g ω X r -> fails_of r).
  { intros x a g H. apply vassign_exn in H. destruct r; simpl; try done.
    destruct H as (t & l & xa & H); eexists; (split; [exact H|]); simpl; apply Nat.eqb_refl. }
  assert (Hq : forall ob ω' X' evs, r = VRet ob ω' X' evs -> List.filter is_fail evs = [] -> fails_of r).
  { intros ob ω' X' evs -> H. exact H. }
  assert (Hre : forall ox (a : A), List.filter is_fail (reset_ev k ox a) = []) by (by intros [[[]]|]).
  assert (Hcc : forall c x a y, vcopy_construct k c x a y ω X r -> fails_of r).
  { intros c x a y H. unfold vcopy_construct in H.
    destruct (ω !! y) as [[[[[l t] v]|] ay]|]; [by eapply Hcon|by eapply Hq|done]. }
  assert (Hmc : forall x a y, vmove_construct k x a y ω X r -> fails_of r).
  { intros x a y H. unfold vmove_construct in H.
    destruct (ω !! y) as [[[[[l t] v]|] ay]|]; [|by eapply Hq|done].
    destruct (_ || _); [by eapply Hq|by eapply Hcon]. }
  intros Hr. destruct o; cbn [veff] in Hr; try (by eapply Hcon).
  - destruct (ω !! y) as [[]|]; [by eapply Hcc|done].
  - by eapply Hcc.
  - destruct (ω !! y) as [[]|]; [by eapply Hmc|done].
  - by eapply Hmc.
  - destruct (ω !! x) as [[]|]; [by eapply Hq|done].
  - unfold vcopy_assign in Hr. destruct (bool_decide _); [by eapply Hq|].
    destruct (ω !! x) as [[ox ax]|]; [|done].
    destruct (ω !! y) as [[[[[l t] v]|] ay]|]; [|by eapply Hq|done].
    lazymatch type of Hr with if ?b then _ else _ => destruct b end; [by eapply Has|by eapply Hcon].
  - apply vnoexcept_inv in Hr as [Hr|[-> _]]; [|done].
    unfold vmove_assign in Hr. destruct (bool_decide _); [by eapply Hq|].
    destruct (ω !! x) as [[ox ax]|]; [|done].
    destruct (ω !! y) as [[[[[l t] v]|] ay]|]; [|by eapply Hq|done].
    lazymatch type of Hr with if ?b then _ else _ => destruct b end; [by eapply Hq|by eapply Hcon].
  - unfold vvalue_assign in Hr. destruct (ω !! x) as [[[[[l t] v]|] a]|]; [by eapply Has|by eapply Hcon|done].
  - unfold vswap in Hr. destruct (ω !! x) as [[]|], (ω !! y) as [[]|]; try done.
    destruct (pocs E); by eapply Hq.
  - destruct (ω !! x) as [[[[[]]|]]|]; try done. by eapply Hq.
  - destruct (ω !! x) as [[[[[]]|]]|]; try done. by eapply Hq.
  - destruct (ω !! x) as [[]|]; [|done]. by eapply Hq.
  - destruct (ω !! x) as [[]|]; [|done]. by eapply Hq.
  - by eapply Hq.
Qed.

(** An operation throws exactly when one of the allocator or value-type calls it makes
    throws, it makes no further throwing call after that, and the exception is the same. *)
Lemma exception_identity h s o :
  Inv (header_cls h) s -> pre (header_cfg h) o (abs s) = true -> adm h o (abs s) = true ->
  match run (interp (header_impl h) o) s with
  | ORet _ s' => exists new, trc s' = new ++ trc s /\ List.filter is_fail new = []
  | OThrow e s' => exists new ev, trc s' = new ++ trc s /\
      List.filter is_fail new = [ev] /\ raises e ev = true
  | OTerm => True
  | OUB _ => False
  end.
Proof.
  intros HI Hpre Hadm. destruct (run_effect HA h s o HI Hpre Hadm) as (r & Hr & Hm).
  pose proof (veff_exn _ _ _ _ _ _ _ Hr) as H.
  destruct r as [ob ω X evs|e ω X evs|]; simpl in Hm.
  - destruct Hm as (s' & -> & _ & Hv & _ & Ht). exists evs. done.
  - destruct Hm as (s' & -> & _ & Hv & _ & Ht & _). destruct H as (ev & H1 & H2). exists evs, ev. done.
  - by destruct Hm as [-> _].
Qed.

(** ** C28: the source of a copy *)
Lemma vset_id c y ω l t v a :
  ω !! y = Some (Some (l, t, v), a) -> vset (E := E) (GDeref c y) v ω = ω.
Proof.
  intros Hy. destruct c; [done| |]; simpl; apply map_eq; intros w;
  (destruct (decide (y = w)) as [<-|]; [rewrite lookup_alter, Hy; done|by rewrite lookup_alter_ne]).
Qed.

Definition copies_from (o : op E) (x y : wl) : Prop :=
  o = OCopy x y \/ (exists a, o = OCopyA x a y) \/ o = OAssignC x y.

Lemma copy_source_unchanged (HC : CopyReq E) h s o x y s' :
  Inv (header_cls h) s -> pre (header_cfg h) o (abs s) = true -> copies_from o x y -> x <> y ->
  after h s o s' -> same_at s s' y.
Proof.
  intros HI Hpre Ho Hne Haft.
  assert (Hadm : adm h o (abs s) = true).
  { destruct Ho as [->|[[a ->]| ->]]; by destruct h. }
  destruct (after_effect h s o s' HI Hpre Hadm Haft) as (r & Hr & _ & Hv).
  assert (Hset : forall c t a l tx v ay v1 v2 v3, c = ConstL \/ c = NonConstL ->
    view s !! y = Some (Some (l, tx, v), ay) ->
    vmake t a (GDeref c y) (view s) (exts s) = Some (v1, v2, v3) ->
    vset (GDeref c y) v2 (view s) = view s /\ vset (GDeref c y) v3 (view s) = view s).
  { intros c t a l tx v ay v1 v2 v3 [->| ->] Hy Hmk; [done|].
    unfold vmake in Hmk. simpl in Hmk. rewrite lookup_absv, Hy in Hmk. simpl in Hmk.
    rewrite (cr_cons _ HC), (cr_fail _ HC) in Hmk. simplify_eq.
    split; by eapply vset_id. }
  assert (Hcon : forall c a t l tx v ay, c = ConstL \/ c = NonConstL ->
    view s !! y = Some (Some (l, tx, v), ay) ->
    vconstruct (header_cls h) x a t (GDeref c y) (view s) (exts s) r -> same_at s s' y).
  { intros c a t l tx v ay Hc Hy (evs & cr & ω1 & X1 & Hcr & Hres).
    unfold same_at. inversion Hcr; subst; simpl in Hres; subst r; rewrite Hv; try done.
    - edestruct (Hset c) as [Hs1 Hs2]; [done|done|done|]. simpl in Hs2. by rewrite Hs2.
    - edestruct (Hset c) as [Hs1 Hs2]; [done|done|done|]. rewrite lookup_insert_ne by done. simpl in Hs1. by rewrite Hs1. }
  assert (Hcc : hcc h = ConstL \/ hcc h = NonConstL) by (destruct h; auto).
  assert (Hca : hca h = ConstL \/ hca h = NonConstL) by (destruct h; auto).
  assert (Hcp : forall a, vcopy_construct (header_cls h) (hcc h) x a y (view s) (exts s) r -> same_at s s' y).
  { intros a H. unfold vcopy_construct in H. destruct (view s !! y) as [[[[[l t] v]|] ay]|] eqn:Hy; [| |done].
    - by eapply (Hcon (hcc h)).
    - rewrite H in Hv. unfold same_at. rewrite Hv, Hy. by rewrite lookup_insert_ne. }
  destruct Ho as [->|[[a ->]| ->]]; cbn [veff] in Hr.
  - destruct (view s !! y) as [[]|] eqn:Hy; [|done]. by eapply Hcp.
  - by eapply Hcp.
  - unfold vcopy_assign in Hr. rewrite bool_decide_false in Hr by done.
    destruct (view s !! x) as [[ox ax]|] eqn:Hx; [|done].
    destruct (view s !! y) as [[[[[l t] v]|] ay]|] eqn:Hy; [| |done].
    + lazymatch type of Hr with if ?b then _ else _ => destruct b end; [|by eapply (Hcon (hca h))].
      apply vassign_inv in Hr as (l' & t0 & v0 & a & xa & Hx' & _ &
        [(d & v1 & X' & ->)|(e & d & v1 & X' & ->)]); unfold same_at; rewrite Hv;
        by rewrite lookup_insert_ne.
    + rewrite Hr in Hv. unfold same_at. rewrite Hv. by rewrite lookup_insert_ne.
Qed.


End proofs.
