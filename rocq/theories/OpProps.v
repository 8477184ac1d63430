(** * Operation-level properties: proofs.

    Lemmas behind the theorems of the Props*.v files, for all four headers at once. *)

From stdpp Require Import base gmap list.
From Verif Require Import Lang Common Client Spec SpecRun Rep Effect RunLemmas RunOps Refine
  RunInd RunPoly Headers Hist OpSpec OpFacts Draft.

(** ** Vocabulary: what the store says about an object *)

(** [x] is alive with allocator [a] and owns, at address [l], an object of
    dynamic type [t] and value [v]. *)
Definition owns {E} (s : store E) (x : wl) (l : loc) (t : ty) (v : eV E) (a : eA E) : Prop :=
  view s !! x = Some (Some (l, t, v), a).
(** [x] is alive with allocator [a] and valueless. *)
Definition valueless_at {E} (s : store E) (x : wl) (a : eA E) : Prop :=
  view s !! x = Some (None, a).
(** [x] is not alive. *)
Definition absent {E} (s : store E) (x : wl) : Prop := view s !! x = None.
(** Nothing about [w] differs between the two stores. *)
Definition same_at {E} (s s' : store E) (w : wl) : Prop := view s' !! w = view s !! w.
(** No allocator or value-type call separates the two stores. *)
Definition no_calls {E} (s s' : store E) : Prop := trc s' = trc s.

Definition hcc (h : header) : cat := c_cc (header_cfg h).
Definition hca (h : header) : cat := c_ca (header_cfg h).
Definition hbty (h : header) : ty -> bty := kbty (header_cls h).

Section proofs.
Context {E : Env} (HA : AllocReq E).
Notation A := (eA E).
Notation V := (eV E).
Implicit Types s : store E.

Lemma fresh_block k s l : Inv k s -> fresh_in l (view s) -> blocks s !! l = None.
Proof.
  intros HI Hf. apply eq_None_not_Some. intros [b Hb].
  destruct (rep_all _ _ _ _ HI _ _ Hb) as (w & t & v & a & Hw). by apply Hf in Hw.
Qed.

(** Outcome of an operation that gives [x] a new object of type [t] made from [g] with
    allocator [a], having owned nothing before. *)
Definition construct_outcome (h : header) s (x : wl) (a : A) (t : ty) (g : carg E)
    (out : outcome E (obs E)) : Prop :=
  match out with
  | ORet r s' =>
      r = ObsUnit /\ Inv (header_cls h) s' /\
      exists l xa v v1 v2, blocks s !! l = None /\ vref g (view s) = Some xa /\
        vmake t a g (view s) (exts s) = Some (v, v1, v2) /\
        view s' = <[x := (Some (l, t, v), a)]> (vset g v1 (view s)) /\
        exts s' = eset g v1 (exts s) /\
        trc s' = (match view s !! x with
                  | Some (o, a0) => reset_ev (header_cls h) o a0 | None => [] end) ++
                 EvCons a t l xa :: EvAlloc a (hbty h t) l :: trc s
  | OThrow e s' =>
      RespFail e ∈ orc s /\ Inv (header_cls h) s' /\
      ((view s' = view s /\ exts s' = exts s /\ trc s' = EvAllocFail a (hbty h t) e :: trc s) \/
       exists l xa v v1 v2, blocks s !! l = None /\ vref g (view s) = Some xa /\
        vmake t a g (view s) (exts s) = Some (v, v1, v2) /\
        view s' = vset g v2 (view s) /\ exts s' = eset g v2 (exts s) /\
        trc s' = EvDealloc a (hbty h t) l :: EvConsFail a t l xa e ::
                 EvAlloc a (hbty h t) l :: trc s)
  | OUB _ | OTerm => False
  end.

(** Agreement of a run with a result of the effect relation. *)
Definition agrees_run (h : header) s (r : vres E) (out : outcome E (obs E)) : Prop :=
  match r with
  | VRet x ω X evs =>
      exists s', out = ORet x s' /\ Inv (header_cls h) s' /\
        view s' = ω /\ exts s' = X /\ trc s' = evs ++ trc s
  | VThrow e ω X evs =>
      exists s', out = OThrow e s' /\ Inv (header_cls h) s' /\
        view s' = ω /\ exts s' = X /\ trc s' = evs ++ trc s /\ RespFail e ∈ orc s
  | VTerm => out = OTerm /\ exists e, RespFail e ∈ orc s
  end.

Lemma run_effect h s o :
  Inv (header_cls h) s -> pre (header_cfg h) o (abs s) = true -> adm h o (abs s) = true ->
  exists r, veff (header_cls h) (hcc h) (hca h) o (view s) (exts s) r /\
            agrees_run h s r (run (interp (header_impl h) o) s).
Proof. intros. by apply op_effect. Qed.

Lemma construct_run h s x a t g r out :
  Inv (header_cls h) s -> vconstruct (header_cls h) x a t g (view s) (exts s) r ->
  agrees_run h s r out -> construct_outcome h s x a t g out.
Proof.
  intros HI (evs & c & ω1 & X1 & Hc & Hr) Hm.
  inversion Hc; subst; simpl in Hr; subst r; simpl in Hm.
  - destruct Hm as (s' & -> & HI' & Hv & HX & Ht & Hin). simpl. auto 10.
  - destruct Hm as (s' & -> & HI' & Hv & HX & Ht & Hin). simpl. split; [done|]. split; [done|].
    right. exists l, xa, v, v1, v2. split; [by eapply fresh_block|]. done.
  - destruct Hm as (s' & -> & HI' & Hv & HX & Ht). simpl. split; [done|]. split; [done|].
    exists l, xa, v, v1, v2. split; [by eapply fresh_block|].
    rewrite <- app_assoc in Ht. done.
Qed.

(** Outcome of an in-place assignment [*x = g]; [a'] the allocator afterwards. *)
Definition assign_outcome (h : header) s (x : wl) (a' : A) (g : carg E) (out : outcome E (obs E)) : Prop :=
  match out with
  | ORet r s' =>
      r = ObsUnit /\ Inv (header_cls h) s' /\
      exists l t0 v0 a xa d v1, owns s x l t0 v0 a /\ vref g (view s) = Some xa /\
        view s' = <[x := (Some (l, t0, d), a')]> (vset g v1 (view s)) /\
        exts s' = eset g v1 (exts s) /\ trc s' = EvAsgn t0 l xa :: trc s /\
        match g with
        | GArgs c => d = t_asgn_args E t0 v0 c
        | _ => if (match g with GDeref _ y => bool_decide (x = y) | _ => false end)
               then d = t_self E (arg_cat g) t0 v0
               else exists t' v, arg_obj g (abs s) = Some (t', v) /\
                      (d, v1) = t_asgn E (arg_cat g) t0 t' v0 v
        end
  | OThrow e s' =>
      RespFail e ∈ orc s /\ Inv (header_cls h) s' /\
      exists l t0 v0 a xa d v1, owns s x l t0 v0 a /\ vref g (view s) = Some xa /\
        view s' = <[x := (Some (l, t0, d), a)]> (vset g v1 (view s)) /\
        exts s' = eset g v1 (exts s) /\ trc s' = EvAsgnFail t0 l xa e :: trc s /\
        match g with
        | GArgs c => d = t_asgn_args_fail E t0 v0 c
        | _ => if (match g with GDeref _ y => bool_decide (x = y) | _ => false end)
               then d = t_self_fail E (arg_cat g) t0 v0
               else exists t' v, arg_obj g (abs s) = Some (t', v) /\
                      (d, v1) = t_asgn_fail E (arg_cat g) t0 t' v0 v
        end
  | OUB _ | OTerm => False
  end.

Lemma assign_run h s x a' g r out :
  vassign x a' g (view s) (exts s) r -> agrees_run h s r out -> assign_outcome h s x a' g out.
Proof.
  intros (l & t0 & v0 & a & xa & d & v1 & df & v2 & Hx & Hg & Hd & Hr) Hm.
  destruct Hr as [->|[e ->]]; simpl in Hm.
  - destruct Hm as (s' & -> & HI & Hv & HX & Ht). simpl. split; [done|]. split; [done|].
    exists l, t0, v0, a, xa, d, v1. split_and!; try done.
    destruct g; [by destruct Hd| |].
    + destruct Hd as (t' & v & ? & ? & ?). eauto.
    + destruct (bool_decide _); [by destruct Hd|]. destruct Hd as (t' & v & ? & ? & ?). eauto.
  - destruct Hm as (s' & -> & HI & Hv & HX & Ht & Hin). simpl. split; [done|]. split; [done|].
    exists l, t0, v0, a, xa, df, v2. split_and!; try done.
    destruct g; [by destruct Hd| |].
    + destruct Hd as (t' & v & ? & ? & ?). eauto.
    + destruct (bool_decide _); [by destruct Hd|]. destruct Hd as (t' & v & ? & ? & ?). eauto.
Qed.

Lemma live_abs s x o a : view s !! x = Some (o, a) -> live x (abs s) = true.
Proof.
  intros H. unfold live, abs, abs_spec. simpl. rewrite lookup_absv, H. done.
Qed.
Lemma dead_abs s x : absent s x -> live x (abs s) = false.
Proof. intros H. unfold live, abs, abs_spec. simpl. rewrite lookup_absv, H. done. Qed.
Lemma engaged_abs s x l t v a : owns s x l t v a -> engaged x (abs s) = true.
Proof. intros H. unfold engaged, abs, abs_spec. simpl. rewrite lookup_absv, H. done. Qed.
Lemma valueless_abs s x a : valueless_at s x a -> engaged x (abs s) = false.
Proof. intros H. unfold engaged, abs, abs_spec. simpl. rewrite lookup_absv, H. done. Qed.
Lemma sv_abs s x : sv (abs s) !! x = erase_obj <$> view s !! x.
Proof. unfold abs, abs_spec. simpl. apply lookup_absv. Qed.

(** ** C10: copy construction *)

(** [o] copy-constructs [x] from [y] with allocator [a]. *)
Definition copies_with s (o : op E) (x y : wl) (a : A) : Prop :=
  (o = OCopy x y /\ exists oy ay, view s !! y = Some (oy, ay) /\ a = a_soccc E ay) \/
  o = OCopyA x a y.

Lemma copy_effect h s o x y a oy ay :
  Inv (header_cls h) s -> copies_with s o x y a -> absent s x -> view s !! y = Some (oy, ay) ->
  exists r, vcopy_construct (header_cls h) (hcc h) x a y (view s) (exts s) r /\
            agrees_run h s r (run (interp (header_impl h) o) s).
Proof.
  intros HI Ho Hx Hy.
  assert (Hpre : pre (header_cfg h) o (abs s) = true).
  { destruct Ho as [[-> _]| ->]; simpl; by rewrite (dead_abs _ _ Hx), (live_abs _ _ _ _ Hy). }
  assert (Hadm : adm h o (abs s) = true) by (destruct Ho as [[-> _]| ->], h; done).
  destruct (run_effect h s o HI Hpre Hadm) as (r & Hr & Hm). exists r. split; [|done].
  destruct Ho as [[-> (oy' & ay' & Hy' & ->)]| ->]; simpl in Hr; [|done].
  rewrite Hy in Hr. simplify_eq. done.
Qed.

Lemma copy_valueless h s o x y a ay :
  Inv (header_cls h) s -> copies_with s o x y a -> absent s x -> valueless_at s y ay ->
  exists s', run (interp (header_impl h) o) s = ORet ObsUnit s' /\
    view s' = <[x := (None, a)]> (view s) /\ exts s' = exts s /\ no_calls s s'.
Proof.
  intros HI Ho Hx Hy. destruct (copy_effect h s o x y a _ _ HI Ho Hx Hy) as (r & Hr & Hm).
  unfold vcopy_construct in Hr. rewrite Hy in Hr. rewrite Hr in Hm.
  destruct Hm as (s' & Hs' & _ & Hv & HX & Ht). eauto 10.
Qed.

Lemma copy_engaged h s o x y a l t v ay :
  Inv (header_cls h) s -> copies_with s o x y a -> absent s x -> owns s y l t v ay ->
  match run (interp (header_impl h) o) s with
  | ORet r s' =>
      exists l', blocks s !! l' = None /\ l' <> l /\
        owns s' x l' t (t_cons E (hcc h) t t a v).1 a /\
        owns s' y l t (if is_constl (hcc h) then v else (t_cons E (hcc h) t t a v).2) ay /\
        (forall w, w <> x -> w <> y -> same_at s s' w) /\ exts s' = exts s /\
        trc s' = EvCons a t l' (ARef (hcc h) (RBlk l)) :: EvAlloc a (hbty h t) l' :: trc s
  | OThrow e s' =>
      RespFail e ∈ orc s /\ absent s' x /\
      (forall w, w <> y -> same_at s s' w) /\
      (same_at s s' y \/
       owns s' y l t (if is_constl (hcc h) then v else t_cons_fail E (hcc h) t t v) ay)
  | OUB _ | OTerm => False
  end.
Proof.
  intros HI Ho Hx Hy. destruct (copy_effect h s o x y a _ _ HI Ho Hx Hy) as (r & Hr & Hm).
  unfold vcopy_construct in Hr. rewrite Hy in Hr.
  assert (Hxy : x <> y) by (intros ->; unfold absent, owns in *; congruence).
  pose proof (construct_run _ _ _ _ _ _ _ _ HI Hr Hm) as H. clear Hr Hm r.
  assert (Hset : forall u, vset (GDeref (hcc h) y) u (view s) !! y =
                  Some (Some (l, t, if is_constl (hcc h) then v else u), ay)).
  { intros u. destruct h; simpl; try done; rewrite lookup_alter, Hy; done. }
  assert (Hset' : forall u w, w <> y -> vset (GDeref (hcc h) y) u (view s) !! w = view s !! w).
  { intros u w Hw. apply vset_lookup_ne. intros c y0 Hg. injection Hg. intros -> _. done. }
  assert (Hmk : vmake t a (GDeref (hcc h) y) (view s) (exts s) =
    Some ((t_cons E (hcc h) t t a v).1, (t_cons E (hcc h) t t a v).2, t_cons_fail E (hcc h) t t v)).
  { unfold vmake. simpl. rewrite lookup_absv, Hy. simpl. by destruct (t_cons E (hcc h) t t a v). }
  destruct (run (interp (header_impl h) o) s) as [ob s'|e s'|u|]; cbv beta iota delta [construct_outcome] in H; try done.
  - destruct H as (-> & _ & l' & xa & v0 & v1 & v2 & Hl & Hxa & Hv & Hvw & HX & Ht).
    rewrite Hmk in Hv. simpl in Hxa. rewrite Hy in Hxa. simplify_eq.
    exists l'. split; [done|]. split.
    { intros ->. destruct (rep_own _ _ _ _ HI _ _ _ _ _ Hy) as (b & Hb & _). congruence. }
    unfold owns, same_at. rewrite Hvw. split; [apply lookup_insert|].
    split; [by rewrite lookup_insert_ne|]. split.
    { intros w Hwx Hwy. rewrite lookup_insert_ne by done. by apply Hset'. }
    split; [by destruct h|]. rewrite Ht. by rewrite Hx.
  - destruct H as (Hin & _ & [(Hvw & HX & Ht)|(l' & xa & v0 & v1 & v2 & Hl & Hxa & Hv & Hvw & HX & Ht)]).
    + unfold absent, same_at. rewrite Hvw. auto.
    + rewrite Hmk in Hv. simplify_eq. split; [done|]. unfold absent, same_at, owns. rewrite Hvw.
      split; [rewrite Hset' by done; done|]. split; [by apply Hset'|]. right. by rewrite Hset.
Qed.

(** ** C11, C12: move construction *)

Definition moves_with s (o : op E) (x y : wl) (a : A) : Prop :=
  (o = OMove x y /\ exists oy, view s !! y = Some (oy, a)) \/ o = OMoveA x a y.

Lemma move_effect h s o x y a oy ay :
  Inv (header_cls h) s -> moves_with s o x y a -> adm h o (abs s) = true -> absent s x ->
  view s !! y = Some (oy, ay) ->
  exists r, vmove_construct (header_cls h) x a y (view s) (exts s) r /\
            agrees_run h s r (run (interp (header_impl h) o) s).
Proof.
  intros HI Ho Hadm Hx Hy.
  assert (Hpre : pre (header_cfg h) o (abs s) = true).
  { destruct Ho as [[-> _]| ->]; simpl; by rewrite (dead_abs _ _ Hx), (live_abs _ _ _ _ Hy). }
  destruct (run_effect h s o HI Hpre Hadm) as (r & Hr & Hm). exists r. split; [|done].
  destruct Ho as [[-> (oy' & Hy')]| ->]; simpl in Hr; [|done].
  rewrite Hy in Hr. simplify_eq. done.
Qed.

(** Moving between equal allocators needs no extra condition for any header. *)
Lemma adm_move_equal h s o x y a oy ay :
  moves_with s o x y a -> view s !! y = Some (oy, ay) ->
  always_equal E || a_eqb E a ay = true -> adm h o (abs s) = true.
Proof.
  intros Ho Hy Heq. assert (Heq' : a_eqb E a ay = true).
  { apply orb_true_iff in Heq as [Hae|]; [by apply HA|done]. }
  destruct h; try done. destruct Ho as [[-> (oy' & Hy')]| ->]; simpl;
    rewrite lookup_absv, Hy; simpl; destruct oy; simpl; try done.
  - simplify_eq. done.
  - rewrite Heq'. apply orb_true_r.
Qed.

Lemma move_steals h s o x y a oy ay :
  Inv (header_cls h) s -> moves_with s o x y a -> absent s x -> view s !! y = Some (oy, ay) ->
  always_equal E || a_eqb E a ay = true ->
  exists s', run (interp (header_impl h) o) s = ORet ObsUnit s' /\
    view s' = <[x := (oy, a)]> (<[y := (None, ay)]> (view s)) /\
    exts s' = exts s /\ no_calls s s'.
Proof.
  intros HI Ho Hx Hy Heq.
  destruct (move_effect h s o x y a _ _ HI Ho (adm_move_equal _ _ _ _ _ _ _ _ Ho Hy Heq) Hx Hy) as (r & Hr & Hm).
  unfold vmove_construct in Hr. rewrite Hy in Hr. destruct oy as [oy|].
  - rewrite Heq in Hr. rewrite Hr in Hm. destruct Hm as (s' & Hs' & _ & Hv & HX & Ht). eauto 10.
  - rewrite Hr in Hm. destruct Hm as (s' & Hs' & _ & Hv & HX & Ht). exists s'.
    rewrite (insert_id (view s) y) by done. auto.
Qed.

(** With unequal allocators the value is moved into new storage and the source keeps its
    (moved-from) object. *)
Lemma move_unequal h s o x y a l t v ay :
  Inv (header_cls h) s -> moves_with s o x y a -> adm h o (abs s) = true -> absent s x ->
  owns s y l t v ay -> always_equal E || a_eqb E a ay = false ->
  match run (interp (header_impl h) o) s with
  | ORet r s' =>
      exists l', blocks s !! l' = None /\ l' <> l /\
        owns s' x l' t (t_cons E RVal t t a v).1 a /\
        owns s' y l t (t_cons E RVal t t a v).2 ay /\
        (forall w, w <> x -> w <> y -> same_at s s' w) /\ exts s' = exts s /\
        trc s' = EvCons a t l' (ARef RVal (RBlk l)) :: EvAlloc a (hbty h t) l' :: trc s
  | OThrow e s' =>
      RespFail e ∈ orc s /\ absent s' x /\
      (forall w, w <> y -> same_at s s' w) /\
      (same_at s s' y \/ owns s' y l t (t_cons_fail E RVal t t v) ay)
  | OUB _ | OTerm => False
  end.
Proof.
  intros HI Ho Hadm Hx Hy Hne.
  destruct (move_effect h s o x y a _ _ HI Ho Hadm Hx Hy) as (r & Hr & Hm).
  unfold vmove_construct in Hr. rewrite Hy, Hne in Hr. simpl in Hr.
  assert (Hxy : x <> y) by (intros ->; unfold absent, owns in *; congruence).
  pose proof (construct_run _ _ _ _ _ _ _ _ HI Hr Hm) as H. clear Hr Hm r.
  assert (Hmk : vmake t a (GDeref RVal y) (view s) (exts s) =
    Some ((t_cons E RVal t t a v).1, (t_cons E RVal t t a v).2, t_cons_fail E RVal t t v)).
  { unfold vmake. simpl. rewrite lookup_absv, Hy. simpl. by destruct (t_cons E RVal t t a v). }
  destruct (run (interp (header_impl h) o) s) as [ob s'|e s'|u|]; cbv beta iota delta [construct_outcome] in H; try done.
  - destruct H as (-> & _ & l' & xa & v0 & v1 & v2 & Hl & Hxa & Hv & Hvw & HX & Ht).
    rewrite Hmk in Hv. simpl in Hvw, HX. simpl in Hxa. rewrite Hy in Hxa. simplify_eq.
    exists l'. split; [done|]. split.
    { intros ->. destruct (rep_own _ _ _ _ HI _ _ _ _ _ Hy) as (b & Hb & _). congruence. }
    unfold owns, same_at. rewrite Hvw. split; [apply lookup_insert|].
    split; [rewrite lookup_insert_ne by done; by rewrite lookup_alter, Hy|]. split.
    { intros w Hwx Hwy. by rewrite lookup_insert_ne, lookup_alter_ne by done. }
    split; [done|]. rewrite Ht. by rewrite Hx.
  - destruct H as (Hin & _ & [(Hvw & HX & Ht)|(l' & xa & v0 & v1 & v2 & Hl & Hxa & Hv & Hvw & HX & Ht)]).
    + unfold absent, same_at. rewrite Hvw. auto.
    + rewrite Hmk in Hv. simpl in Hvw, HX. simplify_eq. split; [done|]. unfold absent, same_at, owns. rewrite Hvw.
      split; [by rewrite lookup_alter_ne|]. split; [intros w Hw; by rewrite lookup_alter_ne|].
      right. by rewrite lookup_alter, Hy.
Qed.

(** Exactly when the source of a move construction is valueless afterwards. *)
Lemma move_source_valueless h s o x y a oy ay r s' :
  Inv (header_cls h) s -> moves_with s o x y a -> adm h o (abs s) = true -> absent s x ->
  view s !! y = Some (oy, ay) ->
  run (interp (header_impl h) o) s = ORet r s' ->
  valueless_at s' y ay <-> oy = None \/ always_equal E || a_eqb E a ay = true.
Proof.
  intros HI Ho Hadm Hx Hy Hrun.
  assert (Hxy : x <> y) by (intros ->; unfold absent in *; congruence).
  destruct (always_equal E || a_eqb E a ay) eqn:Heq.
  - destruct (move_steals h s o x y a oy ay HI Ho Hx Hy Heq) as (s1 & Hs1 & Hv & _). rewrite Hrun in Hs1.
    simplify_eq. split; [auto|]. intros _. unfold valueless_at. rewrite Hv.
    rewrite lookup_insert_ne by done. by rewrite lookup_insert.
  - destruct oy as [[[l t] v]|].
    + pose proof (move_unequal h s o x y a l t v ay HI Ho Hadm Hx Hy Heq) as H. rewrite Hrun in H.
      destruct H as (l' & _ & _ & _ & Hy' & _). unfold owns, valueless_at in *. rewrite Hy'.
      split; [done|]. intros [?|?]; done.
    + split; [auto|]. intros _.
      destruct (move_effect h s o x y a _ _ HI Ho Hadm Hx Hy) as (r' & Hr & Hm).
      unfold vmove_construct in Hr. rewrite Hy in Hr. rewrite Hr in Hm.
      destruct Hm as (s1 & Hs1 & _ & Hv & _). rewrite Hrun in Hs1. simplify_eq. unfold valueless_at. rewrite Hv.
      by rewrite lookup_insert_ne.
Qed.

(** ** C13: move assignment *)

Lemma move_assign_effect h s x y ox ax oy ay :
  Inv (header_cls h) s -> view s !! x = Some (ox, ax) -> view s !! y = Some (oy, ay) ->
  exists r, vnoexcept (pocma E || always_equal E)
              (vmove_assign (header_cls h) x y (view s) (exts s)) r /\
            agrees_run h s r (run (interp (header_impl h) (OAssignM x y)) s).
Proof.
  intros HI Hx Hy. apply (run_effect h s (OAssignM x y)); [done| |by destruct h].
  simpl. by rewrite (live_abs _ _ _ _ Hx), (live_abs _ _ _ _ Hy).
Qed.

(** Calls that give up the object owned by [x] (newest first). *)
Definition release (h : header) (ox : option (loc * ty * V)) (a : A) : list (event E) :=
  match ox with
  | Some (l, t, _) => [EvDealloc a (hbty h t) l; EvDestroy a t l]
  | None => []
  end.

Lemma release_eq h ox a : reset_ev (header_cls h) ox a = release h ox a.
Proof. by destruct ox as [[[]]|]. Qed.

Lemma vnoexcept_ret nx ω X evs (P : vres E -> Prop) r :
  (forall r', P r' <-> vquiet ω X evs r') -> vnoexcept nx P r -> vquiet ω X evs r.
Proof.
  intros HP. unfold vnoexcept. destruct nx; [|apply HP].
  intros [(o & ω' & X' & evs' & H & ->)|(e & ω' & X' & evs' & H & ->)]; [by apply HP|].
  apply HP in H. unfold vquiet in H. done.
Qed.

Lemma move_assign_equal h s x y ox ax o ay :
  Inv (header_cls h) s -> x <> y -> view s !! x = Some (ox, ax) -> view s !! y = Some (Some o, ay) ->
  a_eqb E ax ay = true ->
  exists s', run (interp (header_impl h) (OAssignM x y)) s = ORet ObsUnit s' /\
    view s' = <[x := (Some o, if pocma E then ay else ax)]> (<[y := (None, ay)]> (view s)) /\
    exts s' = exts s /\ trc s' = release h ox ay ++ trc s.
Proof.
  intros HI Hne Hx Hy Heq. destruct (move_assign_effect h s x y _ _ _ _ HI Hx Hy) as (r & Hr & Hm).
  eapply vnoexcept_ret in Hr.
  2:{ intros r'. unfold vmove_assign. rewrite bool_decide_false by done. rewrite Hx, Hy, Heq. done. }
  rewrite Hr in Hm. destruct Hm as (s' & Hs' & _ & Hv & HX & Ht). rewrite release_eq in Ht. eauto 10.
Qed.

Lemma move_assign_valueless h s x y ox ax ay :
  Inv (header_cls h) s -> x <> y -> view s !! x = Some (ox, ax) -> valueless_at s y ay ->
  exists s', run (interp (header_impl h) (OAssignM x y)) s = ORet ObsUnit s' /\
    view s' = <[x := (None, if pocma E then ay else ax)]> (view s) /\
    exts s' = exts s /\ trc s' = release h ox ax ++ trc s.
Proof.
  intros HI Hne Hx Hy. destruct (move_assign_effect h s x y _ _ _ _ HI Hx Hy) as (r & Hr & Hm).
  eapply vnoexcept_ret in Hr.
  2:{ intros r'. unfold vmove_assign. rewrite bool_decide_false by done. rewrite Hx, Hy. done. }
  rewrite Hr in Hm. destruct Hm as (s' & Hs' & _ & Hv & HX & Ht). rewrite release_eq in Ht. eauto 10.
Qed.

Lemma move_assign_unequal h s x y ox ax l t v ay :
  Inv (header_cls h) s -> x <> y -> view s !! x = Some (ox, ax) -> owns s y l t v ay ->
  a_eqb E ax ay = false ->
  let a := if pocma E then ay else ax in
  match run (interp (header_impl h) (OAssignM x y)) s with
  | ORet r s' =>
      exists l', blocks s !! l' = None /\ l' <> l /\
        owns s' x l' t (t_cons E RVal t t a v).1 a /\
        owns s' y l t (t_cons E RVal t t a v).2 ay /\
        (forall w, w <> x -> w <> y -> same_at s s' w) /\ exts s' = exts s /\
        trc s' = release h ox ax ++
                 EvCons a t l' (ARef RVal (RBlk l)) :: EvAlloc a (hbty h t) l' :: trc s
  | OThrow e s' =>
      pocma E || always_equal E = false /\ RespFail e ∈ orc s /\
      (forall w, w <> y -> same_at s s' w) /\ exts s' = exts s /\
      (same_at s s' y \/ owns s' y l t (t_cons_fail E RVal t t v) ay)
  | OUB _ => False
  | OTerm => pocma E || always_equal E = true /\ exists e, RespFail e ∈ orc s
  end.
Proof.
  intros HI Hne Hx Hy Heq a. destruct (move_assign_effect h s x y _ _ _ _ HI Hx Hy) as (r & Hr & Hm).
  assert (Hmk : vmake t a (GDeref RVal y) (view s) (exts s) =
    Some ((t_cons E RVal t t a v).1, (t_cons E RVal t t a v).2, t_cons_fail E RVal t t v)).
  { unfold vmake. simpl. rewrite lookup_absv, Hy. simpl. by destruct (t_cons E RVal t t a v). }
  assert (Hcase : (r = VTerm /\ pocma E || always_equal E = true) \/
     (vconstruct (header_cls h) x a t (GDeref RVal y) (view s) (exts s) r /\
      (pocma E || always_equal E = true -> exists o ω X evs, r = VRet o ω X evs))).
  { unfold vnoexcept in Hr.
    assert (Hv : forall r', vmove_assign (header_cls h) x y (view s) (exts s) r' ->
              vconstruct (header_cls h) x a t (GDeref RVal y) (view s) (exts s) r').
    { intros r'. unfold vmove_assign. rewrite bool_decide_false by done.
      rewrite Hx, Hy, Heq. done. }
    destruct (pocma E || always_equal E).
    - destruct Hr as [(o & ω & X & evs & H & ->)|(e & ω & X & evs & H & ->)]; [right|left; done].
      split; [by apply Hv|]. eauto.
    - right. split; [by apply Hv|done]. }
  destruct Hcase as [[-> Hnx]|[Hr' Hnx]].
  { destruct Hm as [-> Hin]. done. }
  pose proof (construct_run _ _ _ _ _ _ _ _ HI Hr' Hm) as H.
  destruct (run (interp (header_impl h) (OAssignM x y)) s) as [ob s'|e s'|u|] eqn:Hrun; cbv beta iota delta [construct_outcome] in H; try done.
  - destruct H as (-> & _ & l' & xa & v0 & v1 & v2 & Hl & Hxa & Hv & Hvw & HX & Ht).
    rewrite Hmk in Hv. simpl in Hvw, HX. simpl in Hxa. rewrite Hy in Hxa. simplify_eq.
    exists l'. split; [done|]. split.
    { intros ->. destruct (rep_own _ _ _ _ HI _ _ _ _ _ Hy) as (b & Hb & _). congruence. }
    unfold owns, same_at. rewrite Hvw. split; [apply lookup_insert|].
    split; [rewrite lookup_insert_ne by done; by rewrite lookup_alter, Hy|]. split.
    { intros w Hwx Hwy. by rewrite lookup_insert_ne, lookup_alter_ne by done. }
    split; [done|]. rewrite Ht. rewrite Hx. by rewrite release_eq.
  - split.
    { destruct (pocma E || always_equal E); [|done].
      destruct (Hnx eq_refl) as (o & ω & X & evs & ->). simpl in Hm. destruct Hm as (s1 & ? & _). done. }
    destruct H as (Hin & _ & [(Hvw & HX & Ht)|(l' & xa & v0 & v1 & v2 & Hl & Hxa & Hv & Hvw & HX & Ht)]).
    + unfold absent, same_at. rewrite Hvw. auto.
    + rewrite Hmk in Hv. simpl in Hvw, HX. simplify_eq. split; [done|]. unfold absent, same_at, owns. rewrite Hvw.
      split; [intros w Hw; by rewrite lookup_alter_ne|]. split; [done|].
      right. by rewrite lookup_alter, Hy.
Qed.

Lemma move_assign_source h s x y ox ax oy ay r s' :
  Inv (header_cls h) s -> x <> y -> view s !! x = Some (ox, ax) -> view s !! y = Some (oy, ay) ->
  run (interp (header_impl h) (OAssignM x y)) s = ORet r s' ->
  valueless_at s' y ay <-> oy = None \/ a_eqb E ax ay = true.
Proof.
  intros HI Hne Hx Hy Hrun. destruct oy as [[[l t] v]|].
  - destruct (a_eqb E ax ay) eqn:Heq.
    + destruct (move_assign_equal h s x y _ _ _ _ HI Hne Hx Hy Heq) as (s1 & Hs1 & Hv & _). rewrite Hrun in Hs1.
      simplify_eq. split; [auto|]. intros _. unfold valueless_at. rewrite Hv.
      rewrite lookup_insert_ne by done. by rewrite lookup_insert.
    + pose proof (move_assign_unequal h s x y _ _ l t v ay HI Hne Hx Hy Heq) as H. cbv zeta in H.
      rewrite Hrun in H. destruct H as (l' & _ & _ & _ & Hy' & _).
      unfold owns, valueless_at in *. rewrite Hy'. split; [done|]. intros [?|?]; done.
  - destruct (move_assign_valueless h s x y _ _ _ HI Hne Hx Hy) as (s1 & Hs1 & Hv & _). rewrite Hrun in Hs1.
    simplify_eq. split; [auto|]. intros _. unfold valueless_at. rewrite Hv.
    by rewrite lookup_insert_ne.
Qed.

(** ** C14: self-assignment.  No hypothesis on the store at all. *)
Lemma self_assign h s x :
  run (interp (header_impl h) (OAssignC x x)) s = ORet ObsUnit s /\
  run (interp (header_impl h) (OAssignM x x)) s = ORet ObsUnit s.
Proof.
  split; destruct h; simpl; unfold quiet; rewrite run_bind;
    unfold Indirect20.Indirect20.copy_assign, Indirect14.Indirect14.copy_assign,
      Polymorphic20.Polymorphic20.copy_assign, Polymorphic14.Polymorphic14.copy_assign,
      Indirect20.Indirect20.move_assign, Indirect14.Indirect14.move_assign,
      Polymorphic20.Polymorphic20.move_assign, Polymorphic14.Polymorphic14.move_assign;
    rewrite ?run_noexcept; rewrite decide_True by done; done.
Qed.

(** ** C15: swap *)
Lemma swap_run h s x y ox ax oy ay :
  Inv (header_cls h) s -> view s !! x = Some (ox, ax) -> view s !! y = Some (oy, ay) ->
  pocs E || a_eqb E ax ay = true ->
  exists s', run (interp (header_impl h) (OSwap x y)) s = ORet ObsUnit s' /\
    view s' = (if pocs E then <[y := (ox, ax)]> (<[x := (oy, ay)]> (view s))
               else <[y := (ox, ay)]> (<[x := (oy, ax)]> (view s))) /\
    exts s' = exts s /\ no_calls s s'.
Proof.
  intros HI Hx Hy Heq.
  assert (Hpre : pre (header_cfg h) (OSwap x y) (abs s) = true).
  { simpl. rewrite (live_abs _ _ _ _ Hx), (live_abs _ _ _ _ Hy). unfold equal_allocs.
    rewrite !sv_abs, Hx, Hy. done. }
  destruct (run_effect h s (OSwap x y) HI Hpre) as (r & Hr & Hm); [by destruct h|].
  simpl in Hr. unfold vswap in Hr. rewrite Hx, Hy in Hr.
  destruct (pocs E); rewrite Hr in Hm; destruct Hm as (s' & Hs' & _ & Hv & HX & Ht); eauto 10.
Qed.

Lemma swap_twice h s x y ox ax oy ay :
  Inv (header_cls h) s -> view s !! x = Some (ox, ax) -> view s !! y = Some (oy, ay) ->
  pocs E || a_eqb E ax ay = true ->
  exists s1 s2, run (interp (header_impl h) (OSwap x y)) s = ORet ObsUnit s1 /\
    run (interp (header_impl h) (OSwap x y)) s1 = ORet ObsUnit s2 /\
    view s2 = view s /\ exts s2 = exts s /\ no_calls s s2.
Proof.
  intros HI Hx Hy Heq. destruct (swap_run h s x y _ _ _ _ HI Hx Hy Heq) as (s1 & H1 & V1 & X1 & T1).
  assert (HI1 : Inv (header_cls h) s1).
  { assert (Hpre : pre (header_cfg h) (OSwap x y) (abs s) = true).
    { simpl. rewrite (live_abs _ _ _ _ Hx), (live_abs _ _ _ _ Hy). unfold equal_allocs.
      rewrite !sv_abs, Hx, Hy. done. }
    destruct (run_effect h s (OSwap x y) HI Hpre) as (r & Hr & Hm); [by destruct h|].
    rewrite H1 in Hm. destruct r; simpl in Hm.
    - destruct Hm as (s1' & ? & ? & _). by simplify_eq.
    - by destruct Hm as (s1' & ? & _).
    - by destruct Hm as (? & _). }
  destruct (decide (x = y)) as [->|Hne].
  - simplify_eq. destruct (swap_run h s1 y y ox ax ox ax HI1) as (s2 & H2 & V2 & X2 & T2).
    { rewrite V1. destruct (pocs E); by rewrite lookup_insert. }
    { rewrite V1. destruct (pocs E); by rewrite lookup_insert. }
    { done. }
    exists s1, s2. split_and!; [done|done| |congruence|unfold no_calls in *; congruence].
    rewrite V2, V1. apply map_eq. intros w. destruct (pocs E);
    destruct (decide (w = y)) as [->|]; rewrite ?lookup_insert, ?lookup_insert_ne by done; done.
  - destruct (swap_run h s1 x y oy (if pocs E then ay else ax) ox (if pocs E then ax else ay) HI1)
      as (s2 & H2 & V2 & X2 & T2).
    { rewrite V1. destruct (pocs E); rewrite lookup_insert_ne by done; by rewrite lookup_insert. }
    { rewrite V1. destruct (pocs E); by rewrite lookup_insert. }
    { by destruct (pocs E). }
    exists s1, s2. split_and!; [done|done| |congruence|unfold no_calls in *; congruence].
    rewrite V2, V1. apply map_eq. intros w. destruct (pocs E);
    (destruct (decide (w = y)) as [->|]; [by rewrite lookup_insert|]);
    (destruct (decide (w = x)) as [->|]; rewrite ?lookup_insert_ne, ?lookup_insert by done; [done|];
     done).
Qed.

End proofs.
