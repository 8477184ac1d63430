(** * Constructor arguments and assigned values, in plain terms: proofs. *)

From stdpp Require Import base gmap list.
From Verif Require Import Lang Common Client Spec SpecRun Rep Effect RunLemmas Refine
  Headers Hist OpSpec OpFacts Draft OpProps OpProps2 OpProps3.

Section proofs.
Context {E : Env} (HA : AllocReq E).
Notation A := (eA E).
Notation V := (eV E).
Implicit Types s : store E.

(** [xa] is what the value type's constructor or assignment receives for the client's
    argument expression [g]: the pack itself, or a reference of the same category to
    the very object [g] denotes. *)
Definition passed s (g : carg E) (xa : arg E) : Prop :=
  match g with
  | GArgs c => xa = AArgs c
  | GExt k n => xa = ARef k (RExt n)
  | GDeref k y => exists l t v a, owns s y l t v a /\ xa = ARef k (RBlk l)
  end.

(** Nothing but [x] and the object [g] denotes has changed; the owner of the object [g] denotes still owns
    it, at the same address. *)
Definition only_changes s s' (x : wl) (g : carg E) : Prop :=
  (forall w, w <> x -> (forall k, g <> GDeref k w) -> same_at s s' w) /\
  (forall w, w <> x -> same_shape s s' w) /\
  (forall n, (forall k, g <> GExt k n) -> exts s' !! n = exts s !! n).

(** The value of the object [g] denotes: it was [(t', v')], and is [v1] now
    unless it was passed as const. *)
Definition arg_becomes s s' (g : carg E) (t' : ty) (v' v1 : V) : Prop :=
  arg_obj g (abs s) = Some (t', v') /\
  arg_obj g (abs s') = Some (t', if is_constl (arg_cat g) then v' else v1).

(** [x], owning nothing before, gets a new [t] made from [g] with allocator [a]. *)
Definition makes (h : header) s (x : wl) (a : A) (t : ty) (g : carg E) (out : outcome E (obs E)) : Prop :=
  match out with
  | ORet r s' =>
      exists l xa v, blocks s !! l = None /\ passed s g xa /\ owns s' x l t v a /\
        trc s' = EvCons a t l xa :: EvAlloc a (hbty h t) l :: trc s /\ only_changes s s' x g /\
        match g with
        | GArgs c => v = t_make E t a c
        | _ => exists t' v', v = (t_cons E (arg_cat g) t t' a v').1 /\
                 arg_becomes s s' g t' v' (t_cons E (arg_cat g) t t' a v').2
        end
  | OThrow e s' =>
      RespFail e ∈ orc s /\ same_at s s' x /\ only_changes s s' x g /\
      ((view s' = view s /\ exts s' = exts s /\ trc s' = EvAllocFail a (hbty h t) e :: trc s) \/
       exists l xa, blocks s !! l = None /\ passed s g xa /\
         trc s' = EvDealloc a (hbty h t) l :: EvConsFail a t l xa e :: EvAlloc a (hbty h t) l :: trc s /\
         match g with
         | GArgs c => view s' = view s
         | _ => exists t' v', arg_becomes s s' g t' v' (t_cons_fail E (arg_cat g) t t' v')
         end)
  | OUB _ | OTerm => False
  end.

Lemma vref_passed s g xa : vref g (view s) = Some xa -> passed s g xa.
Proof.
  destruct g as [c|k n|k y]; simpl; [by intros [= <-]|by intros [= <-]|].
  destruct (view s !! y) as [[[[[l t] v]|] a]|] eqn:Hy; try done.
  intros [= <-]. by exists l, t, v, a.
Qed.

Lemma vset_other g v1 s w : (forall k, g <> GDeref k w) -> vset g v1 (view s) !! w = view s !! w.
Proof.
  intros Hg. destruct g as [c|k n|k y]; [done|by destruct k|]. simpl.
  destruct (decide (y = w)) as [->|]; [by specialize (Hg k)|].
  destruct k; [done|by rewrite lookup_alter_ne|by rewrite lookup_alter_ne].
Qed.

Lemma vset_fst g v1 s w :
  (fun o : option (loc * ty * V) * A => (fst <$> o.1, o.2)) <$> vset g v1 (view s) !! w =
  (fun o : option (loc * ty * V) * A => (fst <$> o.1, o.2)) <$> view s !! w.
Proof.
  destruct g as [c|k n|k y]; [done|by destruct k|].
  destruct (decide (y = w)) as [<-|Hne].
  - destruct k; [done| |]; simpl; rewrite lookup_alter; by destruct (view s !! y) as [[[[]|] ?]|].
  - destruct k; [done| |]; simpl; by rewrite lookup_alter_ne.
Qed.

Lemma eset_other g v1 s n : (forall k, g <> GExt k n) -> eset g v1 (exts s) !! n = exts s !! n.
Proof.
  intros Hg. destruct g as [c|k m|k y]; [done| |by destruct k]. simpl.
  destruct (decide (m = n)) as [->|]; [by specialize (Hg k)|].
  destruct k; [done|by rewrite lookup_alter_ne|by rewrite lookup_alter_ne].
Qed.

Lemma only_set s s' x g v1 o :
  view s' = <[x := o]> (vset g v1 (view s)) -> exts s' = eset g v1 (exts s) -> only_changes s s' x g.
Proof.
  intros Hv HX. split_and!.
  - intros w Hw Hg. unfold same_at. rewrite Hv, lookup_insert_ne by done. by apply vset_other.
  - intros w Hw. unfold same_shape. rewrite Hv, lookup_insert_ne by done. apply vset_fst.
  - intros n Hg. rewrite HX. by apply eset_other.
Qed.

Lemma only_vset s s' x g v1 :
  view s' = vset g v1 (view s) -> exts s' = eset g v1 (exts s) -> only_changes s s' x g.
Proof.
  intros Hv HX. split_and!.
  - intros w Hw Hg. unfold same_at. rewrite Hv. by apply vset_other.
  - intros w Hw. unfold same_shape. rewrite Hv. apply vset_fst.
  - intros n Hg. rewrite HX. by apply eset_other.
Qed.

Lemma becomes_set s s' g v1 t' v' :
  arg_obj g (abs s) = Some (t', v') -> exts s' = eset g v1 (exts s) ->
  match g with GDeref k y => view s' !! y = vset g v1 (view s) !! y | _ => True end ->
  arg_becomes s s' g t' v' v1.
Proof.
  intros Hg HX Hv. split; [done|]. destruct g as [c|k n|k y]; simpl in *.
  - done.
  - rewrite HX. destruct k; [done| |]; simpl; rewrite lookup_alter, Hg; done.
  - rewrite lookup_absv in Hg |- *. rewrite Hv.
    destruct (view s !! y) as [[[[[l t] v]|] a]|] eqn:Hy; try done. simpl in Hg. simplify_eq.
    destruct k; simpl; [by rewrite Hy| |]; rewrite lookup_alter, Hy; done.
Qed.

Lemma engaged_ne s x y xa k :
  (absent s x \/ exists a, valueless_at s x a) -> vref (GDeref k y) (view s) = Some xa -> y <> x.
Proof.
  intros Hx Hy ->. simpl in Hy. unfold absent, valueless_at in Hx.
  destruct Hx as [Hx|[a Hx]]; by rewrite Hx in Hy.
Qed.

Lemma makes_intro h s x a t g out :
  (absent s x \/ exists a', valueless_at s x a') ->
  construct_outcome h s x a t g out -> makes h s x a t g out.
Proof.
  intros Hx H. destruct out as [r s'|e s'| |]; simpl in *; try done.
  - destruct H as (_ & HI & l & xa & v & v1 & v2 & Hl & Hg & Hm & Hv & HX & Ht).
    exists l, xa, v. split; [done|]. split; [by apply vref_passed|].
    split; [unfold owns; by rewrite Hv, lookup_insert|].
    split. { rewrite Ht. unfold absent, valueless_at in Hx. by destruct Hx as [->|[a' ->]]. }
    split; [by eapply only_set|].
    destruct g as [c|k n|k y]; simpl in Hm; [by simplify_eq| |].
    + destruct (exts s !! n) as [[t' v']|] eqn:Hn; [|done].
      destruct (t_cons E k t t' a v') as [u1 u2] eqn:Hc. simplify_eq.
      exists t', v'. simpl. rewrite Hc. split; [done|]. by eapply becomes_set.
    + pose proof (engaged_ne _ _ _ _ _ Hx Hg) as Hne.
      destruct (absv (view s) !! y) as [[[[t' v']|] ?]|] eqn:Hn; try done.
      destruct (t_cons E k t t' a v') as [u1 u2] eqn:Hc. simplify_eq.
      exists t', v'. simpl. rewrite Hc. split; [done|].
      eapply becomes_set; [simpl; by rewrite Hn|done|]. by rewrite Hv, lookup_insert_ne.
  - destruct H as (Hin & HI & H). split; [done|].
    destruct H as [(Hv & HX & Ht)|(l & xa & v & v1 & v2 & Hl & Hg & Hm & Hv & HX & Ht)].
    + split; [unfold same_at; by rewrite Hv|]. split.
      { split_and!; intros; unfold same_at, same_shape; by rewrite ?Hv, ?HX. }
      by left.
    + assert (Hsx : same_at s s' x).
      { unfold same_at. rewrite Hv. destruct g as [c|k n|k y]; [done|by destruct k|].
        pose proof (engaged_ne _ _ _ _ _ Hx Hg) as Hne. apply vset_other. intros k' [= -> ->]. done. }
      split; [done|]. split; [by eapply only_vset|].
      right. exists l, xa. split; [done|]. split; [by apply vref_passed|]. split; [done|].
      destruct g as [c|k n|k y]; simpl in Hm.
      * simplify_eq. by rewrite Hv.
      * destruct (exts s !! n) as [[t' v']|] eqn:Hn; [|done].
        destruct (t_cons E k t t' a v') as [u1 u2] eqn:Hc. simplify_eq.
        exists t', v'. by eapply becomes_set.
      * destruct (absv (view s) !! y) as [[[[t' v']|] ?]|] eqn:Hn; try done.
        destruct (t_cons E k t t' a v') as [u1 u2] eqn:Hc. simplify_eq.
        exists t', v'. eapply becomes_set; [simpl; by rewrite Hn|done|]. by rewrite Hv.
Qed.

(** [g] is assigned to the object [x] owns, in place. *)
Definition assigns s (x : wl) (g : carg E) (out : outcome E (obs E)) : Prop :=
  match out with
  | ORet r s' =>
      exists l t v a d xa, owns s x l t v a /\ passed s g xa /\ owns s' x l t d a /\
        trc s' = EvAsgn t l xa :: trc s /\ only_changes s s' x g /\
        match g with
        | GArgs c => d = t_asgn_args E t v c
        | _ => ((exists k, g = GDeref k x) /\ d = t_self E (arg_cat g) t v) \/
               ((forall k, g <> GDeref k x) /\
                exists t' v', d = (t_asgn E (arg_cat g) t t' v v').1 /\
                      arg_becomes s s' g t' v' (t_asgn E (arg_cat g) t t' v v').2)
        end
  | OThrow e s' =>
      RespFail e ∈ orc s /\
      exists l t v a d xa, owns s x l t v a /\ passed s g xa /\ owns s' x l t d a /\
        trc s' = EvAsgnFail t l xa e :: trc s /\ only_changes s s' x g /\
        match g with
        | GArgs c => d = t_asgn_args_fail E t v c
        | _ => ((exists k, g = GDeref k x) /\ d = t_self_fail E (arg_cat g) t v) \/
               ((forall k, g <> GDeref k x) /\
                exists t' v', d = (t_asgn_fail E (arg_cat g) t t' v v').1 /\
                      arg_becomes s s' g t' v' (t_asgn_fail E (arg_cat g) t t' v v').2)
        end
  | OUB _ | OTerm => False
  end.

Lemma assigns_intro h s x a g out :
  (exists l t v, owns s x l t v a) ->
  assign_outcome h s x a g out -> assigns s x g out.
Proof.
  intros (lx & tx & vx & Hx) H. unfold owns in Hx. destruct out as [r s'|e s'| |]; simpl in *; try done.
  - destruct H as (_ & HI & l & t & v & a0 & xa & d & v1 & Ho & Hg & Hv & HX & Ht & Hd).
    assert (a0 = a) as -> by (unfold owns in Ho; rewrite Hx in Ho; by simplify_eq).
    exists l, t, v, a, d, xa. split; [done|]. split; [by apply vref_passed|].
    split; [unfold owns; by rewrite Hv, lookup_insert|]. split; [done|].
    split; [by eapply only_set|].
    destruct g as [c|k n|k y]; simpl in Hd; [done| |].
    + destruct Hd as (t' & v' & Hn & Hc). right. split; [done|].
      exists t', v'. simpl. rewrite <- Hc. split; [done|]. by eapply becomes_set.
    + case_bool_decide as Hxy.
      * left. subst y. eauto.
      * right. split; [by intros k' [= -> ->]|].
        destruct Hd as (t' & v' & Hn & Hc).
        exists t', v'. simpl. rewrite <- Hc. split; [done|]. eapply becomes_set; [done..|].
        by rewrite Hv, lookup_insert_ne.
  - destruct H as (Hin & HI & l & t & v & a0 & xa & d & v1 & Ho & Hg & Hv & HX & Ht & Hd).
    assert (a0 = a) as -> by (unfold owns in Ho; rewrite Hx in Ho; by simplify_eq).
    split; [done|].
    exists l, t, v, a, d, xa. split; [done|]. split; [by apply vref_passed|].
    split; [unfold owns; by rewrite Hv, lookup_insert|]. split; [done|].
    split; [by eapply only_set|].
    destruct g as [c|k n|k y]; simpl in Hd; [done| |].
    + destruct Hd as (t' & v' & Hn & Hc). right. split; [done|].
      exists t', v'. simpl. rewrite <- Hc. split; [done|]. by eapply becomes_set.
    + case_bool_decide as Hxy.
      * left. subst y. eauto.
      * right. split; [by intros k' [= -> ->]|].
        destruct Hd as (t' & v' & Hn & Hc).
        exists t', v'. simpl. rewrite <- Hc. split; [done|]. eapply becomes_set; [done..|].
        by rewrite Hv, lookup_insert_ne.
Qed.

(** ** C11 *)
Lemma move_plain h s x y l t v ay :
  Inv (header_cls h) s -> absent s x -> owns s y l t v ay -> a_eqb E ay ay = true ->
  exists s', run (interp (header_impl h) (OMove x y)) s = ORet ObsUnit s' /\
    owns s' x l t v ay /\ valueless_at s' y ay /\
    (forall w, w <> x -> w <> y -> same_at s s' w) /\ no_calls s s'.
Proof.
  intros HI Hx Hy Ha.
  assert (Hxy : x <> y) by (unfold absent, owns in *; congruence).
  destruct (move_steals HA h s (OMove x y) x y ay (Some (l, t, v)) ay) as (s' & Hr & Hv & _ & Hn).
  - done.
  - left. split; [done|]. by exists (Some (l, t, v)).
  - done.
  - done.
  - by rewrite Ha, orb_true_r.
  - exists s'. split; [done|]. unfold owns, valueless_at, same_at. rewrite Hv. split_and!.
    + by rewrite lookup_insert.
    + by rewrite lookup_insert_ne, lookup_insert.
    + intros w H1 H2. by rewrite !lookup_insert_ne.
    + done.
Qed.

(** ** C19 *)
Lemma poly_copy_assign_strong (HC : CopyReq E) h s x y e s' :
  Inv (header_cls h) s -> header_cls h = Poly -> is_Some (view s !! x) -> is_Some (view s !! y) ->
  run (interp (header_impl h) (OAssignC x y)) s = OThrow e s' ->
  view s' = view s /\ exts s' = exts s.
Proof.
  intros HI Hh Hx Hy Hr.
  destruct (copy_assign_throws HA h s x y e s' HI Hx Hy Hr) as (_ & Hw & _ & HX & l & t & v & ay & Ho & H).
  split; [|done].
  destruct H as [[H1 H2]|(Hk & _)]; [|by rewrite Hh in Hk].
  apply map_eq. intros w.
  destruct (decide (w = y)) as [->|Hny].
  - destruct H2 as [H2|H2]; [done|]. rewrite (cr_fail _ HC) in H2. unfold owns in *. by rewrite H2, Ho.
  - destruct (decide (w = x)) as [->|Hnx]; [done|]. by apply Hw.
Qed.

(** ** C21 *)
Lemma never_throws h s (o : op E) res :
  Inv (header_cls h) s -> pre (header_cfg h) o (abs s) = true -> adm h o (abs s) = true ->
  step (header_cfg h) o (abs s) = Some res -> r_exn res = [] -> may_terminate o (abs s) = false ->
  exists s', run (interp (header_impl h) o) s = ORet (r_obs res) s'.
Proof.
  intros HI Hpre Hadm Hres Hexn Hmt.
  destruct (op_correct HA _ _ _ s o (header_implements HA h) HI Hpre Hadm) as (res' & Hs & H).
  rewrite Hres in Hs. injection Hs as <-.
  destruct (run (interp (header_impl h) o) s) as [r s'|e s'|u|].
  - destruct H as (_ & -> & _). eauto.
  - destruct H as (_ & H & _). rewrite Hexn in H. by apply elem_of_nil in H.
  - done.
  - by rewrite Hmt in H.
Qed.

(** ** C26 *)
Lemma value_assign_in_place h s x g l t v a :
  Inv (header_cls h) s -> header_cls h = Ind -> owns s x l t v a -> arg_pre g (abs s) = true ->
  assigns s x g (run (interp (header_impl h) (OAssignV x g)) s).
Proof.
  intros HI Hh Hx Hg. eapply (assigns_intro h s x a); [eauto|]. by eapply value_assign_engaged.
Qed.

Lemma value_assign_new h s x g a :
  Inv (header_cls h) s -> header_cls h = Ind -> valueless_at s x a -> arg_pre g (abs s) = true ->
  makes h s x a (tT E) g (run (interp (header_impl h) (OAssignV x g)) s).
Proof.
  intros HI Hh Hx Hg. apply makes_intro; [eauto|]. by eapply value_assign_valueless.
Qed.

(** ** C27 *)
Lemma pre_ctor_absent h s o x a t g :
  ctor_arg o = Some (x, a, t, g) -> pre (header_cfg h) o (abs s) = true -> absent s x.
Proof.
  intros Ho Hpre. assert (live x (abs s) = false) as Hl.
  { destruct o; simpl in *; simplify_eq; try (apply andb_true_iff in Hpre as [Hpre _]);
    by apply negb_true_iff. }
  unfold live in Hl. apply bool_decide_eq_false in Hl. rewrite sv_abs in Hl.
  unfold absent. destruct (view s !! x); [|done]. destruct Hl. eauto.
Qed.

Lemma ctor_makes h s o x a t g :
  Inv (header_cls h) s -> ctor_arg o = Some (x, a, t, g) ->
  pre (header_cfg h) o (abs s) = true -> adm h o (abs s) = true ->
  makes h s x a (created_type (E := E) h t) g (run (interp (header_impl h) o) s).
Proof.
  intros HI Ho Hpre Hadm. apply makes_intro; [left; by eapply pre_ctor_absent|]. by apply forwarding.
Qed.

(** ** C28: indirect's copy constructors pass their source as const *)
Lemma indirect_copy_source h s o x y a s' :
  Inv (header_cls h) s -> header_cls h = Ind -> copies_with s o x y a -> absent s x ->
  is_Some (view s !! y) -> after h s o s' -> same_at s s' y.
Proof.
  intros HI Hh Hc Hx [[[[[l t] v]|] ay] Hy] Haf.
  - pose proof (copy_engaged HA h s o x y a l t v ay HI Hc Hx Hy) as H.
    assert (Hcc : hcc h = ConstL) by (destruct h; try done).
    rewrite Hcc in H. simpl in H. unfold same_at.
    destruct Haf as [[r Hr]|[e Hr]]; rewrite Hr in H.
    + destruct H as (l' & _ & _ & _ & H & _). by rewrite H, Hy.
    + destruct H as (_ & _ & _ & [H|H]); [done|]. by rewrite H, Hy.
  - destruct (copy_valueless HA h s o x y a ay HI Hc Hx Hy) as (s1 & Hr & Hv & _).
    assert (s1 = s') as ->.
    { destruct Haf as [[r Hr']|[e Hr']]; rewrite Hr in Hr'; by simplify_eq. }
    unfold same_at. rewrite Hv. apply lookup_insert_ne. unfold absent in Hx. congruence.
Qed.

End proofs.
