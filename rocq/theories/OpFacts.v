(** * Allocators, costs, addresses and values after each operation. *)

From stdpp Require Import base gmap list.
From Verif Require Import Lang Common Client Spec Rep Effect RunLemmas RunOps Refine OpSpec.

Section opfacts.
Context {E : Env} (k : cls) (cc ca : cat).
Notation A := (eA E).
Notation V := (eV E).
Notation F := (mkCfg k cc ca).
Implicit Types X : gmap nat (ty * V).
Implicit Types ω : gmap wl (option (loc * ty * V) * A).
Implicit Types g : carg E.
Implicit Types r : vres E.

(** What is known about the source [g] of a construction or assignment. *)
Definition same_but g ω ω' : Prop :=
  (forall w, (fun o : option (loc * ty * V) * A => (fst <$> o.1, o.2)) <$> ω' !! w =
             (fun o : option (loc * ty * V) * A => (fst <$> o.1, o.2)) <$> ω !! w) /\
  (forall w, arg_keeps g w = true -> ω' !! w = ω !! w).

Lemma vset_same g v ω : same_but g ω (vset g v ω).
Proof.
  split; [intros w; apply vset_owned|].
  intros w Hw. destruct g as [c|c n|c y]; try done. simpl in Hw.
  apply orb_true_iff in Hw as [Hw|Hw].
  - apply negb_true_iff, bool_decide_eq_false in Hw. apply vset_lookup_ne. by intros ?? [= -> ->].
  - by destruct c.
Qed.

Lemma same_refl g ω : same_but g ω ω.
Proof. done. Qed.

(** Shape of the results of a construction. *)
Lemma vconstruct_inv x a t g ω X r :
  vconstruct k x a t g ω X r ->
  (exists l v v' X' xa, r = VRet ObsUnit (<[x := (Some (l, t, v), a)]> (vset g v' ω)) X'
       ((match ω !! x with Some (o, a0) => reset_ev k o a0 | None => [] end) ++
        [EvCons a t l xa; EvAlloc a (kbty k t) l]) /\
     fresh_in l ω /\ vref g ω = Some xa) \/
  (exists e, r = VThrow e ω X [EvAllocFail a (kbty k t) e]) \/
  (exists e l v' X' xa, r = VThrow e (vset g v' ω) X'
       [EvDealloc a (kbty k t) l; EvConsFail a t l xa e; EvAlloc a (kbty k t) l] /\
     fresh_in l ω /\ vref g ω = Some xa).
Proof.
  intros (evs & c & ω1 & X1 & Hc & Hr).
  destruct Hc as [e|e l xa v v1 v2 Hf Hg Hm|l xa v v1 v2 Hf Hg Hm]; subst r.
  - right. left. eauto.
  - right. right. eauto 10.
  - left. eauto 10.
Qed.

Lemma vassign_inv x a' g ω X r :
  vassign x a' g ω X r ->
  exists l t0 v0 a xa, ω !! x = Some (Some (l, t0, v0), a) /\ vref g ω = Some xa /\
    ((exists d v1 X', r = VRet ObsUnit (<[x := (Some (l, t0, d), a')]> (vset g v1 ω)) X'
                         [EvAsgn t0 l xa]) \/
     (exists e d v1 X', r = VThrow e (<[x := (Some (l, t0, d), a)]> (vset g v1 ω)) X'
                         [EvAsgnFail t0 l xa e])).
Proof.
  intros (l & t0 & v0 & a & xa & d & v1 & df & v2 & Hx & Hg & _ & Hr).
  exists l, t0, v0, a, xa. split; [done|]. split; [done|].
  destruct Hr as [->|[e ->]]; [left|right]; eauto 10.
Qed.

Lemma vnoexcept_inv b (P : vres E -> Prop) r :
  vnoexcept b P r -> P r \/ (r = VTerm /\ exists e ω X evs, P (VThrow e ω X evs)).
Proof.
  unfold vnoexcept. destruct b; [|by left].
  intros [(o & ω & X & evs & H & ->)|(e & ω & X & evs & H & ->)]; [by left|right; eauto 10].
Qed.

(** ** Allocators *)

Definition valloc ω w : option A := snd <$> ω !! w.

Lemma alloc_of_abs ω X w : alloc_of w (abs_spec ω X) = valloc ω w.
Proof.
  unfold alloc_of, valloc. rewrite abs_lookup. by destruct (ω !! w) as [[]|].
Qed.

Lemma vset_alloc g v ω w : valloc (vset g v ω) w = valloc ω w.
Proof.
  unfold valloc. pose proof (vset_owned g v ω w) as H.
  destruct (vset g v ω !! w) as [[]|], (ω !! w) as [[]|]; simplify_eq/=; done.
Qed.

Lemma valloc_insert x o a ω w :
  valloc (<[x := (o, a)]> ω) w = if decide (w = x) then Some a else valloc ω w.
Proof.
  unfold valloc. destruct (decide (w = x)) as [->|]; [by rewrite lookup_insert|].
  by rewrite lookup_insert_ne.
Qed.

Definition alloc_result r (P : wl -> option A) (ω : gmap wl (option (loc * ty * V) * A)) : Prop :=
  match r with
  | VRet _ ω' _ _ => forall w, valloc ω' w = P w
  | VThrow _ ω' _ _ => forall w, valloc ω' w = valloc ω w
  | VTerm => True
  end.

Lemma alloc_result_ext r (P Q : wl -> option A) ω :
  (forall w, P w = Q w) -> alloc_result r P ω -> alloc_result r Q ω.
Proof. intros HPQ. destruct r; simpl; try done. intros H w. by rewrite <- HPQ. Qed.

Lemma vconstruct_alloc x a t g ω X r :
  vconstruct k x a t g ω X r ->
  alloc_result r (fun w => if decide (w = x) then Some a else valloc ω w) ω.
Proof.
  intros H. apply vconstruct_inv in H as [(l & v & v' & X' & xa & -> & _)|[(e & ->)|
    (e & l & v' & X' & xa & -> & _)]]; simpl; [|done|intros; apply vset_alloc].
  intros w. rewrite valloc_insert. case_decide; [done|]. apply vset_alloc.
Qed.

Lemma vassign_alloc x a' g ω X r :
  vassign x a' g ω X r ->
  alloc_result r (fun w => if decide (w = x) then Some a' else valloc ω w) ω.
Proof.
  intros H. apply vassign_inv in H as (l & t0 & v0 & a & xa & Hx & _ &
    [(d & v1 & X' & ->)|(e & d & v1 & X' & ->)]); simpl; intros w; rewrite valloc_insert, vset_alloc.
  - done.
  - case_decide; [|done]. subst. unfold valloc. by rewrite Hx.
Qed.

Lemma vquiet_alloc ω' X evs r ω P :
  vquiet ω' X evs r -> (forall w, valloc ω' w = P w) -> alloc_result r P ω.
Proof. by intros -> H. Qed.

Theorem veff_alloc o ω X r :
  pre F o (abs_spec ω X) = true -> veff k cc ca o ω X r ->
  alloc_result r (alloc_after o (valloc ω)) ω.
Proof.
  assert (Hid : forall w x a, valloc ω x = Some a ->
    (if decide (w = x) then Some a else valloc ω w) = valloc ω w).
  { intros w x a H. case_decide; [by subst|done]. }
  assert (Hcc : forall x a y, vcopy_construct k cc x a y ω X r ->
    alloc_result r (fun w => if decide (w = x) then Some a else valloc ω w) ω).
  { intros x a y. unfold vcopy_construct. destruct (ω !! y) as [[[[[l t] v]|] ay]|]; [| |done].
    - apply vconstruct_alloc.
    - intros ->. intros w. apply valloc_insert. }
  assert (Hmc : forall x a y, ω !! x = None -> vmove_construct k x a y ω X r ->
    alloc_result r (fun w => if decide (w = x) then Some a else valloc ω w) ω).
  { intros x a y Hx. unfold vmove_construct.
    destruct (ω !! y) as [[[[[l t] v]|] ay]|] eqn:Hy; [| |done].
    - destruct (_ || _); [|apply vconstruct_alloc]. intros ->. intros w.
      rewrite !valloc_insert. case_decide; [done|]. rewrite Hid; [done|].
      unfold valloc. by rewrite Hy.
    - intros ->. intros w. apply valloc_insert. }
  intros Hpre Hr.
  destruct o; unfold veff in Hr; cbn [pre] in Hpre; unfold alloc_after;
    try (by apply vconstruct_alloc in Hr).
  - destruct (ω !! y) as [[oy ay]|] eqn:Hy; [|done]. apply Hcc in Hr.
    eapply alloc_result_ext; [|done]. intros w. simpl. unfold valloc at 2. by rewrite Hy.
  - by apply Hcc in Hr.
  - apply andb_true_iff in Hpre as [Hx _]. apply pre_dead in Hx.
    destruct (ω !! y) as [[oy ay]|] eqn:Hy; [|done]. apply Hmc in Hr; [|done].
    eapply alloc_result_ext; [|done]. intros w. simpl. unfold valloc at 2. by rewrite Hy.
  - apply andb_true_iff in Hpre as [Hx _]. apply pre_dead in Hx. by apply Hmc in Hr.
  - destruct (ω !! x) as [[ox ax]|] eqn:Hx; [|done]. eapply vquiet_alloc; [done|].
    intros w. unfold valloc. destruct (decide (w = x)) as [->|].
    + by rewrite lookup_delete.
    + by rewrite lookup_delete_ne.
  - unfold vcopy_assign in Hr. case_bool_decide as Hxy.
    { subst y. eapply vquiet_alloc; [done|]. intros w. case_decide; subst; by destruct (pocca E). }
    destruct (ω !! x) as [[ox ax]|] eqn:Hx; [|done].
    destruct (ω !! y) as [[oy ay]|] eqn:Hy; [|done].
    assert (Ha : valloc ω (if pocca E then y else x) = Some (if pocca E then ay else ax)).
    { unfold valloc. destruct (pocca E); by rewrite ?Hx, ?Hy. }
    rewrite Ha.
    destruct oy as [[[l t] v]|]; [|by eapply vquiet_alloc; [done|]; intros; apply valloc_insert].
    lazymatch type of Hr with if ?b then _ else _ => destruct b end; [by apply vassign_alloc in Hr|by apply vconstruct_alloc in Hr].
  - apply vnoexcept_inv in Hr as [Hr|[-> _]]; [|done].
    unfold vmove_assign in Hr. case_bool_decide as Hxy.
    { subst y. eapply vquiet_alloc; [done|]. intros w. case_decide; subst; by destruct (pocma E). }
    destruct (ω !! x) as [[ox ax]|] eqn:Hx; [|done].
    destruct (ω !! y) as [[oy ay]|] eqn:Hy; [|done].
    assert (Ha : valloc ω (if pocma E then y else x) = Some (if pocma E then ay else ax)).
    { unfold valloc. destruct (pocma E); by rewrite ?Hx, ?Hy. }
    rewrite Ha.
    destruct oy as [[[l t] v]|]; [|by eapply vquiet_alloc; [done|]; intros; apply valloc_insert].
    destruct (a_eqb E ax ay); [|by apply vconstruct_alloc in Hr].
    eapply vquiet_alloc; [done|]. intros w. rewrite !valloc_insert. case_decide; [done|].
    rewrite Hid; [done|]. unfold valloc. by rewrite Hy.
  - unfold vvalue_assign in Hr. destruct (ω !! x) as [[[ox|] ax]|] eqn:Hx; [| |done].
    + apply vassign_alloc in Hr. eapply alloc_result_ext; [|done]. intros w. apply Hid.
      unfold valloc. by rewrite Hx.
    + apply vconstruct_alloc in Hr. eapply alloc_result_ext; [|done]. intros w. apply Hid.
      unfold valloc. by rewrite Hx.
  - unfold vswap in Hr. destruct (ω !! x) as [[ox ax]|] eqn:Hx; [|done].
    destruct (ω !! y) as [[oy ay]|] eqn:Hy; [|done].
    assert (Hx' : valloc ω x = Some ax) by (unfold valloc; by rewrite Hx).
    assert (Hy' : valloc ω y = Some ay) by (unfold valloc; by rewrite Hy).
    destruct (pocs E); (eapply vquiet_alloc; [done|]); intros w; rewrite !valloc_insert.
    + repeat case_decide; subst; congruence.
    + repeat case_decide; subst; congruence.
  - destruct (ω !! x) as [[[[[l t] v]|] a]|] eqn:Hx; [|done|done]. eapply vquiet_alloc; [done|].
    intros w. rewrite valloc_insert. apply Hid. unfold valloc. by rewrite Hx.
  - destruct (ω !! x) as [[[[[l t] v]|] a]|] eqn:Hx; [|done|done]. by subst r.
  - destruct (ω !! x) as [[o a]|] eqn:Hx; [|done]. by subst r.
  - destruct (ω !! x) as [[o a]|] eqn:Hx; [|done]. by subst r.
  - by eapply vquiet_alloc.
Qed.

(** ** Objects that are not named *)

Definition frame_result r (w : wl) ω : Prop :=
  match r with
  | VRet _ ω' _ _ | VThrow _ ω' _ _ => ω' !! w = ω !! w
  | VTerm => True
  end.

Lemma vset_keeps g v ω w : arg_keeps g w = true -> vset g v ω !! w = ω !! w.
Proof. apply (vset_same g v ω). Qed.

Lemma vconstruct_frame x a t g ω X r w :
  vconstruct k x a t g ω X r -> w <> x -> arg_keeps g w = true -> frame_result r w ω.
Proof.
  intros H Hne Hk. apply vconstruct_inv in H as [(l & v & v' & X' & xa & -> & _)|[(e & ->)|
    (e & l & v' & X' & xa & -> & _)]]; simpl; [|done|by apply vset_keeps].
  rewrite lookup_insert_ne by done. by apply vset_keeps.
Qed.

Lemma vassign_frame x a' g ω X r w :
  vassign x a' g ω X r -> w <> x -> arg_keeps g w = true -> frame_result r w ω.
Proof.
  intros H Hne Hk. apply vassign_inv in H as (l & t0 & v0 & a & xa & Hx & _ &
    [(d & v1 & X' & ->)|(e & d & v1 & X' & ->)]); simpl; rewrite lookup_insert_ne by done;
    by apply vset_keeps.
Qed.

Lemma arg_names_keeps g w : w ∉ arg_names g -> arg_keeps g w = true.
Proof.
  destruct g as [c|c n|c y]; try done. simpl. intros H. rewrite bool_decide_false; [done|].
  set_solver.
Qed.

Theorem veff_frame o ω X r w :
  veff k cc ca o ω X r -> w ∉ names o -> frame_result r w ω.
Proof.
  assert (Hcc : forall c x a y, vcopy_construct k c x a y ω X r -> w <> x -> w <> y ->
    frame_result r w ω).
  { intros c x a y Hr Hx Hy. unfold vcopy_construct, vquiet in Hr.
    destruct (ω !! y) as [[[[[l t] v]|] ay]|]; [| |done].
    - eapply vconstruct_frame; [done|done|]. apply arg_names_keeps. set_solver.
    - subst r. simpl. by rewrite lookup_insert_ne. }
  assert (Hmc : forall x a y, vmove_construct k x a y ω X r -> w <> x -> w <> y ->
    frame_result r w ω).
  { intros x a y Hr Hx Hy. unfold vmove_construct, vquiet in Hr.
    destruct (ω !! y) as [[[[[l t] v]|] ay]|] eqn:Hyy; [| |done].
    - destruct (_ || _).
      + subst r. simpl. by rewrite !lookup_insert_ne.
      + eapply vconstruct_frame; [done|done|]. apply arg_names_keeps. set_solver.
    - subst r. simpl. by rewrite lookup_insert_ne. }
  intros Hr Hw.
  destruct o; unfold veff, vquiet in Hr; cbn [names] in Hw;
    try (eapply vconstruct_frame; [exact Hr|set_solver|try apply arg_names_keeps; set_solver]).
  - destruct (ω !! y) as [[oy ay]|] eqn:Hy; [|done]. eapply Hcc; [done|set_solver..].
  - eapply Hcc; [done|set_solver..].
  - destruct (ω !! y) as [[oy ay]|] eqn:Hy; [|done]. eapply Hmc; [done|set_solver..].
  - eapply Hmc; [done|set_solver..].
  - destruct (ω !! x) as [[ox ax]|] eqn:Hx; [|done]. subst r. simpl.
    rewrite lookup_delete_ne; [done|set_solver].
  - unfold vcopy_assign, vquiet in Hr. case_bool_decide as Hxy; [by subst r|].
    destruct (ω !! x) as [[ox ax]|] eqn:Hx; [|done].
    destruct (ω !! y) as [[oy ay]|] eqn:Hy; [|done].
    destruct oy as [[[l t] v]|].
    + lazymatch type of Hr with if ?b then _ else _ => destruct b end.
      * eapply vassign_frame; [done|set_solver|apply arg_names_keeps; set_solver].
      * eapply vconstruct_frame; [done|set_solver|apply arg_names_keeps; set_solver].
    + subst r. simpl. rewrite lookup_insert_ne; [done|set_solver].
  - apply vnoexcept_inv in Hr as [Hr|[-> _]]; [|done].
    unfold vmove_assign, vquiet in Hr. case_bool_decide as Hxy; [by subst r|].
    destruct (ω !! x) as [[ox ax]|] eqn:Hx; [|done].
    destruct (ω !! y) as [[oy ay]|] eqn:Hy; [|done].
    destruct oy as [[[l t] v]|].
    + destruct (a_eqb E ax ay).
      * subst r. simpl. rewrite !lookup_insert_ne by set_solver. done.
      * eapply vconstruct_frame; [done|set_solver|apply arg_names_keeps; set_solver].
    + subst r. simpl. rewrite lookup_insert_ne; [done|set_solver].
  - unfold vvalue_assign in Hr. destruct (ω !! x) as [[[ox|] ax]|] eqn:Hx; [| |done].
    + eapply vassign_frame; [done|set_solver|apply arg_names_keeps; set_solver].
    + eapply vconstruct_frame; [done|set_solver|apply arg_names_keeps; set_solver].
  - unfold vswap, vquiet in Hr. destruct (ω !! x) as [[ox ax]|] eqn:Hx; [|done].
    destruct (ω !! y) as [[oy ay]|] eqn:Hy; [|done].
    destruct (pocs E); subst r; simpl; rewrite !lookup_insert_ne by set_solver; done.
  - destruct (ω !! x) as [[[[[l t] v]|] a]|] eqn:Hx; [|done|done]. subst r. simpl.
    rewrite lookup_insert_ne by set_solver. done.
  - destruct (ω !! x) as [[[[[l t] v]|] a]|] eqn:Hx; [|done|done]. by subst r.
  - destruct (ω !! x) as [[o a]|] eqn:Hx; [|done]. by subst r.
  - destruct (ω !! x) as [[o a]|] eqn:Hx; [|done]. by subst r.
  - by subst r.
Qed.

(** ** Addresses *)

Lemma vset_obj g u ω w l t v a :
  ω !! w = Some (Some (l, t, v), a) ->
  exists v', vset g u ω !! w = Some (Some (l, t, v'), a) /\ (arg_keeps g w = true -> v' = v).
Proof.
  intros Hw. pose proof (vset_owned g u ω w) as H. rewrite Hw in H.
  destruct (vset g u ω !! w) as [[[[[l' t'] v']|] a']|] eqn:Hv; simplify_eq/=.
  exists v'. split; [done|]. intros Hk. rewrite vset_keeps in Hv by done. congruence.
Qed.

(** [P]: condition under which the value is unchanged; [ow]: the owner afterwards. *)
Definition owner_result (ow : option wl) (P : Prop) r (x : wl) (l : loc) (t : ty) (v : V) (a : A)
    : Prop :=
  match r with
  | VRet _ ω' _ evs =>
      match ow with
      | Some w => exists v' a', ω' !! w = Some (Some (l, t, v'), a') /\ (P -> v' = v)
      | None => exists a0, EvDestroy a0 t l ∈ evs /\ EvDealloc a0 (kbty k t) l ∈ evs
      end
  | VThrow _ ω' _ _ => exists v', ω' !! x = Some (Some (l, t, v'), a) /\ (P -> v' = v)
  | VTerm => True
  end.

Lemma vconstruct_owner (P : Prop) x' a' t' g ω X r x l t v a :
  vconstruct k x' a' t' g ω X r -> ω !! x = Some (Some (l, t, v), a) ->
  (P -> arg_keeps g x = true) ->
  owner_result (if decide (x = x') then None else Some x) P r x l t v a.
Proof.
  intros H Hx HP. apply vconstruct_inv in H as [(l' & u & u' & X' & xa & -> & _)|[(e & ->)|
    (e & l' & u' & X' & xa & -> & _)]]; simpl.
  - destruct (decide (x = x')) as [->|Hne].
    + rewrite Hx. simpl. exists a. set_solver.
    + rewrite lookup_insert_ne by done.
      destruct (vset_obj g u' _ _ _ _ _ _ Hx) as (v' & -> & Hv). eauto 10.
  - eauto.
  - destruct (vset_obj g u' _ _ _ _ _ _ Hx) as (v' & -> & Hv). eauto 10.
Qed.

Lemma vassign_owner (P : Prop) x' a' g ω X r x l t v a :
  vassign x' a' g ω X r -> ω !! x = Some (Some (l, t, v), a) ->
  (P -> x <> x' /\ arg_keeps g x = true) ->
  owner_result (Some x) P r x l t v a.
Proof.
  intros H Hx HP. apply vassign_inv in H as (l' & t0 & v0 & a0 & xa & Hx' & _ &
    [(d & v1 & X' & ->)|(e & d & v1 & X' & ->)]); simpl.
  - destruct (decide (x = x')) as [->|Hne].
    + rewrite lookup_insert. simplify_eq. eexists _, _. split; [done|]. intros H. by apply HP in H as [? _].
    + rewrite lookup_insert_ne by done.
      destruct (vset_obj g v1 _ _ _ _ _ _ Hx) as (v' & -> & Hv). eexists _, _. split; [done|].
      intros H. by apply Hv, HP.
  - destruct (decide (x = x')) as [->|Hne].
    + rewrite lookup_insert. simplify_eq. eexists _. split; [done|]. intros H. by apply HP in H as [? _].
    + rewrite lookup_insert_ne by done.
      destruct (vset_obj g v1 _ _ _ _ _ _ Hx) as (v' & -> & Hv). eexists _. split; [done|].
      intros H. by apply Hv, HP.
Qed.

Lemma owner_result_keep (P : Prop) ob ω X evs x l t v a :
  ω !! x = Some (Some (l, t, v), a) -> owner_result (Some x) P (VRet ob ω X evs) x l t v a.
Proof. simpl. eauto. Qed.

Theorem veff_owner o ω X r x l t v a :
  pre F o (abs_spec ω X) = true -> veff k cc ca o ω X r ->
  ω !! x = Some (Some (l, t, v), a) ->
  owner_result (owner_after k o (abs_spec ω X) x) (keeps F o (abs_spec ω X) x = true) r x l t v a.
Proof.
  intros Hpre Hr Hx.
  assert (Hdead : forall x', negb (live x' (abs_spec ω X)) = true -> x <> x').
  { intros x' H ->. apply pre_dead in H. congruence. }
  assert (Hcons : forall (P : Prop) x' a' t' g, negb (live x' (abs_spec ω X)) = true ->
     vconstruct k x' a' t' g ω X r -> (P -> arg_keeps g x = true) ->
     owner_result (Some x) P r x l t v a).
  { intros P x' a' t' g Hd Hc HP. pose proof (vconstruct_owner P _ _ _ _ _ _ _ _ _ _ _ _ Hc Hx HP) as H.
    rewrite decide_False in H; [done|]. by apply Hdead. }
  assert (Hcc : forall (P : Prop) c x' a' y, negb (live x' (abs_spec ω X)) = true ->
     vcopy_construct k c x' a' y ω X r -> (P -> arg_keeps (GDeref c y : carg E) x = true) ->
     owner_result (Some x) P r x l t v a).
  { intros P c x' a' y Hd Hc HP. unfold vcopy_construct, vquiet in Hc.
    destruct (ω !! y) as [[[[[ly ty'] vy]|] ay]|] eqn:Hy; [| |done].
    - by eapply Hcons.
    - subst r. apply owner_result_keep. rewrite lookup_insert_ne; [done|]. by apply not_eq_sym, Hdead. }
  assert (Hmc : forall x' a' y, negb (live x' (abs_spec ω X)) = true ->
     vmove_construct k x' a' y ω X r ->
     owner_result (if decide (x = y) then if can_steal a' y (abs_spec ω X) then Some x' else Some x
                   else Some x)
       (negb (bool_decide (x = y)) || can_steal a' y (abs_spec ω X) = true) r x l t v a).
  { intros x' a' y Hd Hc. unfold vmove_construct, vquiet in Hc. unfold can_steal. rewrite abs_lookup.
    destruct (ω !! y) as [[[[[ly ty'] vy]|] ay]|] eqn:Hy; simpl; [| |done].
    - destruct (always_equal E || a_eqb E a' ay).
      + subst r. simpl. destruct (decide (x = y)) as [->|Hne].
        * rewrite lookup_insert. simplify_eq. eauto.
        * rewrite !lookup_insert_ne; [eauto|done|]. by apply not_eq_sym, Hdead.
      + replace (if decide (x = y) then Some x else Some x) with (Some x) by (by case_decide).
        eapply Hcons; [done|done|]. simpl. rewrite !orb_false_r. done.
    - subst r. rewrite decide_False by congruence. apply owner_result_keep.
      rewrite lookup_insert_ne; [done|]. by apply not_eq_sym, Hdead. }
  destruct o; unfold veff, vquiet in Hr; cbn [pre] in Hpre; unfold owner_after, keeps;
    try (by eapply Hcons; [try apply andb_true_iff in Hpre as [Hd _]; exact Hd|exact Hr|]);
    try (by eapply Hcons).
  - apply andb_true_iff in Hpre as [Hd _].
    destruct (ω !! y) as [[oy ay]|] eqn:Hy; [|done]. by eapply Hcc.
  - apply andb_true_iff in Hpre as [Hd _]. by eapply Hcc.
  - apply andb_true_iff in Hpre as [Hd _]. destruct (ω !! y) as [[oy ay]|] eqn:Hy; [|done].
    assert (default_alloc y (abs_spec ω X) = ay) as ->.
    { unfold default_alloc. rewrite alloc_of_abs. unfold valloc. by rewrite Hy. }
    by apply Hmc.
  - apply andb_true_iff in Hpre as [Hd _]. by apply Hmc.
  - destruct (ω !! x0) as [[ox ax]|] eqn:Hx0; [|done]. subst r.
    destruct (decide (x = x0)) as [<-|Hne].
    + simplify_eq. simpl. exists ax. set_solver.
    + apply owner_result_keep. by rewrite lookup_delete_ne.
  - unfold vcopy_assign, vquiet in Hr. case_bool_decide as Hxy.
    { subst r. rewrite decide_True by done. by apply owner_result_keep. }
    rewrite decide_False by done. simpl.
    destruct (ω !! x0) as [[ox ax]|] eqn:Hx0; [|done].
    destruct (ω !! y) as [[oy ay]|] eqn:Hy; [|done].
    unfold engaged, in_place, equal_allocs. rewrite !abs_lookup, Hy, Hx0. simpl.
    destruct oy as [[[ly ty'] vy]|]; simpl.
    + assert (Hip : match k with
          | Ind => match (fun p : loc * ty * V => (p.1.2, p.2)) <$> ox with
                   | Some _ => true | None => false end && t_assignable E && a_eqb E ax ay
          | Poly => false end =
        match k, ox with Ind, Some _ => t_assignable E && a_eqb E ax ay | _, _ => false end).
      { destruct k, ox; simpl; done. }
      unfold engaged. rewrite ?abs_lookup, ?Hx0. simpl.
      lazymatch type of Hr with if ?b then _ else _ => destruct b eqn:Hb end.
      * assert (Hb' : match k with
          | Ind => match (fun p : loc * ty * V => (p.1.2, p.2)) <$> ox with
                   | Some _ => true | None => false end && t_assignable E && a_eqb E ax ay
          | Poly => false end = true) by congruence.
        rewrite Hb'. 
        replace (if decide (x = x0) then Some x else Some x) with (Some x) by (by case_decide).
        eapply vassign_owner; [done|done|]. intros H. apply andb_true_iff in H as [H _].
        apply negb_true_iff, bool_decide_eq_false in H. split; [done|].
        simpl. by rewrite orb_true_r.
      * assert (Hb' : match k with
          | Ind => match (fun p : loc * ty * V => (p.1.2, p.2)) <$> ox with
                   | Some _ => true | None => false end && t_assignable E && a_eqb E ax ay
          | Poly => false end = false) by congruence.
        rewrite Hb'. eapply vconstruct_owner; [done|done|].
        intros H. apply andb_true_iff in H as [_ H]. by rewrite orb_false_r in H.
    + subst r. destruct (decide (x = x0)) as [<-|Hne].
      * simplify_eq. simpl. exists ax. set_solver.
      * apply owner_result_keep. by rewrite lookup_insert_ne.
  - apply vnoexcept_inv in Hr as [Hr|[-> _]]; [|done].
    unfold vmove_assign, vquiet in Hr. case_bool_decide as Hxy.
    { subst r. rewrite decide_True by done. by apply owner_result_keep. }
    rewrite decide_False by done. simpl.
    destruct (ω !! x0) as [[ox ax]|] eqn:Hx0; [|done].
    destruct (ω !! y) as [[oy ay]|] eqn:Hy; [|done].
    unfold equal_allocs. rewrite !abs_lookup, Hy, Hx0. simpl.
    destruct oy as [[[ly ty'] vy]|]; simpl.
    + destruct (a_eqb E ax ay).
      * subst r. destruct (decide (x = x0)) as [<-|Hne].
        -- simplify_eq. simpl. exists ay. set_solver.
        -- destruct (decide (x = y)) as [<-|Hne'].
           ++ simpl. rewrite lookup_insert. simplify_eq. eauto.
           ++ apply owner_result_keep. by rewrite !lookup_insert_ne.
      * replace (if decide (x = x0) then None else if decide (x = y) then Some x else Some x)
          with (if decide (x = x0) then None else Some x) by (by repeat case_decide).
        eapply vconstruct_owner; [done|done|]. simpl. by rewrite !orb_false_r.
    + subst r. destruct (decide (x = x0)) as [<-|Hne].
      * simplify_eq. simpl. exists ax. set_solver.
      * rewrite decide_False by congruence. apply owner_result_keep. by rewrite lookup_insert_ne.
  - unfold vvalue_assign in Hr. destruct (ω !! x0) as [[[ox|] ax]|] eqn:Hx0; [| |done].
    + eapply vassign_owner; [done|done|]. intros H. apply andb_true_iff in H as [H H'].
      by apply negb_true_iff, bool_decide_eq_false in H.
    + assert (Hne : x <> x0) by congruence.
      pose proof (vconstruct_owner (negb (bool_decide (x = x0)) && arg_keeps g x = true)
        _ _ _ _ _ _ _ _ _ _ _ _ Hr Hx) as H.
      rewrite decide_False in H by done. apply H. intros H'. by apply andb_true_iff in H' as [_ ?].
  - unfold vswap, vquiet in Hr. destruct (ω !! x0) as [[ox ax]|] eqn:Hx0; [|done].
    destruct (ω !! y) as [[oy ay]|] eqn:Hy; [|done].
    destruct (pocs E); subst r; simpl; (destruct (decide (x = x0)) as [<-|Hne];
      [rewrite lookup_insert; simplify_eq; eauto|]);
      (destruct (decide (x = y)) as [<-|Hne'];
       [rewrite lookup_insert_ne, lookup_insert by done; simplify_eq; eauto|]);
      rewrite !lookup_insert_ne by done; eauto.
  - destruct (ω !! x0) as [[[[[l0 t0] v0]|] a0]|] eqn:Hx0; [|done|done]. subst r. simpl.
    destruct (decide (x = x0)) as [<-|Hne].
    + rewrite lookup_insert. rewrite bool_decide_true by done. simplify_eq. by eexists _, _.
    + rewrite lookup_insert_ne by done. eauto.
  - destruct (ω !! x0) as [[[[[l0 t0] v0]|] a0]|] eqn:Hx0; [|done|done]. subst r. by apply owner_result_keep.
  - destruct (ω !! x0) as [[o0 a0]|] eqn:Hx0; [|done]. subst r. by apply owner_result_keep.
  - destruct (ω !! x0) as [[o0 a0]|] eqn:Hx0; [|done]. subst r. by apply owner_result_keep.
  - subst r. by apply owner_result_keep.
Qed.

(** ** Costs *)

Definition cost_result (c : calls) r : Prop :=
  match r with VRet _ _ _ evs => tally evs = c | _ => True end.

Lemma vconstruct_cost x a t g ω X r :
  vconstruct k x a t g ω X r ->
  cost_result (let d := nb (engaged x (abs_spec ω X)) in mkCalls 1 d 1 d 0) r.
Proof.
  intros H. unfold engaged. rewrite abs_lookup.
  apply vconstruct_inv in H as [(l & v & v' & X' & xa & -> & _)|[(e & ->)|
    (e & l & v' & X' & xa & -> & _)]]; simpl; [|done|done].
  by destruct (ω !! x) as [[[[[]]|]]|].
Qed.

Lemma vassign_cost x a' g ω X r :
  vassign x a' g ω X r -> cost_result (mkCalls 0 0 0 0 1) r.
Proof.
  intros H. by apply vassign_inv in H as (l & t0 & v0 & a & xa & Hx & _ &
    [(d & v1 & X' & ->)|(e & d & v1 & X' & ->)]).
Qed.

Lemma reset_tally o a X ω x :
  ω !! x = Some (o, a) -> forall a',
  tally (reset_ev k o a') = let d := nb (engaged x (abs_spec ω X)) in mkCalls 0 d 0 d 0.
Proof.
  intros Hx a'. unfold engaged. rewrite abs_lookup, Hx. by destruct o as [[[]]|].
Qed.

Theorem veff_cost o ω X r :
  pre F o (abs_spec ω X) = true -> veff k cc ca o ω X r ->
  cost_result (cost k o (abs_spec ω X)) r.
Proof.
  intros Hpre Hr.
  assert (Hcons : forall x' a' t' g, negb (live x' (abs_spec ω X)) = true ->
     vconstruct k x' a' t' g ω X r -> cost_result (mkCalls 1 0 1 0 0) r).
  { intros x' a' t' g Hd Hc. apply vconstruct_cost in Hc. apply pre_dead in Hd.
    unfold engaged in Hc. rewrite abs_lookup, Hd in Hc. done. }
  assert (Hcc : forall c x' a' y, negb (live x' (abs_spec ω X)) = true ->
     vcopy_construct k c x' a' y ω X r ->
     cost_result (let n := nb (engaged y (abs_spec ω X)) in mkCalls n 0 n 0 0) r).
  { intros c x' a' y Hd Hc. unfold vcopy_construct, vquiet in Hc. unfold engaged. rewrite abs_lookup.
    destruct (ω !! y) as [[[[[ly ty'] vy]|] ay]|] eqn:Hy; [by eapply Hcons|by subst r|done]. }
  assert (Hmc : forall x' a' y, negb (live x' (abs_spec ω X)) = true ->
     vmove_construct k x' a' y ω X r ->
     cost_result (let n := nb (engaged y (abs_spec ω X) && negb (can_steal a' y (abs_spec ω X))) in
                  mkCalls n 0 n 0 0) r).
  { intros x' a' y Hd Hc. unfold vmove_construct, vquiet in Hc. unfold can_steal, engaged.
    rewrite abs_lookup.
    destruct (ω !! y) as [[[[[ly ty'] vy]|] ay]|] eqn:Hy; simpl; [|by subst r|done].
    destruct (always_equal E || a_eqb E a' ay); [by subst r|by eapply Hcons]. }
  destruct o; unfold veff, vquiet in Hr; cbn [pre] in Hpre; unfold cost;
    try (by eapply Hcons; [try apply andb_true_iff in Hpre as [Hd _]; exact Hd|exact Hr]);
    try (by eapply Hcons).
  - apply andb_true_iff in Hpre as [Hd _].
    destruct (ω !! y) as [[oy ay]|] eqn:Hy; [|done]. by eapply Hcc.
  - apply andb_true_iff in Hpre as [Hd _]. by eapply Hcc.
  - apply andb_true_iff in Hpre as [Hd _]. destruct (ω !! y) as [[oy ay]|] eqn:Hy; [|done].
    assert (default_alloc y (abs_spec ω X) = ay) as ->.
    { unfold default_alloc. rewrite alloc_of_abs. unfold valloc. by rewrite Hy. }
    by eapply Hmc.
  - apply andb_true_iff in Hpre as [Hd _]. by eapply Hmc.
  - destruct (ω !! x) as [[ox ax]|] eqn:Hx; [|done]. subst r. by eapply reset_tally.
  - unfold vcopy_assign, vquiet in Hr. case_bool_decide as Hxy; [by subst r|].
    destruct (ω !! x) as [[ox ax]|] eqn:Hx; [|done].
    destruct (ω !! y) as [[oy ay]|] eqn:Hy; [|done].
    unfold engaged at 1. rewrite abs_lookup, Hy.
    destruct oy as [[[ly ty'] vy]|]; simpl.
    + assert (in_place k x y (abs_spec ω X) =
        match k, ox with Ind, Some _ => t_assignable E && a_eqb E ax ay | _, _ => false end) as ->.
      { unfold in_place, equal_allocs, engaged. rewrite !abs_lookup, Hx, Hy. simpl.
        destruct k, ox as [[[]]|]; done. }
      lazymatch type of Hr with if ?b then _ else _ => destruct b end;
        [by eapply vassign_cost|by eapply vconstruct_cost].
    + subst r. by eapply reset_tally.
  - apply vnoexcept_inv in Hr as [Hr|[-> _]]; [|done].
    unfold vmove_assign, vquiet in Hr. case_bool_decide as Hxy; [by subst r|].
    destruct (ω !! x) as [[ox ax]|] eqn:Hx; [|done].
    destruct (ω !! y) as [[oy ay]|] eqn:Hy; [|done].
    unfold equal_allocs. rewrite !abs_lookup, Hx, Hy. simpl.
    destruct oy as [[[ly ty'] vy]|].
    + assert (engaged y (abs_spec ω X) = true) as ->.
      { unfold engaged. by rewrite abs_lookup, Hy. }
      destruct (a_eqb E ax ay); simpl.
      * subst r. by eapply reset_tally.
      * by eapply vconstruct_cost.
    + assert (engaged y (abs_spec ω X) = false) as ->.
      { unfold engaged. by rewrite abs_lookup, Hy. }
      subst r. by eapply reset_tally.
  - unfold vvalue_assign in Hr. unfold engaged. rewrite abs_lookup.
    destruct (ω !! x) as [[[[[lx tx] vx]|] ax]|] eqn:Hx; simpl; [| |done].
    + by eapply vassign_cost.
    + apply vconstruct_cost in Hr. unfold engaged in Hr. rewrite abs_lookup, Hx in Hr. done.
  - unfold vswap, vquiet in Hr. destruct (ω !! x) as [[ox ax]|] eqn:Hx; [|done].
    destruct (ω !! y) as [[oy ay]|] eqn:Hy; [|done]. destruct (pocs E); by subst r.
  - destruct (ω !! x) as [[[[[l t] v]|] a]|] eqn:Hx; [|done|done]. by subst r.
  - destruct (ω !! x) as [[[[[l t] v]|] a]|] eqn:Hx; [|done|done]. by subst r.
  - destruct (ω !! x) as [[o a]|] eqn:Hx; [|done]. by subst r.
  - destruct (ω !! x) as [[o a]|] eqn:Hx; [|done]. by subst r.
  - by subst r.
Qed.

End opfacts.
