(** * Client programs on the specification.

    Independent of the class models: what a client may do ([safe]) and what it may
    observe ([spec_run]). *)

From stdpp Require Import base gmap list.
From Verif Require Import Lang Client Spec.

Section specrun.
Context {E : Env} (F : cfg).

(** The client never violates a precondition, whatever throws.  [adm] is an
    additional restriction on operations (used for the C++14 [polymorphic] only). *)
Fixpoint safe_with (adm : op E -> spec E -> bool) (c : client E) (σ : spec E) : Prop :=
  match c with
  | CDone => True
  | CDo o next =>
      pre F o σ = true /\ adm o σ = true /\
      forall res, step F o σ = Some res ->
        safe_with adm (next (inl (r_obs res))) (r_ok res) /\
        forall e σ', σ' ∈ r_exn res -> safe_with adm (next (inr e)) σ'
  end.

Definition safe : client E -> spec E -> Prop := safe_with (fun _ _ => true).

(** [spec_run c σ outs σ']: starting from [σ], [c] may see the outcomes [outs]
    and end in [σ']. *)
Inductive spec_run : client E -> spec E -> list (obs E + exn) -> spec E -> Prop :=
  | sr_done σ : spec_run CDone σ [] σ
  | sr_ret o next σ res outs σ' :
      step F o σ = Some res ->
      spec_run (next (inl (r_obs res))) (r_ok res) outs σ' ->
      spec_run (CDo o next) σ (inl (r_obs res) :: outs) σ'
  | sr_exn o next σ res e σ1 outs σ' :
      step F o σ = Some res -> σ1 ∈ r_exn res ->
      spec_run (next (inr e)) σ1 outs σ' ->
      spec_run (CDo o next) σ (inr e :: outs) σ'.

(** The client may reach an operation on which a noexcept function throws. *)
Inductive spec_term : client E -> spec E -> Prop :=
  | st_here o next σ : may_terminate o σ = true -> spec_term (CDo o next) σ
  | st_ret o next σ res :
      step F o σ = Some res -> spec_term (next (inl (r_obs res))) (r_ok res) ->
      spec_term (CDo o next) σ
  | st_exn o next σ res e σ1 :
      step F o σ = Some res -> σ1 ∈ r_exn res -> spec_term (next (inr e)) σ1 ->
      spec_term (CDo o next) σ.

(** The specification is total on operations whose precondition holds. *)
Lemma engaged_sv x (σ : spec E) :
  engaged x σ = true -> exists t v a, sv σ !! x = Some (Some (t, v), a).
Proof. unfold engaged. destruct (sv σ !! x) as [[[[t v]|] a]|]; try done. eauto. Qed.
Lemma live_sv x (σ : spec E) : live x σ = true -> exists o a, sv σ !! x = Some (o, a).
Proof.
  unfold live. intros H. apply bool_decide_eq_true in H as [[o a] H]. eauto.
Qed.

Lemma arg_pre_make_some t a g (σ : spec E) : arg_pre g σ = true -> is_Some (make t a g σ).
Proof.
  destruct g as [c|c n|c y]; unfold make; simpl.
  - eauto.
  - intros H. apply bool_decide_eq_true in H as [[t' v'] H]. rewrite H.
    destruct (t_cons _ _ _ _ _ _). eauto.
  - intros H. apply engaged_sv in H as (t' & v' & a' & H). rewrite H.
    destruct (t_cons _ _ _ _ _ _). eauto.
Qed.

Lemma construct_some x t a g (σ : spec E) : arg_pre g σ = true -> is_Some (construct x a t g σ).
Proof.
  intros H. unfold construct. destruct (arg_pre_make_some t a g σ H) as [[[v σ1] σ2] ->]. eauto.
Qed.

Lemma assign_some x g (σ : spec E) t v a :
  sv σ !! x = Some (Some (t, v), a) -> arg_pre g σ = true ->
  exists σ1 σ2 o, assign_obj x g σ = Some (σ1, σ2) /\ sv σ1 !! x = Some o.
Proof.
  intros Hx Hg. unfold assign_obj. rewrite Hx. destruct g as [c|c n|c y]; simpl in *.
  - eexists _, _, _. split; [done|]. apply lookup_insert.
  - apply bool_decide_eq_true in Hg as [[t' v'] Hg]. rewrite Hg.
    destruct (t_asgn _ _ _ _ _ _), (t_asgn_fail _ _ _ _ _ _).
    eexists _, _, _. split; [done|]. apply lookup_insert.
  - apply engaged_sv in Hg as (t' & v' & a' & Hy). case_bool_decide.
    + eexists _, _, _. split; [done|]. apply lookup_insert.
    + rewrite Hy. destruct (t_asgn _ _ _ _ _ _), (t_asgn_fail _ _ _ _ _ _).
      eexists _, _, _. split; [done|]. apply lookup_insert.
Qed.

Lemma step_total (o : op E) σ : pre F o σ = true -> is_Some (step F o σ).
Proof.
  intros Hpre. unfold step. rewrite Hpre. simpl.
  assert (Hcc : forall x a y c, live y σ = true ->
     is_Some (copy_construct (mkCfg (c_cls F) c (c_ca F)) x a y σ)).
  { intros x a y c Hy. apply live_sv in Hy as (oy & ay & Hy). unfold copy_construct. rewrite Hy.
    destruct oy as [[t v]|]; [|unfold nothrow; eauto]. apply construct_some. simpl.
    unfold engaged. by rewrite Hy. }
  assert (Hmc : forall x a y, live y σ = true -> is_Some (move_construct x a y σ)).
  { intros x a y Hy. apply live_sv in Hy as (oy & ay & Hy). unfold move_construct. rewrite Hy.
    destruct oy as [[t v]|]; [|unfold nothrow; eauto].
    destruct (always_equal E || a_eqb E a ay); [unfold nothrow; eauto|].
    apply construct_some. simpl. unfold engaged. by rewrite Hy. }
  destruct F as [k cc ca]. simpl in *.
  destruct o; simpl in Hpre; try (apply andb_true_iff in Hpre as [Hp1 Hpre]);
    try (by apply construct_some); try (unfold nothrow; by eauto).
  - destruct (live_sv _ _ Hpre) as (oy & ay & Hy). rewrite Hy. by apply (Hcc x (a_soccc E ay) y cc).
  - destruct (live_sv _ _ Hpre) as (oy & ay & Hy). rewrite Hy. by apply Hmc.
  - unfold copy_assign_spec. case_bool_decide; [unfold nothrow; eauto|].
    destruct (live_sv _ _ Hpre) as (oy & ay & Hy). destruct (live_sv _ _ Hp1) as (ox & ax & Hx).
    rewrite Hx, Hy. destruct oy as [[t v]|]; [|unfold nothrow; eauto].
    assert (Hen : forall c, arg_pre (GDeref c y) σ = true).
    { intros c. simpl. unfold engaged. by rewrite Hy. }
    cbn [c_cls c_ca].
    destruct k, ox as [[tx vx]|]; try (by apply construct_some).
    destruct (_ && _); [|by apply construct_some].
    destruct (assign_some x (GDeref ConstL y) σ _ _ _ Hx (Hen _)) as (σ1 & σ2 & [o' a'] & -> & ->).
    eauto.
  - assert (Hnx : forall nx (r : option (stepres E)), is_Some r -> is_Some (no_exn nx r)).
    { intros nx r [res ->]. simpl. eauto. }
    apply Hnx. unfold move_assign_spec. case_bool_decide; [unfold nothrow; eauto|].
    destruct (live_sv _ _ Hpre) as (oy & ay & Hy). destruct (live_sv _ _ Hp1) as (ox & ax & Hx).
    rewrite Hx, Hy. destruct oy as [[t v]|]; [|unfold nothrow; eauto].
    destruct (a_eqb E ax ay); [unfold nothrow; eauto|].
    apply construct_some. simpl. unfold engaged. by rewrite Hy.
  - destruct k; [|done]. apply andb_true_iff in Hpre as [Hx Hg].
    apply live_sv in Hx as (ox & ax & Hx). unfold value_assign_spec. rewrite Hx.
    destruct ox as [[tx vx]|]; [|by apply construct_some].
    destruct (assign_some x g σ _ _ _ Hx Hg) as (σ1 & σ2 & o' & -> & _). eauto.
  - apply andb_true_iff in Hp1 as [Hx Hy].
    apply live_sv in Hx as (ox & ax & Hx). apply live_sv in Hy as (oy & ay & Hy).
    unfold swap_spec. rewrite Hx, Hy. destruct (pocs E); unfold nothrow; eauto.
  - apply engaged_sv in Hpre as (t & v & a & ->). unfold nothrow; eauto.
  - apply engaged_sv in Hpre as (t & v & a & ->). eauto.
  - apply live_sv in Hpre as (o & a & ->). eauto.
  - apply live_sv in Hpre as (o & a & ->). eauto.
Qed.

End specrun.
