(** * Objects become valueless only by moving. *)

From stdpp Require Import base gmap list.
From Verif Require Import Lang Client Spec SpecRun OpSpec.

Section taint.
Context {E : Env} (F : cfg).
Implicit Types σ : spec E.
Implicit Types D : gset wl.

Definition valueless (w : wl) σ : Prop := exists a, sv σ !! w = Some (None, a).
Definition tainted_by σ D : Prop := forall w, valueless w σ -> w ∈ D.

Lemma valueless_put x o a σ w :
  valueless w (put x o a σ) <-> (w = x /\ o = None) \/ (w <> x /\ valueless w σ).
Proof.
  unfold valueless, put; simpl. destruct (decide (w = x)) as [->|Hne].
  - rewrite lookup_insert. split; [intros [? [= -> ->]]; auto|].
    intros [[_ ->]|[? _]]; [eauto|done].
  - rewrite lookup_insert_ne by done. naive_solver.
Qed.

Lemma valueless_set_arg g v σ w : valueless w (set_arg g v σ) -> valueless w σ.
Proof.
  unfold valueless. destruct g as [c|c n|c y]; simpl; [done|by destruct c|].
  destruct c; [done| |]; simpl; intros [a H];
  (destruct (decide (y = w)) as [<-|Hne];
    [rewrite lookup_alter in H|rewrite lookup_alter_ne in H by done; eauto]);
  destruct (sv σ !! y) as [[[]]|] eqn:Hy; simplify_eq/=; eauto.
Qed.

Lemma taint_set_arg g v σ D : tainted_by σ D -> tainted_by (set_arg g v σ) D.
Proof. intros H w Hw. apply H. by eapply valueless_set_arg. Qed.

Lemma taint_put x o a σ D :
  tainted_by σ D -> tainted_by (put x (Some o) a σ) (D ∖ {[x]}).
Proof.
  intros H w Hw. apply valueless_put in Hw as [[_ ?]|[Hne Hw]]; [done|].
  apply H in Hw. set_solver.
Qed.

Lemma make_taint t a g σ v σ1 σ2 D :
  make t a g σ = Some (v, σ1, σ2) -> tainted_by σ D -> tainted_by σ1 D /\ tainted_by σ2 D.
Proof.
  intros Hm H. unfold make in Hm. destruct g as [c|c n|c y].
  - by simplify_eq.
  - destruct (arg_obj _ _) as [[]|]; [|done]. destruct (t_cons _ _ _ _ _ _). simplify_eq.
    split; by apply taint_set_arg.
  - destruct (arg_obj _ _) as [[]|]; [|done]. destruct (t_cons _ _ _ _ _ _). simplify_eq.
    split; by apply taint_set_arg.
Qed.

Definition ok_res (res : stepres E) D1 D : Prop :=
  tainted_by (r_ok res) D1 /\ forall σ', σ' ∈ r_exn res -> tainted_by σ' D.

Lemma construct_taint x a t g σ res D :
  construct x a t g σ = Some res -> tainted_by σ D -> ok_res res (D ∖ {[x]}) D.
Proof.
  unfold construct. destruct (make t a g σ) as [[[v σ1] σ2]|] eqn:Hm; [|done].
  intros [= <-] H. destruct (make_taint _ _ _ _ _ _ _ _ Hm H) as [H1 H2].
  split; simpl; [by apply taint_put|]. intros σ' Hin.
  apply elem_of_cons in Hin as [->|Hin]; [done|]. apply elem_of_list_singleton in Hin as ->. done.
Qed.

Lemma put_some_sub x o a σ D : tainted_by σ D -> tainted_by (put x (Some o) a σ) D.
Proof. intros H w Hw. apply (taint_put x o a) in H. apply H in Hw. set_solver. Qed.

Lemma assign_taint x g σ σ1 σ2 D :
  assign_obj x g σ = Some (σ1, σ2) -> tainted_by σ D -> engaged x σ = true ->
  (tainted_by σ1 (D ∖ {[x]}) /\ tainted_by σ2 D) /\ engaged x σ1 = true.
Proof.
  unfold assign_obj, engaged. destruct (sv σ !! x) as [[[[t0 v0]|] a]|]; try done.
  intros Hs H _. destruct g as [c|c n|c y].
  - simplify_eq. split; [split|unfold put; cbn [sv]; by rewrite lookup_insert].
    + by apply taint_put.
    + by apply put_some_sub.
  - destruct (arg_obj _ _) as [[]|]; [|done]. destruct (t_asgn _ _ _ _ _ _), (t_asgn_fail _ _ _ _ _ _).
    simplify_eq. split; [split|unfold put; cbn [sv]; by rewrite lookup_insert].
    + by apply taint_put, taint_set_arg.
    + by apply put_some_sub, taint_set_arg.
  - case_bool_decide.
    + simplify_eq. split; [split|unfold put; cbn [sv]; by rewrite lookup_insert].
      * by apply taint_put.
      * by apply put_some_sub.
    + destruct (arg_obj _ _) as [[]|]; [|done]. destruct (t_asgn _ _ _ _ _ _), (t_asgn_fail _ _ _ _ _ _).
      simplify_eq. split; [split|unfold put; cbn [sv]; by rewrite lookup_insert].
      * by apply taint_put, taint_set_arg.
      * by apply put_some_sub, taint_set_arg.
Qed.

Lemma ok_weaken res D1 D1' D : ok_res res D1 D -> D1 ⊆ D1' -> ok_res res D1' D.
Proof. intros [H1 H2] Hs. split; [|done]. intros w Hw. by apply Hs, H1. Qed.

Lemma nothrow_ok σ res D1 D : nothrow σ = Some res -> tainted_by σ D1 -> ok_res res D1 D.
Proof. intros [= <-] H. split; [done|]. intros ? Hin. by apply elem_of_nil in Hin. Qed.

Lemma value_ok σ ob res D : Some (mkRes σ ob []) = Some res -> tainted_by σ D -> ok_res res D D.
Proof. intros [= <-] H. split; [done|]. intros ? Hin. by apply elem_of_nil in Hin. Qed.

Theorem step_taint o σ res D :
  step F o σ = Some res -> tainted_by σ D -> ok_res res (taint o D) D.
Proof.
  unfold step. destruct (pre F o σ) eqn:Hpre; [|done]. simpl. intros Hs H.
  assert (Hcc : forall x a y, copy_construct F x a y σ = Some res ->
    ok_res res (if decide (y ∈ D) then {[x]} ∪ D else D ∖ {[x]}) D).
  { intros x a y Hc. unfold copy_construct in Hc.
    destruct (sv σ !! y) as [[[[t v]|] ay]|] eqn:Hy; [| |done].
    - eapply ok_weaken; [by eapply construct_taint|]. case_decide; set_solver.
    - eapply nothrow_ok; [done|]. rewrite decide_True by (apply H; unfold valueless; eauto).
      intros w Hw. apply valueless_put in Hw as [[-> _]|[_ Hw]]; [set_solver|]. apply H in Hw. set_solver. }
  assert (Hmc : forall x a y, move_construct x a y σ = Some res ->
    ok_res res ({[y]} ∪ (if decide (y ∈ D) then {[x]} ∪ D else D ∖ {[x]})) D).
  { intros x a y Hc. unfold move_construct in Hc.
    destruct (sv σ !! y) as [[[[t v]|] ay]|] eqn:Hy; [| |done].
    - destruct (always_equal E || a_eqb E a ay).
      + eapply nothrow_ok; [done|]. intros w Hw.
        apply valueless_put in Hw as [[_ ?]|[Hne Hw]]; [done|].
        apply valueless_put in Hw as [[-> _]|[_ Hw]]; [set_solver|]. apply H in Hw.
        case_decide; set_solver.
      + eapply ok_weaken; [by eapply construct_taint|]. case_decide; set_solver.
    - eapply nothrow_ok; [done|]. rewrite decide_True by (apply H; unfold valueless; eauto).
      intros w Hw. apply valueless_put in Hw as [[-> _]|[_ Hw]]; [set_solver|]. apply H in Hw. set_solver. }
  destruct o; cbn [taint]; try (by eapply construct_taint).
  - destruct (sv σ !! y) as [[oy ay]|]; [|done]. by eapply Hcc.
  - by eapply Hcc.
  - destruct (sv σ !! y) as [[oy ay]|]; [|done]. by eapply Hmc.
  - by eapply Hmc.
  - eapply nothrow_ok; [done|]. intros w [a Hw]. simpl in Hw.
    apply lookup_delete_Some in Hw as [Hne Hw].
    assert (w ∈ D) by (apply H; by exists a). set_solver.
  - unfold copy_assign_spec in Hs. case_bool_decide as Hxy.
    { subst y. eapply nothrow_ok; [done|]. intros w Hw. apply H in Hw.
      pose proof (H x) as Hx. case_decide; [set_solver|].
      destruct (decide (w = x)) as [->|]; [done|set_solver]. }
    destruct (sv σ !! x) as [[ox ax]|] eqn:Hx; [|done].
    destruct (sv σ !! y) as [[oy ay]|] eqn:Hy; [|done].
    destruct oy as [[t v]|].
    + lazymatch type of Hs with (if ?b then _ else _) = _ => destruct b eqn:Hb end.
      * destruct (assign_obj x (GDeref ConstL y) σ) as [[σ1 σ2]|] eqn:Ha; [|done].
        assert (Hen : engaged x σ = true).
        { unfold engaged. rewrite Hx. destruct (c_cls F), ox; done. }
        destruct (assign_taint _ _ _ _ _ _ Ha H Hen) as [[H1 H2] He1].
        destruct (sv σ1 !! x) as [[o' a']|] eqn:Hx1; [|done]. simplify_eq.
        unfold engaged in He1. rewrite Hx1 in He1. destruct o' as [o'|]; [|done].
        split; simpl.
        -- intros w Hw. apply (put_some_sub x o' (if pocca E then ay else ax)) in H1.
           apply H1 in Hw. case_decide; set_solver.
        -- intros σ' Hin. by apply elem_of_list_singleton in Hin as ->.
      * eapply ok_weaken; [by eapply construct_taint|]. case_decide; set_solver.
    + eapply nothrow_ok; [done|]. rewrite decide_True by (apply H; unfold valueless; eauto).
      intros w Hw. apply valueless_put in Hw as [[-> _]|[_ Hw]]; [set_solver|]. apply H in Hw. set_solver.
  - unfold no_exn in Hs. destruct (move_assign_spec x y σ) as [res0|] eqn:Hm; [|done].
    enough (Hok : ok_res res0 (taint (E := E) (OAssignM x y) D) D).
    { destruct (pocma E || always_equal E); simplify_eq; [|done].
      destruct Hok as [Hok _]. split; [exact Hok|]. simpl. intros σ' Hin. by apply elem_of_nil in Hin. }
    clear Hs. rename Hm into Hs. simpl.
    unfold move_assign_spec in Hs. case_bool_decide as Hxy.
    { subst y. rewrite decide_True by done. by eapply nothrow_ok. }
    rewrite decide_False by done.
    destruct (sv σ !! x) as [[ox ax]|] eqn:Hx; [|done].
    destruct (sv σ !! y) as [[oy ay]|] eqn:Hy; [|done].
    destruct oy as [[t v]|].
    + destruct (a_eqb E ax ay).
      * eapply nothrow_ok; [done|]. intros w Hw.
        apply valueless_put in Hw as [[_ ?]|[Hne Hw]]; [done|].
        apply valueless_put in Hw as [[-> _]|[_ Hw]]; [set_solver|]. apply H in Hw.
        case_decide; set_solver.
      * eapply ok_weaken; [by eapply construct_taint|]. case_decide; set_solver.
    + eapply nothrow_ok; [done|]. rewrite decide_True by (apply H; unfold valueless; eauto).
      intros w Hw. apply valueless_put in Hw as [[-> _]|[_ Hw]]; [set_solver|]. apply H in Hw. set_solver.
  - unfold value_assign_spec in Hs. destruct (sv σ !! x) as [[[[t v]|] a]|] eqn:Hx; [| |done].
    + destruct (assign_obj x g σ) as [[σ1 σ2]|] eqn:Ha; [|done]. simplify_eq.
      assert (Hen : engaged x σ = true) by (unfold engaged; by rewrite Hx).
      destruct (assign_taint _ _ _ _ _ _ Ha H Hen) as [[H1 H2] _].
      split; simpl; [done|]. intros σ' Hin. by apply elem_of_list_singleton in Hin as ->.
    + by eapply construct_taint.
  - unfold swap_spec in Hs. destruct (sv σ !! x) as [[ox ax]|] eqn:Hx; [|done].
    destruct (sv σ !! y) as [[oy ay]|] eqn:Hy; [|done].
    assert (Hx' : ox = None -> x ∈ D) by (intros ->; apply H; unfold valueless; eauto).
    assert (Hy' : oy = None -> y ∈ D) by (intros ->; apply H; unfold valueless; eauto).
    destruct (pocs E); (eapply nothrow_ok; [done|]); intros w Hw;
      (apply valueless_put in Hw as [[-> ?]|[Hne Hw]]; [rewrite (decide_True _ _ (Hx' H0)); set_solver|]);
      (apply valueless_put in Hw as [[-> ?]|[Hne' Hw]]; [rewrite (decide_True _ _ (Hy' H0)); set_solver|]);
      apply H in Hw; set_solver.
  - destruct (sv σ !! x) as [[[[t v]|] a]|] eqn:Hx; [|done|done]. eapply nothrow_ok; [done|].
    by apply put_some_sub.
  - destruct (sv σ !! x) as [[[[t v]|] a]|] eqn:Hx; [|done|done]. by eapply value_ok.
  - destruct (sv σ !! x) as [[o a]|] eqn:Hx; [|done]. by eapply value_ok.
  - destruct (sv σ !! x) as [[o a]|] eqn:Hx; [|done]. by eapply value_ok.
  - by eapply nothrow_ok.
Qed.

Theorem run_taint c σ outs σ' D :
  spec_run F c σ outs σ' -> tainted_by σ D -> tainted_by σ' (taint_run c outs D).
Proof.
  intros Hrun. revert D. induction Hrun as [σ|o next σ res outs σ' Hs Hr IH|o next σ res e σ1 outs σ' Hs Hin Hr IH];
    intros D H; simpl; [done| |].
  - apply IH. eapply (step_taint _ _ _ _ Hs H).
  - apply IH. eapply (step_taint _ _ _ _ Hs H). done.
Qed.

(** Without moves nothing is ever tainted. *)
Lemma taint_nomove o : is_move o = false -> taint (E := E) o ∅ = ∅.
Proof.
  destruct o; simpl; try done; intros _; repeat case_decide; set_solver.
Qed.

Theorem run_nomove c outs :
  client_all (fun o => is_move o = false) c -> taint_run (E := E) c outs ∅ = ∅.
Proof.
  revert outs. induction c as [|o next IH]; intros outs; simpl; [done|].
  intros [Ho Hn]. destruct outs as [|[x|e] outs]; [done| |].
  - rewrite taint_nomove by done. by apply IH.
  - by apply IH.
Qed.

End taint.
