(** * The code's copies against the draft's copies.

    The code hands the source of some copies to the value type as a non-const lvalue
    (cfg [code_indirect], [code_polymorphic]); the draft prescribes a const lvalue.  For
    value types that meet the semantic requirement of [std::copy_constructible] there
    is no difference. *)

From stdpp Require Import base gmap list.
From Verif Require Import Lang Client Spec SpecRun Hist.

(** [std::copy_constructible] (semantic part): copying from a non-const lvalue yields
    what copying from a const lvalue yields, and neither modifies the source. *)
Record CopyReq (E : Env) : Prop := {
  cr_cons : forall t t' a v, t_cons E NonConstL t t' a v = ((t_cons E ConstL t t' a v).1, v);
  cr_fail : forall t t' v, t_cons_fail E NonConstL t t' v = v;
}.

Definition draft_cfg (h : header) : cfg := mkCfg (header_cls h) ConstL ConstL.

Section draft.
Context {E : Env} (HC : CopyReq E).
Implicit Types σ : spec E.

Lemma set_arg_id c y σ v t a :
  sv σ !! y = Some (Some (t, v), a) -> set_arg (GDeref c y) v σ = σ.
Proof.
  intros Hy. destruct c; [done| |]; simpl; destruct σ as [S X]; simpl in *; f_equal;
  apply map_eq; intros w; (destruct (decide (y = w)) as [<-|];
    [rewrite lookup_alter, Hy; done|by rewrite lookup_alter_ne]).
Qed.

Lemma make_const c t a y σ :
  c = ConstL \/ c = NonConstL -> make t a (GDeref c y) σ = make t a (GDeref ConstL y) σ.
Proof.
  intros [->| ->]; [done|]. unfold make. simpl.
  destruct (sv σ !! y) as [[[[t' v]|] ay]|] eqn:Hy; [|done|done].
  rewrite (cr_cons _ HC), (cr_fail _ HC). destruct (t_cons E ConstL t t' a v) as [v1 v2]. simpl.
  pose proof (set_arg_id NonConstL y σ v t' ay Hy) as H. simpl in H. by rewrite H.
Qed.

Definition copies_lvalue (F : cfg) : Prop :=
  (c_cc F = ConstL \/ c_cc F = NonConstL) /\ (c_ca F = ConstL \/ c_ca F = NonConstL).

Lemma step_draft F o σ :
  copies_lvalue F -> step F o σ = step (mkCfg (c_cls F) ConstL ConstL) o σ.
Proof.
  intros [H1 H2]. unfold step.
  assert (Hpre : pre F o σ = pre (mkCfg (c_cls F) ConstL ConstL) o σ) by done.
  rewrite <- Hpre. destruct (negb (pre F o σ)); [done|].
  assert (Hcc : forall x a y, copy_construct F x a y σ =
    copy_construct (mkCfg (c_cls F) ConstL ConstL) x a y σ).
  { intros x a y. unfold copy_construct, construct. destruct (sv σ !! y) as [[[[]|]]|]; [|done|done].
    cbn [c_cc]. by rewrite make_const. }
  destruct o; try done.
  - destruct (sv σ !! y) as [[]|]; [|done]. apply Hcc.
  - unfold copy_assign_spec, construct. cbn [c_cls c_ca].
    destruct (bool_decide _); [done|]. destruct (sv σ !! x) as [[ox ax]|]; [|done].
    destruct (sv σ !! y) as [[[[t v]|] ay]|]; [|done|done].
    by rewrite (make_const (c_ca F)).
Qed.

Lemma spec_run_draft F c σ outs σ' :
  copies_lvalue F -> spec_run F c σ outs σ' <-> spec_run (mkCfg (c_cls F) ConstL ConstL) c σ outs σ'.
Proof.
  intros HF. split; intros H; induction H as [σ|o next σ res outs σ' Hs Hr IH|o next σ res e σ1 outs σ' Hs Hin Hr IH];
    first [by constructor | eapply sr_ret; [|done] | eapply sr_exn; [|done|done]];
    [by rewrite <- step_draft|by rewrite <- step_draft|by rewrite step_draft|by rewrite step_draft].
Qed.

Lemma spec_term_draft F c σ :
  copies_lvalue F -> spec_term F c σ <-> spec_term (mkCfg (c_cls F) ConstL ConstL) c σ.
Proof.
  intros HF. split; induction 1.
  - by apply st_here.
  - eapply st_ret; [|done]. by rewrite <- step_draft.
  - eapply st_exn; [|done..]. by rewrite <- step_draft.
  - by apply st_here.
  - eapply st_ret; [|done]. by rewrite step_draft.
  - eapply st_exn; [|done..]. by rewrite step_draft.
Qed.

Lemma safe_draft F adm c σ :
  copies_lvalue F ->
  safe_with F adm c σ <-> safe_with (mkCfg (c_cls F) ConstL ConstL) adm c σ.
Proof.
  intros HF. revert σ. induction c as [|o next IH]; intros σ; simpl; [done|].
  rewrite step_draft by done.
  split; intros (H1 & H2 & H3); (split; [done|]; split; [done|]); intros res Hres;
    destruct (H3 res Hres) as [H4 H5]; (split; [by apply IH|]); intros e σ' Hin; by apply IH, (H5 e).
Qed.

Lemma header_lvalue h : copies_lvalue (header_cfg h).
Proof. destruct h; split; simpl; auto. Qed.

End draft.
