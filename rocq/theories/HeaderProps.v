(** * The C++14 headers against the C++20 headers: lemmas. *)

From stdpp Require Import base gmap list.
From Verif Require Import Lang Common Client Spec SpecRun Rep Effect RunLemmas RunOps Refine
  RunInd RunPoly Headers Hist OpSpec OpProps OpProps3 OpProps4 ClientProps.

Section headers.
Context {E : Env} (HA : AllocReq E).
Implicit Types s : store E.

(** Whole programs behave identically - results, exceptions, log and final store. *)
Lemma poly14_client_same (c : client E) s :
  Inv Poly s -> safe_with code_polymorphic ok14 c (abs s) ->
  run_client (polymorphic14 (flatTP E)) c s = run_client (polymorphic20 (flatTP E)) c s.
Proof.
  revert s. induction c as [|o next IH]; intros s HI Hsafe; [done|].
  destruct Hsafe as (Hpre & Hadm & Hnext).
  destruct (op_correct HA code_polymorphic ok14 _ s o (poly14_implements HA) HI Hpre Hadm)
    as (res & Hstep & Hrun).
  destruct (Hnext res Hstep) as [Hok Hexn].
  simpl. rewrite (poly14_same HA s (view s) o _ _ HI Hpre Hadm) in Hrun |- *.
  destruct (run (interp (polymorphic20 (flatTP E)) o) s) as [x s'|e s'|u|]; try done.
  - destruct Hrun as (HI' & -> & Habs). rewrite IH; [done|done|by rewrite Habs].
  - destruct Hrun as (HI' & Hin & _). rewrite IH; [done|done|by apply Hexn].
Qed.

(** initializer_list construction *)
Lemma ilist_type h s o x a t g r s' :
  Inv (header_cls h) s -> header_cls h = Poly ->
  (o = OIlist x t g /\ a = a_default E \/ o = OIlistA x a t g) ->
  pre (header_cfg h) o (abs s) = true -> h <> HPoly14 \/ t = tT E ->
  run (interp (header_impl h) o) s = ORet r s' ->
  exists l v, owns s' x l t v a.
Proof.
  intros HI Hk Ho Hpre Ht Hr.
  assert (Hadm : adm h o (abs s) = true).
  { destruct h; try done. destruct Ht as [|Ht]; [done|].
    destruct Ho as [[-> _]| ->]; simpl; by apply bool_decide_eq_true. }
  assert (Hc : ctor_arg o = Some (x, a, t, g)) by (by destruct Ho as [[-> ->]| ->]).
  pose proof (ctor_makes HA h s o x a t g HI Hc Hpre Hadm) as H. rewrite Hr in H.
  destruct H as (l & xa & v & _ & _ & H & _). exists l, v.
  unfold created_type in H. by rewrite Hk in H.
Qed.

Lemma ilist_type14 s o x a t g r s' :
  Inv Poly s ->
  (o = OIlist x t g /\ a = a_default E \/ o = OIlistA x a t g) ->
  pre code_polymorphic o (abs s) = true ->
  run (interp (polymorphic14 (flatTP E)) o) s = ORet r s' ->
  exists l v, owns s' x l (tT E) v a.
Proof.
  intros HI Ho Hpre Hr.
  destruct Ho as [[-> ->]| ->].
  - eapply (ilist_type HPoly14 s (OIlist x (tT E) g)); eauto.
  - eapply (ilist_type HPoly14 s (OIlistA x a (tT E) g)); eauto.
Qed.

Lemma ilist_wrong_type s x t c :
  Inv Poly s -> absent s x -> t <> tT E ->
  (forall e, RespFail e ∉ orc s) ->
  exists s' l v, run (interp (polymorphic14 (flatTP E)) (OIlist x t (GArgs c))) s = ORet ObsUnit s' /\
    owns s' x l (tT E) v (a_default E) /\ forall l' v' a', ~ owns s' x l' t v' a'.
Proof.
  intros Hr Hx Ht Hf.
  pose proof (ctor_makes HA HPoly14 s (OIlist x (tT E) (GArgs c)) x (a_default E) (tT E) (GArgs c) Hr
    eq_refl) as H.
  change (interp (polymorphic14 (flatTP E)) (OIlist x t (GArgs c))) with
    (interp (E := E) (header_impl HPoly14) (OIlist x (tT E) (GArgs c))).
  assert (Hpre : pre (header_cfg HPoly14) (OIlist x (tT E) (GArgs c)) (abs s) = true).
  { simpl. by rewrite (dead_abs _ _ Hx). }
  specialize (H Hpre). specialize (H ltac:(simpl; by apply bool_decide_eq_true)).
  destruct (run (interp (header_impl HPoly14) (OIlist x (tT E) (GArgs c))) s) as [r s'|e s'|u|] eqn:Hrun.
  - destruct H as (l & xa & v & _ & _ & Ho & _).
    assert (r = ObsUnit) as ->.
    { revert Hrun. unfold interp, quiet. rewrite run_bind.
      match goal with |- context [run ?p s] => destruct (run p s) as [[] ?| | |] end; intros Hrun; by simplify_eq/=. }
    exists s', l, v. split; [done|]. split; [done|].
    intros l' v' a' Ho'. unfold owns in *. rewrite Ho in Ho'. apply Ht. by injection Ho'.
  - by destruct H as (H & _); apply Hf in H.
  - done.
  - done.
Qed.

End headers.
