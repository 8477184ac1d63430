(** * The C++14 [polymorphic]: what its deviations from the C++20 header mean. *)

From stdpp Require Import base gmap list.
From Verif Require Import Lang Common Client Spec SpecRun Rep Effect RunLemmas RunOps Refine
  RunInd RunPoly Headers Hist OpProps OpProps2.
From Verif Require Import Indirect20 Indirect14 Polymorphic20 Polymorphic14.

Section poly14.
Context {E : Env} (HA : AllocReq E).
Notation A := (eA E).
Notation V := (eV E).
Implicit Types s : store E.
Notation I14 := (polymorphic14 (flatTP E)).
Notation I20 := (polymorphic20 (flatTP E)).

(** ** initializer_list construction: T whatever was asked for *)
Definition ilist14 (o : op E) : op E :=
  match o with
  | OIlist x _ g => OIlist x (tT E) g
  | OIlistA x a _ g => OIlistA x a (tT E) g
  | _ => o
  end.

Fixpoint client14 (c : client E) : client E :=
  match c with
  | CDone => CDone
  | CDo o next => CDo (ilist14 o) (fun r => client14 (next r))
  end.

Lemma interp_ilist14 o : interp I14 o = interp I14 (ilist14 o).
Proof. by destruct o. Qed.

Lemma run_client14 c s : run_client I14 c s = run_client I14 (client14 c) s.
Proof.
  revert s. induction c as [|o next IH]; intros s; simpl; [done|].
  rewrite <- interp_ilist14. destruct (run (interp I14 o) s); [by rewrite IH|by rewrite IH|done|done].
Qed.

(** ** What remains to be excluded, for allocators that equal themselves *)
Definition move14_ok (o : op E) (σ : spec E) : bool :=
  match o with
  | OMoveA x a y =>
      match sv σ !! y with
      | Some (Some _, ay) => negb (pocca E) || a_eqb E a ay
      | _ => true
      end
  | _ => true
  end.

Lemma safe_move14 (Hrefl : forall a, a_eqb E a a = true) c σ :
  safe_with code_polymorphic move14_ok (client14 c) σ ->
  safe_with code_polymorphic ok14 (client14 c) σ.
Proof.
  revert σ. induction c as [|o next IH]; intros σ; simpl; [done|].
  intros (H1 & H2 & H3). split; [done|]. split.
  - destruct o; simpl in *; try done; try (by apply bool_decide_eq_true).
    destruct (sv σ !! y) as [[[] ?]|]; [apply Hrefl|done|done].
  - intros res Hres. destruct (H3 res Hres) as [H4 H5]. split; [by apply IH|].
    intros e σ' Hin. apply IH. by eapply H5.
Qed.

Lemma no_ub14 (Hrefl : forall a, a_eqb E a a = true) c X O :
  safe_with code_polymorphic move14_ok (client14 c) (mkSpec ∅ X) ->
  forall u, run_client I14 c (init X O) <> HUB u.
Proof.
  intros Hs u. rewrite run_client14. intros Hrun.
  pose proof (client_correct HA code_polymorphic ok14 I14 (client14 c) (init X O) (poly14_implements HA)
    (init_inv _ _ _)) as H.
  rewrite Hrun, init_abs in H. apply H. by apply safe_move14.
Qed.

(** ** The exclusion is necessary *)
Lemma move14_wrong_alloc s x a y l t v ay :
  Inv Poly s -> absent s x -> owns s y l t v ay -> pocca E = true -> a_res E a <> a_res E ay ->
  exists s1, run (interp I14 (OMoveA x a y)) s = ORet ObsUnit s1 /\
    run (interp I14 (ODestroy x)) s1 = OUB UBWrongAlloc.
Proof.
  intros HI Hx Hy Hp Hres. unfold absent in Hx. unfold owns in Hy.
  pose proof (rep_lookup_none _ _ _ _ _ HI Hx) as HW.
  pose proof (rep_lookup _ _ _ _ _ _ _ HI Hy) as HWy.
  destruct (rep_own _ _ _ _ HI _ _ _ _ _ Hy) as (b & Hb & Hba & Ho & Hty & Hhd & _).
  assert (Hxy : x <> y) by congruence.
  destruct s as [B W X O tr]. cbn [blocks wraps] in *.
  unfold interp, quiet, i_move_a, polymorphic14.
  eexists. split.
  { unfold Polymorphic14.ctor_move_a. rewrite run_bind, run_noexcept. unfold ctor. ex. rewrite HW. ex.
    rewrite Hp.
    rewrite (proj1 (take_run (mkS B (<[x := mkW PIndet a]> W) X O tr) x y _ _ _ Hxy
      (lookup_insert _ _ _) (eq_trans (lookup_insert_ne _ _ _ _ Hxy) HWy) ltac:(done))).
    done. }
  unfold i_dtor, Polymorphic14.dtor. rewrite run_bind, run_bind, run_noexcept.
  unfold Polymorphic14.reset, Polymorphic14.cb_destroy. rewrite run_noexcept.
  cbn [flatTP tp_destroy]. ex.
  rewrite lookup_insert_ne, lookup_insert by done. ex. unfold to_wrapper. ex.
  rewrite lookup_insert_ne, lookup_insert by done. ex. rewrite Hb. ex. rewrite Hhd. ex.
  unfold khdr. ex. rewrite Hb. ex. rewrite Ho. rewrite bool_decide_eq_true_2 by done. ex.
  rewrite lookup_insert. ex. rewrite bool_decide_eq_true_2 by (by rewrite Hty). ex.
  rewrite (proj2 (Nat.eqb_neq _ _)) by congruence. done.
Qed.

End poly14.
