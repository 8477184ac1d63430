(** * Every operation of [polymorphic] (C++20 header) has the specified effect. *)

From stdpp Require Import base gmap list.
From Verif Require Import Lang Common Client Spec Rep Effect RunLemmas RunOps Polymorphic20.

Section poly.
Context {E : Env} (HA : AllocReq E).
Notation A := (eA E).
Notation V := (eV E).
Notation k := Poly.
Notation T := (flatTP E).
Implicit Types s : store E.
Implicit Types B : gmap loc (block E).
Implicit Types W : gmap wl (wrapper E).
Implicit Types X : gmap nat (ty * V).
Implicit Types O : list resp.
Implicit Types tr : list (event E).
Implicit Types ω : gmap wl (option (loc * ty * V) * A).
Implicit Types a ax ay : A.
Implicit Types g : carg E.
Implicit Types xa : arg E.

Lemma create_eq w t xa :
  Polymorphic20.create_control_block T w t xa =
  bind (act (PReadA w)) (fun a => cons_prog k a t xa).
Proof. reflexivity. Qed.
Lemma clone_eq cb a :
  Polymorphic20.cb_clone T cb a =
  bind (act (PCbTy cb)) (fun t => cons_prog k a t (ARef NonConstL (RBlk cb))).
Proof. reflexivity. Qed.
Lemma move_eq cb a :
  Polymorphic20.cb_move T cb a =
  bind (act (PCbTy cb)) (fun t => cons_prog k a t (ARef RVal (RBlk cb))).
Proof. reflexivity. Qed.
Lemma reset_eq w : Polymorphic20.reset T w = reset_prog k w.
Proof. reflexivity. Qed.

Lemma nt (t : ty) : k = Ind -> t = tT E.
Proof. done. Qed.

Lemma op_star_run s ω y l t v a :
  Rep k (blocks s) (wraps s) ω -> ω !! y = Some (Some (l, t, v), a) ->
  run (Polymorphic20.op_star y) s = ORet l s.
Proof.
  intros HR Hy. pose proof (rep_lookup _ _ _ _ _ _ _ HR Hy) as HW.
  destruct (rep_own _ _ _ _ HR _ _ _ _ _ Hy) as (b & Hb & (_ & _ & _ & Hh & _)).
  unfold Polymorphic20.op_star, deref_p. ex. rewrite HW. ex. unfold to_wrapper at 1; ex.
  rewrite Hb. rewrite Hh. done.
Qed.

Lemma eval_arg_run s ω g :
  Rep k (blocks s) (wraps s) ω -> arg_pre g (abs_spec ω (exts s)) = true ->
  exists xa, vref g ω = Some xa /\ run (eval_arg (polymorphic20 T) g) s = ORet xa s.
Proof.
  intros HR Hpre. destruct g as [c|c n|c y]; simpl in Hpre; cbn [vref eval_arg]; eauto.
  apply pre_engaged in Hpre as (l & t & v & a & Hy). rewrite Hy.
  eexists. split; [done|]. cbn [i_star polymorphic20]. rewrite run_bind, (op_star_run _ _ _ _ _ _ _ HR Hy). done.
Qed.

Lemma ctor_from_eff B W X O tr ω w a t g xa :
  Rep k B W ω -> ω !! w = None -> vref g ω = Some xa -> arg_pre g (abs_spec ω X) = true ->
  effect k (vconstruct k w a t g ω X) (quiet (Polymorphic20.ctor_inplace_a T w a t xa)) (mkS B W X O tr).
Proof.
  intros HR Hw Hg Hpre.
  pose proof (rep_lookup_none _ _ _ _ _ HR Hw) as HW.
  destruct (ctor_tail k B W X O tr ω w PIndet a t g xa HR Hw (nt t) Hg Hpre)
    as (r & Hr & Hm).
  exists r. split; [done|].
  unfold quiet, Polymorphic20.ctor_inplace_a, ctor in *. rewrite create_eq.
  rewrite run_bind in *. ex. rewrite HW. ex.
  rewrite lookup_insert. ex. exact Hm.
Qed.

(** Constructors from arguments, including evaluation of the argument. *)
Lemma ctor_arg_eff s ω w a t g (f : arg E -> prog E unit) :
  Rep k (blocks s) (wraps s) ω -> negb (live w (abs_spec ω (exts s))) && arg_pre g (abs_spec ω (exts s)) = true ->
  (forall xa, f xa = Polymorphic20.ctor_inplace_a T w a t xa) ->
  effect k (vconstruct k w a t g ω (exts s))
    (quiet (bind (eval_arg (polymorphic20 T) g) f)) s.
Proof.
  intros HR Hpre Hf. apply andb_true_iff in Hpre as [Hw Hpre]. apply pre_dead in Hw.
  destruct (eval_arg_run _ _ _ HR Hpre) as (xa & Hxa & Hrun).
  destruct s as [B W X O tr].
  destruct (ctor_from_eff _ _ _ O tr _ w a t _ _ HR Hw Hxa Hpre) as (r & Hr & Hm).
  exists r. split; [done|]. unfold quiet in *. rewrite !run_bind in *. rewrite Hrun, Hf. done.
Qed.

Lemma ctor_copy_a_eff B W X O tr ω w a y :
  Rep k B W ω -> ω !! w = None -> is_Some (ω !! y) ->
  effect k (vcopy_construct k NonConstL w a y ω X) (quiet (Polymorphic20.ctor_copy_a T w a y)) (mkS B W X O tr).
Proof.
  intros HR Hw [[oy ay] Hy].
  pose proof (rep_lookup_none _ _ _ _ _ HR Hw) as HW.
  pose proof (rep_lookup _ _ _ _ _ _ _ HR Hy) as HWy.
  assert (Hwy : w <> y) by congruence.
  unfold vcopy_construct. rewrite Hy.
  unfold effect, quiet, Polymorphic20.ctor_copy_a, ctor. rewrite run_bind. ex. rewrite HW. ex.
  unfold Polymorphic20.valueless_after_move, deref_p. ex.
  rewrite lookup_insert_ne by done. rewrite HWy.
  destruct oy as [[[l t] v]|]; ex; unfold to_wrapper at 1; ex.
  - destruct (rep_own _ _ _ _ HR _ _ _ _ _ Hy) as (b & Hb & (_ & _ & _ & Hh & _)).
    rewrite lookup_insert_ne by done. rewrite HWy. ex. unfold to_wrapper at 1; ex.
    rewrite lookup_insert. ex. rewrite clone_eq. ex. rewrite Hb, Hh. ex. cbn [khdr].
    destruct (ctor_tail k B W X O tr ω w PIndet a t (GDeref NonConstL y) _ HR Hw (nt t)
      (vref_deref _ _ _ _ _ _ _ Hy) (arg_pre_deref _ _ _ _ _ _ _ _ Hy)) as (r & Hr & Hm).
    exists r. split; [done|]. unfold quiet in Hm. rewrite run_bind in Hm. exact Hm.
  - rewrite lookup_insert. ex. rewrite insert_insert.
    eexists. split; [reflexivity|]. eexists. split; [reflexivity|]. split; [|done].
    eapply rep_null; [done|]. by apply owns_none.
Qed.

Lemma ctor_move_a_eff B W X O tr ω w a y :
  Rep k B W ω -> ω !! w = None -> is_Some (ω !! y) ->
  effect k (vmove_construct k w a y ω X) (quiet (Polymorphic20.ctor_move_a T w a y)) (mkS B W X O tr).
Proof.
  intros HR Hw [[oy ay] Hy].
  pose proof (rep_lookup_none _ _ _ _ _ HR Hw) as HW.
  pose proof (rep_lookup _ _ _ _ _ _ _ HR Hy) as HWy.
  assert (Hwy : w <> y) by congruence.
  unfold vmove_construct. rewrite Hy.
  unfold effect, quiet, Polymorphic20.ctor_move_a.
  assert (Hsteal : forall h,
    run (catch (Polymorphic20.exchange_null w y) h)
      (mkS B (<[w := mkW PIndet a]> W) X O tr) =
    ORet tt (mkS B (<[y := mkW PNull ay]> (<[w := to_wrapper (oy, a)]> W)) X O tr)).
  { intros h. unfold Polymorphic20.exchange_null. ex.
    rewrite lookup_insert_ne by done. rewrite HWy.
    destruct oy as [[[l t] v]|]; ex; unfold to_wrapper at 1; ex;
      rewrite lookup_insert_ne by done; rewrite HWy; ex;
      rewrite lookup_insert_ne by done; rewrite lookup_insert; ex;
      rewrite (insert_commute _ w y) by done; rewrite insert_insert; done. }
  assert (Hsrep : always_equal E || a_eqb E a ay = true ->
    Rep k B (<[y := mkW PNull ay]> (<[w := to_wrapper (oy, a)]> W))
        (<[w := (oy, a)]> (<[y := (None, ay)]> ω))).
  { intros Heq. rewrite insert_commute by done. eapply rep_steal_ctor; try done.
    intros _. apply (ar_res _ HA). apply orb_true_iff in Heq as [H|H]; [|done].
    by apply (ar_ae _ HA). }
  assert (Hnull : <[y := (None, ay)]> ω = ω \/ is_Some oy).
  { destruct oy; [right; eauto|left]. by apply insert_id. }
  rewrite run_bind, run_noexcept. unfold ctor. ex. rewrite HW. ex.
  destruct (always_equal E) eqn:Hae.
  - rewrite Hsteal. ex.
    destruct oy as [oy|]; simpl.
    + eexists. split; [reflexivity|]. eexists. split; [reflexivity|]. split; [|done]. by apply Hsrep.
    + eexists. split; [reflexivity|]. eexists. split; [reflexivity|]. split; [|done].
      destruct Hnull as [Hnull|[? ?]]; [|done]. rewrite <- Hnull at 1. by apply Hsrep.
  - ex. rewrite lookup_insert. ex. rewrite lookup_insert_ne by done. rewrite HWy. ex.
    unfold to_wrapper at 1; ex. simpl orb.
    destruct (a_eqb E a ay) eqn:Heq.
    + rewrite Hsteal. ex.
      destruct oy as [oy|]; simpl.
      * eexists. split; [reflexivity|]. eexists. split; [reflexivity|]. split; [|done]. by apply Hsrep.
      * eexists. split; [reflexivity|]. eexists. split; [reflexivity|]. split; [|done].
        destruct Hnull as [Hnull|[? ?]]; [|done]. rewrite <- Hnull at 1. by apply Hsrep.
    + unfold Polymorphic20.valueless_after_move, deref_p. ex. rewrite lookup_insert_ne by done. rewrite HWy.
      destruct oy as [[[l t] v]|]; ex; unfold to_wrapper at 1; ex.
      * destruct (rep_own _ _ _ _ HR _ _ _ _ _ Hy) as (b & Hb & (_ & _ & _ & Hh & _)).
        rewrite lookup_insert_ne by done. rewrite HWy. ex. unfold to_wrapper at 1; ex.
        rewrite lookup_insert. ex. rewrite move_eq. ex. rewrite Hb, Hh. ex. cbn [khdr].
        destruct (ctor_tail k B W X O tr ω w PIndet a t (GDeref RVal y) _ HR Hw (nt t)
          (vref_deref _ _ _ _ _ _ _ Hy) (arg_pre_deref _ _ _ _ _ _ _ _ Hy)) as (r & Hr & Hm).
        exists r. split; [done|]. unfold quiet in Hm. rewrite run_bind in Hm.
        destruct (run (catch _ _) _); exact Hm.
      * rewrite lookup_insert. ex. rewrite insert_insert.
        eexists. split; [reflexivity|]. eexists. split; [reflexivity|]. split; [|done].
        eapply rep_null; [done|]. by apply owns_none.
Qed.

Lemma vmove_construct_nothrow w a y ω X e ω' X' evs :
  always_equal E = true -> ~ vmove_construct k w a y ω X (VThrow e ω' X' evs).
Proof.
  intros Hae. unfold vmove_construct. destruct (ω !! y) as [[[oy|] ay]|];
    rewrite ?Hae; simpl; unfold vquiet; intros H; discriminate || done.
Qed.

Lemma ctor_move_eff B W X O tr ω w y oy ay :
  Rep k B W ω -> ω !! w = None -> ω !! y = Some (oy, ay) ->
  effect k (vmove_construct k w ay y ω X) (quiet (Polymorphic20.ctor_move T w y)) (mkS B W X O tr).
Proof.
  intros HR Hw Hy.
  pose proof (rep_lookup _ _ _ _ _ _ _ HR Hy) as HWy.
  destruct (ctor_move_a_eff B W X O tr ω w ay y HR Hw) as (r & Hr & Hm); [by eexists|].
  exists r. split; [done|].
  unfold quiet, Polymorphic20.ctor_move in *. rewrite run_bind in *. rewrite run_noexcept. ex.
  rewrite HWy. ex. unfold to_wrapper at 1; ex.
  destruct (always_equal E) eqn:Hae; [|by destruct (run (Polymorphic20.ctor_move_a T w ay y) _)].
  destruct r; simpl in Hm.
  - destruct (run (Polymorphic20.ctor_move_a T w ay y) _); simpl in *; try done;
    destruct Hm as (? & ? & ?); done.
  - exfalso. by eapply vmove_construct_nothrow.
  - exfalso. unfold vmove_construct in Hr. rewrite Hy in Hr.
    destruct oy; [|done]. by rewrite Hae in Hr.
Qed.

Lemma dtor_eff B W X O tr ω w o a :
  Rep k B W ω -> ω !! w = Some (o, a) ->
  effect k (vquiet (delete w ω) X (reset_ev k o a)) (quiet (Polymorphic20.dtor T w)) (mkS B W X O tr).
Proof.
  intros HR Hw. pose proof (rep_lookup _ _ _ _ _ _ _ HR Hw) as HW.
  assert (Hrun : run (reset_prog k w) (mkS B W X O tr) =
    ORet tt (mkS (reset_blocks o B) (<[w := mkW PNull a]> W) X O (reset_ev k o a ++ tr))).
  { apply reset_prog_run; [done|]. intros l t v ->. by apply (rep_own _ _ _ _ HR _ _ _ _ _ Hw). }
  unfold effect, quiet, Polymorphic20.dtor. rewrite reset_eq. rewrite !run_bind.
  rewrite (run_noexcept_ret _ _ _ _ _ Hrun). ex. rewrite lookup_insert. ex.
  eexists. split; [reflexivity|]. eexists. split; [reflexivity|]. split; [|done].
  cbn [blocks wraps].
  assert (HRr : Rep k (reset_blocks o B) (<[w:=mkW PNull a]> W) (<[w:=(None, a)]> ω)).
  { destruct o as [[[lx tx] vx]|]; simpl.
    - by eapply rep_clear.
    - eapply rep_null; [done|]. by eapply owns_null. }
  apply (rep_del k _ _ _ w) in HRr; [|eapply owns_null; apply lookup_insert].
  by rewrite (delete_insert_delete ω) in HRr.
Qed.

Lemma copy_assign_eff B W X O tr ω x y :
  Rep k B W ω -> is_Some (ω !! x) -> is_Some (ω !! y) ->
  effect k (vcopy_assign k NonConstL x y ω X) (quiet (Polymorphic20.copy_assign T x y)) (mkS B W X O tr).
Proof.
  intros HR [[ox ax] Hx] [[oy ay] Hy].
  pose proof (rep_lookup _ _ _ _ _ _ _ HR Hx) as HWx.
  pose proof (rep_lookup _ _ _ _ _ _ _ HR Hy) as HWy.
  unfold vcopy_assign, Polymorphic20.copy_assign.
  destruct (decide (x = y)) as [->|Hxy].
  { rewrite bool_decide_true by done. eexists. split; [reflexivity|].
    eexists. split; [reflexivity|]. done. }
  rewrite bool_decide_false by done. rewrite Hx, Hy.
  unfold effect, quiet, Polymorphic20.valueless_after_move. ex.
  rewrite HWy. destruct oy as [[[ly ty'] vy]|]; ex; unfold to_wrapper at 1; ex.
  2:{ rewrite reset_eq. exact (reset_tail k B W X O tr ω x y ox ax None ay (pocca E) HR Hxy Hx Hy). }
  destruct (rep_own _ _ _ _ HR _ _ _ _ _ Hy) as (b & Hb & (_ & _ & _ & Hh & _)).
  destruct (assign_tail k B W X O tr ω x y ox ax _ ay (pocca E) NonConstL ty' _ HR Hxy Hx Hy
                (nt ty') (vref_deref _ _ _ _ _ _ _ Hy)) as (r & Hr & Hm).
  exists r. split; [done|]. unfold quiet, deref_p in *. rewrite run_bind in *. ex.
  rewrite HWy. ex. unfold to_wrapper at 1; ex.
  destruct (pocca E); ex; rewrite ?HWx, ?HWy; ex; unfold to_wrapper at 1; ex; rewrite clone_eq; ex;
    rewrite Hb, Hh; ex; cbn [khdr]; exact Hm.
Qed.

Lemma move_assign_eff B W X O tr ω x y :
  Rep k B W ω -> is_Some (ω !! x) -> is_Some (ω !! y) ->
  effect k (vnoexcept (pocma E || always_equal E) (vmove_assign k x y ω X))
         (quiet (Polymorphic20.move_assign T x y)) (mkS B W X O tr).
Proof.
  intros HR [[ox ax] Hx] [[oy ay] Hy].
  pose proof (rep_lookup _ _ _ _ _ _ _ HR Hx) as HWx.
  pose proof (rep_lookup _ _ _ _ _ _ _ HR Hy) as HWy.
  unfold Polymorphic20.move_assign. apply effect_noexcept.
  { unfold vmove_assign. case_bool_decide; [done|]. rewrite Hx, Hy.
    destruct oy as [oy|]; [|done]. destruct (a_eqb E ax ay); [done|].
    intros (evs & [?|[??]] & ? & ? & ? & ?); done. }
  unfold vmove_assign.
  destruct (decide (x = y)) as [->|Hxy].
  { rewrite bool_decide_true by done. eexists. split; [reflexivity|].
    eexists. split; [reflexivity|]. done. }
  rewrite bool_decide_false by done. rewrite Hx, Hy.
  unfold effect, quiet, Polymorphic20.valueless_after_move. ex.
  rewrite HWy. destruct oy as [[[ly ty'] vy]|]; ex; unfold to_wrapper at 1; ex.
  2:{ rewrite reset_eq. exact (reset_tail k B W X O tr ω x y ox ax None ay (pocma E) HR Hxy Hx Hy). }
  rewrite HWx. ex. rewrite HWy. ex. unfold to_wrapper at 1 2; ex.
  destruct (a_eqb E ax ay) eqn:Heq.
  - apply (ar_res _ HA) in Heq. rewrite reset_eq.
    exact (steal_tail k B W X O tr ω x y ox ax _ ay (pocma E) HR Hxy Hx Hy Heq).
  - destruct (rep_own _ _ _ _ HR _ _ _ _ _ Hy) as (b & Hb & (_ & _ & _ & Hh & _)).
    destruct (assign_tail k B W X O tr ω x y ox ax _ ay (pocma E) RVal ty' _ HR Hxy Hx Hy
                (nt ty') (vref_deref _ _ _ _ _ _ _ Hy)) as (r & Hr & Hm).
    exists r. split; [done|]. unfold quiet, deref_p in *. rewrite run_bind in *. ex.
    rewrite HWy. ex. unfold to_wrapper at 1; ex.
    destruct (pocma E); ex; rewrite ?HWx, ?HWy; ex; unfold to_wrapper at 1; ex; rewrite move_eq; ex;
      rewrite Hb, Hh; ex; cbn [khdr]; exact Hm.
Qed.

(** Main theorem of this file. *)
Theorem poly20_effect s ω (o : op E) cc ca :
  Rep k (blocks s) (wraps s) ω -> pre (mkCfg Poly cc ca) o (abs_spec ω (exts s)) = true ->
  effect k (veff k NonConstL NonConstL o ω (exts s)) (interp (polymorphic20 T) o) s.
Proof.
  intros HR Hpre. destruct o; simpl in Hpre; unfold veff, interp.
  - apply pre_dead in Hpre. destruct s. by apply ctor_from_eff.
  - apply pre_dead in Hpre. destruct s. by apply ctor_from_eff.
  - by apply ctor_arg_eff.
  - by apply ctor_arg_eff.
  - by apply ctor_arg_eff.
  - by apply ctor_arg_eff.
  - by apply ctor_arg_eff.
  - by apply ctor_arg_eff.
  - (* OCopy *)
    apply andb_true_iff in Hpre as [Hx Hy]. apply pre_dead in Hx.
    apply pre_live in Hy as (oy & ay & Hy). rewrite Hy.
    destruct s as [B W X O tr]. pose proof (rep_lookup _ _ _ _ _ _ _ HR Hy) as HWy.
    destruct (ctor_copy_a_eff B W X O tr ω x (a_soccc E ay) y HR Hx) as (r & Hr & Hm); [by eexists|].
    exists r. split; [done|]. simpl i_copy. unfold quiet, Polymorphic20.ctor_copy in *.
    rewrite run_bind in *. ex. cbn [wraps] in HWy. rewrite HWy. exact Hm.
  - apply andb_true_iff in Hpre as [Hx Hy]. apply pre_dead in Hx.
    apply pre_live in Hy as (oy & ay & Hy). destruct s. apply ctor_copy_a_eff; eauto.
  - apply andb_true_iff in Hpre as [Hx Hy]. apply pre_dead in Hx.
    apply pre_live in Hy as (oy & ay & Hy). rewrite Hy. destruct s. by eapply ctor_move_eff.
  - apply andb_true_iff in Hpre as [Hx Hy]. apply pre_dead in Hx.
    apply pre_live in Hy as (oy & ay & Hy). destruct s. apply ctor_move_a_eff; eauto.
  - apply pre_live in Hpre as (ox & ax & Hx). rewrite Hx. destruct s. by eapply dtor_eff.
  - apply andb_true_iff in Hpre as [Hx Hy].
    apply pre_live in Hx as (ox & ax & Hx). apply pre_live in Hy as (oy & ay & Hy).
    destruct s. apply copy_assign_eff; eauto.
  - apply andb_true_iff in Hpre as [Hx Hy].
    apply pre_live in Hx as (ox & ax & Hx). apply pre_live in Hy as (oy & ay & Hy).
    destruct s. apply move_assign_eff; eauto.
  - done.
  - (* OSwap *)
    apply andb_true_iff in Hpre as [Hxy Heq]. apply andb_true_iff in Hxy as [Hx Hy].
    apply pre_live in Hx as (ox & ax & Hx). apply pre_live in Hy as (oy & ay & Hy).
    unfold equal_allocs in Heq. simpl in Heq. rewrite !lookup_absv, Hx, Hy in Heq. simpl in Heq.
    destruct s as [B W X O tr]. eapply swap_run; try done. apply (ar_res _ HA).
  - (* OMutate *)
    apply pre_engaged in Hpre as (l & t & v & a & Hx). rewrite Hx.
    destruct (rep_own _ _ _ _ HR _ _ _ _ _ Hx) as (b & Hb & (_ & Ho & _)).
    eexists. split; [reflexivity|]. unfold quiet. cbn [i_star polymorphic20].
    rewrite !run_bind, (op_star_run _ _ _ _ _ _ _ HR Hx).
    destruct s as [B W X O tr]. cbn [blocks wraps] in *. ex.
    cbn [deref blocks]. rewrite Hb, Ho. ex. eexists. split; [reflexivity|].
    pose proof (rep_upd_ref _ _ _ X O tr _ _ _ _ _ (f v) _ HR Hx). done.
  - (* OGet *)
    apply pre_engaged in Hpre as (l & t & v & a & Hx). rewrite Hx.
    destruct (rep_own _ _ _ _ HR _ _ _ _ _ Hx) as (b & Hb & (_ & Ho & _)).
    eexists. split; [reflexivity|]. cbn [i_star polymorphic20].
    rewrite !run_bind, (op_star_run _ _ _ _ _ _ _ HR Hx).
    destruct s as [B W X O tr]. cbn [blocks wraps] in *. ex.
    cbn [deref blocks]. rewrite Hb, Ho. ex. eexists. split; [reflexivity|]. done.
  - (* OValueless *)
    apply pre_live in Hpre as (ox & ax & Hx). rewrite Hx.
    destruct s as [B W X O tr]. pose proof (rep_lookup _ _ _ _ _ _ _ HR Hx) as HWx.
    cbn [blocks wraps] in *.
    eexists. split; [reflexivity|]. cbn [i_valueless polymorphic20].
    unfold Polymorphic20.valueless_after_move. ex. rewrite HWx.
    destruct ox as [[[lx tx] vx]|]; ex; unfold to_wrapper at 1; ex; eexists; (split; [reflexivity|]); done.
  - (* OGetAlloc *)
    apply pre_live in Hpre as (ox & ax & Hx). rewrite Hx.
    destruct s as [B W X O tr]. pose proof (rep_lookup _ _ _ _ _ _ _ HR Hx) as HWx.
    cbn [blocks wraps] in *.
    eexists. split; [reflexivity|]. cbn [i_alloc polymorphic20].
    unfold Polymorphic20.get_allocator. ex. rewrite HWx. ex. eexists. split; [reflexivity|]. done.
  - destruct s as [B W X O tr]. eexists. split; [reflexivity|]. ex.
    eexists. split; [reflexivity|]. done.
Qed.

End poly.
