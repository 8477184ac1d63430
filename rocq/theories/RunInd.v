(** * Every operation of [indirect] (C++20 header) has the specified effect. *)

From stdpp Require Import base gmap list.
From Verif Require Import Lang Common Client Spec Rep Effect RunLemmas RunOps Indirect20.

Section ind.
Context {E : Env} (HA : AllocReq E).
Notation A := (eA E).
Notation V := (eV E).
Notation k := Ind.
Notation T := (flatTP E).
Implicit Types s : store E.
Implicit Types B : gmap loc (block E).
Implicit Types W : gmap wl (wrapper E).
Implicit Types X : gmap nat (ty * V).
Implicit Types O : list resp.
Implicit Types tr : list (event E).
Implicit Types ω : gmap wl (option (loc * ty * V) * A).
Implicit Types a ax ay : A.
Implicit Types g : carg E.
Implicit Types xa : arg E.

Lemma construct_from_eq a xa : Indirect20.construct_from T a xa = cons_prog k a (tT E) xa.
Proof. reflexivity. Qed.
Lemma reset_eq w : Indirect20.reset T w = reset_prog k w.
Proof. reflexivity. Qed.

Lemma tT_of B W ω y l t v ay : Rep k B W ω -> ω !! y = Some (Some (l, t, v), ay) -> t = tT E.
Proof.
  intros HR Hy. destruct (rep_own _ _ _ _ HR _ _ _ _ _ Hy) as (b & _ & (_&_&_&_&Ht)). by apply Ht.
Qed.

Lemma eval_arg_run s ω g :
  Rep k (blocks s) (wraps s) ω -> arg_pre g (abs_spec ω (exts s)) = true ->
  exists xa, vref g ω = Some xa /\ run (eval_arg (indirect20 T) g) s = ORet xa s.
Proof.
  intros HR Hpre. destruct g as [c|c n|c y]; simpl in *; eauto.
  apply pre_engaged in Hpre as (l & t & v & a & Hy).
  pose proof (rep_lookup _ _ _ _ _ _ _ HR Hy) as HW. rewrite Hy.
  eexists. split; [done|]. ex. unfold Indirect20.op_star, deref_p. ex. by rewrite HW.
Qed.

Lemma ctor_from_eff B W X O tr ω w a g xa :
  Rep k B W ω -> ω !! w = None -> vref g ω = Some xa -> arg_pre g (abs_spec ω X) = true ->
  effect k (vconstruct k w a (tT E) g ω X) (quiet (Indirect20.ctor_from T w a xa)) (mkS B W X O tr).
Proof.
  intros HR Hw Hg Hpre.
  pose proof (rep_lookup_none _ _ _ _ _ HR Hw) as HW.
  destruct (ctor_tail k B W X O tr ω w PIndet a (tT E) g xa HR Hw (fun _ => eq_refl) Hg Hpre)
    as (r & Hr & Hm).
  exists r. split; [done|].
  unfold quiet, Indirect20.ctor_from, ctor in *.
  rewrite run_bind in *. ex. rewrite HW. ex.
  rewrite lookup_insert. ex. exact Hm.
Qed.

(** Constructors from arguments, including evaluation of the argument. *)
Lemma ctor_arg_eff s ω w a g (f : arg E -> prog E unit) :
  Rep k (blocks s) (wraps s) ω -> negb (live w (abs_spec ω (exts s))) && arg_pre g (abs_spec ω (exts s)) = true ->
  (forall xa, f xa = Indirect20.ctor_from T w a xa) ->
  effect k (vconstruct k w a (tT E) g ω (exts s))
    (quiet (bind (eval_arg (indirect20 T) g) f)) s.
Proof.
  intros HR Hpre Hf. apply andb_true_iff in Hpre as [Hw Hpre]. apply pre_dead in Hw.
  destruct (eval_arg_run _ _ _ HR Hpre) as (xa & Hxa & Hrun).
  destruct s as [B W X O tr].
  destruct (ctor_from_eff _ _ _ O tr _ w a _ _ HR Hw Hxa Hpre) as (r & Hr & Hm).
  exists r. split; [done|]. unfold quiet in *. rewrite !run_bind in *. rewrite Hrun, Hf. done.
Qed.

Lemma ctor_copy_a_eff B W X O tr ω w a y :
  Rep k B W ω -> ω !! w = None -> is_Some (ω !! y) ->
  effect k (vcopy_construct k ConstL w a y ω X) (quiet (Indirect20.ctor_copy_a T w a y)) (mkS B W X O tr).
Proof.
  intros HR Hw [[oy ay] Hy].
  pose proof (rep_lookup_none _ _ _ _ _ HR Hw) as HW.
  pose proof (rep_lookup _ _ _ _ _ _ _ HR Hy) as HWy.
  assert (Hwy : w <> y) by congruence.
  unfold vcopy_construct. rewrite Hy.
  unfold effect, quiet, Indirect20.ctor_copy_a, ctor. rewrite run_bind. ex. rewrite HW. ex.
  unfold Indirect20.valueless_after_move, Indirect20.op_star, deref_p. ex.
  rewrite lookup_insert_ne by done. rewrite HWy.
  destruct oy as [[[l t] v]|]; ex; unfold to_wrapper at 1; ex.
  - rewrite lookup_insert. ex. rewrite lookup_insert_ne by done. rewrite HWy. ex.
    unfold to_wrapper at 1; ex.
    pose proof (tT_of _ _ _ _ _ _ _ _ HR Hy) as ->.
    destruct (ctor_tail k B W X O tr ω w PIndet a (tT E) (GDeref ConstL y) _ HR Hw (fun _ => eq_refl)
      (vref_deref _ _ _ _ _ _ _ Hy) (arg_pre_deref _ _ _ _ _ _ _ _ Hy)) as (r & Hr & Hm).
    exists r. split; [done|]. unfold quiet in Hm. rewrite run_bind in Hm. exact Hm.
  - rewrite lookup_insert. ex. rewrite insert_insert.
    eexists. split; [reflexivity|]. eexists. split; [reflexivity|]. split; [|done].
    eapply rep_null; [done|]. by apply owns_none.
Qed.

Lemma ctor_move_a_eff B W X O tr ω w a y :
  Rep k B W ω -> ω !! w = None -> is_Some (ω !! y) ->
  effect k (vmove_construct k w a y ω X) (quiet (Indirect20.ctor_move_a T w a y)) (mkS B W X O tr).
Proof.
  intros HR Hw [[oy ay] Hy].
  pose proof (rep_lookup_none _ _ _ _ _ HR Hw) as HW.
  pose proof (rep_lookup _ _ _ _ _ _ _ HR Hy) as HWy.
  assert (Hwy : w <> y) by congruence.
  unfold vmove_construct. rewrite Hy.
  unfold effect, quiet, Indirect20.ctor_move_a.
  assert (Hsteal : forall h,
    run (catch (swap_p w y) h)
      (mkS B (<[w := mkW PNull a]> W) X O tr) =
    ORet tt (mkS B (<[y := mkW PNull ay]> (<[w := to_wrapper (oy, a)]> W)) X O tr)).
  { intros h. unfold swap_p. ex. rewrite lookup_insert. ex.
    rewrite lookup_insert_ne by done. rewrite HWy.
    destruct oy as [[[l t] v]|]; ex; unfold to_wrapper at 1; ex;
      rewrite lookup_insert; ex; rewrite insert_insert, lookup_insert_ne by done;
      rewrite HWy; ex; done. }
  assert (Hsrep : always_equal E || a_eqb E a ay = true ->
    Rep k B (<[y := mkW PNull ay]> (<[w := to_wrapper (oy, a)]> W))
        (<[w := (oy, a)]> (<[y := (None, ay)]> ω))).
  { intros Heq. rewrite insert_commute by done. eapply rep_steal_ctor; try done.
    intros _. apply (ar_res _ HA). apply orb_true_iff in Heq as [H|H]; [|done].
    by apply (ar_ae _ HA). }
  assert (Hnull : <[y := (None, ay)]> ω = ω \/ is_Some oy).
  { destruct oy; [right; eauto|left]. by apply insert_id. }
  rewrite run_bind, run_noexcept. unfold ctor. ex. rewrite HW. ex.
  destruct (always_equal E) eqn:Hae.
  - rewrite Hsteal. ex.
    destruct oy as [oy|]; simpl.
    + eexists. split; [reflexivity|]. eexists. split; [reflexivity|]. split; [|done]. by apply Hsrep.
    + eexists. split; [reflexivity|]. eexists. split; [reflexivity|]. split; [|done].
      destruct Hnull as [Hnull|[? ?]]; [|done]. rewrite <- Hnull at 1. by apply Hsrep.
  - ex. rewrite lookup_insert. ex. rewrite lookup_insert_ne by done. rewrite HWy. ex.
    unfold to_wrapper at 1; ex. simpl orb.
    destruct (a_eqb E a ay) eqn:Heq.
    + rewrite Hsteal. ex.
      destruct oy as [oy|]; simpl.
      * eexists. split; [reflexivity|]. eexists. split; [reflexivity|]. split; [|done]. by apply Hsrep.
      * eexists. split; [reflexivity|]. eexists. split; [reflexivity|]. split; [|done].
        destruct Hnull as [Hnull|[? ?]]; [|done]. rewrite <- Hnull at 1. by apply Hsrep.
    + unfold Indirect20.valueless_after_move, Indirect20.op_star, deref_p. ex. rewrite lookup_insert_ne by done. rewrite HWy.
      destruct oy as [[[l t] v]|]; ex; unfold to_wrapper at 1; ex.
      * rewrite lookup_insert. ex. rewrite lookup_insert_ne by done. rewrite HWy. ex.
        unfold to_wrapper at 1; ex.
        pose proof (tT_of _ _ _ _ _ _ _ _ HR Hy) as ->.
        destruct (ctor_tail k B W X O tr ω w PNull a (tT E) (GDeref RVal y) _ HR Hw (fun _ => eq_refl)
          (vref_deref _ _ _ _ _ _ _ Hy) (arg_pre_deref _ _ _ _ _ _ _ _ Hy)) as (r & Hr & Hm).
        exists r. split; [done|]. unfold quiet in Hm. rewrite run_bind in Hm.
        rewrite construct_from_eq. destruct (run (catch _ _) _); exact Hm.
      * rewrite lookup_insert. ex. rewrite insert_insert.
        eexists. split; [reflexivity|]. eexists. split; [reflexivity|]. split; [|done].
        eapply rep_null; [done|]. by apply owns_none.
Qed.

Lemma vmove_construct_nothrow w a y ω X e ω' X' evs :
  always_equal E = true -> ~ vmove_construct k w a y ω X (VThrow e ω' X' evs).
Proof.
  intros Hae. unfold vmove_construct. destruct (ω !! y) as [[[oy|] ay]|];
    rewrite ?Hae; simpl; unfold vquiet; intros H; discriminate || done.
Qed.

Lemma ctor_move_eff B W X O tr ω w y oy ay :
  Rep k B W ω -> ω !! w = None -> ω !! y = Some (oy, ay) ->
  effect k (vmove_construct k w ay y ω X) (quiet (Indirect20.ctor_move T w y)) (mkS B W X O tr).
Proof.
  intros HR Hw Hy.
  pose proof (rep_lookup _ _ _ _ _ _ _ HR Hy) as HWy.
  destruct (ctor_move_a_eff B W X O tr ω w ay y HR Hw) as (r & Hr & Hm); [by eexists|].
  exists r. split; [done|].
  unfold quiet, Indirect20.ctor_move in *. rewrite run_bind in *. rewrite run_noexcept. ex.
  rewrite HWy. ex. unfold to_wrapper at 1; ex.
  destruct (always_equal E) eqn:Hae; [|by destruct (run (Indirect20.ctor_move_a T w ay y) _)].
  destruct r; simpl in Hm.
  - destruct (run (Indirect20.ctor_move_a T w ay y) _); simpl in *; try done;
    destruct Hm as (? & ? & ?); done.
  - exfalso. by eapply vmove_construct_nothrow.
  - exfalso. unfold vmove_construct in Hr. rewrite Hy in Hr.
    destruct oy; [|done]. by rewrite Hae in Hr.
Qed.

Lemma dtor_eff B W X O tr ω w o a :
  Rep k B W ω -> ω !! w = Some (o, a) ->
  effect k (vquiet (delete w ω) X (reset_ev k o a)) (quiet (Indirect20.dtor T w)) (mkS B W X O tr).
Proof.
  intros HR Hw. pose proof (rep_lookup _ _ _ _ _ _ _ HR Hw) as HW.
  assert (Hrun : run (reset_prog k w) (mkS B W X O tr) =
    ORet tt (mkS (reset_blocks o B) (<[w := mkW PNull a]> W) X O (reset_ev k o a ++ tr))).
  { apply reset_prog_run; [done|]. intros l t v ->. by apply (rep_own _ _ _ _ HR _ _ _ _ _ Hw). }
  unfold effect, quiet, Indirect20.dtor. rewrite reset_eq. rewrite !run_bind.
  rewrite (run_noexcept_ret _ _ _ _ _ Hrun). ex. rewrite lookup_insert. ex.
  eexists. split; [reflexivity|]. eexists. split; [reflexivity|]. split; [|done].
  cbn [blocks wraps].
  assert (HRr : Rep k (reset_blocks o B) (<[w:=mkW PNull a]> W) (<[w:=(None, a)]> ω)).
  { destruct o as [[[lx tx] vx]|]; simpl.
    - by eapply rep_clear.
    - eapply rep_null; [done|]. by eapply owns_null. }
  apply (rep_del k _ _ _ w) in HRr; [|eapply owns_null; apply lookup_insert].
  by rewrite (delete_insert_delete ω) in HRr.
Qed.

(** Assignment to the owned object. *)
Lemma asgn_run B W X O tr ω x g xa l v0 ax :
  Rep k B W ω -> ω !! x = Some (Some (l, tT E, v0), ax) ->
  vref g ω = Some xa -> arg_pre g (abs_spec ω X) = true ->
  exists d v1 df v2,
    (match g with
     | GArgs c => d = t_asgn_args E (tT E) v0 c /\ df = t_asgn_args_fail E (tT E) v0 c
     | _ =>
         if (match g with GDeref _ y => bool_decide (x = y) | _ => false end) then
           d = t_self E (arg_cat g) (tT E) v0 /\ df = t_self_fail E (arg_cat g) (tT E) v0
         else
           exists t' v, arg_obj g (abs_spec ω X) = Some (t', v) /\
             (d, v1) = t_asgn E (arg_cat g) (tT E) t' v0 v /\
             (df, v2) = t_asgn_fail E (arg_cat g) (tT E) t' v0 v
     end) /\
    ((exists s', run (tp_asgn T (tT E) l xa) (mkS B W X O tr) = ORet tt s' /\
        wraps s' = W /\
        Rep k (blocks s') W (<[x := (Some (l, tT E, d), ax)]> (vset g v1 ω)) /\
        exts s' = eset g v1 X /\ trc s' = EvAsgn (tT E) l xa :: tr) \/
     (exists e s', run (tp_asgn T (tT E) l xa) (mkS B W X O tr) = OThrow e s' /\
        Rep k (blocks s') (wraps s') (<[x := (Some (l, tT E, df), ax)]> (vset g v2 ω)) /\
        exts s' = eset g v2 X /\ trc s' = EvAsgnFail (tT E) l xa e :: tr /\ RespFail e ∈ O)).
Proof.
  intros HR Hx Hg Hpre.
  destruct (rep_own _ _ _ _ HR _ _ _ _ _ Hx) as (b & Hb & (_ & Ho & _)).
  assert (Hav : exists d v1 df v2, asgn_vals l (tT E) v0 xa (mkS B W X O tr) = inr ((d, v1), (df, v2)) /\
     match g with
     | GArgs c => d = t_asgn_args E (tT E) v0 c /\ df = t_asgn_args_fail E (tT E) v0 c
     | _ =>
         if (match g with GDeref _ y => bool_decide (x = y) | _ => false end) then
           d = t_self E (arg_cat g) (tT E) v0 /\ df = t_self_fail E (arg_cat g) (tT E) v0
         else
           exists t' v, arg_obj g (abs_spec ω X) = Some (t', v) /\
             (d, v1) = t_asgn E (arg_cat g) (tT E) t' v0 v /\
             (df, v2) = t_asgn_fail E (arg_cat g) (tT E) t' v0 v
     end).
  { destruct g as [c|c n|c y]; simpl in *; simplify_eq.
    - simpl. eauto 10.
    - apply bool_decide_eq_true in Hpre as [[t' v'] Hn]. simpl. rewrite Hn.
      destruct (t_asgn E c (tT E) t' v0 v') as [d v1] eqn:H1.
      destruct (t_asgn_fail E c (tT E) t' v0 v') as [df v2] eqn:H2.
      exists d, v1, df, v2. split; [done|]. eauto.
    - apply pre_engaged in Hpre as (ly & t' & v' & ay & Hy). rewrite Hy in Hg. simplify_eq.
      simpl. destruct (decide (x = y)) as [Hxy|Hxy].
      + subst y. rewrite Hx in Hy. simplify_eq. rewrite !bool_decide_true by done. eauto 10.
      + rewrite (bool_decide_false (x = y)) by done.
        rewrite bool_decide_false.
        2:{ intros [=]. subst. apply Hxy. by eapply (rep_inj _ _ _ _ HR). }
        destruct (rep_own _ _ _ _ HR _ _ _ _ _ Hy) as (b' & Hb' & (_ & Ho' & _)).
        rewrite Hb', Ho'. rewrite lookup_absv, Hy. simpl.
        destruct (t_asgn E c (tT E) t' v0 v') as [d v1] eqn:H1.
        destruct (t_asgn_fail E c (tT E) t' v0 v') as [df v2] eqn:H2.
        exists d, v1, df, v2. split; [done|]. eauto. }
  destruct Hav as (d & v1 & df & v2 & Hav & Hspec).
  exists d, v1, df, v2. split; [done|].
  assert (Hstore : forall vv dd O' tr',
     let s2 := upd_ref (RBlk l) dd (upd_src xa vv (mkS B W X O' tr')) in
     Rep k (blocks s2) W (<[x:=(Some (l, tT E, dd), ax)]> (vset g vv ω)) /\
     exts s2 = eset g vv X /\ wraps s2 = W /\ trc s2 = tr').
  { intros vv dd O' tr' s2.
    destruct (rep_upd_src k B W X O' tr' ω g xa vv HR Hg) as [HR1 HX1].
    assert (Hx1 : exists vx, vset g vv ω !! x = Some (Some (l, tT E, vx), ax)).
    { pose proof (vset_owned g vv ω x) as H. rewrite Hx in H.
      destruct (vset g vv ω !! x) as [[[[[]]|]]|]; simplify_eq/=. eauto. }
    destruct Hx1 as [vx Hx1]. unfold s2.
    pose proof (rep_upd_ref k _ _ (exts (upd_src xa vv (mkS B W X O' tr')))
       (orc (upd_src xa vv (mkS B W X O' tr'))) (trc (upd_src xa vv (mkS B W X O' tr')))
       _ _ _ _ _ dd _ HR1 Hx1) as HR2.
    split; [done|]. split; [done|]. simpl. by rewrite upd_src_wraps, upd_src_trc. }
  cbn [tp_asgn flatTP act_thr run exec deref blocks]. rewrite Hb, Ho.
  rewrite bool_decide_true by done. cbn [negb]. rewrite Hav.
  destruct O as [|[h|e] O']; cbn [pop orc].
  - left. specialize (Hstore v1 d [] tr). destruct Hstore as (H1 & H2 & H3 & H4).
    eexists. split; [reflexivity|]. unfold log, set_orc in *; cbn [blocks wraps exts trc]. rewrite H4. auto.
  - left. specialize (Hstore v1 d O' tr). destruct Hstore as (H1 & H2 & H3 & H4).
    eexists. split; [reflexivity|]. unfold log, set_orc in *; cbn [blocks wraps exts trc orc]. rewrite H4. auto.
  - right. specialize (Hstore v2 df O' tr). destruct Hstore as (H1 & H2 & H3 & H4).
    eexists e, _. split; [reflexivity|]. unfold log, set_orc; cbn [blocks wraps exts trc orc]. rewrite H3, H4.
    split; [done|]. split; [done|]. split; [done|]. left.
Qed.

Lemma copy_assign_eff B W X O tr ω x y :
  Rep k B W ω -> is_Some (ω !! x) -> is_Some (ω !! y) ->
  effect k (vcopy_assign k NonConstL x y ω X) (quiet (Indirect20.copy_assign T x y)) (mkS B W X O tr).
Proof.
  intros HR [[ox ax] Hx] [[oy ay] Hy].
  pose proof (rep_lookup _ _ _ _ _ _ _ HR Hx) as HWx.
  pose proof (rep_lookup _ _ _ _ _ _ _ HR Hy) as HWy.
  unfold vcopy_assign, Indirect20.copy_assign.
  destruct (decide (x = y)) as [->|Hxy].
  { rewrite bool_decide_true by done. eexists. split; [reflexivity|].
    eexists. split; [reflexivity|]. done. }
  rewrite bool_decide_false by done. rewrite Hx, Hy.
  unfold effect, quiet, Indirect20.valueless_after_move. ex.
  rewrite HWy. destruct oy as [[[ly ty'] vy]|]; ex; unfold to_wrapper at 1; ex.
  2:{ rewrite reset_eq. exact (reset_tail k B W X O tr ω x y ox ax None ay (pocca E) HR Hxy Hx Hy). }
  pose proof (tT_of _ _ _ _ _ _ _ _ HR Hy) as ->.
  assert (Hcons : effect k (vconstruct k x (if pocca E then ay else ax) (tT E) (GDeref NonConstL y) ω X)
     (quiet (bind (bind (if pocca E then act (PReadA y) else act (PReadA x)) (fun a =>
       bind (deref_p y) (fun o =>
       bind (Indirect20.construct_from T a (ARef NonConstL (RBlk o))) (fun tmp =>
       bind (Indirect20.reset T x) (fun _ => act (PWriteP x (Some tmp)))))))
       (fun _ => if pocca E then bind (act (PReadA y)) (fun a => act (PWriteA x a)) else Ret tt)))
     (mkS B W X O tr)).
  { destruct (assign_tail k B W X O tr ω x y ox ax _ ay (pocca E) NonConstL (tT E) _ HR Hxy Hx Hy
                (fun _ => eq_refl) (vref_deref _ _ _ _ _ _ _ Hy)) as (r & Hr & Hm).
    exists r. split; [done|]. unfold quiet, deref_p in *. rewrite run_bind in *.
    destruct (pocca E); ex; rewrite ?HWx, ?HWy; ex; rewrite ?HWx, ?HWy; ex; exact Hm. }
  unfold effect, quiet in Hcons.
  destruct (t_assignable E) eqn:Hta; ex.
  2:{ assert (Hne : match ox with Some _ | _ => false end = false) by (by destruct ox).
      replace (match ox with Some _ => false && _ | None => false end) with false by (by destruct ox).
      exact Hcons. }
  rewrite HWx. destruct ox as [[[lx tx] vx]|]; ex; unfold to_wrapper at 1; ex; [|exact Hcons].
  rewrite HWx. ex. rewrite HWy. ex. unfold to_wrapper at 1 2; ex. cbn [andb].
  destruct (a_eqb E ax ay) eqn:Heq; [|exact Hcons].
  unfold Indirect20.op_star, deref_p. ex. rewrite HWx. ex. unfold to_wrapper at 1; ex.
  rewrite HWy. ex. unfold to_wrapper at 1; ex.
  pose proof (tT_of _ _ _ _ _ _ _ _ HR Hx) as ->.
  destruct (asgn_run B W X O tr ω x (GDeref ConstL y) _ lx vx ax HR Hx
    (vref_deref _ _ _ _ _ _ _ Hy) (arg_pre_deref _ _ _ _ _ _ _ _ Hy))
    as (d & v1 & df & v2 & Hspec & Hres).
  rewrite run_bind, run_bind.
  destruct Hres as [(s' & Hrun & HW' & HR' & HX' & Htr')|(e & s' & Hrun & HR' & HX' & Htr' & Hin)];
    rewrite Hrun; ex.
  - eexists. split.
    { exists lx, (tT E), vx, ax, (ARef ConstL (RBlk ly)), d, v1, df, v2. split; [done|].
      split; [by apply vref_deref with (1 := Hy)|]. split; [exact Hspec|].
      left. reflexivity. }
    destruct (pocca E); ex.
    + rewrite HW', HWy. ex. rewrite HW', HWx. ex. eexists. split; [reflexivity|].
      cbn [blocks wraps exts trc]. split; [|done].
      pose proof (rep_seta k _ _ _ x (Some (lx, tT E, d)) ax ay HR') as HRf.
      rewrite lookup_insert, insert_insert in HRf. rewrite <- HW' in *. apply HRf; [done|].
      intros _. symmetry. by apply (ar_res _ HA).
    + eexists. split; [reflexivity|]. rewrite HW'. done.
  - eexists. split.
    { exists lx, (tT E), vx, ax, (ARef ConstL (RBlk ly)), d, v1, df, v2. split; [done|].
      split; [by apply vref_deref with (1 := Hy)|]. split; [exact Hspec|].
      right. exists e. reflexivity. }
    eexists. split; [reflexivity|]. done.
Qed.

Lemma move_assign_eff B W X O tr ω x y :
  Rep k B W ω -> is_Some (ω !! x) -> is_Some (ω !! y) ->
  effect k (vnoexcept (pocma E || always_equal E) (vmove_assign k x y ω X))
         (quiet (Indirect20.move_assign T x y)) (mkS B W X O tr).
Proof.
  intros HR [[ox ax] Hx] [[oy ay] Hy].
  pose proof (rep_lookup _ _ _ _ _ _ _ HR Hx) as HWx.
  pose proof (rep_lookup _ _ _ _ _ _ _ HR Hy) as HWy.
  unfold Indirect20.move_assign. apply effect_noexcept.
  { unfold vmove_assign. case_bool_decide; [done|]. rewrite Hx, Hy.
    destruct oy as [oy|]; [|done]. destruct (a_eqb E ax ay); [done|].
    intros (evs & [?|[??]] & ? & ? & ? & ?); done. }
  unfold vmove_assign.
  destruct (decide (x = y)) as [->|Hxy].
  { rewrite bool_decide_true by done. eexists. split; [reflexivity|].
    eexists. split; [reflexivity|]. done. }
  rewrite bool_decide_false by done. rewrite Hx, Hy.
  unfold effect, quiet, Indirect20.valueless_after_move. ex.
  rewrite HWy. destruct oy as [[[ly ty'] vy]|]; ex; unfold to_wrapper at 1; ex.
  2:{ rewrite reset_eq. exact (reset_tail k B W X O tr ω x y ox ax None ay (pocma E) HR Hxy Hx Hy). }
  pose proof (tT_of _ _ _ _ _ _ _ _ HR Hy) as ->.
  rewrite HWx. ex. rewrite HWy. ex. unfold to_wrapper at 1 2; ex.
  destruct (a_eqb E ax ay) eqn:Heq.
  - apply (ar_res _ HA) in Heq. rewrite reset_eq.
    exact (steal_tail k B W X O tr ω x y ox ax _ ay (pocma E) HR Hxy Hx Hy Heq).
  - destruct (assign_tail k B W X O tr ω x y ox ax _ ay (pocma E) RVal (tT E) _ HR Hxy Hx Hy
                (fun _ => eq_refl) (vref_deref _ _ _ _ _ _ _ Hy)) as (r & Hr & Hm).
    exists r. split; [done|]. unfold quiet, deref_p in *. rewrite run_bind in *.
    destruct (pocma E); ex; rewrite ?HWx, ?HWy; ex; rewrite ?HWx, ?HWy; ex; exact Hm.
Qed.

Lemma value_assign_eff B W X O tr ω x g xa :
  Rep k B W ω -> is_Some (ω !! x) -> vref g ω = Some xa -> arg_pre g (abs_spec ω X) = true ->
  effect k (vvalue_assign k x g ω X) (quiet (Indirect20.value_assign T x xa)) (mkS B W X O tr).
Proof.
  intros HR [[ox ax] Hx] Hg Hpre.
  pose proof (rep_lookup _ _ _ _ _ _ _ HR Hx) as HWx.
  unfold vvalue_assign. rewrite Hx.
  unfold effect, quiet, Indirect20.value_assign, Indirect20.valueless_after_move. ex. rewrite HWx.
  destruct ox as [[[lx tx] vx]|]; ex; unfold to_wrapper at 1; ex.
  - unfold deref_p. ex. rewrite HWx. ex. unfold to_wrapper at 1; ex.
    pose proof (tT_of _ _ _ _ _ _ _ _ HR Hx) as ->.
    destruct (asgn_run B W X O tr ω x g _ lx vx ax HR Hx Hg Hpre)
      as (d & v1 & df & v2 & Hspec & Hres).
    rewrite run_bind.
    destruct Hres as [(s' & Hrun & HW' & HR' & HX' & Htr')|(e & s' & Hrun & HR' & HX' & Htr' & Hin)];
      rewrite Hrun; ex.
    + eexists. split.
      { exists lx, (tT E), vx, ax, xa, d, v1, df, v2. split; [done|].
        split; [done|]. split; [exact Hspec|]. left. reflexivity. }
      eexists. split; [reflexivity|]. rewrite HW'. done.
    + eexists. split.
      { exists lx, (tT E), vx, ax, xa, d, v1, df, v2. split; [done|].
        split; [done|]. split; [exact Hspec|]. right. exists e. reflexivity. }
      eexists. split; [reflexivity|]. done.
  - rewrite HWx. ex. unfold to_wrapper at 1; ex.
    exact (fill_tail k B W X O tr ω x ax (tT E) g xa HR Hx (fun _ => eq_refl) Hg Hpre).
Qed.

(** Main theorem of this file. *)
Theorem ind20_effect s ω (o : op E) cc ca :
  Rep k (blocks s) (wraps s) ω -> pre (mkCfg Ind cc ca) o (abs_spec ω (exts s)) = true ->
  effect k (veff k ConstL NonConstL o ω (exts s)) (interp (indirect20 T) o) s.
Proof.
  intros HR Hpre. destruct o; simpl in Hpre; unfold veff, interp.
  - apply pre_dead in Hpre. destruct s. by apply ctor_from_eff.
  - apply pre_dead in Hpre. destruct s. by apply ctor_from_eff.
  - by apply ctor_arg_eff.
  - by apply ctor_arg_eff.
  - by apply ctor_arg_eff.
  - by apply ctor_arg_eff.
  - by apply ctor_arg_eff.
  - by apply ctor_arg_eff.
  - (* OCopy *)
    apply andb_true_iff in Hpre as [Hx Hy]. apply pre_dead in Hx.
    apply pre_live in Hy as (oy & ay & Hy). rewrite Hy.
    destruct s as [B W X O tr]. pose proof (rep_lookup _ _ _ _ _ _ _ HR Hy) as HWy.
    destruct (ctor_copy_a_eff B W X O tr ω x (a_soccc E ay) y HR Hx) as (r & Hr & Hm); [by eexists|].
    exists r. split; [done|]. simpl i_copy. unfold quiet, Indirect20.ctor_copy in *.
    rewrite run_bind in *. ex. cbn [wraps] in HWy. rewrite HWy. exact Hm.
  - apply andb_true_iff in Hpre as [Hx Hy]. apply pre_dead in Hx.
    apply pre_live in Hy as (oy & ay & Hy). destruct s. apply ctor_copy_a_eff; eauto.
  - apply andb_true_iff in Hpre as [Hx Hy]. apply pre_dead in Hx.
    apply pre_live in Hy as (oy & ay & Hy). rewrite Hy. destruct s. by eapply ctor_move_eff.
  - apply andb_true_iff in Hpre as [Hx Hy]. apply pre_dead in Hx.
    apply pre_live in Hy as (oy & ay & Hy). destruct s. apply ctor_move_a_eff; eauto.
  - apply pre_live in Hpre as (ox & ax & Hx). rewrite Hx. destruct s. by eapply dtor_eff.
  - apply andb_true_iff in Hpre as [Hx Hy].
    apply pre_live in Hx as (ox & ax & Hx). apply pre_live in Hy as (oy & ay & Hy).
    destruct s. apply copy_assign_eff; eauto.
  - apply andb_true_iff in Hpre as [Hx Hy].
    apply pre_live in Hx as (ox & ax & Hx). apply pre_live in Hy as (oy & ay & Hy).
    destruct s. apply move_assign_eff; eauto.
  - (* OAssignV *)
    apply andb_true_iff in Hpre as [Hx Hg]. apply pre_live in Hx as (ox & ax & Hx).
    destruct (eval_arg_run _ _ _ HR Hg) as (xa & Hxa & Hrun).
    destruct s as [B W X O tr].
    destruct (value_assign_eff B W X O tr ω x g xa HR) as (r & Hr & Hm); [by eexists|done|done|].
    exists r. split; [done|]. unfold quiet in *. rewrite !run_bind in *. rewrite Hrun. exact Hm.
  - (* OSwap *)
    apply andb_true_iff in Hpre as [Hxy Heq]. apply andb_true_iff in Hxy as [Hx Hy].
    apply pre_live in Hx as (ox & ax & Hx). apply pre_live in Hy as (oy & ay & Hy).
    unfold equal_allocs in Heq. simpl in Heq. rewrite !lookup_absv, Hx, Hy in Heq. simpl in Heq.
    destruct s as [B W X O tr]. eapply swap_run; try done. apply (ar_res _ HA).
  - (* OMutate *)
    apply pre_engaged in Hpre as (l & t & v & a & Hx). rewrite Hx.
    destruct s as [B W X O tr]. pose proof (rep_lookup _ _ _ _ _ _ _ HR Hx) as HWx.
    destruct (rep_own _ _ _ _ HR _ _ _ _ _ Hx) as (b & Hb & (_ & Ho & _)). cbn [blocks wraps] in *.
    eexists. split; [reflexivity|]. cbn [i_star indirect20].
    unfold quiet, Indirect20.op_star, deref_p. ex. rewrite HWx. ex. unfold to_wrapper at 1; ex.
    cbn [deref blocks]. rewrite Hb, Ho. ex. eexists. split; [reflexivity|].
    pose proof (rep_upd_ref _ _ _ X O tr _ _ _ _ _ (f v) _ HR Hx). done.
  - (* OGet *)
    apply pre_engaged in Hpre as (l & t & v & a & Hx). rewrite Hx.
    destruct s as [B W X O tr]. pose proof (rep_lookup _ _ _ _ _ _ _ HR Hx) as HWx.
    destruct (rep_own _ _ _ _ HR _ _ _ _ _ Hx) as (b & Hb & (_ & Ho & _)). cbn [blocks wraps] in *.
    eexists. split; [reflexivity|]. cbn [i_star indirect20].
    unfold quiet, Indirect20.op_star, deref_p. ex. rewrite HWx. ex. unfold to_wrapper at 1; ex.
    cbn [deref blocks]. rewrite Hb, Ho. ex. eexists. split; [reflexivity|]. done.
  - (* OValueless *)
    apply pre_live in Hpre as (ox & ax & Hx). rewrite Hx.
    destruct s as [B W X O tr]. pose proof (rep_lookup _ _ _ _ _ _ _ HR Hx) as HWx.
    cbn [blocks wraps] in *.
    eexists. split; [reflexivity|]. cbn [i_valueless indirect20].
    unfold Indirect20.valueless_after_move. ex. rewrite HWx.
    destruct ox as [[[lx tx] vx]|]; ex; unfold to_wrapper at 1; ex; eexists; (split; [reflexivity|]); done.
  - (* OGetAlloc *)
    apply pre_live in Hpre as (ox & ax & Hx). rewrite Hx.
    destruct s as [B W X O tr]. pose proof (rep_lookup _ _ _ _ _ _ _ HR Hx) as HWx.
    cbn [blocks wraps] in *.
    eexists. split; [reflexivity|]. cbn [i_alloc indirect20].
    unfold Indirect20.get_allocator. ex. rewrite HWx. ex. eexists. split; [reflexivity|]. done.
  - destruct s as [B W X O tr]. eexists. split; [reflexivity|]. ex.
    eexists. split; [reflexivity|]. done.
Qed.

End ind.
