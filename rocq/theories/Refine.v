(** * The exact effects erase to the value specification. *)

From stdpp Require Import base gmap list.
From Verif Require Import Lang Common Client Spec Rep Effect RunLemmas RunOps.

Section refine.
Context {E : Env} (k : cls) (cc ca : cat).
Notation A := (eA E).
Notation V := (eV E).
Notation F := (mkCfg k cc ca).
Implicit Types X : gmap nat (ty * V).
Implicit Types ω : gmap wl (option (loc * ty * V) * A).
Implicit Types g : carg E.

Lemma abs_set g v ω X : abs_spec (vset g v ω) (eset g v X) = set_arg g v (abs_spec ω X).
Proof.
  destruct g as [c|c n|c y]; simpl; [done|by destruct c|].
  assert (H : absv (alter (fun o : option (loc * ty * V) * A => ((fun p => (p.1, v)) <$> o.1, o.2)) y ω) =
    alter (fun o : option (ty * V) * A => ((fun p => (p.1, v)) <$> o.1, o.2)) y (absv ω)).
  { apply map_eq. intros w. rewrite lookup_absv. destruct (decide (y = w)) as [<-|Hne].
    - rewrite !lookup_alter, lookup_absv. by destruct (ω !! y) as [[[[[]]|]]|].
    - rewrite !lookup_alter_ne by done. by rewrite lookup_absv. }
  unfold abs_spec. destruct c; simpl; rewrite ?H; done.
Qed.

Lemma abs_put ω X w l t (v : V) a :
  abs_spec (<[w := (Some (l, t, v), a)]> ω) X = put w (Some (t, v)) a (abs_spec ω X).
Proof. unfold abs_spec, put; simpl. by rewrite absv_insert. Qed.

Lemma abs_put_none ω X w a :
  abs_spec (<[w := (None, a)]> ω) X = put w None a (abs_spec ω X).
Proof. unfold abs_spec, put; simpl. by rewrite absv_insert. Qed.

Lemma abs_put_any ω X w o a :
  abs_spec (<[w := (o, a)]> ω) X =
  put w ((fun p : loc * ty * V => (p.1.2, p.2)) <$> o) a (abs_spec ω X).
Proof. unfold abs_spec, put; simpl. by rewrite absv_insert. Qed.

Lemma abs_lookup ω X w : sv (abs_spec ω X) !! w = erase_obj <$> ω !! w.
Proof. apply lookup_absv. Qed.

(** What a result has to satisfy with respect to a step of the specification. *)
Definition agrees (res : stepres E) (r : vres E) : Prop :=
  match r with
  | VRet o ω' X' evs => abs_spec ω' X' = r_ok res /\ o = r_obs res /\
      exists n, answers evs = replicate n None /\ length (r_exn res) <= n
  | VThrow e ω' X' evs =>
      exists i, answers evs = replicate i None ++ [Some e] /\
                r_exn res !! i = Some (abs_spec ω' X')
  | VTerm => False
  end.

Lemma agrees_quiet σ ob o a ω X :
  abs_spec ω X = σ -> agrees (mkRes σ ob []) (VRet ob ω X (reset_ev k o a)).
Proof. intros <-. simpl. split; [done|]. split; [done|]. exists 0. by rewrite answers_reset. Qed.
Lemma agrees_quiet0 σ ob ω X :
  abs_spec ω X = σ -> agrees (mkRes σ ob []) (VRet ob ω X []).
Proof. intros <-. simpl. split; [done|]. split; [done|]. by exists 0. Qed.

Lemma make_vmake t a g ω X v v1 v2 :
  vmake t a g ω X = Some (v, v1, v2) ->
  make t a g (abs_spec ω X) =
  Some (v, set_arg g v1 (abs_spec ω X), set_arg g v2 (abs_spec ω X)).
Proof.
  unfold vmake, make. destruct g as [c|c n|c y].
  - by intros [= <- <- <-].
  - destruct (arg_obj _ _) as [[t' v']|]; [|done]. destruct (t_cons _ _ _ _ _ _). by intros [= <- <- <-].
  - destruct (arg_obj _ _) as [[t' v']|]; [|done]. destruct (t_cons _ _ _ _ _ _). by intros [= <- <- <-].
Qed.

Lemma arg_pre_make t a g ω X :
  arg_pre g (abs_spec ω X) = true -> exists v v1 v2, vmake t a g ω X = Some (v, v1, v2).
Proof.
  destruct g as [c|c n|c y]; unfold vmake; simpl; [eauto| |].
  - intros H. apply bool_decide_eq_true in H as [[t' v'] H]. rewrite H.
    destruct (t_cons _ _ _ _ _ _). eauto.
  - unfold engaged. simpl. destruct (absv ω !! y) as [[[[t' v']|]]|]; try done.
    destruct (t_cons _ _ _ _ _ _). eauto.
Qed.

Lemma refine_construct x a t g ω X r :
  arg_pre g (abs_spec ω X) = true -> vconstruct k x a t g ω X r ->
  exists res, construct x a t g (abs_spec ω X) = Some res /\ agrees res r.
Proof.
  intros Hpre (evs & c & ω1 & X1 & Hc & Hr).
  destruct (arg_pre_make t a g ω X Hpre) as (v & v1 & v2 & Hmk).
  unfold construct. rewrite (make_vmake _ _ _ _ _ _ _ _ Hmk).
  eexists. split; [reflexivity|].
  destruct Hc as [e|e l xa v' v1' v2' Hf Hg Hmk'|l xa v' v1' v2' Hf Hg Hmk']; subst r; simpl.
  - by exists 0.
  - rewrite Hmk in Hmk'. simplify_eq. rewrite abs_set. by exists 1.
  - rewrite Hmk in Hmk'. simplify_eq. rewrite abs_put, abs_set. split; [done|]. split; [done|].
    exists 2. split; [|simpl; lia]. rewrite answers_app. simpl.
    by destruct (ω !! x) as [[o a0]|]; simpl; rewrite ?answers_reset.
Qed.

Lemma refine_assign x a a' g ω X r o :
  arg_pre g (abs_spec ω X) = true -> ω !! x = Some (o, a) ->
  vassign x a' g ω X r ->
  exists σ1 σ2 t d, assign_obj x g (abs_spec ω X) = Some (σ1, σ2) /\
    sv σ1 !! x = Some (Some (t, d), a) /\
    match r with
    | VRet ob ω' X' evs => ob = ObsUnit /\ abs_spec ω' X' = put x (Some (t, d)) a' σ1 /\
                           answers evs = [None]
    | VThrow e ω' X' evs => abs_spec ω' X' = σ2 /\ answers evs = [Some e]
    | VTerm => False
    end.
Proof.
  intros Hpre Hx (l & t0 & v0 & a0 & xa & d & v1 & df & v2 & Hx' & Hg & Hvals & Hr).
  rewrite Hx in Hx'. simplify_eq. unfold assign_obj. rewrite abs_lookup, Hx. simpl.
  destruct g as [c|c n|c y].
  - destruct Hvals as [-> ->].
    eexists _, _, t0, _. split; [reflexivity|]. simpl. split; [apply lookup_insert|].
    destruct Hr as [->|[e ->]].
    + split; [done|]. simpl. rewrite abs_put. unfold put; simpl. split; [|done]. by rewrite insert_insert.
    + simpl. split; [|done]. by rewrite abs_put.
  - destruct Hvals as (t' & v' & Ho & H1 & H2). cbn [arg_cat] in *. rewrite Ho, <- H1, <- H2.
    eexists _, _, t0, d. split; [reflexivity|]. split; [apply lookup_insert|].
    destruct Hr as [->|[e ->]].
    + split; [done|]. rewrite abs_put, abs_set. unfold put; simpl. split; [|done]. by rewrite insert_insert.
    + split; [|done]. by rewrite abs_put, abs_set.
  - destruct (decide (x = y)) as [<-|Hne].
    + rewrite bool_decide_true in Hvals by done. destruct Hvals as [-> ->].
      rewrite bool_decide_true by done.
      assert (Hs : forall vv dd b, <[x := (Some (l, t0, dd), b)]> (vset (GDeref c x) vv ω)
                   = <[x := (Some (l, t0, dd), b)]> ω).
      { intros vv dd b. apply map_eq. intros w. destruct (decide (x = w)) as [<-|Hne].
        - by rewrite !lookup_insert.
        - rewrite !lookup_insert_ne by done. apply vset_lookup_ne. by intros ?? [= -> ->]. }
      eexists _, _, t0, _. split; [reflexivity|]. split; [apply lookup_insert|].
      destruct Hr as [->|[e ->]].
      * split; [done|]. rewrite Hs. simpl. rewrite abs_put. unfold put; simpl. split; [|done]. by rewrite insert_insert.
      * split; [|done]. rewrite Hs. simpl. by rewrite abs_put.
    + rewrite bool_decide_false in Hvals by done. rewrite bool_decide_false by done.
      destruct Hvals as (t' & v' & Ho & H1 & H2). cbn [arg_cat] in *. rewrite Ho, <- H1, <- H2.
      eexists _, _, t0, d. split; [reflexivity|]. split; [apply lookup_insert|].
      destruct Hr as [->|[e ->]].
      * split; [done|]. rewrite abs_put, abs_set. unfold put; simpl. split; [|done]. by rewrite insert_insert.
      * split; [|done]. by rewrite abs_put, abs_set.
Qed.

Lemma refine_copy_construct x a y ω X r :
  vcopy_construct k cc x a y ω X r ->
  exists res, copy_construct F x a y (abs_spec ω X) = Some res /\ agrees res r.
Proof.
  unfold vcopy_construct, copy_construct. rewrite abs_lookup.
  destruct (ω !! y) as [[[[[l t] v]|] ay]|] eqn:Hy; simpl; [| |done].
  - intros Hr. eapply refine_construct; [|done]. by eapply arg_pre_deref.
  - intros ->. eexists. split; [reflexivity|]. first [apply agrees_quiet|apply agrees_quiet0]. by rewrite abs_put_none.
Qed.

Lemma refine_move_construct x a y ω X r :
  vmove_construct k x a y ω X r ->
  exists res, move_construct x a y (abs_spec ω X) = Some res /\ agrees res r.
Proof.
  unfold vmove_construct, move_construct. rewrite abs_lookup.
  destruct (ω !! y) as [[[[[l t] v]|] ay]|] eqn:Hy; simpl; [| |done].
  - destruct (always_equal E || a_eqb E a ay).
    + intros ->. eexists. split; [reflexivity|]. first [apply agrees_quiet|apply agrees_quiet0]. by rewrite abs_put, abs_put_none.
    + intros Hr. eapply refine_construct; [|done]. by eapply arg_pre_deref.
  - intros ->. eexists. split; [reflexivity|]. first [apply agrees_quiet|apply agrees_quiet0]. by rewrite abs_put_none.
Qed.

Lemma refine_copy_assign x y ω X r :
  vcopy_assign k ca x y ω X r ->
  exists res, copy_assign_spec F x y (abs_spec ω X) = Some res /\ agrees res r.
Proof.
  unfold vcopy_assign, copy_assign_spec. case_bool_decide as Hxy.
  { intros ->. eexists. split; [reflexivity|]. by apply agrees_quiet0. }
  rewrite !abs_lookup.
  destruct (ω !! x) as [[ox ax]|] eqn:Hx; [|done]. cbn [fmap option_fmap option_map].
  destruct (ω !! y) as [[[[[ly ty'] vy]|] ay]|] eqn:Hy; [| |done]; cbn [erase_obj fst snd fmap option_fmap option_map].
  - cbn [c_cls c_ca].
    assert (Hcons : vconstruct k x (if pocca E then ay else ax) ty' (GDeref ca y) ω X r ->
      exists res, construct x (if pocca E then ay else ax) ty' (GDeref ca y) (abs_spec ω X) = Some res
                  /\ agrees res r).
    { intros Hr. eapply refine_construct; [|done]. by eapply arg_pre_deref. }
    destruct k; [|exact Hcons]. destruct ox as [[[lx tx] vx]|]; simpl; [|exact Hcons].
    destruct (t_assignable E && a_eqb E ax ay); [|exact Hcons].
    intros Hr. destruct (refine_assign _ _ _ _ _ _ _ _ (arg_pre_deref _ X ConstL _ _ _ _ _ Hy) Hx Hr)
        as (σ1 & σ2 & t & d & Ha & Hl & Hm).
      rewrite Ha, Hl. eexists. split; [reflexivity|].
      destruct r; simpl; [| |done].
      * destruct Hm as (-> & -> & Han). split; [done|]. split; [done|]. exists 1. by rewrite Han.
      * destruct Hm as [<- Han]. exists 0. by rewrite Han.
  - intros ->. eexists. split; [reflexivity|]. first [apply agrees_quiet|apply agrees_quiet0]. by rewrite abs_put_none.
Qed.

Lemma refine_move_assign x y ω X r :
  vmove_assign k x y ω X r ->
  exists res, move_assign_spec x y (abs_spec ω X) = Some res /\ agrees res r.
Proof.
  unfold vmove_assign, move_assign_spec. case_bool_decide as Hxy.
  { intros ->. eexists. split; [reflexivity|]. by apply agrees_quiet0. }
  rewrite !abs_lookup.
  destruct (ω !! x) as [[ox ax]|] eqn:Hx; [|done]. simpl.
  destruct (ω !! y) as [[[[[ly ty'] vy]|] ay]|] eqn:Hy; [| |done]; simpl.
  - destruct (a_eqb E ax ay).
    + intros ->. eexists. split; [reflexivity|]. first [apply agrees_quiet|apply agrees_quiet0]. by rewrite abs_put, abs_put_none.
    + intros Hr. eapply refine_construct; [|done]. by eapply arg_pre_deref.
  - intros ->. eexists. split; [reflexivity|]. first [apply agrees_quiet|apply agrees_quiet0]. by rewrite abs_put_none.
Qed.

(** Results in which a noexcept function is left by an exception. *)
Definition agrees_term (o : op E) ω X (res : stepres E) (r : vres E) : Prop :=
  match r with
  | VTerm => may_terminate o (abs_spec ω X) = true /\ r_exn res = []
  | _ => agrees res r
  end.

Lemma agrees_weaken o ω X res r : agrees res r -> agrees_term o ω X res r.
Proof. by destruct r. Qed.

Theorem veff_refines (HA : AllocReq E) (o : op E) ω X r :
  pre F o (abs_spec ω X) = true ->
  veff k cc ca o ω X r ->
  exists res, step F o (abs_spec ω X) = Some res /\ agrees_term o ω X res r.
Proof.
  intros Hpre Hr. unfold step. rewrite Hpre. cbn [negb].
  assert (Hw : forall t, want (E := E) F t = vwant (E := E) k t) by (by destruct k).
  destruct o; cbn [veff] in Hr; rewrite ?Hw; simpl in Hpre;
    try (apply andb_true_iff in Hpre as [Hlx Hpre]).
  - destruct (refine_construct _ _ _ (GArgs (c_empty E)) _ _ _ eq_refl Hr) as (res & H1 & H2). exists res; auto using agrees_weaken.
  - destruct (refine_construct _ _ _ (GArgs (c_empty E)) _ _ _ eq_refl Hr) as (res & H1 & H2). exists res; auto using agrees_weaken.
  - destruct (refine_construct _ _ _ _ _ _ _ Hpre Hr) as (res & H1 & H2). exists res; auto using agrees_weaken.
  - destruct (refine_construct _ _ _ _ _ _ _ Hpre Hr) as (res & H1 & H2). exists res; auto using agrees_weaken.
  - destruct (refine_construct _ _ _ _ _ _ _ Hpre Hr) as (res & H1 & H2). exists res; auto using agrees_weaken.
  - destruct (refine_construct _ _ _ _ _ _ _ Hpre Hr) as (res & H1 & H2). exists res; auto using agrees_weaken.
  - destruct (refine_construct _ _ _ _ _ _ _ Hpre Hr) as (res & H1 & H2). exists res; auto using agrees_weaken.
  - destruct (refine_construct _ _ _ _ _ _ _ Hpre Hr) as (res & H1 & H2). exists res; auto using agrees_weaken.
  - rewrite abs_lookup. destruct (ω !! y) as [[oy ay]|] eqn:Hy; [|done]. simpl.
    destruct (refine_copy_construct _ _ _ _ _ _ Hr) as (res & H1 & H2). exists res; auto using agrees_weaken.
  - destruct (refine_copy_construct _ _ _ _ _ _ Hr) as (res & H1 & H2). exists res; auto using agrees_weaken.
  - rewrite abs_lookup. destruct (ω !! y) as [[oy ay]|] eqn:Hy; [|done]. simpl.
    destruct (refine_move_construct _ _ _ _ _ _ Hr) as (res & H1 & H2). exists res; auto using agrees_weaken.
  - destruct (refine_move_construct _ _ _ _ _ _ Hr) as (res & H1 & H2). exists res; auto using agrees_weaken.
  - destruct (ω !! x) as [[ox ax]|] eqn:Hx; [|done]. rewrite Hr.
    eexists. split; [reflexivity|]. apply agrees_weaken, agrees_quiet.
    unfold abs_spec, drop_obj; simpl. by rewrite absv_delete.
  - destruct (refine_copy_assign _ _ _ _ _ Hr) as (res & H1 & H2). exists res; auto using agrees_weaken.
  - unfold vnoexcept in Hr. destruct (pocma E || always_equal E) eqn:Hnx.
    + destruct Hr as [(o & ω' & X' & evs & Hr & ->)|(e & ω' & X' & evs & Hr & ->)].
      * destruct (refine_move_assign _ _ _ _ _ Hr) as (res & H1 & H2). rewrite H1.
        eexists. split; [reflexivity|]. apply agrees_weaken. destruct H2 as (? & ? & n & ? & ?).
        split; [done|]. split; [done|]. exists n. split; [done|]. simpl. lia.
      * destruct (refine_move_assign _ _ _ _ _ Hr) as (res & H1 & H2). rewrite H1.
        eexists. split; [reflexivity|]. split; [|done].
        simpl. unfold vmove_assign in Hr. destruct (decide (x = y)) as [->|Hxy].
        { by rewrite bool_decide_true in Hr by done. }
        rewrite bool_decide_false in * by done. unfold equal_allocs, engaged. rewrite !abs_lookup.
        destruct (ω !! x) as [[ox ax]|] eqn:Hx; [|done].
        destruct (ω !! y) as [[[[[ly ty'] vy]|] ay]|] eqn:Hy; [|done..]. simpl.
        destruct (a_eqb E ax ay) eqn:Heq; [done|]. simpl.
        destruct (pocma E); [done|]. simpl in Hnx. by rewrite (ar_ae _ HA Hnx) in Heq.
    + destruct (refine_move_assign _ _ _ _ _ Hr) as (res & H1 & H2). rewrite H1.
      eexists. split; [reflexivity|]. by apply agrees_weaken.
  - assert (Hk : k = Ind) by (by destruct k). rewrite Hk in Hpre.
    apply andb_true_iff in Hpre as [_ Hpre].
    unfold vvalue_assign in Hr. unfold value_assign_spec. rewrite abs_lookup.
    destruct (ω !! x) as [[[ox|] ax]|] eqn:Hx; [| |done]; simpl.
    + destruct (refine_assign _ _ _ _ _ _ _ _ Hpre Hx Hr) as (σ1 & σ2 & t & d & Ha & Hl & Hm).
      rewrite Ha. eexists. split; [reflexivity|].
      destruct r; simpl; [| |done].
      * destruct Hm as (-> & -> & Han). split; [|split; [done|]; exists 1; by rewrite Han].
        unfold put. rewrite insert_id; [|done]. by destruct σ1.
      * destruct Hm as [<- Han]. exists 0. by rewrite Han.
    + destruct (refine_construct _ _ _ _ _ _ _ Hpre Hr) as (res & H1 & H2). exists res; auto using agrees_weaken.
  - unfold vswap in Hr. unfold swap_spec. rewrite !abs_lookup.
    destruct (ω !! x) as [[ox ax]|] eqn:Hx; [|done]. destruct (ω !! y) as [[oy ay]|] eqn:Hy; [|done].
    simpl. destruct (pocs E); rewrite Hr; (eexists; split; [reflexivity|]); apply agrees_weaken, agrees_quiet0;
      rewrite !abs_put_any; done.
  - rewrite abs_lookup. destruct (ω !! x) as [[[[[l t] v]|] a]|] eqn:Hx; [|done..]. simpl.
    rewrite Hr. eexists. split; [reflexivity|]. apply agrees_weaken, agrees_quiet0. by rewrite abs_put.
  - rewrite abs_lookup. destruct (ω !! x) as [[[[[l t] v]|] a]|] eqn:Hx; [|done..]. simpl.
    rewrite Hr. eexists. split; [reflexivity|]. by apply agrees_weaken, agrees_quiet0.
  - rewrite abs_lookup. destruct (ω !! x) as [[o a]|] eqn:Hx; [|done]. simpl.
    rewrite Hr. eexists. split; [reflexivity|]. destruct o; by apply agrees_weaken, agrees_quiet0.
  - rewrite abs_lookup. destruct (ω !! x) as [[o a]|] eqn:Hx; [|done]. simpl.
    rewrite Hr. eexists. split; [reflexivity|]. by apply agrees_weaken, agrees_quiet0.
  - rewrite Hr. eexists. split; [reflexivity|]. by apply agrees_weaken, agrees_quiet0.
Qed.

End refine.
