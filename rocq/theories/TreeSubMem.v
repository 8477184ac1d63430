(** * Copy assignment of an indirect from a direct member of its own value, [x = x->m_i], where
    the objects are assigned in place: the common part, and when it is undefined. *)

From stdpp Require Import base gmap list.
From Verif Require Import Lang Common Client Spec Rep RunLemmas Headers Hist Tree TreeProps TreeAssign TreeAssignC TreeMove TreeMoveAssign TreeSub TreeSubUB TreeObs.
From Verif Require Import Indirect20 Indirect14 Polymorphic20 Polymorphic14.

Section sub.
Context {E : Env} (Sh : Shape E).
Notation A := (eA E).
Notation V := (eV E).
Notation wst := (option (tree E) * A)%type.
Implicit Types s : store E.
Notation wrap_heap := (wrap_heap Sh).
Notation mem_heap := (mem_heap Sh).
Notation nodeTP := (nodeTP Sh).
Notation node_impl := (node_impl Sh).
Notation placed := (placed Sh).
Notation placed_all := (placed_all Sh).
Notation hs := (k_hdr Sh (tT E)).

Lemma mem_app_inv hs nm i ks1 ks2 B W :
  mem_heap hs nm i (ks1 ++ ks2) B W ->
  exists B1 W1 B2 W2, B = B1 ∪ B2 /\ W = W1 ∪ W2 /\ B1 ##ₘ B2 /\ W1 ##ₘ W2 /\
    mem_heap hs nm i ks1 B1 W1 /\ mem_heap hs nm (i + length ks1) ks2 B2 W2.
Proof.
  revert i B W. induction ks1 as [|k ks1 IH]; intros i B W Hm.
  - exists ∅, ∅, B, W. rewrite Nat.add_0_r, !(left_id_L ∅ (∪)). split_and!; try done; [map_solve|map_solve|constructor].
  - cbn in Hm. apply mem_cons_inv in Hm as (B1 & W1 & B2 & W2 & -> & -> & DB & DW & H1 & H2).
    apply IH in H2 as (B3 & W3 & B4 & W4 & -> & -> & DB' & DW' & H3 & H4).
    exists (B1 ∪ B3), (W1 ∪ W3), B4, W4. rewrite <- !(assoc_L (∪)). cbn [length]. rewrite <- Nat.add_succ_comm.
    split_and!; try done; [clear - DB DB'; map_solve|clear - DW DW'; map_solve|].
    constructor; [done|done|clear - DB; map_solve|clear - DW; map_solve].
Qed.

Lemma mem_app hs nm i ks1 ks2 B1 W1 B2 W2 :
  mem_heap hs nm i ks1 B1 W1 -> mem_heap hs nm (i + length ks1) ks2 B2 W2 -> B1 ##ₘ B2 -> W1 ##ₘ W2 ->
  mem_heap hs nm i (ks1 ++ ks2) (B1 ∪ B2) (W1 ∪ W2).
Proof.
  revert i B1 W1. induction ks1 as [|k ks1 IH]; intros i B1 W1 H1 H2 DB DW.
  - apply mem_nil_inv in H1 as [-> ->]. rewrite Nat.add_0_r in H2. by rewrite !(left_id_L ∅ (∪)).
  - apply mem_cons_inv in H1 as (B3 & W3 & B4 & W4 & -> & -> & DB' & DW' & H3 & H4).
    cbn [length] in H2. rewrite <- Nat.add_succ_comm in H2. rewrite <- !(assoc_L (∪)). cbn. constructor; [done| | |].
    + apply IH; [done|done|clear - DB; map_solve|clear - DW; map_solve].
    + clear - DB DB'. map_solve.
    + clear - DW DW'. map_solve.
Qed.

Lemma assign_app (f : nat -> prog E unit) i m n s :
  run (assign_members f i (m + n)) s = run (bind (assign_members f i m) (fun _ => assign_members f (i + m) n)) s.
Proof.
  revert i s. induction m as [|m IH]; intros i s.
  - cbn. by rewrite Nat.add_0_r.
  - cbn [Nat.add assign_members]. rewrite !run_bind. destruct (run (f i) s) as [[] s'| | |]; try done.
    rewrite IH, run_bind. by rewrite <- Nat.add_succ_comm.
Qed.

Lemma replaced_frame s s' B W B' W' F G :
  replaced s s' B W B' W' -> B ##ₘ F -> W ##ₘ G -> F ⊆ blocks s -> G ⊆ wraps s ->
  replaced s s' (B ∪ F) (W ∪ G) (B' ∪ F) (W' ∪ G) /\ B' ##ₘ F /\ W' ##ₘ G /\ F ⊆ blocks s' /\ G ⊆ wraps s'.
Proof.
  intros R D1 D2 S1 S2. destruct R as [R1 R2 R3 R4 R5].
  split_and!; [split; [rewrite R1|rewrite R2|done| |]| | |rewrite R1|rewrite R2].
  - clear - D1 S1 R4. map_solve.
  - clear - D2 S2 R5. map_solve.
  - clear - D1 S1 R4. map_solve.
  - clear - D2 S2 R5. map_solve.
  - clear - D1 S1 R4. map_solve.
  - clear - D2 S2 R5. map_solve.
  - clear - D1 S1 R4. map_solve.
  - clear - D2 S2 R5. map_solve.
Qed.

Context (HS : ShapeReq Sh) (HF : Fixed Sh) (HA : AllocReq E) (h : header) (Hcls : header_cls h = Ind).

(** The node in [l] of [x], with members [ds] and then [rest]; the node in [o] somewhere below
    [rest], whose first members are [fs].  Assigning the data and the first members. *)
Lemma front n x a l o v v1 ds rest fs b bo Bd Wd Br Wr Bf Wf s :
  placed_all s -> placed s x -> wraps s !! x = Some (mkW (PLoc l) a) ->
  blocks s !! l = Some b -> block_ok Ind l (tT E) v a b -> length (ds ++ rest) = n_kids Sh (tT E) v ->
  mem_heap hs (WMem l) 0 ds Bd Wd -> mem_heap hs (WMem l) (length ds) rest Br Wr ->
  Bd ##ₘ Br -> Wd ##ₘ Wr -> (Bd ∪ Br) !! l = None -> (Wd ∪ Wr) !! x = None ->
  Bd ∪ Br ⊆ blocks s -> Wd ∪ Wr ⊆ wraps s ->
  o <> l -> blocks s !! o = Some bo -> b_obj bo = OLive (tT E) v1 -> length ds = length fs ->
  mem_heap hs (WMem o) 0 fs Bf Wf -> Bf ⊆ Br -> Wf ⊆ Wr ->
  Forall (fun k => fits n k.1) ds -> Forall (fun k => fits n k.1) fs ->
  match run (bind (act_thr (PAsgn (tT E) l (ARef ConstL (RBlk o)))) (fun _ =>
      assign_members (fun j => i_copy_assign (node_impl n (hs j)) (WMem l j) (WMem o j)) 0 (length ds))) s with
  | ORet _ s' => exists b' Bd' Wd', mem_heap hs (WMem l) 0 (asg_ws Sh hs 0 fs ds) Bd' Wd' /\
      block_ok Ind l (tT E) (t_asgn E ConstL (tT E) (tT E) v v1).1 a b' /\
      Bd' !! l = None /\ Wd' !! x = None /\ placed_all s' /\
      replaced s s' (<[l := b]> Bd) Wd (<[l := b']> Bd') Wd'
  | OThrow _ s' => exists v' ds' b' Bd' Wd', mem_heap hs (WMem l) 0 ds' Bd' Wd' /\ length ds' = length ds /\
      block_ok Ind l (tT E) v' a b' /\
      Bd' !! l = None /\ Wd' !! x = None /\
      replaced s s' (<[l := b]> Bd) Wd (<[l := b']> Bd') Wd'
  | _ => False
  end.
Proof.
  intros HP Hpx Hxs Hb Hok Hlen Hd Hr DB DW HBl HWx HB HW Hol Hbo Hobjo Hlf Hf SBf SWf Hfd Hff.
  assert (Hok' := Hok). destruct Hok' as (Hres & Hobj & Hty & Hhdr & _).
  assert (HBd : Bd ⊆ blocks s) by (clear - HB DB; map_solve).
  assert (HBr : Br ⊆ blocks s) by (clear - HB DB; map_solve).
  assert (HWd : Wd ⊆ wraps s) by (clear - HW DW; map_solve).
  assert (HWr : Wr ⊆ wraps s) by (clear - HW DW; map_solve).
  assert (HBdl : Bd !! l = None) by (clear - HBl; at_norm; destruct (Bd !! l); done).
  assert (HBrl : Br !! l = None) by (clear - HBl; at_norm; destruct (Bd !! l); done).
  assert (HWdx : Wd !! x = None) by (clear - HWx; at_norm; destruct (Wd !! x); done).
  assert (HWrx : Wr !! x = None) by (clear - HWx; at_norm; destruct (Wd !! x); done).
  assert (Hupd : forall s0 v', blocks s0 = blocks s -> blocks (upd_ref (RBlk l) v' s0) = <[l := set_obj (OLive (tT E) v') b]> (blocks s)).
  { intros s0 v' Hs0. cbn. rewrite Hs0. apply map_eq. intros i. destruct (decide (l = i)) as [<-|Hne].
    - by rewrite lookup_alter, Hb, lookup_insert; cbn; rewrite Hobj.
    - by rewrite lookup_alter_ne, lookup_insert_ne. }
  assert (Hnok : forall v', block_ok Ind l (tT E) v' a (set_obj (OLive (tT E) v') b)) by (by repeat split).
  rewrite run_bind. cbn [act_thr run exec deref].
  rewrite Hb, Hobj. rewrite bool_decide_eq_true_2 by done. cbn [negb asgn_vals].
  rewrite bool_decide_eq_false_2 by congruence. cbn [deref]. rewrite Hbo, Hobjo.
  destruct (t_asgn E ConstL (tT E) (tT E) v v1) as [d1 d2] eqn:Hdd. destruct (t_asgn_fail E ConstL (tT E) (tT E) v v1) as [df df2].
  destruct (pop_eq s) as (r & orc' & -> & _). destruct r as [hh|e]; cbn [upd_src run].
  - set (s1 := log _ _).
    assert (H1b : blocks s1 = <[l := set_obj (OLive (tT E) d1) b]> (blocks s)) by (by apply Hupd).
    assert (H1w : wraps s1 = wraps s) by done. assert (H1x : exts s1 = exts s) by done. clearbody s1.
    assert (Hmono : forall u, placed s u -> placed s1 u).
    { intros [m|l' i']; [done|]. intros (b' & Hb' & Hi'). cbn. rewrite H1b. destruct (decide (l = l')) as [<-|Hne].
      - rewrite lookup_insert. eexists. split; [done|]. cbn. intros t' v' Hv. simplify_eq.
        rewrite (HF (tT E) v' v). by apply Hi'.
      - rewrite lookup_insert_ne by done. eauto. }
    assert (CL := casg_loop Sh n hs (WMem l) (WMem o) 0 ds fs Bd Wd Bf Wf s1 (casg_all Sh HS HF HA n)).
    feed specialize CL; [|done| |done|done| | | | | | |done|done|].
    { intros u Hu. apply Hmono, HP. by rewrite <- H1w. }
    { intros j Hj. cbn. rewrite H1b, lookup_insert. eexists. split; [done|]. intros t' v' Hv. cbn in Hv. simplify_eq.
      rewrite (HF (tT E) v' v), <- Hlen, app_length. lia. }
    { clear - DB SBf. map_solve. }
    { clear - DW SWf. map_solve. }
    { rewrite H1b. clear - HBd HBdl. map_solve. }
    { by rewrite H1w. }
    { rewrite H1b. assert (Bf ⊆ blocks s) by (by etrans). clear - H SBf HBrl. map_solve. }
    { rewrite H1w. by etrans. }
    assert (Htr : forall s2 B' W', replaced s1 s2 Bd Wd B' W' ->
       B' !! l = None /\ W' !! x = None /\ replaced s s2 (<[l := b]> Bd) Wd (<[l := set_obj (OLive (tT E) d1) b]> B') W').
    { intros s2 B' W' [R1 R2 R3 R4 R5]. rewrite H1b in *. rewrite H1w in *. split_and!.
      - apply (fun Q => dis_at _ _ l Q) in R4. at_norm. rewrite HBdl, decide_True in R4 by done. by destruct R4.
      - apply (fun Q => dis_at _ _ x Q) in R5. at_norm. rewrite HWdx in R5. destruct R5; [done|congruence].
      - split; [rewrite R1|done|congruence| |done].
        + clear - HBdl R4. map_solve.
        + clear - HBdl R4. map_solve. }
    destruct (run (assign_members _ _ _) s1) as [u s2|e s2| |]; [| |done|done].
    + destruct CL as (B' & W' & Hm' & R). apply Htr in R as (R1 & R2 & R3).
      exists (set_obj (OLive (tT E) d1) b), B', W'. split_and!; try done.
      (* placed_all *)
      assert (Hla : length (asg_ws Sh hs 0 fs ds) = length ds).
      { clear - Hlf. generalize 0. revert fs Hlf. induction ds as [|d ds IH]; intros [|k ks] Hl i; try done.
        cbn. f_equal. apply IH. by simplify_eq/=. }
      destruct (replaced_frame s s2 (<[l := b]> Bd) Wd (<[l := set_obj (OLive (tT E) d1) b]> B') W' Br (<[x := mkW (PLoc l) a]> Wr) R3)
        as (RF & D1 & D2 & _).
      { clear - DB HBrl. map_solve. }
      { clear - DW HWdx. map_solve. }
      { done. }
      { clear - HWr Hxs. map_solve. }
      eapply (placed_all_replaced Sh h x (Some (TNode (tT E) v (ds ++ rest)), a)
                (Some (TNode (tT E) d1 (asg_ws Sh hs 0 fs ds ++ rest)), a)); [| |exact RF| |done|done].
      * replace (<[l := b]> Bd ∪ Br) with (<[l := b]> (Bd ∪ Br)) by (clear; map_solve).
        replace (Wd ∪ <[x := mkW (PLoc l) a]> Wr) with (<[x := mkW (PLoc l) a]> (Wd ∪ Wr)) by (clear - HWdx; map_solve).
        constructor; [by rewrite Hcls|done| |done|done]. by apply mem_app.
      * replace (<[l := set_obj (OLive (tT E) d1) b]> B' ∪ Br) with (<[l := set_obj (OLive (tT E) d1) b]> (B' ∪ Br)) by (clear; map_solve).
        replace (W' ∪ <[x := mkW (PLoc l) a]> Wr) with (<[x := mkW (PLoc l) a]> (W' ∪ Wr)) by (clear - R2; map_solve).
        constructor; [by rewrite Hcls| | | |].
        -- rewrite app_length, Hla, <- app_length, Hlen. apply HF.
        -- apply mem_app; [done|by rewrite Hla|clear - D1 R1 HBrl; map_solve|clear - D2; map_solve].
        -- rewrite lookup_un. by rewrite R1, HBrl.
        -- rewrite lookup_un. by rewrite R2, HWrx.
      * clear - HBd HBr Hb. map_solve.
    + destruct CL as (ds' & B' & W' & Hm' & Hl' & Hf' & R & _). apply Htr in R as (R1 & R2 & R3).
      exists d1, ds', (set_obj (OLive (tT E) d1) b), B', W'. split_and!; try done.
  - exists df, ds, (set_obj (OLive (tT E) df) b), Bd, Wd. split_and!; try done. split; cbn [log blocks wraps exts].
    + rewrite Hupd by done. clear - HBd HBdl Hb. map_solve.
    + change (wraps (upd_ref _ _ _)) with (wraps s). clear - HWd. map_solve.
    + done.
    + clear - HBd. map_solve.
    + clear. map_solve.
Qed.

(** [x = x->m_i] with equal allocators is assignment of the node in [o] to the node in [l]. *)
Lemma in_place_run n x a l i ak o v v1 b bo s :
  t_assignable E = true -> a_eqb E a ak = true ->
  wraps s !! x = Some (mkW (PLoc l) a) -> wraps s !! WMem l i = Some (mkW (PLoc o) ak) -> x <> WMem l i ->
  blocks s !! l = Some b -> b_obj b = OLive (tT E) v -> blocks s !! o = Some bo -> b_obj bo = OLive (tT E) v1 ->
  run (i_copy_assign (node_impl (S n) h) x (WMem l i)) s =
  run (bind (bind (act_thr (PAsgn (tT E) l (ARef ConstL (RBlk o)))) (fun _ =>
          assign_members (fun j => i_copy_assign (node_impl n (hs j)) (WMem l j) (WMem o j)) 0 (n_kids Sh (tT E) v)))
        (fun _ => if pocca E then bind (act (PReadA (WMem l i))) (fun a => act (PWriteA x a)) else Ret tt)) s.
Proof.
  intros Hasg Ha Hxs Hys Hxy Hb Hobj Hbo Hobjo.
  unfold Tree.node_impl at 1. rewrite cassign_eq, Hcls. cbn [cassign]. unfold Indirect20.copy_assign.
  rewrite decide_False by done. erewrite st_valueless by done. cbv beta iota.
  rewrite run_bind. rewrite Hasg.
  rewrite (run_bind (bind (Indirect20.valueless_after_move x) _)).
  erewrite st_valueless by done. cbv beta. cbn [negb]. erewrite st_readA by done. cbv beta.
  erewrite st_readA by done. cbv beta. rewrite Ha. cbn [run].
  erewrite st_deref by done. cbv beta. unfold Indirect20.op_star. erewrite st_deref by done. cbv beta.
  assert (Hro : forall l b t v X (f : ty * V -> prog E X) s, blocks s !! l = Some b -> b_obj b = OLive t v ->
    run (bind (act (PReadObj (RBlk l))) f) s = run (f (t, v)) s).
  { intros. cbn. by rewrite H, H0. }
  assert (R0 : run (tp_asgn (nodeTP (S n)) (tT E) l (ARef ConstL (RBlk o))) s =
    run (bind (act_thr (PAsgn (tT E) l (ARef ConstL (RBlk o)))) (fun _ =>
      assign_members (fun j => i_copy_assign (node_impl n (hs j)) (WMem l j) (WMem o j)) 0 (n_kids Sh (tT E) v))) s).
  { cbn [Tree.nodeTP nodeTP_step tp_asgn].
    erewrite Hro by done; cbv beta; erewrite Hro by done; cbv beta; cbn [snd].
    by rewrite (HF (tT E) v1 v), Nat.eqb_refl. }
  rewrite R0. by rewrite (run_bind (bind (act_thr _) _)).
Qed.

Lemma front_app {X} (P : prim E (X + exn)) (f : nat -> prog E unit) i m s :
  run (bind (act_thr P) (fun _ => assign_members f 0 (i + m))) s =
  run (bind (bind (act_thr P) (fun _ => assign_members f 0 i)) (fun _ => assign_members f i m)) s.
Proof.
  rewrite !run_bind. destruct (run (act_thr P) s) as [? s'| | |]; try done. by rewrite assign_app, run_bind.
Qed.

(** Assigning from a wrapper that does not exist. *)
Lemma casg_gone n h' x y s :
  x <> y -> wraps s !! y = None -> run (i_copy_assign (node_impl n h') x y) s = OUB UBBadWrapper.
Proof.
  intros Hxy Hy. unfold Tree.node_impl. rewrite cassign_eq.
  destruct (header_cls h'); cbn [cassign]; unfold Indirect20.copy_assign, Polymorphic20.copy_assign;
    rewrite decide_False by done; cbn; by rewrite Hy.
Qed.

(** If another member follows [m_i], or the allocator propagates: the member following [m_i]
    is assigned from a member of the node that [m_i] owned, which no longer exists. *)
Lemma pop_ub n x a v ds es T1 ak l B W s :
  t_assignable E = true -> hs (length ds) = h -> es <> [] \/ pocca E = true ->
  placed_all s -> placed s x -> wrap_heap h x (Some (TNode (tT E) v (ds ++ (Some T1, ak) :: es)), a) B W ->
  B ⊆ blocks s -> W ⊆ wraps s -> fits n (Some (TNode (tT E) v (ds ++ (Some T1, ak) :: es))) ->
  wraps s !! x = Some (mkW (PLoc l) a) -> a_eqb E a ak = true ->
  match run (i_copy_assign (node_impl n h) x (WMem l (length ds))) s with
  | OUB u => u = UBBadWrapper
  | OThrow _ _ => True
  | _ => False
  end.
Proof.
  revert x a v ds es T1 ak l B W s.
  induction n as [|n IH]; intros x a v ds es T1 ak l B W s Hasg Hhi Hend HP Hpx Hx HB HW Hfit Hxs Ha; [done|].
  assert (Hx0 := Hx).
  apply wrap_inv in Hx as (l' & b & B1 & W1 & -> & -> & HBl & HWx & Hok & Hlen & Hm). rewrite Hcls in Hok.
  assert (l' = l) as ->.
  { pose proof (lookup_weaken _ _ x (mkW (PLoc l') a) (lookup_insert _ _ _) HW). congruence. }
  assert (Hb : blocks s !! l = Some b) by (eapply lookup_weaken; [|exact HB]; apply lookup_insert).
  assert (HB1 : B1 ⊆ blocks s) by (clear - HB HBl; map_solve).
  assert (HW1 : W1 ⊆ wraps s) by (clear - HW HWx; map_solve).
  cbn [fits] in Hfit. apply Forall_app in Hfit as [Hfd Hfr]. apply Forall_cons in Hfr as [Hfk Hfe].
  apply mem_app_inv in Hm as (Bd & Wd & Br & Wr & -> & -> & DB & DW & Hd & Hr). cbn [Nat.add] in Hr. assert (Hr0 := Hr).
  apply mem_cons_inv in Hr as (Bk & Wk & Be & We & -> & -> & DBe & DWe & Hk & He). assert (Hk0 := Hk). rewrite Hhi in Hk0.
  destruct T1 as [t1 v1 ks1].
  apply wrap_inv in Hk as (o & bo & B2 & W2 & -> & -> & HBo & HWy & Hoko & Hlen1 & Hm1). rewrite Hhi, Hcls in Hoko.
  assert (Hoko' := Hoko). destruct Hoko' as (_ & Hobjo & _ & _ & HT1). rewrite (HT1 eq_refl) in *. clear t1 HT1.
  assert (Hok' := Hok). destruct Hok' as (_ & Hobj & _).
  set (i := length ds) in *.
  assert (Hys : wraps s !! WMem l i = Some (mkW (PLoc o) ak)).
  { eapply lookup_weaken; [|exact HW1]. clear - DW DWe. at_key (WMem l i). at_norm. rewrite decide_True in * by done.
    destruct (Wd !! WMem l i); [by destruct DW|done]. }
  assert (Hbo : blocks s !! o = Some bo).
  { eapply lookup_weaken; [|exact HB1]. clear - DB DBe. at_key o. at_norm. rewrite decide_True in * by done.
    destruct (Bd !! o); [by destruct DB|done]. }
  assert (Hol : o <> l).
  { intros ->. clear - HBl. at_norm. rewrite decide_True in HBl by done. by destruct (Bd !! l). }
  assert (Hxy : x <> WMem l i).
  { intros ->. clear - HWx. at_norm. rewrite decide_True in HWx by done. by destruct (Wd !! WMem l i). }
  erewrite in_place_run by done. rewrite run_bind.
  (* the members of the child *)
  assert (Hlk : length ks1 = i + S (length es)).
  { rewrite Hlen1, (HF _ v1 v), <- Hlen, app_length. done. }
  destruct (lookup_lt_is_Some_2 ks1 i) as [k1 Hk1]; [lia|].
  assert (Hks1 : ks1 = take i ks1 ++ k1 :: drop (S i) ks1) by (by rewrite take_drop_middle).
  assert (Hti : length (take i ks1) = i) by (rewrite take_length; lia).
  set (fs := take i ks1) in *. set (gs := drop (S i) ks1) in *. clearbody fs gs. subst ks1. clear Hk1.
  cbn [fits] in Hfk. destruct n as [|n']; [done|]. cbn [fits fst] in Hfk. apply Forall_app in Hfk as [Hff Hfg].
  assert (Hm10 := Hm1).
  apply mem_app_inv in Hm1 as (Bf & Wf & Bg & Wg & -> & -> & DBf & DWf & Hf & Hg). cbn [Nat.add] in Hg. rewrite Hti in Hg.
  rewrite <- Hlen, app_length. change (length ds) with i. cbn [length].
  rewrite front_app, run_bind.
  assert (HFr := front (S n') x a l o v v1 ds ((Some (TNode (tT E) v1 (fs ++ k1 :: gs)), ak) :: es) fs b bo Bd Wd _ _ Bf Wf s
    HP Hpx Hxs Hb Hok Hlen Hd Hr0 DB DW HBl HWx HB1 HW1 Hol Hbo Hobjo).
  feed specialize HFr; [by rewrite Hti|exact Hf| | |done| |].
  { clear - DBf HBo. map_solve. }
  { clear - DWf HWy. map_solve. }
  { eapply Forall_impl; [exact Hff|]. intros k Hk. by apply fits_S. }
  rewrite app_length in Hlk. rewrite Hti in Hlk. cbn in Hlk.
  destruct (run (bind (act_thr _) _) s) as [u s2|e s2| |]; [|done|done|done].
  destruct HFr as (b' & Bd' & Wd' & Hd' & Hok' & HBl' & HWx' & HP2 & R).
  set (Bk := <[o := bo]> (Bf ∪ Bg)) in *. set (Wk := <[WMem l i := mkW (PLoc o) ak]> (Wf ∪ Wg)) in *.
  destruct (replaced_frame _ _ _ _ _ _ Bk Wk R) as (_ & _ & _ & HBk & HWk).
  { assert (Bk !! l = None) by (clear - HBl DBe; clearbody Bk; at_norm; destruct (Bd !! l), (Bk !! l), (Be !! l); done).
    clear - DB H. clearbody Bk. map_solve. }
  { clear - DW. clearbody Wk. map_solve. }
  { clear - HB1 DB. clearbody Bk. map_solve. }
  { clear - HW1 DW. clearbody Wk. map_solve. }
  assert (Hys2 : wraps s2 !! WMem l i = Some (mkW (PLoc o) ak)).
  { eapply lookup_weaken; [|exact HWk]. subst Wk. apply lookup_insert. }
  assert (Hpy : placed s2 (WMem l i)) by (apply HP2; by eexists).
  cbn [assign_members]. rewrite Hhi, run_bind.
  assert (Hfk0 : fits (S n') (Some (TNode (tT E) v1 (fs ++ k1 :: gs)))) by (cbn; by apply Forall_app).
  (* the child's own member *)
  assert (HgW : wraps s2 !! WMem o i = Some (mkW (match k1.1 with Some _ => PLoc (match wraps s2 !! WMem o i with Some (mkW (PLoc q) _) => q | _ => 0 end) | None => PNull end) k1.2)).
  { apply mem_cons_inv in Hg as (B3 & W3 & B4 & W4 & -> & -> & D3 & D4 & Hw3 & _).
    assert (HW3 : W3 ⊆ wraps s2).
    { etrans; [|exact HWk]. subst Wk. clear - DWf HWy D4. map_solve. }
    destruct (wrap_ptr _ _ _ _ _ _ s2 Hw3 HW3) as (p & _ & Hp & Hpk). rewrite Hp.
    destruct (k1.1); [by destruct Hpk as [q ->]|by subst]. }
  assert (Hsub : exists B3 W3, wrap_heap h (WMem o i) k1 B3 W3 /\ B3 ⊆ Bk /\ W3 ⊆ Wk).
  { apply mem_cons_inv in Hg as (B3 & W3 & B4 & W4 & -> & -> & D3 & D4 & Hw3 & _). rewrite Hhi in Hw3.
    exists B3, W3. split_and!; [done| |].
    - subst Bk. clear - DBf HBo D3. map_solve.
    - subst Wk. clear - DWf HWy D4. map_solve. }
  destruct Hsub as (B3 & W3 & Hw3 & SB3 & SW3).
  assert (Hlo : WMem l i <> WMem o i) by congruence.
  assert (Hfk1 : fits (S n') k1.1) by (apply fits_S; by apply Forall_cons in Hfg as [? _]).
  destruct (match k1.1 with Some _ => a_eqb E ak k1.2 | None => false end) eqn:Hip.
  - (* in place again *)
    destruct k1 as [[T2|] ak2]; [|done]. cbn [fst snd] in *.
    assert (HI := IH (WMem l i) ak v1 fs gs T2 ak2 o Bk Wk s2 Hasg).
    rewrite Hti in HI. feed specialize HI; [done| |done|done|done|done|done|done|done|done|].
    { destruct Hend as [Hend|]; [left|by right]. intros ->. destruct es; [done|cbn in Hlk; lia]. }
    destruct (run (i_copy_assign _ _ _) s2); done.
  - assert (Hcase : header_cls h = Poly \/ t_assignable E = false \/ a_eqb E ak k1.2 = false \/ k1.1 = None).
    { destruct k1 as [[T2|] ak2]; cbn in *; tauto. }
    destruct (pocca E) eqn:Hca.
    + assert (HU := sub_copy_ub Sh HS (S n') h (WMem l i) (WMem o i) _ k1 Bk Wk B3 W3 s2 Hca (placed_mem_ok _ _ HP2) Hlo Hk0 Hw3
        SB3 SW3 HBk HWk Hfk0 Hfk1 Hcase).
      destruct (run (i_copy_assign _ _ _) s2); done.
    + assert (HU := sub_copy Sh HS (S n') h (WMem l i) (WMem o i) _ k1 Bk Wk B3 W3 s2 Hca (placed_mem_ok _ _ HP2) Hlo Hk0 Hw3
        SB3 SW3 HBk HWk Hfk0 Hfk1 Hcase).
      destruct (run (i_copy_assign _ _ _) s2) as [u3 s3|e s3| |]; [|done|done|done].
      destruct HU as (B' & W' & Hw' & DB' & R').
      destruct Hend as [Hend|]; [|done]. destruct es as [|ke es]; [done|]. cbn [length assign_members].
      rewrite run_bind, casg_gone; [done|congruence|].
      assert (HWo : is_Some (Wk !! WMem o (S i))).
      { destruct (mem_in_gen _ _ _ _ _ _ _ Hg (S i)) as [q Hq]; [cbn in *; lia|]. subst Wk.
        rewrite lookup_ins. case_decide; [by eexists|]. rewrite lookup_un, Hq. destruct (Wf !! WMem o (S i)); by eexists. }
      destruct HWo as [q Hq]. rewrite (rp_w _ _ _ _ _ _ R'), lookup_un, lookup_diff, Hq.
      destruct (W' !! WMem o (S i)) eqn:Hbad; [|done]. exfalso.
      destruct (heap_bound _ _ _ _ _ _ Hw' o (S i)) as (b3 & Hb3 & _); [by eexists|congruence|].
      destruct (dis_at _ _ o DB') as [HX|HX]; [congruence|]. subst Bk. by rewrite lookup_insert in HX.
Qed.
End sub.
