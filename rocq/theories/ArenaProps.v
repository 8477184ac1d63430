(** * Memory resources: proofs. *)

From stdpp Require Import base gmap list.
From Verif Require Import Lang Common Client Spec Rep RunLemmas Headers Hist Tree TreeProps TreeAssign TreeMove
  Contract ContractProps ContractOps ContractMove ContractNode ContractClient ContractClientProps Arena.

Section scoped.
Context {E : Env} (Sh : Shape E) (s_arg : Passing E) (T : TP E) (K : Cls E) (HO : Honest T K).
Context (HS : ShapeReq Sh) (HF : Fixed Sh) (HA : AllocReq E).
Context (HP : forall t i, k_hdr Sh t i = HPoly14 -> pocca E = false).
Notation A := (eA E).
Notation V := (eV E).
Notation bmap := (gmap loc (block E)).
Notation wmap := (gmap wl (wrapper E)).
Notation wv := (option (ty * c_val K) * A)%type.
Implicit Types s : store E.
Notation wrapped := (wrapped K).
Notation wrapper_at := (wrapper_at K).
Notation members := (members K).
Notation SK := (scoped_cls Sh s_arg K).

Lemma steals_res h a b : (h = HPoly14 -> pocca E = false) -> steals (E := E) h a b = true -> a_res E a = a_res E b.
Proof.
  unfold steals. intros Hp Hs. apply HA. apply orb_true_iff in Hs as [Hs|Hs]; [|done].
  destruct h; try (by apply (ar_ae _ HA)). rewrite Hp in Hs; done.
Qed.

(** ** Constructing members one after another *)

(** [mk j] constructs the wrapper [WMem l j] in a state that satisfies [P j], in any memory
    that contains that of [s]. *)
Definition creates hs l (mk : nat -> prog E unit) (P : nat -> wv -> Prop) (j : nat) s : Prop :=
  forall s1, blocks s ⊆ blocks s1 -> wraps s ⊆ wraps s1 -> mem_ok s1 -> wraps s1 !! WMem l j = None ->
  match run (mk j) s1 with
  | ORet _ s' => exists k B W, P j k /\ wrapped (hs j) (WMem l j) k B W /\ changed s1 s' ∅ ∅ B W
  | OThrow _ s' => same s1 s'
  | _ => False
  end.
Fixpoint all_from {X} (P : nat -> X -> Prop) (i : nat) (l : list X) : Prop :=
  match l with [] => True | k :: l => P i k /\ all_from P (S i) l end.

Lemma create_members_g hs l mk P n i s :
  mem_ok s -> is_Some (blocks s !! l) -> (forall j, i <= j -> wraps s !! WMem l j = None) ->
  (forall j, i <= j < i + n -> creates hs l mk P j s) ->
  match run (make_members mk (fun j => i_dtor (hdr_impl (hs j) T) (WMem l j)) i n) s with
  | ORet _ s' => exists ks B W, length ks = n /\ all_from P i ks /\ members hs (WMem l) i ks B W /\ changed s s' ∅ ∅ B W
  | OThrow _ s' => same s s'
  | _ => False
  end.
Proof.
  revert i s. induction n as [|n IH]; intros i s HM Hl Hfree Hmk.
  - exists [], ∅, ∅. split_and!; try done. by apply changed_none.
  - cbn [make_members]. rewrite run_bind.
    assert (C1 := Hmk i ltac:(lia) s (reflexivity _) (reflexivity _) HM (Hfree i (le_n i))).
    destruct (run (mk i) s) as [u s1|e s1| |]; [|done|done|done].
    destruct C1 as (k & B1 & W1 & Hk & Hw1 & A1). rewrite run_catch.
    assert (Hen0 : enclosedW s (WMem l i) ∅ ∅) by (intros l' i' [? Hx]; by rewrite lookup_empty in Hx).
    assert (Hhi : home s (WMem l i)) by done.
    assert (Sb : blocks s ⊆ blocks s1).
    { rewrite (ch_b _ _ _ _ _ _ A1). assert (D := ch_db _ _ _ _ _ _ A1). clear - D. map_solve. }
    assert (Sw : wraps s ⊆ wraps s1).
    { rewrite (ch_w _ _ _ _ _ _ A1). assert (D := ch_dw _ _ _ _ _ _ A1). clear - D. map_solve. }
    specialize (IH (S i) s1). feed specialize IH.
    { exact (changed_mem_ok T K HO _ _ _ _ _ _ _ _ _ HM Hhi Hen0 A1 Hw1). }
    { by eapply changed_home; eauto. }
    { intros j Hj. rewrite (ch_w _ _ _ _ _ _ A1), lookup_un, lookup_diff, lookup_empty. destruct (W1 !! WMem l j) eqn:Hj'; [|apply Hfree; lia].
      exfalso. destruct (wr_dom T K HO _ _ _ _ _ Hw1 (WMem l j)) as [Heq|(l' & i' & Heq & [b Hb])]; [by eexists| |].
      - simplify_eq. lia.
      - simplify_eq. destruct Hl as [b' Hb']. assert (D := ch_db _ _ _ _ _ _ A1). apply (fun Q => dis_at _ _ l' Q) in D.
        rewrite lookup_diff, lookup_empty in D. destruct D; congruence. }
    { intros j Hj s2 Q1 Q2. apply (Hmk j); [lia|by etrans|by etrans]. }
    destruct (run (make_members _ _ _ _) s1) as [u2 s2|e s2| |]; [| |done|done].
    + destruct IH as (ks & B2 & W2 & Hlen & Hks & Hm2 & A2).
      destruct (changed_trans s s1 s2 ∅ ∅ B1 W1 ∅ ∅ B2 W2 A1 A2) as (A3 & D1 & D2); [map_solve..|].
      rewrite !(left_id_L ∅ (∪)) in A3.
      exists (k :: ks), (B1 ∪ B2), (W1 ∪ W2). split_and!; [cbn; by rewrite Hlen|done| |done].
      exists B1, W1, B2, W2. done.
    + destruct IH as [I1 I2 I3]. destruct A1 as [A1b A1w A1x A1d1 A1d2]. rewrite run_bind.
      destruct (dtor_g T K HO s2 (hs i) (WMem l i) k B1 W1) as (s3 & R3 & [M1 M2 M3 _ _]).
      { split; [done|rewrite I1, A1b; clear; map_solve|rewrite I2, A1w; clear; map_solve]. }
      rewrite R3. simpl. split; [rewrite M1, I1, A1b; clear - A1d1; map_solve|
        rewrite M2, I2, A1w; clear - A1d2; map_solve|congruence].
Qed.

Lemma all_from_lookup {X} (P : nat -> X -> Prop) i l : (forall j k, l !! j = Some k -> P (i + j) k) -> all_from P i l.
Proof.
  revert i. induction l as [|k l IH]; intros i H; [done|]. split; [rewrite <- (Nat.add_0_r i); by apply H|].
  apply IH. intros j k' Hj. replace (S i + j) with (i + S j) by lia. by apply H.
Qed.
Lemma all_from_at {X} (P : nat -> X -> Prop) i l j k : all_from P i l -> l !! j = Some k -> P (i + j) k.
Proof.
  revert i j. induction l as [|k' l IH]; intros i j H Hj; [done|]. destruct H as [H1 H2], j as [|j]; cbn in Hj.
  - rewrite Nat.add_0_r. congruence.
  - replace (i + S j) with (S i + j) by lia. by apply IH.
Qed.


(** ** Copying and making *)
Lemma members_at hs nm i ks B W s j k :
  members hs nm i ks B W -> B ⊆ blocks s -> W ⊆ wraps s -> ks !! j = Some k ->
  exists B1 W1, wrapper_at s (hs (i + j)) (nm (i + j)) k B1 W1.
Proof.
  revert i B W j. induction ks as [|k0 ks IH]; intros i B W j Hm HB HW Hj; [done|].
  destruct Hm as (B1 & W1 & B2 & W2 & -> & -> & DB & DW & H1 & H2). destruct j as [|j]; cbn in Hj.
  - simplify_eq. rewrite Nat.add_0_r. exists B1, W1. split; [done|clear - HB; map_solve|clear - HW; map_solve].
  - replace (i + S j) with (S i + j) by lia. eapply IH; [exact H2|clear - HB DB; map_solve|clear - HW DW; map_solve|done].
Qed.

Lemma node_filled a t l b v1 mk P (s s1 : store E) :
  mem_ok s -> storage s l b t -> blocks s1 = <[l := set_obj (OLive t v1) b]> (blocks s) -> wraps s1 = wraps s -> exts s1 = exts s ->
  (forall j, j < n_kids Sh t v1 -> creates (k_hdr Sh t) l mk P j s1) ->
  match run (o <- act (PReadObj (RBlk l)) ;
     catch (make_members mk (fun i => i_dtor (hdr_impl (k_hdr Sh t i) T) (WMem l i)) 0 (n_kids Sh t o.2))
        (fun e => act (PDestroy a t l) ;; Throw e))%prog s1 with
  | ORet _ s' => exists ks b' B' W', length ks = n_kids Sh t v1 /\ all_from P 0 ks /\ filled SK l b b' t (v1, ks) B' W' /\
      changed s s' {[ l := b ]} ∅ (<[l := b']> B') W'
  | OThrow _ s' => changed s s' ∅ ∅ ∅ ∅
  | _ => False
  end.
Proof.
  intros HM [Hb Hraw Hst Hmem] Hother Hw1 Hx1 Hmk.
  assert (Hl1 : blocks s1 !! l = Some (set_obj (OLive t v1) b)) by (by rewrite Hother, lookup_insert).
  rewrite run_bind. cbn [act run exec deref]. rewrite Hl1. cbn [b_obj set_obj run snd]. rewrite run_catch.
  assert (CL := create_members_g (k_hdr Sh t) l mk P (n_kids Sh t v1) 0 s1).
  feed specialize CL.
  { intros l' i' Hi'. rewrite Hw1 in Hi'. rewrite Hother. at_norm. case_decide; [by eexists|]. by apply (HM l' i'). }
  { rewrite Hl1. by eexists. }
  { intros j _. rewrite Hw1. apply Hmem. }
  { intros j Hj. apply Hmk. lia. }
  destruct (run (make_members _ _ _ _) s1) as [u s2|e s2| |]; [| |done|done].
  - destruct CL as (ks' & B' & W' & Hlen & Hks & Hm' & [A1 A2 A3 A4 A5]). rewrite Hw1 in *. rewrite Hx1 in *. rewrite Hother in *.
    assert (HB'l : B' !! l = None).
    { clear - A4. apply (fun Q => dis_at _ _ l Q) in A4. at_norm. rewrite decide_True in A4 by done. by destruct A4. }
    exists ks', (set_obj (OLive t v1) b), B', W'. split_and!; [done|done| |].
    + exists v1. split; [done|]. cbn. done.
    + split; [rewrite A1|done|done| |done].
      * clear - HB'l. map_solve.
      * clear - A4. map_solve.
  - destruct CL as [I1 I2 I3]. cbn. rewrite I1, Hl1. cbn. rewrite bool_decide_eq_true_2 by done. cbn.
    apply changed_none. split; cbn; [|congruence|congruence]. rewrite ?I1, Hother, insert_insert.
    replace (set_obj ORaw (set_obj (OLive t v1) b)) with b; [by apply insert_id|].
    destruct b. cbn in *. by subst.
Qed.

Lemma scoped_ho_copy a t l b c o bo x B W s :
  c <> RVal -> mem_ok s -> storage s l b t -> object SK s o bo t x B W -> B !! l = None ->
  match run (tp_cons (scopedTP_step Sh s_arg T) a t l (ARef c (RBlk o))) s with
  | ORet _ s' => exists x' b' B' W', c_copy SK t a x x' /\ filled SK l b b' t x' B' W' /\
      changed s s' {[ l := b ]} ∅ (<[l := b']> B') W'
  | OThrow _ s' => changed s s' ∅ ∅ ∅ ∅
  | _ => False
  end.
Proof.
  intros Hc HM Hsto [(v & Hobj & (-> & Hlen & Hbo' & Hm)) Hbo HB HW] HBl.
  assert (Hsto' := Hsto). destruct Hsto as [Hb Hraw Hst Hmem].
  assert (Hol : o <> l) by congruence.
  destruct x as [v kids]. cbn [fst snd] in *.
  set (v' := (t_cons E ConstL t t a v).1).
  assert (R0 : run (tp_cons (scopedTP_step Sh s_arg T) a t l (ARef c (RBlk o))) s =
    run (node_cons Sh a t l (ARef ConstL (RBlk o))
           (fun i => i_copy_a (hdr_impl (k_hdr Sh t i) T) (WMem l i) a (WMem o i))
           (fun i => i_dtor (hdr_impl (k_hdr Sh t i) T) (WMem l i))) s) by (destruct c; done).
  rewrite R0. clear R0. unfold node_cons. rewrite run_bind. cbn [act_thr run exec].
  rewrite Hb, Hst. cbn [negb]. rewrite Hraw. cbn [cons_vals deref]. rewrite Hbo, Hobj.
  destruct (t_cons E ConstL t t a v) as [w1 w2] eqn:Ht. simpl in v'.
  destruct (pop_eq s) as (r & orc' & -> & _). destruct r as [h|e]; cbn [upd_src run]; [|by apply changed_none].
  set (s1 := log _ _).
  assert (Hother : blocks s1 = <[l := set_obj (OLive t v') b]> (blocks s)).
  { subst s1. cbn. apply map_eq. intros i. destruct (decide (l = i)) as [<-|Hne].
    - by rewrite lookup_alter, Hb, lookup_insert.
    - by rewrite lookup_alter_ne, lookup_insert_ne. }
  assert (Hw1 : wraps s1 = wraps s) by done. assert (Hx1 : exts s1 = exts s) by done. clearbody s1.
  assert (Hn : n_kids Sh t v' = length kids).
  { rewrite Hlen. subst v'. change w1 with ((w1, w2).1). rewrite <- Ht. apply HS. }
  assert (G := node_filled a t l b v' (fun i => i_copy_a (hdr_impl (k_hdr Sh t i) T) (WMem l i) a (WMem o i))
    (fun j k' => exists k, kids !! j = Some k /\ copied K a k k') s s1 HM Hsto' Hother Hw1 Hx1).
  feed specialize G.
  { intros j Hj s2 Sb Sw HM2 Hf. rewrite Hn in Hj. destruct (lookup_lt_is_Some_2 kids j Hj) as [k Hk].
    destruct (members_at _ _ _ _ _ _ s2 j k Hm) as (B1 & W1 & Hat); [|by rewrite Hw1 in Sw; etrans|done|].
    { transitivity (blocks s1); [|done]. rewrite Hother. clear - HB HBl. map_solve. }
    assert (Hh : home s2 (WMem l j)).
    { exists (set_obj (OLive t v') b). eapply lookup_weaken; [|exact Sb]. by rewrite Hother, lookup_insert. }
    assert (C := copya_g T K HO (k_hdr Sh t j) (WMem l j) a (WMem o j) k B1 W1 s2 HM2 Hh Hf Hat).
    cbn beta. destruct (run (i_copy_a _ _ _ _) s2); [|done|done|done].
    destruct C as (k' & B' & W' & C1 & C2 & C3). exists k', B', W'. split; [by exists k|done]. }
  destruct (run _ s1) as [u s2|e s2| |]; [|done|done|done].
  destruct G as (ks & b' & B' & W' & Hl & Hks & Hfi & Hch). exists (v', ks), b', B', W'. split; [|done].
  cbn. split; [by rewrite Ht|]. apply Forall2_same_length_lookup. split; [by rewrite Hl|].
  intros j k k' Hk Hk'. destruct (all_from_at _ _ _ _ _ Hks Hk') as (k2 & Hk2 & ?). cbn in Hk2. congruence.
Qed.

Lemma made_all_at hs t a c i ks j k : made_all s_arg K hs t a c i ks -> ks !! j = Some k ->
  exists v, c_make K (made (E := E) (hs (i + j)) (s_arg t c (i + j)).1) a (s_arg t c (i + j)).2 v.
Proof.
  revert i j. induction ks as [|k' ks IH]; intros i j Hm Hj; [done|]. destruct Hm as [(v & Hv & _) Hm], j as [|j]; cbn in Hj.
  - rewrite Nat.add_0_r. by exists v.
  - replace (i + S j) with (S i + j) by lia. by eapply IH.
Qed.

Lemma scoped_ho_make a t l b c s :
  (exists x, c_make SK t a c x) -> mem_ok s -> storage s l b t ->
  match run (tp_cons (scopedTP_step Sh s_arg T) a t l (AArgs c)) s with
  | ORet _ s' => exists x b' B' W', c_make SK t a c x /\ filled SK l b b' t x B' W' /\
      changed s s' {[ l := b ]} ∅ (<[l := b']> B') W'
  | OThrow _ s' => changed s s' ∅ ∅ ∅ ∅
  | _ => False
  end.
Proof.
  intros ([v0 ks0] & Hv0 & Hlen0 & Hmk0) HM Hsto. cbn [fst snd] in *. subst v0.
  assert (Hsto' := Hsto). destruct Hsto as [Hb Hraw Hst Hmem]. cbn [scopedTP_step tp_cons].
  unfold node_cons. rewrite run_bind. cbn [act_thr run exec].
  rewrite Hb, Hst. cbn [negb]. rewrite Hraw. cbn [cons_vals].
  destruct (pop_eq s) as (r & orc' & -> & _). destruct r as [h|e]; cbn [upd_src run]; [|by apply changed_none].
  set (s1 := log _ _). set (v' := t_make E t a c) in *.
  assert (Hother : blocks s1 = <[l := set_obj (OLive t v') b]> (blocks s)).
  { subst s1. cbn. apply map_eq. intros i. destruct (decide (l = i)) as [<-|Hne].
    - by rewrite lookup_alter, Hb, lookup_insert.
    - by rewrite lookup_alter_ne, lookup_insert_ne. }
  assert (Hw1 : wraps s1 = wraps s) by done. assert (Hx1 : exts s1 = exts s) by done. clearbody s1.
  assert (G := node_filled a t l b v' (fun i => i_inplace_a (hdr_impl (k_hdr Sh t i) T) (WMem l i) a (s_arg t c i).1 (AArgs (s_arg t c i).2))
    (fun j k => exists v, c_make K (made (E := E) (k_hdr Sh t j) (s_arg t c j).1) a (s_arg t c j).2 v /\
                          k = (Some (made (E := E) (k_hdr Sh t j) (s_arg t c j).1, v), a)) s s1 HM Hsto' Hother Hw1 Hx1).
  feed specialize G.
  { intros j Hj s2 Sb Sw HM2 Hf. rewrite <- Hlen0 in Hj. destruct (lookup_lt_is_Some_2 ks0 j Hj) as [k Hk].
    assert (Hex := made_all_at _ _ _ _ _ _ _ _ Hmk0 Hk). cbn [Nat.add] in Hex.
    assert (Hh : home s2 (WMem l j)).
    { exists (set_obj (OLive t v') b). eapply lookup_weaken; [|exact Sb]. by rewrite Hother, lookup_insert. }
    assert (C := make_g T K HO (k_hdr Sh t j) (WMem l j) a (s_arg t c j).1 (s_arg t c j).2 s2 Hex HM2 Hh Hf).
    cbn beta. destruct (run (i_inplace_a _ _ _ _ _) s2); [|done|done|done].
    destruct C as (v & B' & W' & C1 & C2 & C3). eexists _, B', W'. split; [exists v; split; [done|reflexivity]|done]. }
  destruct (run _ s1) as [u s2|e s2| |]; [|done|done|done].
  destruct G as (ks & b' & B' & W' & Hl & Hks & Hfi & Hch). exists (v', ks), b', B', W'. split; [|done].
  split; [done|]. split; [done|]. cbn [snd]. clear - Hks. revert Hks. generalize 0.
  induction ks as [|k ks IH]; intros i Hks; [done|]. destruct Hks as [H1 H2]. split; [done|by apply IH].
Qed.

(** ** Moving *)
Lemma changed_mem_ok' s s' B W B' W' :
  changed s s' B W B' W' -> mem_ok s ->
  (forall l i, is_Some (B !! l) -> is_Some (wraps s !! WMem l i) -> is_Some (W !! WMem l i)) ->
  (forall l i, is_Some (W' !! WMem l i) -> is_Some (B' !! l) \/ is_Some (blocks s !! l) /\ B !! l = None) -> mem_ok s'.
Proof.
  intros [C1 C2 _ _ _] HM Hen Hd l i Hi. rewrite C1, lookup_un, lookup_diff. rewrite C2, lookup_un, lookup_diff in Hi.
  destruct (W' !! WMem l i) eqn:HW'.
  - destruct (Hd l i) as [[b ->]|[Hs ->]]; [by eexists|by eexists|]. by destruct (B' !! l); [eexists|].
  - destruct (B' !! l); [by eexists|]. destruct (W !! WMem l i) eqn:HWi; [by destruct Hi|].
    destruct (B !! l) eqn:HB; [|by apply (HM l i)]. destruct (Hen l i) as [q Hq]; [by eexists|done|congruence].
Qed.

(** Subobjects of the blocks [B] are in [W]. *)
Definition closed s (B : bmap) (W : wmap) : Prop :=
  forall l i, is_Some (B !! l) -> is_Some (wraps s !! WMem l i) -> is_Some (W !! WMem l i).

Lemma movea_members_g hs o l a i ks B W s :
  (forall j, hs j = HPoly14 -> pocca E = false) ->
  mem_ok s -> is_Some (blocks s !! l) -> is_Some (blocks s !! o) -> B !! l = None -> B !! o = None ->
  (forall j, i <= j -> wraps s !! WMem l j = None) ->
  members hs (WMem o) i ks B W -> B ⊆ blocks s -> W ⊆ wraps s -> closed s B W ->
  match run (make_members (fun j => i_move_a (hdr_impl (hs j) T) (WMem l j) a (WMem o j))
                      (fun j => i_dtor (hdr_impl (hs j) T) (WMem l j)) i (length ks)) s with
  | ORet _ s' => exists ks' ys B' W' B'' W'', moved_all K hs a i ks ks' ys /\
      members hs (WMem l) i ks' B' W' /\ members hs (WMem o) i ys B'' W'' /\ B' ##ₘ B'' /\ W' ##ₘ W'' /\
      changed s s' B W (B' ∪ B'') (W' ∪ W'')
  | OThrow _ s' => exists ys B'' W'', moved_upto K hs a i ks ys /\ members hs (WMem o) i ys B'' W'' /\ changed s s' B W B'' W''
  | _ => False
  end.
Proof.
  intros HPh. revert i B W s. induction ks as [|k ks IH]; intros i B W s HM Hl Ho HBl HBo Hfree Hm HB HW Hcl.
  - destruct Hm as [-> ->]. exists [], [], ∅, ∅, ∅, ∅. do 5 (split; [done || map_solve|]).
    rewrite !(left_id_L ∅ (∪)). by apply changed_none.
  - destruct Hm as (B1 & W1 & B2 & W2 & -> & -> & DB & DW & H1 & H2).
    cbn [length make_members]. rewrite run_bind.
    assert (HB1 : B1 ⊆ blocks s) by (clear - HB; map_solve).
    assert (HW1 : W1 ⊆ wraps s) by (clear - HW; map_solve).
    assert (HB2 : B2 ⊆ blocks s) by (clear - HB DB; map_solve).
    assert (HW2 : W2 ⊆ wraps s) by (clear - HW DW; map_solve).
    assert (HB1l : B1 !! l = None /\ B2 !! l = None) by (rewrite lookup_un in HBl; destruct (B1 !! l), (B2 !! l); done).
    assert (HB1o : B1 !! o = None /\ B2 !! o = None) by (rewrite lookup_un in HBo; destruct (B1 !! o), (B2 !! o); done).
    destruct HB1l as [HB1l HB2l], HB1o as [HB1o HB2o].
    assert (Hdom2 : forall l' i', is_Some (W2 !! WMem l' i') -> l' = o \/ is_Some (B2 !! l')).
    { intros l' i' Hi'. destruct (members_dom T K HO _ _ _ _ _ _ H2 _ Hi') as [(j & _ & Heq)|(l2 & j & Heq & Hb)]; simplify_eq; auto. }
    assert (Hen1 : enclosedW s (WMem o i) B1 W1).
    { intros l' i' Hl'. split; [intros Heq; simplify_eq; destruct Hl'; congruence|]. intros Hi'.
      destruct (Hcl l' i') as [q Hq]; [rewrite lookup_un; destruct Hl' as [? ->]; by eexists|done|].
      rewrite lookup_un in Hq. destruct (W1 !! WMem l' i') eqn:HWi; [by eexists|]. exfalso.
      destruct (Hdom2 l' i') as [->|[b2 Hb2]]; [by eexists|destruct Hl'; congruence|].
      destruct Hl' as [b1 Hb1]. destruct (dis_at _ _ l' DB); congruence. }
    assert (C1 := movea_g T K HO HA (hs i) (WMem l i) a (WMem o i) k B1 W1 s HM Hl (Hfree i (le_n i))).
    feed specialize C1; [|by split|done|by apply steals_res, HPh|].
    { intros l' i' Heq. by simplify_eq. }
    destruct (run (i_move_a _ _ _ _) s) as [u s1|e s1| |]; [| |done|done].
    2:{ destruct C1 as (ky & By & Wy & Hst & Hbr & Hwy & [C1 C2 C3 C4 C5]).
        exists (ky :: ks), (By ∪ B2), (Wy ∪ W2). split; [by left|]. split.
        - exists By, Wy, B2, W2. split; [done|]. split; [done|]. split; [clear - C4 HB2 DB; map_solve|].
          split; [clear - C5 HW2 DW; map_solve|]. done.
        - split; [rewrite C1|rewrite C2|done| |].
          + clear - HB2 DB C4. map_solve.
          + clear - HW2 DW C5. map_solve.
          + clear - C4 DB. map_solve.
          + clear - C5 DW. map_solve. }
    destruct C1 as (k' & Bx & Wx & ky & By & Wy & Hmv & Hwx & Hwy & Dxy & Dwxy & A1). rewrite !(left_id_L ∅ (∪)) in A1.
    rewrite run_catch.
    assert (Dx : Bx ∪ By ##ₘ blocks s ∖ B1) by apply A1. assert (Dw : Wx ∪ Wy ##ₘ wraps s ∖ W1) by apply A1.
    assert (HBx : forall l', is_Some (B2 !! l') -> Bx !! l' = None /\ By !! l' = None).
    { intros l' [b2 Hb2]. assert (D' : Bx ∪ By ##ₘ B2) by (clear - Dx DB HB2; map_solve).
      destruct (dis_at _ _ l' D') as [Hx|Hx]; [|congruence]. rewrite lookup_un in Hx. by destruct (Bx !! l'), (By !! l'). }
    assert (Hlo : forall z, is_Some (blocks s !! z) -> B1 !! z = None -> Bx !! z = None /\ By !! z = None).
    { intros z [bz Hz] Hz1. destruct (dis_at _ _ z Dx) as [Hx|Hx].
      - rewrite lookup_un in Hx. by destruct (Bx !! z), (By !! z).
      - rewrite lookup_diff, Hz1 in Hx. congruence. }
    destruct (Hlo l Hl HB1l) as [Hxl Hyl], (Hlo o Ho HB1o) as [Hxo Hyo].
    assert (Hdom1 : forall l' i', is_Some ((Wx ∪ Wy) !! WMem l' i') ->
       (l' = l /\ i' = i) \/ (l' = o /\ i' = i) \/ is_Some ((Bx ∪ By) !! l')).
    { intros l' i' [q Hq]. rewrite lookup_un in Hq. rewrite (lookup_un Bx). destruct (Wx !! WMem l' i') eqn:HX.
      - destruct (wr_dom T K HO _ _ _ _ _ Hwx (WMem l' i')) as [Heq|(l2 & i2 & Heq & [b2 Hb2])]; [by eexists|simplify_eq; auto|].
        simplify_eq. right; right. rewrite Hb2. by eexists.
      - destruct (wr_dom T K HO _ _ _ _ _ Hwy (WMem l' i')) as [Heq|(l2 & i2 & Heq & [b2 Hb2])]; [by eexists|simplify_eq; auto|].
        simplify_eq. right; right. rewrite Hb2. destruct (Bx !! l2); by eexists. }
    assert (HM1 : mem_ok s1).
    { eapply changed_mem_ok'; [exact A1|done| |].
      - intros l' i' Hl' Hi'. by apply Hen1.
      - intros l' i' Hi'. destruct (Hdom1 l' i' Hi') as [[-> _]|[[-> _]|]]; auto. }
    specialize (IH (S i) B2 W2 s1). feed specialize IH; [done| | |done|done| |done| | | |].
    { by eapply changed_home; eauto. }
    { by eapply changed_home; eauto. }
    { intros j Hj. rewrite (ch_w _ _ _ _ _ _ A1), lookup_un, lookup_diff, (Hfree j) by lia.
      destruct ((Wx ∪ Wy) !! WMem l j) eqn:Hj'; [|by destruct (W1 !! _)]. exfalso.
      destruct (Hdom1 l j) as [[_ ->]|[[-> ->]|[b' Hb']]]; [by eexists|lia|lia|]. rewrite lookup_un, Hxl, Hyl in Hb'. done. }
    { rewrite (ch_b _ _ _ _ _ _ A1). clear - Dx HB2 DB. map_solve. }
    { rewrite (ch_w _ _ _ _ _ _ A1). clear - Dw HW2 DW. map_solve. }
    { intros l' i' Hl' Hi'. destruct (HBx l' Hl') as [Hx' Hy']. rewrite (ch_w _ _ _ _ _ _ A1), lookup_un, lookup_diff in Hi'.
      destruct ((Wx ∪ Wy) !! WMem l' i') eqn:HX.
      - exfalso. destruct (Hdom1 l' i') as [[-> _]|[[-> _]|[b' Hb']]]; [by eexists|destruct Hl'; congruence|destruct Hl'; congruence|].
        rewrite lookup_un, Hx', Hy' in Hb'. done.
      - destruct (W1 !! WMem l' i') eqn:HWi; [by destruct Hi'|]. destruct (Hcl l' i') as [q Hq]; [|done|].
        + rewrite lookup_un. destruct Hl' as [b2 Hb2]. rewrite Hb2. destruct (B1 !! l'); by eexists.
        + rewrite lookup_un, HWi in Hq. by eexists. }
    destruct (run (make_members _ _ _ _) s1) as [u2 s2|e s2| |]; [| |done|done].
    + destruct IH as (ks' & ys & B' & W' & B'' & W'' & Hmv2 & Hm' & Hm'' & D1 & D2 & A2).
      destruct (changed_trans s s1 s2 B1 W1 (Bx ∪ By) (Wx ∪ Wy) B2 W2 (B' ∪ B'') (W' ∪ W'') A1 A2) as (A3 & D3 & D4); [done..|].
      exists (k' :: ks'), (ky :: ys), (Bx ∪ B'), (Wx ∪ W'), (By ∪ B''), (Wy ∪ W'').
      split; [done|]. split.
      { exists Bx, Wx, B', W'. do 2 (split; [done|]). split; [clear - D3; map_solve|]. split; [clear - D4; map_solve|]. done. }
      split.
      { exists By, Wy, B'', W''. do 2 (split; [done|]). split; [clear - D3 Dxy D1; map_solve|]. split; [clear - D4 Dwxy D2; map_solve|]. done. }
      split; [clear - D3 Dxy D1; map_solve|]. split; [clear - D4 Dwxy D2; map_solve|].
      replace (Bx ∪ B' ∪ (By ∪ B'')) with (Bx ∪ By ∪ (B' ∪ B'')) by (clear - D3 Dxy D1; map_solve).
      replace (Wx ∪ W' ∪ (Wy ∪ W'')) with (Wx ∪ Wy ∪ (W' ∪ W'')) by (clear - D4 Dwxy D2; map_solve). done.
    + destruct IH as (ys & B'' & W'' & Hup & Hm'' & A2). rewrite run_bind.
      destruct (changed_trans s s1 s2 B1 W1 (Bx ∪ By) (Wx ∪ Wy) B2 W2 B'' W'' A1 A2) as (A3 & D3 & D4); [done..|].
      destruct A3 as [C1 C2 C3 C4 C5].
      destruct (dtor_g T K HO s2 (hs i) (WMem l i) k' Bx Wx) as (s3 & R3 & [M1 M2 M3 _ _]).
      { split; [done|rewrite C1; clear; map_solve|rewrite C2; clear; map_solve]. }
      rewrite R3. cbn. exists (ky :: ys), (By ∪ B''), (Wy ∪ W''). split; [right; split; [by exists k'|done]|]. split.
      { exists By, Wy, B'', W''. do 2 (split; [done|]). split; [clear - D3 Dxy; map_solve|]. split; [clear - D4 Dwxy; map_solve|]. done. }
      split; [rewrite M1, C1|rewrite M2, C2|congruence| |].
      * clear - D3 Dxy C4. map_solve.
      * clear - D4 Dwxy C5. map_solve.
      * clear - C4. map_solve.
      * clear - C5. map_solve.
Qed.

Lemma moved_all_length hs a i ks ks' ys : moved_all K hs a i ks ks' ys -> length ks' = length ks /\ length ys = length ks.
Proof.
  revert i ks' ys. induction ks as [|k ks IH]; intros i [|k' ks'] [|y ys] H; try done. destruct H as [_ H].
  destruct (IH _ _ _ H). cbn. lia.
Qed.
Lemma moved_upto_length hs a i ks ys : moved_upto K hs a i ks ys -> length ys = length ks.
Proof.
  revert i ys. induction ks as [|k ks IH]; intros i [|y ys] H; try done. destruct H as [[_ ->]|[_ H]]; [done|].
  cbn. by rewrite (IH _ _ H).
Qed.

Lemma scoped_ho_move a t l b o bo x B W s :
  mem_ok s -> storage s l b t -> object SK s o bo t x B W -> B !! l = None -> enclosed s o B W ->
  match run (tp_cons (scopedTP_step Sh s_arg T) a t l (ARef RVal (RBlk o))) s with
  | ORet _ s' => exists x' b' B1 W1 y bo' B2 W2, c_move SK t a x x' y /\
      filled SK l b b' t x' B1 W1 /\ filled SK o bo bo' t y B2 W2 /\
      <[l := b']> B1 ##ₘ <[o := bo']> B2 /\ W1 ##ₘ W2 /\
      changed s s' (<[l := b]> (<[o := bo]> B)) W (<[l := b']> B1 ∪ <[o := bo']> B2) (W1 ∪ W2)
  | OThrow _ s' => exists y bo' B2 W2, c_movef SK t x y /\ filled SK o bo bo' t y B2 W2 /\
      changed s s' (<[o := bo]> B) W (<[o := bo']> B2) W2
  | _ => False
  end.
Proof.
  intros HM [Hb Hraw Hst Hmem] [(v & Hobj & (-> & Hlen & HBo & Hm)) Hbo HB HW] HBl Hen.
  assert (Hol : o <> l) by congruence. destruct x as [v kids]. cbn [fst snd] in *.
  change (tp_cons (scopedTP_step Sh s_arg T) a t l (ARef RVal (RBlk o))) with
    (node_cons Sh a t l (ARef RVal (RBlk o))
       (fun i => i_move_a (hdr_impl (k_hdr Sh t i) T) (WMem l i) a (WMem o i))
       (fun i => i_dtor (hdr_impl (k_hdr Sh t i) T) (WMem l i))).
  unfold node_cons. rewrite run_bind. cbn [act_thr run exec].
  rewrite Hb, Hst. cbn [negb]. rewrite Hraw. cbn [cons_vals deref]. rewrite Hbo, Hobj.
  assert (Hn := sr_move _ HS t a v).
  destruct (t_cons E RVal t t a v) as [w1 w2] eqn:Ht. cbn [fst snd] in *.
  assert (Hupd : forall s0 v', blocks s0 = blocks s -> blocks (upd_ref (RBlk o) v' s0) = <[o := set_obj (OLive t v') bo]> (blocks s)).
  { intros s0 v' Hs0. cbn. rewrite Hs0. apply map_eq. intros i. destruct (decide (o = i)) as [<-|Hne].
    - by rewrite lookup_alter, Hbo, lookup_insert; cbn; rewrite Hobj.
    - by rewrite lookup_alter_ne, lookup_insert_ne. }
  destruct (pop_eq s) as (r & orc' & -> & _). destruct r as [h|e]; cbn [upd_src run].
  2:{ exists (t_cons_fail E RVal t t v, kids), (set_obj (OLive t (t_cons_fail E RVal t t v)) bo), B, W. split_and!; [by left| |].
      - eexists. split; [done|]. cbn. split_and!; try done. by rewrite (sr_fail _ HS).
      - split; cbn [log blocks wraps exts]; [rewrite Hupd by done| |done| |].
        + clear - HB Hbo HBo. map_solve.
        + change (wraps (upd_ref _ _ _)) with (wraps s). clear - HW. map_solve.
        + clear. map_solve.
        + clear. map_solve. }
  set (s1 := log _ _). rewrite run_bind. cbn [act run exec deref].
  assert (Hother : blocks s1 = <[l := set_obj (OLive t w1) b]> (<[o := set_obj (OLive t w2) bo]> (blocks s))).
  { subst s1. cbn [log set_blocks blocks]. rewrite Hupd by done. apply map_eq. intros i. destruct (decide (l = i)) as [<-|Hne].
    - by rewrite lookup_alter, lookup_insert_ne, Hb, lookup_insert.
    - by rewrite lookup_alter_ne, (lookup_insert_ne _ l) by done. }
  assert (Hl1 : blocks s1 !! l = Some (set_obj (OLive t w1) b)) by (by rewrite Hother, lookup_insert).
  assert (Hw1 : wraps s1 = wraps s) by done. assert (Hx1 : exts s1 = exts s) by done. clearbody s1.
  rewrite Hl1. cbn [b_obj set_obj run snd].
  rewrite run_catch. destruct Hn as [Hn1 Hn2]. rewrite Hn1, <- Hlen.
  assert (G := movea_members_g (k_hdr Sh t) o l a 0 kids B W s1).
  feed specialize G; [intros j; apply HP| | | |done|done| |done| |by rewrite Hw1| |].
  { intros l' i' Hi'. rewrite Hw1 in Hi'. rewrite Hother. at_norm. repeat case_decide; [by eexists..|]. by apply (HM l' i'). }
  { rewrite Hl1. by eexists. }
  { rewrite Hother, lookup_insert_ne, lookup_insert by done. by eexists. }
  { intros j _. rewrite Hw1. apply Hmem. }
  { rewrite Hother. clear - HB HBl HBo. map_solve. }
  { intros l' i' Hl' Hi'. rewrite Hw1 in Hi'. apply (Hen l' i'); auto. }
  destruct (run (make_members _ _ _ _) s1) as [u s2|e s2| |]; [| |done|done].
  - destruct G as (ks' & ys & B' & W' & B'' & W'' & Hmv & Hm' & Hm'' & D1 & D2 & [C1 C2 C3 C4 C5]).
    rewrite Hw1 in *. rewrite Hother in *. destruct (moved_all_length _ _ _ _ _ _ Hmv) as [Hl' Hl''].
    assert (Hd : forall z, z = l \/ z = o -> B' !! z = None /\ B'' !! z = None).
    { intros z Hz. destruct (dis_at _ _ z C4) as [Hx|Hx].
      - rewrite lookup_un in Hx. by destruct (B' !! z), (B'' !! z).
      - exfalso. clear - Hx Hz HBl HBo Hol. at_norm. destruct Hz as [->| ->]; [rewrite HBl in Hx|rewrite HBo in Hx]; repeat case_decide; congruence. }
    destruct (Hd l (or_introl eq_refl)) as [Hl3 Hl4], (Hd o (or_intror eq_refl)) as [Ho3 Ho4].
    exists (w1, ks'), (set_obj (OLive t w1) b), B', W', (w2, ys), (set_obj (OLive t w2) bo), B'', W''.
    split_and!.
    + cbn. by rewrite Ht.
    + exists w1. split; [done|]. cbn. split_and!; [done|congruence|done|done].
    + exists w2. split; [done|]. cbn. split_and!; [done|congruence|done|done].
    + clear - Hol Hl3 Hl4 Ho3 Ho4 D1. map_solve.
    + done.
    + split; [rewrite C1|done|congruence| |done].
      * clear - Hol HBo HBl HB Hbo Hb Hl3 Hl4 Ho3 Ho4 C4 D1. map_solve.
      * clear - C4 D1 Hol HBo HBl Hl3 Hl4 Ho3 Ho4. map_solve.
  - destruct G as (ys & B'' & W'' & Hup & Hm'' & [C1 C2 C3 C4 C5]). rewrite Hw1 in *. rewrite Hother in *.
    assert (Hd : forall z, z = l \/ z = o -> B'' !! z = None).
    { intros z Hz. destruct (dis_at _ _ z C4) as [Hx|Hx]; [done|].
      exfalso. clear - Hx Hz HBl HBo Hol. at_norm. destruct Hz as [->| ->]; [rewrite HBl in Hx|rewrite HBo in Hx]; repeat case_decide; congruence. }
    assert (Hl4 := Hd l (or_introl eq_refl)). assert (Ho4 := Hd o (or_intror eq_refl)).
    assert (Hl2 : blocks s2 !! l = Some (set_obj (OLive t w1) b)).
    { rewrite C1. clear - Hl4 HBl. at_norm. rewrite Hl4, HBl, decide_True by done. done. }
    cbn. rewrite Hl2. cbn. rewrite bool_decide_eq_true_2 by done. cbn.
    exists (w2, ys), (set_obj (OLive t w2) bo), B'', W''. split; [right; exists a; cbn; by rewrite Ht|]. split.
    { exists w2. split; [done|]. cbn. split_and!; [done| |done|done]. rewrite (moved_upto_length _ _ _ _ _ Hup). congruence. }
    assert (Hbb : set_obj ORaw (set_obj (OLive t w1) b) = b) by (destruct b; cbn in *; by subst).
    split; cbn; [rewrite Hbb, C1|done|congruence| |done].
    + clear - Hol HBo HBl HB Hbo Hb Hl4 Ho4 C4. map_solve.
    + clear - Hol HBo HBl HB Hbo Hb Hl4 Ho4 C4. map_solve.
Qed.

Lemma object_node s l b t x B W : object SK s l b t x B W -> object (node_cls Sh K) s l b t x B W.
Proof. by intros [H1 H2 H3 H4]. Qed.

Lemma scoped_honest : Honest (scopedTP_step Sh s_arg T) SK.
Proof.
  split.
  - intros t l v x B W (-> & Hlen & Hl & Hm). split; [done|]. intros u Hu.
    destruct (members_dom T K HO _ _ _ _ _ _ Hm u Hu) as [(j & _ & ->)|(l' & j & -> & Hb)]; eauto 8.
  - exact scoped_ho_make.
  - exact scoped_ho_copy.
  - exact scoped_ho_move.
  - intros a t l b x B W s Hob. exact (node_ho_destroy Sh T K HO a t l b x B W s (object_node _ _ _ _ _ _ _ Hob)).
  - intros t l b d B W o bo x Bo Wo s HM H1 H2.
    exact (node_ho_asg Sh T K HO HF HA t l b d B W o bo x Bo Wo s HM (object_node _ _ _ _ _ _ _ H1) (object_node _ _ _ _ _ _ _ H2)).
Qed.
End scoped.
