(** * Classes that keep the contract of value assignment. *)

From stdpp Require Import base gmap list.
From Verif Require Import Lang Common Client Spec Rep RunLemmas Headers Hist Tree TreeProps TreeAssign TreeAssignC TreeMove TreeMoveAssign
  Contract ContractProps ContractOps ContractMove ContractNode ContractUser ContractUserProps ContractValue.

Section node.
Context {E : Env} (Sh : Shape E) (T : TP E) (K : Cls E) (HO : Honest T K).
Context (HF : Fixed Sh) (HA : AllocReq E).
Notation A := (eA E).
Notation bmap := (gmap loc (block E)).
Notation wmap := (gmap wl (wrapper E)).
Notation wv := (option (ty * c_val K) * A)%type.
Implicit Types s : store E.
Notation wrapped := (wrapped K).
Notation wrapper_at := (wrapper_at K).
Notation members := (members K).

Lemma un_swap {X Y} `{Countable X} (M1 M2 M3 M4 : gmap X Y) : M2 ##ₘ M3 -> (M1 ∪ M2) ∪ (M3 ∪ M4) = (M1 ∪ M3) ∪ (M2 ∪ M4).
Proof.
  intros D. apply map_eq. intros i. rewrite !lookup_un. destruct (M1 !! i), (M2 !! i) eqn:H2, (M3 !! i) eqn:H3; try done.
  destruct (map_disjoint_spec M2 M3) as [HD _]. by destruct (HD D i y y0).
Qed.

(** Every subobject of the blocks [B] is in [W]. *)
Definition closed s (B : bmap) (W : wmap) : Prop :=
  forall l i, is_Some (B !! l) -> is_Some (wraps s !! WMem l i) -> is_Some (W !! WMem l i).

Lemma closed_mem_ok s s' B W B' W' :
  mem_ok s -> closed s B W -> changed s s' B W B' W' ->
  (forall l i, is_Some (W' !! WMem l i) -> is_Some (B' !! l) \/ is_Some (blocks s !! l) /\ B !! l = None) -> mem_ok s'.
Proof.
  intros HM HC [C1 C2 _ _ _] HN l i [w Hl]. rewrite C2, lookup_un in Hl. rewrite C1, lookup_un.
  destruct (B' !! l) eqn:HB'; [by eexists|]. rewrite lookup_diff. destruct (W' !! WMem l i) eqn:HW'.
  - destruct (HN l i) as [[? ?]|[[b Hb] HB]]; [by eexists|congruence|]. rewrite HB, Hb. by eexists.
  - rewrite lookup_diff in Hl. destruct (W !! WMem l i) eqn:HW; [done|]. destruct (B !! l) eqn:HB.
    + destruct (HC l i) as [? ?]; [by eexists|by eexists|congruence].
    + apply (HM l i). by eexists.
Qed.

Lemma closed_rest s s1 P Q P' Q' R S :
  closed s (P ∪ R) (Q ∪ S) -> changed s s1 P Q P' Q' ->
  (forall l i, is_Some (Q' !! WMem l i) -> R !! l = None) -> closed s1 R S.
Proof.
  intros HC [_ C2 _ _ _] HN l i [b Hb] [w Hw]. rewrite C2, lookup_un in Hw.
  destruct (Q' !! WMem l i) eqn:HQ'; [rewrite (HN l i) in Hb by (by eexists); done|].
  rewrite lookup_diff in Hw. destruct (Q !! WMem l i) eqn:HQ; [done|].
  destruct (HC l i) as [q Hq]; [rewrite lookup_un, Hb; destruct (P !! l); by eexists|by eexists|].
  rewrite lookup_un, HQ in Hq. by eexists.
Qed.

Lemma move_members_asg hs l o i ds ks Bd Wd Bs Ws s :
  mem_ok s -> is_Some (blocks s !! l) -> is_Some (blocks s !! o) -> l <> o ->
  Bd !! l = None -> Bd !! o = None -> Bs !! l = None -> Bs !! o = None -> length ds = length ks ->
  closed s (Bd ∪ Bs) (Wd ∪ Ws) ->
  members hs (WMem l) i ds Bd Wd -> members hs (WMem o) i ks Bs Ws -> Bd ##ₘ Bs -> Wd ##ₘ Ws ->
  Bd ⊆ blocks s -> Wd ⊆ wraps s -> Bs ⊆ blocks s -> Ws ⊆ wraps s ->
  let P (R : list wv -> list wv -> Prop) s' := exists ds' B' W' ks' B2 W2, R ds' ks' /\
      members hs (WMem l) i ds' B' W' /\ members hs (WMem o) i ks' B2 W2 /\ B' ##ₘ B2 /\ W' ##ₘ W2 /\
      changed s s' (Bd ∪ Bs) (Wd ∪ Ws) (B' ∪ B2) (W' ∪ W2) in
  match run (assign_members (fun j => i_move_assign (hdr_impl (hs j) T) (WMem l j) (WMem o j)) i (length ds)) s with
  | ORet _ s' => P (moved_all K ds ks) s'
  | OThrow _ s' => P (moved_upto K ds ks) s'
  | OTerm => moves_end K ds ks
  | OUB _ => False
  end.
Proof.
  revert i ks Bd Wd Bs Ws s.
  induction ds as [|d ds IH]; intros i [|k ks] Bd Wd Bs Ws s HM Hl Ho Hlo HBl HBdo HBsl HBo Hlen HC Hd Hs DB DW HBd HWd HBs HWs P; try done.
  - destruct Hd as [-> ->], Hs as [-> ->]. cbn. exists [], ∅, ∅, [], ∅, ∅. split_and!; try done; try map_solve.
    rewrite !(left_id_L ∅ (∪)). by apply changed_none.
  - destruct Hd as (B1 & W1 & B2 & W2 & -> & -> & DB12 & DW12 & H1 & H2).
    destruct Hs as (B3 & W3 & B4 & W4 & -> & -> & DB34 & DW34 & H3 & H4).
    cbn [length assign_members]. rewrite run_bind.
    rewrite lookup_un in HBl, HBdo, HBsl, HBo.
    assert (HN : B1 !! l = None /\ B2 !! l = None /\ B3 !! l = None /\ B4 !! l = None /\
                 B1 !! o = None /\ B2 !! o = None /\ B3 !! o = None /\ B4 !! o = None).
    { clear - HBl HBdo HBsl HBo. destruct (B1 !! l), (B1 !! o), (B3 !! l), (B3 !! o); done. }
    destruct HN as (L1 & L2 & L3 & L4 & O1 & O2 & O3 & O4).
    assert (D23 : B2 ##ₘ B3) by (clear - DB; map_solve). assert (DW23 : W2 ##ₘ W3) by (clear - DW; map_solve).
    assert (D13 : B1 ##ₘ B3) by (clear - DB; map_solve). assert (DW13 : W1 ##ₘ W3) by (clear - DW; map_solve).
    assert (D24 : B2 ##ₘ B4) by (clear - DB; map_solve). assert (DW24 : W2 ##ₘ W4) by (clear - DW; map_solve).
    assert (D14 : B1 ##ₘ B4) by (clear - DB; map_solve). assert (DW14 : W1 ##ₘ W4) by (clear - DW; map_solve).
    assert (UB : (B1 ∪ B2) ∪ (B3 ∪ B4) = (B1 ∪ B3) ∪ (B2 ∪ B4)) by (by apply un_swap).
    assert (UW : (W1 ∪ W2) ∪ (W3 ∪ W4) = (W1 ∪ W3) ∪ (W2 ∪ W4)) by (by apply un_swap).
    assert (HB1 : B1 ⊆ blocks s) by (clear - HBd; map_solve). assert (HW1 : W1 ⊆ wraps s) by (clear - HWd; map_solve).
    assert (HB2 : B2 ⊆ blocks s) by (clear - HBd DB12; map_solve). assert (HW2 : W2 ⊆ wraps s) by (clear - HWd DW12; map_solve).
    assert (HB3 : B3 ⊆ blocks s) by (clear - HBs; map_solve). assert (HW3 : W3 ⊆ wraps s) by (clear - HWs; map_solve).
    assert (HB4 : B4 ⊆ blocks s) by (clear - HBs DB34; map_solve). assert (HW4 : W4 ⊆ wraps s) by (clear - HWs DW34; map_solve).
    assert (Hx : wrapper_at s (hs i) (WMem l i) d B1 W1) by (by split).
    assert (Hy : wrapper_at s (hs i) (WMem o i) k B3 W3) by (by split).
    assert (Heny : enclosedW s (WMem o i) B3 W3).
    { intros l' i' [b Hb]. split; [congruence|]. intros Hi.
      destruct (HC l' i') as [q Hq]; [rewrite UB, !lookup_un, Hb; destruct (B1 !! l'); by eexists|done|].
      destruct (W3 !! WMem l' i') eqn:HWi; [by eexists|]. exfalso. rewrite !lookup_un, HWi in Hq.
      destruct (W1 !! WMem l' i') eqn:Hq1; [|destruct (W2 !! WMem l' i') eqn:Hq2].
      - destruct (wr_dom T K HO _ _ _ _ _ H1 (WMem l' i')) as [Heq|(l2 & j & Heq & [b2 Hb2])]; [by eexists|congruence|].
        simplify_eq. destruct (dis_at _ _ l2 D13); congruence.
      - destruct (members_dom T K HO _ _ _ _ _ _ H2 (WMem l' i')) as [(j & _ & Heq)|(l2 & j & Heq & [b2 Hb2])]; [by eexists|congruence|].
        simplify_eq. destruct (dis_at _ _ l2 D23); congruence.
      - destruct (members_dom T K HO _ _ _ _ _ _ H4 (WMem l' i')) as [(j & _ & Heq)|(l2 & j & Heq & [b2 Hb2])]; [by eexists|congruence|].
        simplify_eq. destruct (dis_at _ _ l2 DB34); congruence. }
    assert (HX := masg_g T K HO HA (hs i) (WMem l i) (WMem o i) d k B1 W1 B3 W3 s HM Hx Hy D13 DW13 Heny).
    destruct (run (i_move_assign _ _ _) s) as [u s1|e s1| |] eqn:HR; [| |done|by left].
    + destruct HX as (d' & B1' & W1' & k' & B3' & W3' & Hmv & Hw1 & Hw3 & DB' & DW' & R1).
      assert (HNm : forall l' i', is_Some ((W1' ∪ W3') !! WMem l' i') ->
        (l' = l \/ l' = o) \/ is_Some ((B1' ∪ B3') !! l')).
      { intros l' i' [q Hq]. rewrite lookup_un in Hq. destruct (W1' !! WMem l' i') eqn:Hq1.
        - destruct (wr_dom T K HO _ _ _ _ _ Hw1 (WMem l' i')) as [Heq|(l2 & j & Heq & [b2 Hb2])]; [by eexists| |].
          + left. left. congruence.
          + right. simplify_eq. rewrite lookup_un, Hb2. by eexists.
        - destruct (wr_dom T K HO _ _ _ _ _ Hw3 (WMem l' i')) as [Heq|(l2 & j & Heq & [b2 Hb2])]; [by eexists| |].
          + left. right. congruence.
          + right. simplify_eq. rewrite lookup_un, Hb2. destruct (B1' !! l2); by eexists. }
      assert (HCs : closed s (B1 ∪ B3) (W1 ∪ W3)).
      { intros l' i' [b' Hb'] Hi'. destruct (HC l' i') as [q Hq]; [rewrite UB, lookup_un, Hb'; by eexists|done|].
        rewrite UW, lookup_un in Hq. destruct ((W1 ∪ W3) !! WMem l' i'); [by eexists|]. exfalso. rewrite lookup_un in Hq. rewrite lookup_un in Hb'.
        destruct (W2 !! WMem l' i') eqn:Hq2.
        - destruct (members_dom T K HO _ _ _ _ _ _ H2 (WMem l' i')) as [(j & _ & Heq)|(l2 & j & Heq & [b2 Hb2])]; [by eexists| |]; simplify_eq.
          + by rewrite L1, L3 in Hb'.
          + destruct (dis_at _ _ l2 DB12) as [HZ|]; [|congruence]. destruct (dis_at _ _ l2 D23) as [|HZ2]; [congruence|]. by rewrite HZ, HZ2 in Hb'.
        - destruct (members_dom T K HO _ _ _ _ _ _ H4 (WMem l' i')) as [(j & _ & Heq)|(l2 & j & Heq & [b2 Hb2])]; [by eexists| |]; simplify_eq.
          + by rewrite O1, O3 in Hb'.
          + destruct (dis_at _ _ l2 D14) as [HZ|]; [|congruence]. destruct (dis_at _ _ l2 DB34) as [HZ2|]; [|congruence]. by rewrite HZ, HZ2 in Hb'. }
      assert (Hkeep : forall (R : bmap), R ##ₘ B1 ∪ B3 -> R ⊆ blocks s -> R ⊆ blocks s1).
      { intros R HR1 HR2. rewrite (ch_b _ _ _ _ _ _ R1). assert (D := ch_db _ _ _ _ _ _ R1). clear - D HR1 HR2. map_solve. }
      assert (HkeepW : forall (R : wmap), R ##ₘ W1 ∪ W3 -> R ⊆ wraps s -> R ⊆ wraps s1).
      { intros R HR1 HR2. rewrite (ch_w _ _ _ _ _ _ R1). assert (D := ch_dw _ _ _ _ _ _ R1). clear - D HR1 HR2. map_solve. }
      specialize (IH (S i) ks B2 W2 B4 W4 s1).
      feed specialize IH; [| | |done|done|done|done|done|by simplify_eq/=| |exact H2|exact H4|done|done| | | | |].
      { apply (closed_mem_ok s s1 _ _ _ _ HM HCs R1). intros l' i' [[->| ->]|HZ]%HNm; [right|right|by left]; split; try done; rewrite lookup_un.
        - by rewrite L1.
        - by rewrite O1. }
      { eapply changed_home; [exact R1|done|]. by rewrite lookup_un, L1. }
      { eapply changed_home; [exact R1|done|]. by rewrite lookup_un, O1. }
      { eapply (closed_rest s s1); [|exact R1|].
        - rewrite <- UB, <- UW. exact HC.
        - intros l' i' [[->| ->]|[b HZ]]%HNm; rewrite lookup_un; [by rewrite L2|by rewrite O2|].
          destruct (dis_at _ _ l' (ch_db _ _ _ _ _ _ R1)) as [HZ2|HZ2]; [congruence|].
          rewrite lookup_diff, lookup_un in HZ2. destruct (B2 !! l') eqn:HB2l.
          + destruct (dis_at _ _ l' DB12) as [HZ3|]; [|congruence]. destruct (dis_at _ _ l' D23) as [|HZ4]; [congruence|].
            rewrite HZ3, HZ4 in HZ2. pose proof (lookup_weaken _ _ _ _ HB2l HB2). congruence.
          + destruct (B4 !! l') eqn:HB4l; [|done]. destruct (dis_at _ _ l' D14) as [HZ3|]; [|congruence]. destruct (dis_at _ _ l' DB34) as [HZ4|]; [|congruence].
            rewrite HZ3, HZ4 in HZ2. pose proof (lookup_weaken _ _ _ _ HB4l HB4). congruence. }
      { apply Hkeep; [|done]. clear - DB12 D23. map_solve. }
      { apply HkeepW; [|done]. clear - DW12 DW23. map_solve. }
      { apply Hkeep; [|done]. clear - D14 DB34. map_solve. }
      { apply HkeepW; [|done]. clear - DW14 DW34. map_solve. }
      cbn zeta in IH. destruct (run (assign_members _ _ _) s1) as [u2 s2|e s2| |]; [| |done|by right].
      * destruct IH as (ds' & B2' & W2' & ks' & B4' & W4' & HR2 & M2 & M4 & DB2 & DW2 & R2).
        destruct (changed_trans s s1 s2 (B1 ∪ B3) (W1 ∪ W3) (B1' ∪ B3') (W1' ∪ W3') (B2 ∪ B4) (W2 ∪ W4) (B2' ∪ B4') (W2' ∪ W4')) as (R3 & X1 & X2);
          [done|done|clear - DB12 D14 D23 DB34; map_solve|clear - DW12 DW14 DW23 DW34; map_solve|clear - HB2 HB4; map_solve|clear - HW2 HW4; map_solve|].
        exists (d' :: ds'), (B1' ∪ B2'), (W1' ∪ W2'), (k' :: ks'), (B3' ∪ B4'), (W3' ∪ W4').
        split; [by split|]. split; [exists B1', W1', B2', W2'; split_and!; try done; [clear - X1; map_solve|clear - X2; map_solve]|].
        split; [exists B3', W3', B4', W4'; split_and!; try done; [clear - X1; map_solve|clear - X2; map_solve]|].
        split; [clear - X1 DB' DB2; map_solve|]. split; [clear - X2 DW' DW2; map_solve|].
        rewrite UB, UW, (un_swap B1' B2' B3' B4') by (clear - X1; map_solve). rewrite (un_swap W1' W2' W3' W4') by (clear - X2; map_solve). exact R3.
      * destruct IH as (ds' & B2' & W2' & ks' & B4' & W4' & HR2 & M2 & M4 & DB2 & DW2 & R2).
        destruct (changed_trans s s1 s2 (B1 ∪ B3) (W1 ∪ W3) (B1' ∪ B3') (W1' ∪ W3') (B2 ∪ B4) (W2 ∪ W4) (B2' ∪ B4') (W2' ∪ W4')) as (R3 & X1 & X2);
          [done|done|clear - DB12 D14 D23 DB34; map_solve|clear - DW12 DW14 DW23 DW34; map_solve|clear - HB2 HB4; map_solve|clear - HW2 HW4; map_solve|].
        exists (d' :: ds'), (B1' ∪ B2'), (W1' ∪ W2'), (k' :: ks'), (B3' ∪ B4'), (W3' ∪ W4').
        split; [by right|]. split; [exists B1', W1', B2', W2'; split_and!; try done; [clear - X1; map_solve|clear - X2; map_solve]|].
        split; [exists B3', W3', B4', W4'; split_and!; try done; [clear - X1; map_solve|clear - X2; map_solve]|].
        split; [clear - X1 DB' DB2; map_solve|]. split; [clear - X2 DW' DW2; map_solve|].
        rewrite UB, UW, (un_swap B1' B2' B3' B4') by (clear - X1; map_solve). rewrite (un_swap W1' W2' W3' W4') by (clear - X2; map_solve). exact R3.
    + destruct HX as (k' & B3' & W3' & Hne & Hbr & Hw3 & R1).
      exists (d :: ds), (B1 ∪ B2), (W1 ∪ W2), (k' :: ks), (B3' ∪ B4), (W3' ∪ W4).
      assert (X1 : B3' ##ₘ B1 ∪ B2 ∪ B4).
      { assert (D := ch_db _ _ _ _ _ _ R1). clear - D D13 D23 DB34 HB1 HB2 HB4. map_solve. }
      assert (X2 : W3' ##ₘ W1 ∪ W2 ∪ W4).
      { assert (D := ch_dw _ _ _ _ _ _ R1). clear - D DW13 DW23 DW34 HW1 HW2 HW4. map_solve. }
      split; [by left|]. split; [by exists B1, W1, B2, W2|].
      split; [exists B3', W3', B4, W4; split_and!; try done; [clear - X1; map_solve|clear - X2; map_solve]|].
      split; [clear - X1 D14 D24; map_solve|]. split; [clear - X2 DW14 DW24; map_solve|].
      destruct R1 as [C1 C2 C3 C4 C5]. split; [rewrite C1|rewrite C2|done| |].
      * clear - HB1 HB2 HB4 X1 D13 D23 DB34. map_solve.
      * clear - HW1 HW2 HW4 X2 DW13 DW23 DW34. map_solve.
      * clear - C4 X1. map_solve.
      * clear - C5 X2. map_solve.
Qed.

Lemma moved_all_length ds ks ds' ks' : moved_all K ds ks ds' ks' -> length ds' = length ds /\ length ks' = length ks.
Proof.
  revert ks ds' ks'. induction ds as [|d ds IH]; intros [|k ks] [|d' ds'] [|k' ks']; cbn; try done.
  intros [_ H]. destruct (IH _ _ _ H). lia.
Qed.
Lemma moved_upto_length ds ks ds' ks' : moved_upto K ds ks ds' ks' -> length ds' = length ds /\ length ks' = length ks.
Proof.
  revert ks ds' ks'. induction ds as [|d ds IH]; intros [|k ks] [|d' ds'] [|k' ks']; cbn; try done.
  intros [(_ & _ & _ & -> & ->)|[_ H]]; [done|]. destruct (IH _ _ _ H). lia.
Qed.

Lemma node_as_move t l b d B W o bo x Bo Wo s :
  mem_ok s -> object (node_cls Sh K) s l b t d B W -> object (node_cls Sh K) s o bo t x Bo Wo ->
  <[l := b]> B ##ₘ <[o := bo]> Bo -> W ##ₘ Wo -> enclosed s l B W -> enclosed s o Bo Wo ->
  match run (tp_asgn (nodeTP_step Sh T) t l (ARef RVal (RBlk o))) s with
  | ORet _ s' => both (node_cls Sh K) (v_move (node_asg Sh K) t d x) t l b B W o bo Bo Wo s s'
  | OThrow _ s' => both (node_cls Sh K) (v_movef (node_asg Sh K) t d x) t l b B W o bo Bo Wo s s'
  | OTerm => v_term (node_asg Sh K) t d x
  | OUB _ => False
  end.
Proof.
  intros HM [(v0 & Hobj & (-> & Hld & HBdl & Hmd)) Hb HBd HWd] [(v & Hobjo & (-> & Hls & HBso & Hms)) Hbo HBs HWs] DB DW Hen Heno.
  assert (Hol : o <> l). { intros ->. destruct (dis_at _ _ l DB) as [HX|HX]; by rewrite lookup_insert in HX. }
  assert (HBsl : Bo !! l = None).
  { destruct (dis_at _ _ l DB) as [HX|HX]; [by rewrite lookup_insert in HX|]. by rewrite lookup_insert_ne in HX. }
  assert (HBdo : B !! o = None).
  { destruct (dis_at _ _ o DB) as [HX|HX]; [|by rewrite lookup_insert in HX]. by rewrite lookup_insert_ne in HX. }
  assert (DB' : B ##ₘ Bo) by (clear - DB HBdl HBso HBsl; map_solve).
  destruct d as [v0 ds], x as [v ks]. cbn [fst snd] in *.
  assert (R0 : run (tp_asgn (nodeTP_step Sh T) t l (ARef RVal (RBlk o))) s =
    run (bind (act_thr (PAsgn t l (ARef RVal (RBlk o)))) (fun _ =>
      assign_members (fun j => i_move_assign (hdr_impl (k_hdr Sh t j) T) (WMem l j) (WMem o j)) 0 (n_kids Sh t v0))) s).
  { assert (Hro : forall l b t v X (f : ty * eV E -> prog E X) s, blocks s !! l = Some b -> b_obj b = OLive t v ->
      run (bind (act (PReadObj (RBlk l))) f) s = run (f (t, v)) s).
    { intros. cbn. by rewrite H, H0. }
    cbn [nodeTP_step tp_asgn].
    erewrite Hro by done; cbv beta; erewrite Hro by done; cbv beta; cbn [snd];
    by rewrite (HF t v v0), Nat.eqb_refl. }
  rewrite R0. clear R0. rewrite run_bind. cbn [act_thr run exec deref].
  rewrite Hb, Hobj. rewrite bool_decide_eq_true_2 by done. cbn [negb asgn_vals].
  rewrite bool_decide_eq_false_2 by congruence. cbn [deref]. rewrite Hbo, Hobjo.
  destruct (t_asgn E RVal t t v0 v) as [d1 d2] eqn:Hd. destruct (t_asgn_fail E RVal t t v0 v) as [df df2] eqn:Hdf.
  assert (Hupd : forall s0 l b v0 v', blocks s0 !! l = Some b -> b_obj b = OLive t v0 ->
      blocks (upd_ref (RBlk l) v' s0) = <[l := set_obj (OLive t v') b]> (blocks s0)).
  { clear. intros s0 l b v0 v' Hb Hobj. cbn. rewrite (alter_put _ _ l b) by done. by rewrite Hobj. }
  assert (Hupd2 : forall s0 w1 w2, blocks s0 = blocks s ->
      blocks (upd_ref (RBlk l) w1 (upd_ref (RBlk o) w2 s0)) = <[l := set_obj (OLive t w1) b]> (<[o := set_obj (OLive t w2) bo]> (blocks s))).
  { intros s0 w1 w2 Hs0. assert (H1 : blocks (upd_ref (RBlk o) w2 s0) = <[o := set_obj (OLive t w2) bo]> (blocks s)).
    { rewrite (Hupd s0 o bo v w2) by (by rewrite ?Hs0). by rewrite Hs0. }
    rewrite (Hupd _ l b v0 w1); [by rewrite H1|by rewrite H1, lookup_insert_ne|done]. }
  destruct (pop_eq s) as (r & orc' & -> & _). destruct r as [h|e]; cbn [upd_src run].
  - set (s1 := log _ _).
    assert (H1b : blocks s1 = <[l := set_obj (OLive t d1) b]> (<[o := set_obj (OLive t d2) bo]> (blocks s))) by (by apply Hupd2).
    assert (H1w : wraps s1 = wraps s) by done. assert (H1x : exts s1 = exts s) by done. clearbody s1.
    rewrite <- Hld.
    assert (CL := move_members_asg (k_hdr Sh t) l o 0 ds ks B W Bo Wo s1).
    feed specialize CL; [| | |congruence|done|done|done|done| | |done|done|done|done| | | | |].
    { intros l' i' Hi'. rewrite H1w in Hi'. rewrite H1b. at_norm. at_split; try by eexists. by apply (HM l' i'). }
    { rewrite H1b, lookup_insert. by eexists. }
    { rewrite H1b, lookup_insert_ne, lookup_insert by done. by eexists. }
    { rewrite Hld, Hls. apply HF. }
    { intros l' i' [b' Hl'] Hi'. rewrite H1w in Hi'. rewrite lookup_un in Hl'. rewrite lookup_un. destruct (B !! l') eqn:HBl'.
      - destruct (Hen l' i') as [q Hq]; [right; by eexists|done|]. rewrite Hq. by eexists.
      - destruct (Heno l' i') as [q Hq]; [right; by eexists|done|]. rewrite Hq. destruct (W !! WMem l' i'); by eexists. }
    { rewrite H1b. clear - HBd HBdl HBdo. map_solve. }
    { by rewrite H1w. }
    { rewrite H1b. clear - HBs HBsl HBso. map_solve. }
    { by rewrite H1w. }
    cbn zeta in CL.
    assert (Htr : forall s2 B' W' B2 W2, B' ##ₘ B2 -> changed s1 s2 (B ∪ Bo) (W ∪ Wo) (B' ∪ B2) (W' ∪ W2) ->
       B' !! l = None /\ B2 !! o = None /\ <[l := set_obj (OLive t d1) b]> B' ##ₘ <[o := set_obj (OLive t d2) bo]> B2 /\
       changed s s2 (<[l := b]> B ∪ <[o := bo]> Bo) (W ∪ Wo) (<[l := set_obj (OLive t d1) b]> B' ∪ <[o := set_obj (OLive t d2) bo]> B2) (W' ∪ W2)).
    { intros s2 B' W' B2 W2 D [R1 R2 R3 R4 R5]. rewrite H1b in *. rewrite H1w in *.
      assert (HN : B' !! l = None /\ B2 !! l = None /\ B' !! o = None /\ B2 !! o = None).
      { assert (R4l := dis_at _ _ l R4). assert (R4o := dis_at _ _ o R4). clear - R4l R4o HBdl HBsl HBdo HBso Hol. at_norm.
        rewrite HBdl, HBsl, decide_True in R4l by done. rewrite HBdo, HBso, decide_False, decide_True in R4o by done.
        destruct (B' !! l), (B2 !! l), (B' !! o), (B2 !! o), R4l, R4o; done. }
      destruct HN as (N1 & N2 & N3 & N4). split_and!; [done|done| |].
      - clear - D N1 N2 N3 N4 Hol. map_solve.
      - split; [rewrite R1|done|congruence| |done].
        + clear - HBdl HBsl HBdo HBso Hol N1 N2 N3 N4. map_solve.
        + clear - HBdl HBsl HBdo HBso Hol N1 N2 N3 N4 R4. map_solve. }
    destruct (run (assign_members _ _ _) s1) as [u s2|e s2| |]; [| |done|done];
      destruct CL as (ds' & B' & W' & ks' & B2 & W2 & Hasg & Hm1 & Hm2 & D1 & D2 & R);
      destruct (Htr _ _ _ _ _ D1 R) as (N1 & N2 & D3 & R2);
      exists (d1, ds'), (set_obj (OLive t d1) b), B', W', (d2, ks'), (set_obj (OLive t d2) bo), B2, W2.
    + destruct (moved_all_length _ _ _ _ Hasg) as [L1 L2].
      split; [by cbn; rewrite Hd|]. split; [exists d1; split; [done|]; cbn; split_and!; try done; rewrite L1, Hld; apply HF|].
      split; [exists d2; split; [done|]; cbn; split_and!; try done; rewrite L2, Hls; apply HF|]. done.
    + destruct (moved_upto_length _ _ _ _ Hasg) as [L1 L2].
      split; [right; by cbn; rewrite Hd|]. split; [exists d1; split; [done|]; cbn; split_and!; try done; rewrite L1, Hld; apply HF|].
      split; [exists d2; split; [done|]; cbn; split_and!; try done; rewrite L2, Hls; apply HF|]. done.
  - exists (df, ds), (set_obj (OLive t df) b), B, W, (df2, ks), (set_obj (OLive t df2) bo), Bo, Wo.
    split; [left; by cbn; rewrite Hdf|]. split; [exists df; split; [done|]; cbn; split_and!; try done; rewrite Hld; apply HF|].
    split; [exists df2; split; [done|]; cbn; split_and!; try done; rewrite Hls; apply HF|].
    split; [clear - DB; map_solve|]. split; [done|].
    split; cbn [log blocks wraps exts].
    + rewrite Hupd2 by done. clear - HBd HBdl HBs HBso HBsl HBdo Hb Hbo Hol. map_solve.
    + change (wraps (upd_ref _ _ _)) with (wraps s). clear - HWd HWs. map_solve.
    + done.
    + clear. map_solve.
    + clear. map_solve.
Qed.

Lemma node_assignable : Assignable (nodeTP_step Sh T) (node_cls Sh K) (node_asg Sh K).
Proof.
  split.
  - intros t l b d B W c o bo x Bo Wo s Hc HM H1 H2 DB DW Hen.
    assert (G := node_ho_asg Sh T K HO HF HA t l b d B W o bo x Bo Wo s HM H1 H2 DB DW Hen).
    by destruct c.
  - exact node_as_move.
  - intros t l b d B W c s [d' []].
Qed.
End node.

Section other.
Context {E : Env}.
Implicit Types s : store E.

Lemma flat_assignable (HC : assigns_const E) : Assignable (flatTP E) (flat_cls E) (flat_asg E).
Proof.
  assert (Hupd : forall s0 l b t v0 v', blocks s0 !! l = Some b -> b_obj b = OLive t v0 ->
      blocks (upd_ref (E := E) (RBlk l) v' s0) = <[l := set_obj (OLive t v') b]> (blocks s0)).
  { intros s0 l b t v0 v' Hb Hobj. cbn. rewrite (alter_put _ _ l b) by done. by rewrite Hobj. }
  split.
  - intros t l b d B W c o bo x Bo Wo s Hc HM [(v0 & Hobj & (-> & -> & ->)) Hb _ _] [(v & Hobjo & (-> & -> & ->)) Hbo _ _] DB _ _.
    assert (Hol : o <> l). { intros ->. destruct (dis_at _ _ l DB) as [HX|HX]; by rewrite lookup_insert in HX. }
    cbn [flatTP tp_asgn act_thr run exec deref]. rewrite Hb, Hobj. rewrite bool_decide_eq_true_2 by done. cbn [negb asgn_vals].
    rewrite bool_decide_eq_false_2 by congruence. cbn [deref]. rewrite Hbo, Hobjo.
    assert (Hsrc : forall s0 v1, blocks s0 = blocks s -> (c = NonConstL -> v1 = x) ->
       blocks (upd_src (ARef c (RBlk o)) v1 s0) = blocks s /\ wraps (upd_src (ARef c (RBlk o)) v1 s0) = wraps s0 /\
       exts (upd_src (ARef c (RBlk o)) v1 s0) = exts s0).
    { intros s0 v1 Hs0 Hv1. destruct c; [done| |done]. cbn. split_and!; [|done|done]. rewrite Hs0. apply map_eq. intros i.
      destruct (decide (o = i)) as [<-|Hne]; [|by rewrite lookup_alter_ne].
      rewrite lookup_alter, Hbo. cbn. rewrite Hv1, Hobjo by done. do 2 f_equal. destruct bo. cbn in *. by subst. }
    destruct (t_asgn E c t t d x) as [d1 d2] eqn:Hd. destruct (t_asgn_fail E c t t d x) as [df df2] eqn:Hdf.
    destruct (pop_eq s) as (r & orc' & -> & _). destruct r as [h|e].
    + destruct (Hsrc (set_orc orc' s) d2) as (S1 & S2 & S3); [done| |].
      { intros ->. destruct (HC t d x) as [H1 _]. by rewrite Hd in H1. }
      exists d1, (set_obj (OLive t d1) b), ∅, ∅. split; [exists c; by rewrite Hd|]. split; [by eexists|].
      split; cbn [log blocks wraps exts]; [erewrite Hupd; [rewrite S1|by rewrite S1|done]; clear; map_solve| | |clear; map_solve|clear; map_solve].
      * change (wraps (upd_ref _ _ ?q)) with (wraps q). rewrite S2. change (wraps (set_orc orc' s)) with (wraps s). clear. map_solve.
      * change (exts (upd_ref (RBlk l) _ ?q)) with (exts q). by rewrite S3.
    + destruct (Hsrc (set_orc orc' s) df2) as (S1 & S2 & S3); [done| |].
      { intros ->. destruct (HC t d x) as [_ H1]. by rewrite Hdf in H1. }
      exists df, (set_obj (OLive t df) b), ∅, ∅. split; [exists c; by rewrite Hdf|]. split; [by eexists|].
      split; cbn [log blocks wraps exts]; [erewrite Hupd; [rewrite S1|by rewrite S1|done]; clear; map_solve| | |clear; map_solve|clear; map_solve].
      * change (wraps (upd_ref _ _ ?q)) with (wraps q). rewrite S2. change (wraps (set_orc orc' s)) with (wraps s). clear. map_solve.
      * change (exts (upd_ref (RBlk l) _ ?q)) with (exts q). by rewrite S3.
  - intros t l b d B W o bo x Bo Wo s HM [(v0 & Hobj & (-> & -> & ->)) Hb _ _] [(v & Hobjo & (-> & -> & ->)) Hbo _ _] DB _ _ _.
    assert (Hol : o <> l). { intros ->. destruct (dis_at _ _ l DB) as [HX|HX]; by rewrite lookup_insert in HX. }
    cbn [flatTP tp_asgn act_thr run exec deref]. rewrite Hb, Hobj. rewrite bool_decide_eq_true_2 by done. cbn [negb asgn_vals].
    rewrite bool_decide_eq_false_2 by congruence. cbn [deref]. rewrite Hbo, Hobjo.
    assert (Hupd2 : forall s0 w1 w2, blocks s0 = blocks s ->
      blocks (upd_ref (RBlk l) w1 (upd_ref (RBlk o) w2 s0)) = <[l := set_obj (OLive t w1) b]> (<[o := set_obj (OLive t w2) bo]> (blocks s))).
    { intros s0 w1 w2 Hs0. assert (H1 : blocks (upd_ref (RBlk o) w2 s0) = <[o := set_obj (OLive t w2) bo]> (blocks s)).
      { rewrite (Hupd s0 o bo t x w2) by (by rewrite ?Hs0). by rewrite Hs0. }
      rewrite (Hupd _ l b t d w1); [by rewrite H1|by rewrite H1, lookup_insert_ne|done]. }
    destruct (t_asgn E RVal t t d x) as [d1 d2] eqn:Hd. destruct (t_asgn_fail E RVal t t d x) as [df df2] eqn:Hdf.
    destruct (pop_eq s) as (r & orc' & -> & _). destruct r as [h|e]; cbn [upd_src].
    + exists d1, (set_obj (OLive t d1) b), ∅, ∅, d2, (set_obj (OLive t d2) bo), ∅, ∅. split; [by cbn; rewrite Hd|].
      split; [by eexists|]. split; [by eexists|]. split; [clear - Hol; map_solve|]. split; [clear; map_solve|].
      split; cbn [log blocks wraps exts]; [rewrite Hupd2 by done; clear - Hol; map_solve| |done|clear; map_solve|clear; map_solve].
      change (wraps (upd_ref _ _ _)) with (wraps s). clear. map_solve.
    + exists df, (set_obj (OLive t df) b), ∅, ∅, df2, (set_obj (OLive t df2) bo), ∅, ∅. split; [by cbn; rewrite Hdf|].
      split; [by eexists|]. split; [by eexists|]. split; [clear - Hol; map_solve|]. split; [clear; map_solve|].
      split; cbn [log blocks wraps exts]; [rewrite Hupd2 by done; clear - Hol; map_solve| |done|clear; map_solve|clear; map_solve].
      change (wraps (upd_ref _ _ _)) with (wraps s). clear. map_solve.
  - intros t l b d B W c s _ HM [(v0 & Hobj & (-> & -> & ->)) Hb _ _] _.
    cbn [flatTP tp_asgn act_thr run exec deref]. rewrite Hb, Hobj. rewrite bool_decide_eq_true_2 by done. cbn [negb asgn_vals].
    destruct (pop_eq s) as (r & orc' & -> & _). destruct r as [h|e]; cbn [upd_src].
    + eexists _, (set_obj (OLive t _) b), ∅, ∅. split; [reflexivity|]. split; [by eexists|].
      split; cbn [log blocks wraps exts]; [rewrite (Hupd _ l b t d) by done; change (blocks (set_orc orc' s)) with (blocks s); clear; map_solve| |done|clear; map_solve|clear; map_solve].
      change (wraps (upd_ref _ _ _)) with (wraps s). clear. map_solve.
    + eexists _, (set_obj (OLive t _) b), ∅, ∅. split; [reflexivity|]. split; [by eexists|].
      split; cbn [log blocks wraps exts]; [rewrite (Hupd _ l b t d) by done; change (blocks (set_orc orc' s)) with (blocks s); clear; map_solve| |done|clear; map_solve|clear; map_solve].
      change (wraps (upd_ref _ _ _)) with (wraps s). clear. map_solve.
Qed.

Lemma copy_only_assignable T (K : Cls E) (V : Asg K) : Assignable T K V -> Assignable (copy_onlyTP T) (copy_only_cls K) (copy_only_asg K V).
Proof.
  intros [H1 H2 H3]. split.
  - intros t l b d B W c o bo x Bo Wo s Hc HM Ho%object_as Ho2%object_as. exact (H1 t l b d B W c o bo x Bo Wo s Hc HM Ho Ho2).
  - intros t l b d B W o bo x Bo Wo s HM Ho%object_as Ho2%object_as. exact (H2 t l b d B W o bo x Bo Wo s HM Ho Ho2).
  - intros t l b d B W c s Hc HM Ho%object_as. exact (H3 t l b d B W c s Hc HM Ho).
Qed.

(** A class whose only assignment operator is that from const lvalues. *)
Lemma plain_assignable T (K : Cls E) : Honest T K ->
  (forall t l c o s, run (tp_asgn T t l (ARef c (RBlk o))) s = run (tp_asgn T t l (ARef ConstL (RBlk o))) s) -> Assignable T K (plain_asg K).
Proof.
  intros HO Heq. split.
  - intros t l b d B W c o bo x Bo Wo s Hc HM H1 H2 DB DW Hen. rewrite Heq.
    exact (ho_asg T K HO t l b d B W o bo x Bo Wo s HM H1 H2 DB DW Hen).
  - intros t l b d B W o bo x Bo Wo s HM H1 H2 DB DW Hen _. rewrite Heq.
    assert (G := ho_asg T K HO t l b d B W o bo x Bo Wo s HM H1 H2 DB DW Hen).
    destruct H2 as [(v & Ho & Hrep) Hbo HB HW], H1 as [_ Hb HBl HWl].
    assert (Hf : filled K o bo bo t x Bo Wo) by (exists v; split; [destruct bo; cbn in *; by subst|done]).
    assert (Hput : forall (P : c_val K -> Prop) s', target K P t l b B W s s' -> both K (fun d' y => P d' /\ y = x) t l b B W o bo Bo Wo s s').
    { intros P s' (d' & b' & B' & W' & HP & Hf' & [C1 C2 C3 C4 C5]).
      exists d', b', B', W', x, bo, Bo, Wo. split; [done|]. split; [done|]. split; [done|].
      assert (D1 : <[l:=b']> B' ##ₘ <[o:=bo]> Bo) by (clear - C4 HB Hbo DB; map_solve).
      assert (D2 : W' ##ₘ Wo) by (clear - C5 HW DW; map_solve).
      split; [done|]. split; [done|]. split; [rewrite C1|rewrite C2|done| |].
      - clear - D1 DB HB Hbo. map_solve.
      - clear - D2 DW HW. map_solve.
      - clear - C4. map_solve.
      - clear - C5. map_solve. }
    destruct (run (tp_asgn _ _ _ _) s) as [u s'|e s'| |]; [| |done|done]; by apply Hput.
  - intros t l b d B W c s [d' []].
Qed.

Lemma handle_assignable T (K : Cls E) h0 t0 : AllocReq E -> (forall a, a_eqb E a a = true) -> Honest T K -> pocs E = true ->
  Assignable (handleTP h0 t0 T) (handle_cls h0 t0 K) (plain_asg (handle_cls h0 t0 K)).
Proof. intros HA Hrefl HO Hp. apply plain_assignable; [by apply handle_honest|]. intros t l c o s. reflexivity. Qed.

(** The class [zero]. *)
Lemma object_zero h0 t0 (K : Cls E) s l b t x B W : object (zero_cls h0 t0 K) s l b t x B W -> object (node_cls (handle_shape h0) K) s l b t x B W.
Proof. intros [H1 H2 H3 H4]. by split. Qed.
Lemma zero_honest T (K : Cls E) h0 t0 : AllocReq E -> (forall a, a_eqb E a a = true) -> Honest T K -> Honest (zeroTP h0 t0 T) (zero_cls h0 t0 K).
Proof.
  intros HA Hrefl HO.
  destruct (node_honest (handle_shape h0) T K HO (handle_shape_ok h0) (handle_fixed h0) HA Hrefl) as [N1 N2 N3 N4 N5 N6].
  split.
  - exact N1.
  - exact (handle_make T K HO h0 t0).
  - intros a t l b c o bo x B W s Hc HM Hst Hob%object_zero. exact (N3 a t l b c o bo x B W s Hc HM Hst Hob).
  - intros a t l b o bo x B W s HM Hst Hob%object_zero. exact (N4 a t l b o bo x B W s HM Hst Hob).
  - intros a t l b x B W s Hob%object_zero. exact (N5 a t l b x B W s Hob).
  - intros t l b d B W o bo x Bo Wo s HM H1%object_zero H2%object_zero. exact (N6 t l b d B W o bo x Bo Wo s HM H1 H2).
Qed.
Lemma zero_assignable T (K : Cls E) h0 t0 : AllocReq E -> (forall a, a_eqb E a a = true) -> Honest T K ->
  Assignable (zeroTP h0 t0 T) (zero_cls h0 t0 K) (zero_asg h0 t0 K).
Proof.
  intros HA Hrefl HO.
  destruct (node_assignable (handle_shape h0) T K HO (handle_fixed h0) HA) as [N1 N2 N3].
  split.
  - intros t l b d B W c o bo x Bo Wo s Hc HM H1%object_zero H2%object_zero. exact (N1 t l b d B W c o bo x Bo Wo s Hc HM H1 H2).
  - intros t l b d B W o bo x Bo Wo s HM H1%object_zero H2%object_zero. exact (N2 t l b d B W o bo x Bo Wo s HM H1 H2).
  - intros t l b d B W c s [d' []].
Qed.
End other.
