(** * Classes constructed with their owner's allocator may be shared by threads: proofs. *)

From stdpp Require Import base gmap list.
From Verif Require Import Lang Common Client Spec Rep RunLemmas Headers Hist Tree TreeProps TreeAssign TreeMove Conc ConcStatic.
From Verif Require Import Contract ContractProps ContractOps ContractMove ContractNode ContractClient ContractUser ContractTidy ContractTidyProps ContractTidyNode.
From Verif Require Import ContractConc ContractConcNode ContractConcJoin ContractConcUser Arena ArenaProps.

Section scoped.
Context {E : Env} (Sh : Shape E) (s_arg : Passing E) (T : TP E) (K : Cls E) (HO : Honest T K) (HT : Tidy T K).
Context (HS : ShapeReq Sh) (HF : Fixed Sh) (HA : AllocReq E) (Hrefl : forall a, a_eqb E a a = true).
Context (HP : forall t i, k_hdr Sh t i = HPoly14 -> pocca E = false).
Implicit Types s : store E.
Notation wrapped := (wrapped K).
Notation wrapper_at := (wrapper_at K).
Notation members := (members K).
Notation SK := (scoped_cls Sh s_arg K).
Notation closed := ContractTidyProps.closed.

(** ** Copying and making *)
Definition tidies l (mk : nat -> prog E unit) (j : nat) s : Prop :=
  forall s1, blocks s ⊆ blocks s1 -> wraps s ⊆ wraps s1 -> mem_ok s1 -> wraps s1 !! WMem l j = None -> tidy (mk j) s1.

Lemma tidy_create_members hs l mk P n i s :
  mem_ok s -> is_Some (blocks s !! l) -> (forall j, i <= j -> wraps s !! WMem l j = None) ->
  (forall j, i <= j < i + n -> creates K hs l mk P j s /\ tidies l mk j s) ->
  tidy (make_members mk (fun j => i_dtor (hdr_impl (hs j) T) (WMem l j)) i n) s.
Proof.
  revert i s. induction n as [|n IH]; intros i s HM Hl Hfree Hmk; [done|]. cbn [make_members].
  destruct (Hmk i ltac:(lia)) as [C1 T1].
  specialize (C1 s (reflexivity _) (reflexivity _) HM (Hfree i (le_n i))). specialize (T1 s (reflexivity _) (reflexivity _) HM (Hfree i (le_n i))).
  apply tidy_bind; [done|]. intros u s1 R1. rewrite R1 in C1. destruct C1 as (k & B1 & W1 & Hk & Hw1 & A1).
  assert (Hen0 : enclosedW s (WMem l i) ∅ ∅) by (intros l' i' [? Hx]; by rewrite lookup_empty in Hx).
  assert (Hhi : home s (WMem l i)) by done.
  assert (Sb : blocks s ⊆ blocks s1).
  { rewrite (ch_b _ _ _ _ _ _ A1). assert (D := ch_db _ _ _ _ _ _ A1). clear - D. map_solve. }
  assert (Sw : wraps s ⊆ wraps s1).
  { rewrite (ch_w _ _ _ _ _ _ A1). assert (D := ch_dw _ _ _ _ _ _ A1). clear - D. map_solve. }
  assert (HBl : B1 !! l = None).
  { destruct Hl as [b' Hb']. assert (D := ch_db _ _ _ _ _ _ A1). apply (fun Q => dis_at _ _ l Q) in D.
    rewrite lookup_diff, lookup_empty in D. destruct D; congruence. }
  assert (Q1 : mem_ok s1) by exact (changed_mem_ok T K HO _ _ _ _ _ _ _ _ _ HM Hhi Hen0 A1 Hw1).
  assert (Q2 : is_Some (blocks s1 !! l)) by (by eapply changed_home; eauto).
  assert (Q3 : forall j, S i <= j -> wraps s1 !! WMem l j = None).
  { intros j Hj. rewrite (ch_w _ _ _ _ _ _ A1), lookup_un, lookup_diff, lookup_empty. destruct (W1 !! WMem l j) eqn:Hj'; [|apply Hfree; lia].
    exfalso. destruct (wr_dom T K HO _ _ _ _ _ Hw1 (WMem l j)) as [Heq|(l' & i' & Heq & [b Hb])]; [by eexists| |].
    - simplify_eq. lia.
    - simplify_eq. }
  assert (Q4 : forall j, S i <= j < S i + n -> creates K hs l mk P j s1 /\ tidies l mk j s1).
  { intros j Hj. destruct (Hmk j ltac:(lia)) as [C T2]. split; intros s2 S1 S2; [apply C|apply T2]; by etrans. }
  apply tidy_catch; [by apply IH|]. intros e s2 R2.
  assert (G := create_members_g T K HO hs l mk P n (S i) s1 Q1 Q2 Q3 (fun j Hj => proj1 (Q4 j Hj))). rewrite R2 in G. destruct G as [I1 I2 I3].
  apply tidy_bind; [|by simpl].
  assert (Hcl : closed s1 B1 W1).
  { eapply (closed_after s s1 ∅ ∅); [done| |done]. intros l' i' [? Hx]. by rewrite lookup_empty in Hx. }
  eapply (tidy_dtor T K HO HT).
  - split; [done|rewrite I1, (ch_b _ _ _ _ _ _ A1); clear; map_solve|rewrite I2, (ch_w _ _ _ _ _ _ A1); clear; map_solve].
  - apply enclosedW_closed. split; [|by intros l' i' [= <- <-]]. intros l' i' Hl' Hi'. rewrite I2 in Hi'. by apply Hcl.
Qed.

Lemma scoped_td_copy a t l b c o bo x B W s :
  c <> RVal -> mem_ok s -> storage s l b t -> object SK s o bo t x B W -> B !! l = None ->
  tidy (tp_cons (scopedTP_step Sh s_arg T) a t l (ARef c (RBlk o))) s.
Proof.
  intros Hc HM [Hb Hraw Hst Hmem] [(v & Hobj & (-> & Hlen & Hbo' & Hm)) Hbo HB HW] HBl.
  assert (R0 : tp_cons (scopedTP_step Sh s_arg T) a t l (ARef c (RBlk o)) =
    node_cons Sh a t l (ARef ConstL (RBlk o))
           (fun i => i_copy_a (hdr_impl (k_hdr Sh t i) T) (WMem l i) a (WMem o i))
           (fun i => i_dtor (hdr_impl (k_hdr Sh t i) T) (WMem l i))) by (destruct c; done).
  rewrite R0. clear R0. unfold node_cons.
  apply tidy_bind; [apply plain_tidy; by simpl; split; [done|intros []]|]. intros u s1 R1. apply touch_cons in R1.
  apply tidy_bind; [by apply plain_tidy|]. intros ob s1' R'. pose proof (run_readobj _ _ _ _ R'); subst s1'. clear R'.
  replace (n_kids Sh t ob.2) with (length x.2) by (rewrite Hlen; apply HF).
  apply tidy_catch; [|intros ? ? ?; by apply plain_tidy].
  assert (HB1 : B ⊆ blocks s1) by (eapply touch_sub; [done..|]; by intros l' [[]| ->]).
  assert (HW1 : W ⊆ wraps s1) by (by rewrite (proj1 R1)).
  assert (Hl1 : is_Some (blocks s1 !! l)) by (apply R1; by eexists).
  apply (tidy_create_members _ _ _ (fun j k' => exists k, x.2 !! j = Some k /\ copied K a k k')); [by eapply touch_mem_ok|done| |].
  - intros j _. rewrite (proj1 R1). apply Hmem.
  - intros j Hj. destruct (lookup_lt_is_Some_2 x.2 j) as [k Hk]; [lia|].
    assert (Hat : forall s2, blocks s1 ⊆ blocks s2 -> wraps s1 ⊆ wraps s2 -> exists B1 W1, wrapper_at s2 (k_hdr Sh t j) (WMem o j) k B1 W1).
    { intros s2 S1 S2. destruct (members_at K _ _ _ _ _ _ s2 j k Hm) as (B1 & W1 & Hat); [by etrans|by etrans|done|]. by exists B1, W1. }
    assert (Hh : forall s2, blocks s1 ⊆ blocks s2 -> home s2 (WMem l j)).
    { intros s2 S1. destruct Hl1 as [b1 Hb1]. exists b1. by eapply lookup_weaken. }
    split; intros s2 S1 S2 HM2 Hf; destruct (Hat s2 S1 S2) as (B1 & W1 & Ha).
    + assert (C := copya_g T K HO (k_hdr Sh t j) (WMem l j) a (WMem o j) k B1 W1 s2 HM2 (Hh s2 S1) Hf Ha).
      cbn beta. destruct (run (i_copy_a _ _ _ _) s2); [|done|done|done].
      destruct C as (k' & B' & W' & C1 & C2 & C3). exists k', B', W'. split; [by exists k|done].
    + eapply (tidy_copya T K HO HT); [done|by apply Hh|done].
Qed.

Lemma scoped_td_make a t l b c s :
  (exists x, c_make SK t a c x) -> mem_ok s -> storage s l b t -> tidy (tp_cons (scopedTP_step Sh s_arg T) a t l (AArgs c)) s.
Proof.
  intros ([v0 ks0] & Hv0 & Hlen0 & Hmk0) HM [Hb Hraw Hst Hmem]. cbn [fst snd] in *. cbn [scopedTP_step tp_cons]. unfold node_cons.
  apply tidy_bind; [apply plain_tidy; by simpl; split; [done|intros []]|]. intros u s1 R1. apply touch_cons in R1.
  apply tidy_bind; [by apply plain_tidy|]. intros ob s1' R'. pose proof (run_readobj _ _ _ _ R'); subst s1'. clear R'.
  replace (n_kids Sh t ob.2) with (length ks0) by (rewrite Hlen0; apply HF).
  apply tidy_catch; [|intros ? ? ?; by apply plain_tidy].
  assert (Hl1 : is_Some (blocks s1 !! l)) by (apply R1; by eexists).
  apply (tidy_create_members _ _ _ (fun j k => True)); [by eapply touch_mem_ok|done| |].
  - intros j _. rewrite (proj1 R1). apply Hmem.
  - intros j Hj. destruct (lookup_lt_is_Some_2 ks0 j) as [k Hk]; [lia|].
    assert (Hex := made_all_at _ _ _ _ _ _ _ _ _ _ Hmk0 Hk). cbn [Nat.add] in Hex.
    assert (Hh : forall s2, blocks s1 ⊆ blocks s2 -> home s2 (WMem l j)).
    { intros s2 S1. destruct Hl1 as [b1 Hb1]. exists b1. by eapply lookup_weaken. }
    split; intros s2 S1 S2 HM2 Hf.
    + assert (C := make_g T K HO (k_hdr Sh t j) (WMem l j) a (s_arg t c j).1 (s_arg t c j).2 s2 Hex HM2 (Hh s2 S1) Hf).
      cbn beta. destruct (run (i_inplace_a _ _ _ _ _) s2); [|done|done|done].
      destruct C as (v & B' & W' & C1 & C2 & C3). eexists _, B', W'. split; [done|]. by split.
    + apply (tidy_make T K HO HT); [done|done|by apply Hh].
Qed.

(** ** Moving *)
Lemma tidy_movea_members hs o l a i ks B W s :
  (forall j, hs j = HPoly14 -> pocca E = false) ->
  mem_ok s -> is_Some (blocks s !! l) -> is_Some (blocks s !! o) -> B !! l = None -> B !! o = None ->
  (forall j, i <= j -> wraps s !! WMem l j = None) ->
  members hs (WMem o) i ks B W -> B ⊆ blocks s -> W ⊆ wraps s -> closed s B W ->
  tidy (make_members (fun j => i_move_a (hdr_impl (hs j) T) (WMem l j) a (WMem o j))
                      (fun j => i_dtor (hdr_impl (hs j) T) (WMem l j)) i (length ks)) s.
Proof.
  intros HPh. revert i B W s. induction ks as [|k ks IH]; intros i B W s HM Hl Ho HBl HBo Hfree Hm HB HW Hcl; [done|].
  destruct Hm as (B1 & W1 & B2 & W2 & -> & -> & DB & DW & H1 & H2).
  cbn [length make_members].
  assert (HB1 : B1 ⊆ blocks s) by (clear - HB; map_solve).
  assert (HW1 : W1 ⊆ wraps s) by (clear - HW; map_solve).
  assert (HB2 : B2 ⊆ blocks s) by (clear - HB DB; map_solve).
  assert (HW2 : W2 ⊆ wraps s) by (clear - HW DW; map_solve).
  assert (HB1l : B1 !! l = None /\ B2 !! l = None) by (rewrite lookup_un in HBl; destruct (B1 !! l), (B2 !! l); done).
  destruct HB1l as [HB1l HB2l].
  destruct (split_closed T K HO _ _ _ _ _ _ _ _ _ _ H1 H2 DB HBo Hcl) as (Hen1 & Hcl2 & HB1o & HB2o).
  assert (Hout : outside (E := E) (WMem l i) B1) by (intros l' i' Heq; by simplify_eq).
  apply tidy_bind; [by eapply (tidy_movea T K HO HT)|]. intros u s1 R1.
  assert (C1 := movea_g T K HO HA (hs i) (WMem l i) a (WMem o i) k B1 W1 s HM Hl (Hfree i (le_n i)) Hout).
  feed specialize C1; [by split|done|by apply steals_res, HPh|]. rewrite R1 in C1.
  destruct C1 as (k' & Bx & Wx & ky & By & Wy & Hmv & Hwx & Hwy & Dxy & Dwxy & A1). rewrite !(left_id_L ∅ (∪)) in A1.
  assert (Dx : Bx ∪ By ##ₘ blocks s ∖ B1) by apply A1. assert (Dw : Wx ∪ Wy ##ₘ wraps s ∖ W1) by apply A1.
  assert (Hlo : forall z, is_Some (blocks s !! z) -> B1 !! z = None -> Bx !! z = None /\ By !! z = None).
  { intros z [bz Hz] Hz1. destruct (dis_at _ _ z Dx) as [Hx|Hx].
    - rewrite lookup_un in Hx. by destruct (Bx !! z), (By !! z).
    - rewrite lookup_diff, Hz1 in Hx. congruence. }
  destruct (Hlo l Hl HB1l) as [Hxl Hyl], (Hlo o Ho HB1o) as [Hxo Hyo].
  assert (Hdom1 : forall l' i', is_Some ((Wx ∪ Wy) !! WMem l' i') ->
     (l' = l /\ i' = i) \/ (l' = o /\ i' = i) \/ is_Some ((Bx ∪ By) !! l')).
  { intros l' i' [q Hq]. rewrite lookup_un in Hq. rewrite (lookup_un Bx). destruct (Wx !! WMem l' i') eqn:HX.
    - destruct (wr_dom T K HO _ _ _ _ _ Hwx (WMem l' i')) as [Heq|(l2 & i2 & Heq & [b2 Hb2])]; [by eexists|simplify_eq; auto|].
      simplify_eq. right; right. rewrite Hb2. by eexists.
    - destruct (wr_dom T K HO _ _ _ _ _ Hwy (WMem l' i')) as [Heq|(l2 & i2 & Heq & [b2 Hb2])]; [by eexists|simplify_eq; auto|].
      simplify_eq. right; right. rewrite Hb2. destruct (Bx !! l2); by eexists. }
  assert (HM1 : mem_ok s1).
  { eapply changed_mem_ok'; [exact A1|done| |].
    - intros l' i' Hl' Hi'. by apply Hen1.
    - intros l' i' Hi'. destruct (Hdom1 l' i' Hi') as [[-> _]|[[-> _]|]]; auto. }
  assert (Q1 : is_Some (blocks s1 !! l)) by (by eapply changed_home; eauto).
  assert (Q2 : is_Some (blocks s1 !! o)) by (by eapply changed_home; eauto).
  assert (Q3 : forall j, S i <= j -> wraps s1 !! WMem l j = None).
  { intros j Hj. rewrite (ch_w _ _ _ _ _ _ A1), lookup_un, lookup_diff, (Hfree j) by lia.
    destruct ((Wx ∪ Wy) !! WMem l j) eqn:Hj'; [|by destruct (W1 !! _)]. exfalso.
    destruct (Hdom1 l j) as [[_ ->]|[[-> ->]|[b' Hb']]]; [by eexists|lia|lia|]. rewrite lookup_un, Hxl, Hyl in Hb'. done. }
  assert (Q4 : B2 ⊆ blocks s1) by (rewrite (ch_b _ _ _ _ _ _ A1); clear - Dx HB2 DB; map_solve).
  assert (Q5 : W2 ⊆ wraps s1) by (rewrite (ch_w _ _ _ _ _ _ A1); clear - Dw HW2 DW; map_solve).
  assert (Q6 : closed s1 B2 W2).
  { eapply closed_frame; [exact A1|done|clear - DB; map_solve|done|]. intros l' i' Hi'.
    destruct (Hdom1 l' i' Hi') as [[-> _]|[[-> _]|]]; auto. }
  apply tidy_catch; [by apply (IH (S i) B2 W2 s1)|]. intros e s2 R2.
  assert (G := movea_members_g T K HO HA hs o l a (S i) ks B2 W2 s1 HPh HM1 Q1 Q2 HB2l HB2o Q3 H2 Q4 Q5 Q6). rewrite R2 in G.
  destruct G as (ys & B'' & W'' & Hup & Hm'' & A2).
  destruct (changed_trans s s1 s2 B1 W1 (Bx ∪ By) (Wx ∪ Wy) B2 W2 B'' W'' A1 A2) as (A3 & D3 & D4); [done..|].
  apply tidy_bind; [|by simpl].
  assert (Hd2 : forall l' i', is_Some (W'' !! WMem l' i') -> l' = o \/ is_Some (B'' !! l')).
  { intros l' i' Hi'. destruct (members_dom T K HO _ _ _ _ _ _ Hm'' _ Hi') as [(j & _ & Heq)|(l2 & j & Heq & Hb)]; simplify_eq; auto. }
  eapply (tidy_dtor T K HO HT).
  - split; [done|rewrite (ch_b _ _ _ _ _ _ A3); clear; map_solve|rewrite (ch_w _ _ _ _ _ _ A3); clear; map_solve].
  - apply enclosedW_closed. split; [|by intros l' i' [= <- <-]].
    assert (Hcx : closed s2 (Bx ∪ By ∪ B'') (Wx ∪ Wy ∪ W'')).
    { eapply closed_after; [exact HM|exact Hcl|exact A3]. }
    intros l' i' [bx Hbx] Hi'. destruct (Hcx l' i') as [q Hq]; [rewrite !lookup_un, Hbx; by eexists|done|].
    rewrite !lookup_un in Hq. destruct (Wx !! WMem l' i') eqn:HX; [by eexists|]. exfalso. destruct (Wy !! WMem l' i') eqn:HY.
    + destruct (wr_dom T K HO _ _ _ _ _ Hwy (WMem l' i')) as [Heq|(l2 & i2 & Heq & [b2 Hb2])]; [by eexists|simplify_eq; congruence|].
      simplify_eq. destruct (dis_at _ _ l2 Dxy); congruence.
    + destruct (Hd2 l' i') as [->|[b2 Hb2]]; [by eexists|congruence|].
      destruct (dis_at _ _ l' D3) as [HZ|]; [|congruence]. rewrite lookup_un, Hbx in HZ. done.
Qed.

Lemma scoped_td_move a t l b o bo x B W s :
  mem_ok s -> storage s l b t -> object SK s o bo t x B W -> B !! l = None -> enclosed s o B W ->
  tidy (tp_cons (scopedTP_step Sh s_arg T) a t l (ARef RVal (RBlk o))) s.
Proof.
  intros HM [Hb Hraw Hst Hmem] [(v & Hobj & (-> & Hlen & HBo & Hm)) Hbo HB HW] HBl Hen.
  cbn [scopedTP_step tp_cons]. unfold node_cons.
  apply tidy_bind; [apply plain_tidy; by simpl; split; [done|intros []]|]. intros u s1 R1. apply touch_cons in R1.
  apply tidy_bind; [by apply plain_tidy|]. intros ob s1' R'. pose proof (run_readobj _ _ _ _ R'); subst s1'. clear R'.
  replace (n_kids Sh t ob.2) with (length x.2) by (rewrite Hlen; apply HF).
  apply tidy_catch; [|intros ? ? ?; by apply plain_tidy].
  eapply (tidy_movea_members _ _ _ _ _ _ B W); [intros j; apply HP|by eapply touch_mem_ok|apply R1; by eexists|apply R1; by eexists|done|done| |exact Hm| |by rewrite (proj1 R1)|].
  - intros j _. rewrite (proj1 R1). apply Hmem.
  - eapply touch_sub; [done..|]. by intros l' [->| ->].
  - intros l' i Hl' Hi. rewrite (proj1 R1) in Hi. apply Hen; [by right|done].
Qed.

Lemma scoped_tidy : Tidy (scopedTP_step Sh s_arg T) SK.
Proof.
  destruct (node_tidy Sh T K HO HT HF HA Hrefl) as [N2 N3 N4 N5 N6].
  split; [exact scoped_td_make|exact scoped_td_copy|exact scoped_td_move| |].
  - intros a t l b x B W s Hob. exact (N5 a t l b x B W s (object_node _ _ _ _ _ _ _ _ _ _ Hob)).
  - intros t l b d B W o bo x Bo Wo s HM H1 H2.
    exact (N6 t l b d B W o bo x Bo Wo s HM (object_node _ _ _ _ _ _ _ _ _ _ H1) (object_node _ _ _ _ _ _ _ _ _ _ H2)).
Qed.
End scoped.

(** ** What they write *)
Section polite.
Context {E : Env} (rob : gset loc) (own : wl -> Prop) (ownx : nat -> Prop).
Context (Hmem : forall l i, l ∉ rob -> own (WMem l i)).
Lemma scoped_confined Sh s_arg T : tp_confined rob own ownx T -> tp_confined rob own ownx (scopedTP_step (E := E) Sh s_arg T).
Proof.
  intros HT.
  assert (Hun : forall h l i, l ∉ rob -> safe_w rob own ownx (i_dtor (hdr_impl h T) (WMem l i)) (fun _ => True)).
  { intros h l i Hl. apply safe_h_dtor; [done|by apply Hmem]. }
  destruct (node_confined rob own ownx Hmem (mkShape (n_kids Sh) (k_hdr Sh) (fun _ => [])) T) as [_ N2 N3]; [done|done|].
  split; [|exact N2|exact N3].
  intros a t l x Hl Hx. cbn [scopedTP_step tp_cons]. destruct x as [c|[] [o|n]]; try apply safe_stuck.
  - apply safe_node_cons; [done..| |auto]. intros j. apply safe_h_make; [done|by apply Hmem|done].
  - apply safe_node_cons; [done..| |auto]. intros j. apply safe_h_copy_a; [done|by apply Hmem].
  - apply safe_node_cons; [done..| |auto]. intros j. apply safe_h_copy_a; [done|by apply Hmem].
  - apply safe_node_cons; [done..| |auto]. intros j. apply safe_h_move_a; [done|by apply Hmem|by apply Hmem].
Qed.
End polite.

Section share.
Context {E : Env} (Sh : Shape E) (s_arg : Passing E).
Context (HS : ShapeReq Sh) (HF : Fixed Sh) (HA : AllocReq E) (Hrefl : forall a, a_eqb E a a = true).
Context (HP : forall t i, k_hdr Sh t i = HPoly14 -> pocca E = false).
Lemma scoped_shareable T K : Shareable (E := E) T K -> Shareable (scopedTP_step Sh s_arg T) (scoped_cls Sh s_arg K).
Proof.
  intros [H1 H2 H3 H4]. split; [by apply scoped_honest|by apply scoped_tidy| |exact (node_sealed Sh K H4)].
  intros rob own Hmem. by apply scoped_confined, H3.
Qed.
Lemma scoped_tower_shareable T K n : Shareable (E := E) T K -> Shareable (scopedTP Sh s_arg T n) (scoped_tower Sh s_arg K n).
Proof. intros H. induction n as [|n IH]; [done|]. by apply scoped_shareable. Qed.
End share.
