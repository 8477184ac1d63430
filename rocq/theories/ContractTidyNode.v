(** * Classes with wrapper members are tidy if the members' value type is. *)

From stdpp Require Import base gmap list.
From Verif Require Import Lang Common Client Spec Rep RunLemmas Headers Hist Tree TreeProps TreeAssign TreeAssignC TreeMove TreeMoveAssign.
From Verif Require Import Contract ContractProps ContractOps ContractMove ContractNode ContractUser ContractUserProps ContractTidy ContractTidyProps.

(** Steps that change only the objects in the blocks [P]. *)
Section touch.
Context {E : Env}.
Implicit Types s : store E.

Definition touch (P : loc -> Prop) s s1 : Prop :=
  wraps s1 = wraps s /\ (forall l, ~ P l -> blocks s1 !! l = blocks s !! l) /\
  (forall l, is_Some (blocks s1 !! l) <-> is_Some (blocks s !! l)).

Lemma alter_some {X} (f : X -> X) (m : gmap loc X) o l : is_Some (alter f o m !! l) <-> is_Some (m !! l).
Proof. destruct (decide (o = l)) as [<-|Hne]; [by rewrite lookup_alter, fmap_is_Some|by rewrite lookup_alter_ne]. Qed.

Lemma touch_sub P s s1 B : touch P s s1 -> B ⊆ blocks s -> (forall l, P l -> B !! l = None) -> B ⊆ blocks s1.
Proof.
  intros (_ & H & _) HB HP. apply map_subseteq_spec. intros l b Hb. rewrite H; [by eapply lookup_weaken|].
  intros Hl. rewrite HP in Hb; done.
Qed.
Lemma touch_mem_ok P s s1 : touch P s s1 -> mem_ok s -> mem_ok s1.
Proof. intros (H1 & _ & H2) HM l i Hi. rewrite H1 in Hi. apply H2. by apply (HM l i). Qed.

Lemma touch_src x v s : touch (fun l => match x with ARef ConstL _ => False | ARef _ (RBlk o) => l = o | _ => False end) s (upd_src (E := E) x v s).
Proof.
  assert (Hid : forall P, touch P s s) by (by intros P; split_and!).
  assert (Hr : forall o, touch (fun l => l = o) s (upd_ref (RBlk o) v s)).
  { intros o. split_and!; [done| |intros l; cbn; apply alter_some]. intros l Hl. cbn. by rewrite lookup_alter_ne by congruence. }
  destruct x as [c|[] []]; first [apply Hr|apply Hid].
Qed.

Lemma touch_weaken (P Q : loc -> Prop) s s1 : touch P s s1 -> (forall l, P l -> Q l) -> touch Q s s1.
Proof. intros (H1 & H2 & H3) HPQ. split_and!; [done| |done]. intros l Hl. apply H2. eauto. Qed.
Lemma touch_alter P s s1 f l : touch P s s1 -> touch (fun l' => P l' \/ l' = l) s (set_blocks (alter f l (blocks s1)) s1).
Proof.
  intros (H1 & H2 & H3). split_and!; [done| |].
  - intros l' Hl'. cbn. rewrite lookup_alter_ne by naive_solver. apply H2. naive_solver.
  - intros l'. cbn. by rewrite alter_some.
Qed.

Lemma touch_cons a t l x s u s1 : run (act_thr (PCons (E := E) a t l x)) s = ORet u s1 ->
  touch (fun l' => match x with ARef ConstL _ => False | ARef _ (RBlk o) => l' = o | _ => False end \/ l' = l) s s1.
Proof.
  cbn [act_thr run exec]. destruct (blocks s !! l) as [b|]; [|done]. destruct (negb _); [done|].
  destruct (b_obj b); [|done..]. destruct (cons_vals a t x s) as [|[[v v1] v2]]; [done|].
  destruct (pop_eq s) as (r & orc' & -> & _). destruct r as [h|e]; cbn [run]; [|done]. intros [= _ <-].
  exact (touch_alter _ s _ _ l (touch_src x v1 (set_orc orc' s))).
Qed.
Lemma touch_asgn t l o s u s1 : run (act_thr (PAsgn (E := E) t l (ARef ConstL (RBlk o)))) s = ORet u s1 ->
  touch (fun l' => l' = l) s s1.
Proof.
  cbn [act_thr run exec]. destruct (deref (RBlk l) s) as [|[t0 v0]]; [done|]. destruct (negb _); [done|].
  destruct (asgn_vals _ _ _ _ _) as [|[[d v] [df vf]]]; [done|].
  destruct (pop_eq s) as (r & orc' & -> & _). destruct r as [h|e]; cbn [run]; [|done]. intros [= _ <-].
  cbn [upd_src]. split_and!; [done| |intros l'; cbn; apply alter_some]. intros l' Hl'. cbn. by rewrite lookup_alter_ne by congruence.
Qed.
Lemma touch_begin a t l s u s1 : run (act (PBeginDestroy (E := E) a t l)) s = ORet u s1 -> touch (fun l' => l' = l) s s1.
Proof.
  cbn [act run exec]. destruct (blocks s !! l) as [b|] eqn:Hb; [|done]. destruct (b_obj b); [done| |done].
  destruct (bool_decide _); [|done]. cbn [run]. intros [= _ <-]. split_and!; [done| |].
  - intros l' Hl'. cbn. by rewrite lookup_insert_ne by congruence.
  - intros l'. cbn. destruct (decide (l = l')) as [<-|]; [rewrite lookup_insert, Hb; split; by eexists|by rewrite lookup_insert_ne].
Qed.
Lemma run_readobj l s o s1 : run (act (PReadObj (E := E) (RBlk l))) s = ORet o s1 -> s1 = s.
Proof. cbn [act run exec]. destruct (deref _ s) as [|]; [done|]. cbn. congruence. Qed.
End touch.

Section node.
Context {E : Env} (Sh : Shape E) (T : TP E) (K : Cls E) (HO : Honest T K) (HT : Tidy T K).
Context (HS : ShapeReq Sh) (HF : Fixed Sh) (HA : AllocReq E) (Hrefl : forall a, a_eqb E a a = true).
Implicit Types s : store E.
Notation wrapped := (wrapped K).
Notation wrapper_at := (wrapper_at K).
Notation members := (members K).

Lemma split_closed hs l i k ks B1 W1 B2 W2 s :
  wrapped (hs i) (WMem l i) k B1 W1 -> members hs (WMem l) (S i) ks B2 W2 -> B1 ##ₘ B2 ->
  (B1 ∪ B2) !! l = None -> closed s (B1 ∪ B2) (W1 ∪ W2) ->
  enclosedW s (WMem l i) B1 W1 /\ closed s B2 W2 /\ B1 !! l = None /\ B2 !! l = None.
Proof.
  intros H1 H2 DB HBl Hen.
  assert (HBl12 : B1 !! l = None /\ B2 !! l = None).
  { rewrite lookup_un in HBl. destruct (B1 !! l); done. }
  destruct HBl12 as [HBl1 HBl2]. split; [|split; [|done]].
  - intros l' i' [b' Hb']. split; [congruence|]. intros Hi'.
    destruct (Hen l' i') as [q Hq]; [rewrite lookup_un, Hb'; by eexists|done|].
    rewrite lookup_un in Hq. destruct (W1 !! WMem l' i') eqn:HW1i; [by eexists|]. exfalso.
    destruct (members_dom T K HO _ _ _ _ _ _ H2 (WMem l' i')) as [(j & _ & Heq)|(l2 & j & Heq & [b2 Hb2])]; [by eexists| |].
    + congruence.
    + simplify_eq. destruct (dis_at _ _ l2 DB); congruence.
  - intros l' i' [b' Hb'] Hi'.
    destruct (Hen l' i') as [q Hq]; [rewrite lookup_un, Hb'; destruct (B1 !! l'); by eexists|done|].
    rewrite lookup_un in Hq. destruct (W1 !! WMem l' i') eqn:HW1i; [|by eexists]. exfalso.
    destruct (wr_dom T K HO _ _ _ _ _ H1 (WMem l' i')) as [Heq|(l2 & j & Heq & [b2 Hb2])]; [by eexists| |].
    + congruence.
    + simplify_eq. destruct (dis_at _ _ l2 DB); congruence.
Qed.

(** ** Destruction *)
Lemma tidy_destroy_members hs l i ks B W s :
  members hs (WMem l) i ks B W -> B ⊆ blocks s -> W ⊆ wraps s -> B !! l = None -> closed s B W ->
  tidy (destroy_members (fun j => i_dtor (hdr_impl (hs j) T) (WMem l j)) i (length ks)) s.
Proof.
  revert i B W s. induction ks as [|k ks IH]; intros i B W s Hm HB HW HBl Hcl; [done|].
  destruct Hm as (B1 & W1 & B2 & W2 & -> & -> & DB & DW & H1 & H2).
  destruct (split_closed _ _ _ _ _ _ _ _ _ _ H1 H2 DB HBl Hcl) as (Hen & Hcl2 & HBl1 & HBl2).
  assert (HB2 : B2 ⊆ blocks s) by (clear - HB DB; map_solve). assert (HW2 : W2 ⊆ wraps s) by (clear - HW DW; map_solve).
  cbn [length destroy_members]. apply tidy_bind; [by eapply IH|]. intros u s1 R.
  destruct (destroy_members_g T K HO hs (WMem l) (S i) ks B2 W2 s H2 HB2 HW2) as (s1' & R' & M). rewrite R' in R. simplify_eq.
  assert (Hat : wrapper_at s1 (hs i) (WMem l i) k B1 W1).
  { destruct M as [C1 C2 _ _ _]. split; [done|rewrite C1; clear - DB HB; map_solve|rewrite C2; clear - DW HW; map_solve]. }
  eapply (tidy_dtor T K HO HT); [done|]. apply enclosedW_closed in Hen as [Hcl1 Hout]. apply enclosedW_closed. split; [|done].
  eapply closed_frame; [done|clear - HB; map_solve|done|done|]. intros l' i' Hi. rewrite lookup_empty in Hi. by destruct Hi.
Qed.

Lemma node_td_destroy a t l b x B W s :
  object (node_cls Sh K) s l b t x B W -> enclosed s l B W -> tidy (tp_destroy (nodeTP_step Sh T) a t l) s.
Proof.
  intros [(v & Ho & (-> & Hlen & Hl & Hm)) Hb HB HW] Hen. cbn [nodeTP_step tp_destroy].
  apply tidy_bind; [by apply plain_tidy|]. intros o s0 R0. pose proof (run_readobj _ _ _ _ R0); subst s0. clear R0.
  apply tidy_bind; [by apply plain_tidy|]. intros [] s1 R1. apply touch_begin in R1.
  apply tidy_bind; [|intros ? ? ?; by apply plain_tidy].
  replace (n_kids Sh t o.2) with (length x.2) by (rewrite Hlen; apply HF).
  eapply tidy_destroy_members; [done| | |done|].
  - eapply touch_sub; [done..|]. by intros l' ->.
  - by rewrite (proj1 R1).
  - intros l' i Hl' Hi. rewrite (proj1 R1) in Hi. apply Hen; [by right|done].
Qed.

(** ** Copying *)
Lemma tidy_copy_members hs src l i ks B W s :
  mem_ok s -> is_Some (blocks s !! l) -> (forall j, i <= j -> wraps s !! WMem l j = None) ->
  members hs src i ks B W -> B ⊆ blocks s -> W ⊆ wraps s ->
  tidy (make_members (fun j => i_copy (hdr_impl (hs j) T) (WMem l j) (src j))
                      (fun j => i_dtor (hdr_impl (hs j) T) (WMem l j)) i (length ks)) s.
Proof.
  revert i B W s. induction ks as [|k ks IH]; intros i B W s HM Hl Hfree Hm HB HW; [done|].
  destruct Hm as (B1 & W1 & B2 & W2 & -> & -> & DB & DW & H1 & H2).
  cbn [length make_members].
  assert (Hhi : home s (WMem l i)) by done.
  assert (Hat : wrapper_at s (hs i) (src i) k B1 W1) by (split; [done|clear - HB; map_solve|clear - HW; map_solve]).
  apply tidy_bind; [by eapply (tidy_copy T K HO HT)|]. intros u s1 R1.
  assert (C1 := copy_g T K HO (hs i) (WMem l i) (src i) k B1 W1 s HM Hhi (Hfree i (le_n i)) Hat). rewrite R1 in C1.
  destruct C1 as (k' & B1' & W1' & Hck & Hw1 & A1).
  assert (Hen0 : enclosedW s (WMem l i) ∅ ∅) by (intros l' i' [? Hx]; by rewrite lookup_empty in Hx).
  assert (HB1'l : B1' !! l = None).
  { destruct Hl as [b' Hb']. assert (D := ch_db _ _ _ _ _ _ A1). apply (fun Q => dis_at _ _ l Q) in D.
    rewrite lookup_diff, lookup_empty in D. destruct D; congruence. }
  assert (Hs1 : mem_ok s1 /\ is_Some (blocks s1 !! l) /\ (forall j, S i <= j -> wraps s1 !! WMem l j = None) /\ B2 ⊆ blocks s1 /\ W2 ⊆ wraps s1).
  { split_and!.
    - exact (changed_mem_ok T K HO _ _ _ _ _ _ _ _ _ HM Hhi Hen0 A1 Hw1).
    - by eapply changed_home; eauto.
    - intros j Hj. rewrite (ch_w _ _ _ _ _ _ A1), lookup_un, lookup_diff, lookup_empty. destruct (W1' !! WMem l j) eqn:Hj'; [|apply Hfree; lia].
      exfalso. destruct (wr_dom T K HO _ _ _ _ _ Hw1 (WMem l j)) as [Heq|(l' & i' & Heq & [b Hb])]; [by eexists| |].
      + simplify_eq. lia.
      + simplify_eq.
    - rewrite (ch_b _ _ _ _ _ _ A1). assert (D := ch_db _ _ _ _ _ _ A1). clear - HB D DB. map_solve.
    - rewrite (ch_w _ _ _ _ _ _ A1). assert (D := ch_dw _ _ _ _ _ _ A1). clear - HW D DW. map_solve. }
  destruct Hs1 as (P1 & P2 & P3 & P4 & P5).
  apply tidy_catch; [by eapply IH|]. intros e s2 R2.
  assert (G := copy_members_g T K HO hs src l (S i) ks B2 W2 s1 P1 P2 P3 H2 P4 P5). rewrite R2 in G. destruct G as [I1 I2 I3].
  apply tidy_bind; [|by simpl].
  assert (Hcl : closed s1 B1' W1').
  { eapply (closed_after s s1 ∅ ∅); [done| |done]. intros l' i' [? Hx]. by rewrite lookup_empty in Hx. }
  eapply (tidy_dtor T K HO HT).
  - split; [done|rewrite I1, (ch_b _ _ _ _ _ _ A1); clear; map_solve|rewrite I2, (ch_w _ _ _ _ _ _ A1); clear; map_solve].
  - apply enclosedW_closed. split; [|by intros l' i' [= <- <-]]. intros l' i' Hl' Hi'. rewrite I2 in Hi'. by apply Hcl.
Qed.

Lemma node_td_copy a t l b c o bo x B W s :
  c <> RVal -> mem_ok s -> storage s l b t -> object (node_cls Sh K) s o bo t x B W -> B !! l = None ->
  tidy (tp_cons (nodeTP_step Sh T) a t l (ARef c (RBlk o))) s.
Proof.
  intros Hc HM [Hb Hraw Hst Hmem] [(v & Hobj & (-> & Hlen & Hbo' & Hm)) Hbo HB HW] HBl.
  assert (R0 : tp_cons (nodeTP_step Sh T) a t l (ARef c (RBlk o)) =
    node_cons Sh a t l (ARef ConstL (RBlk o))
           (fun i => i_copy (hdr_impl (k_hdr Sh t i) T) (WMem l i) (WMem o i))
           (fun i => i_dtor (hdr_impl (k_hdr Sh t i) T) (WMem l i))) by (destruct c; done).
  rewrite R0. clear R0. unfold node_cons.
  apply tidy_bind; [apply plain_tidy; by simpl; split; [done|intros []]|]. intros u s1 R1. apply touch_cons in R1.
  apply tidy_bind; [by apply plain_tidy|]. intros ob s1' R'. pose proof (run_readobj _ _ _ _ R'); subst s1'. clear R'.
  replace (n_kids Sh t ob.2) with (length x.2) by (rewrite Hlen; apply HF).
  apply tidy_catch; [|intros ? ? ?; by apply plain_tidy].
  eapply tidy_copy_members; [by eapply touch_mem_ok|apply R1; by eexists| |exact Hm| |by rewrite (proj1 R1)].
  - intros j _. rewrite (proj1 R1). apply Hmem.
  - eapply touch_sub; [done..|]. by intros l' [[]| ->].
Qed.

Lemma node_td_make a t l b c s :
  (exists x, c_make (node_cls Sh K) t a c x) -> mem_ok s -> storage s l b t -> tidy (tp_cons (nodeTP_step Sh T) a t l (AArgs c)) s.
Proof.
  intros (x & -> & Hn) HM Hst. cbn [fst] in Hn. cbn [nodeTP_step tp_cons]. unfold node_cons.
  apply tidy_bind; [apply plain_tidy; by simpl; split; [done|intros []]|]. intros u s1 R1.
  apply tidy_bind; [by apply plain_tidy|]. intros ob s1' R'. pose proof (run_readobj _ _ _ _ R'); subst s1'. clear R'.
  replace (n_kids Sh t ob.2) with 0; [done|]. rewrite <- Hn. apply HF.
Qed.

(** ** Moving *)
Lemma tidy_move_members hs src l i ks B W s un :
  is_Some (blocks s !! l) -> (forall j, i <= j -> wraps s !! WMem l j = None) ->
  members hs src i ks B W -> B ⊆ blocks s -> W ⊆ wraps s ->
  tidy (make_members (fun j => i_move (hdr_impl (hs j) T) (WMem l j) (src j)) un i (length ks)) s.
Proof.
  revert i B W s. induction ks as [|k ks IH]; intros i B W s Hl Hfree Hm HB HW; [done|].
  destruct Hm as (B1 & W1 & B2 & W2 & -> & -> & DB & DW & H1 & H2).
  assert (HW1 : W1 ⊆ wraps s) by (clear - HW; map_solve).
  assert (HB1 : B1 ⊆ blocks s) by (clear - HB; map_solve).
  assert (Hat : wrapper_at s (hs i) (src i) k B1 W1) by (by split).
  destruct (wr_ptr _ _ _ _ _ _ _ Hat) as (p & Hp & Hs & HW1s & _).
  destruct (move_steal Hrefl T (hs i) (WMem l i) (src i) p k.2 s (Hfree i (le_n i)) Hs Hp) as (s1 & R1 & E1 & E2 & E3).
  assert (HWd : forall j, i <= j -> (W1 ∪ W2) !! WMem l j = None).
  { intros j Hj. destruct (sub_at _ _ (WMem l j) HW) as [|HX]; [done|]. rewrite HX. by apply Hfree. }
  assert (P3 : forall j, S i <= j -> wraps s1 !! WMem l j = None).
  { intros j Hj. rewrite E3. assert (Hj' := Hfree j ltac:(lia)).
    rewrite lookup_insert_ne; [rewrite lookup_insert_ne; [done|congruence]|]. intros Heq. simplify_eq. lia. }
  assert (P4 : B2 ⊆ blocks s1) by (rewrite E1; clear - HB DB; map_solve).
  assert (P5 : W2 ⊆ wraps s1).
  { rewrite E3. assert (Hx := HWd i (le_n i)). clear - Hx HW HW1s DW. map_solve. }
  cbn [length make_members]. apply tidy_bind; [by apply (tidy_move T Hrefl)|]. intros u s1' R1'. rewrite R1 in R1'. simplify_eq.
  apply tidy_catch; [eapply IH; [by rewrite E1|done..]|]. intros e s2 R2.
  destruct (move_members_g T K Hrefl hs src l (S i) ks B2 W2 s1' un P3 H2 P4 P5) as (s2' & R2' & _). congruence.
Qed.

Lemma node_td_move a t l b o bo x B W s :
  mem_ok s -> storage s l b t -> object (node_cls Sh K) s o bo t x B W -> B !! l = None -> enclosed s o B W ->
  tidy (tp_cons (nodeTP_step Sh T) a t l (ARef RVal (RBlk o))) s.
Proof.
  intros HM [Hb Hraw Hst Hmem] [(v & Hobj & (-> & Hlen & HBo & Hm)) Hbo HB HW] HBl _.
  cbn [nodeTP_step tp_cons]. unfold node_cons.
  apply tidy_bind; [apply plain_tidy; by simpl; split; [done|intros []]|]. intros u s1 R1. apply touch_cons in R1.
  apply tidy_bind; [by apply plain_tidy|]. intros ob s1' R'. pose proof (run_readobj _ _ _ _ R'); subst s1'. clear R'.
  replace (n_kids Sh t ob.2) with (length x.2) by (rewrite Hlen; apply HF).
  apply tidy_catch; [|intros ? ? ?; by apply plain_tidy].
  eapply tidy_move_members; [apply R1; by eexists| |exact Hm| |by rewrite (proj1 R1)].
  - intros j _. rewrite (proj1 R1). apply Hmem.
  - eapply touch_sub; [done..|]. by intros l' [->| ->].
Qed.

(** ** Assignment *)
Lemma tidy_assign_members hs l src i ds ks Bd Wd Bs Ws s :
  mem_ok s -> is_Some (blocks s !! l) -> Bd !! l = None -> length ds = length ks -> closed s Bd Wd ->
  members hs (WMem l) i ds Bd Wd -> members hs src i ks Bs Ws -> Bd ##ₘ Bs -> Wd ##ₘ Ws ->
  Bd ⊆ blocks s -> Wd ⊆ wraps s -> Bs ⊆ blocks s -> Ws ⊆ wraps s ->
  tidy (assign_members (fun j => i_copy_assign (hdr_impl (hs j) T) (WMem l j) (src j)) i (length ds)) s.
Proof.
  revert i ks Bd Wd Bs Ws s.
  induction ds as [|d ds IH]; intros i [|k ks] Bd Wd Bs Ws s HM Hl HBl Hlen Hen Hd Hs DB DW HBd HWd HBs HWs; try done.
  destruct Hd as (B1 & W1 & B2 & W2 & -> & -> & DB12 & DW12 & H1 & H2).
  destruct Hs as (B3 & W3 & B4 & W4 & -> & -> & DB34 & DW34 & H3 & H4).
  destruct (split_closed _ _ _ _ _ _ _ _ _ _ H1 H2 DB12 HBl Hen) as (Hen1 & Hcl2 & HBl1 & HBl2).
  cbn [length assign_members].
  assert (Hat1 : wrapper_at s (hs i) (WMem l i) d B1 W1) by (split; [done|clear - HBd; map_solve|clear - HWd; map_solve]).
  assert (Hat3 : wrapper_at s (hs i) (src i) k B3 W3) by (split; [done|clear - HBs; map_solve|clear - HWs; map_solve]).
  assert (DB13 : B1 ##ₘ B3) by (clear - DB; map_solve). assert (DW13 : W1 ##ₘ W3) by (clear - DW; map_solve).
  apply tidy_bind; [by eapply (tidy_casg T K HO HT)|]. intros u s1 R.
  assert (HX := casg_g T K HO HA (hs i) (WMem l i) (src i) d k B1 W1 B3 W3 s HM Hen1 Hat1 Hat3 DB13 DW13). rewrite R in HX.
  destruct HX as (d' & B1' & W1' & Hasg & Hw1 & R1).
  assert (HB2 : B2 ⊆ blocks s) by (clear - HBd DB12; map_solve).
  eapply IH; [| |done|by simplify_eq/=| |exact H2|exact H4| | | | | |].
  - exact (changed_mem_ok T K HO s s1 (hs i) (WMem l i) _ _ _ _ _ HM Hl Hen1 R1 Hw1).
  - by eapply changed_home.
  - eapply closed_frame; [done|done|clear - DB12; map_solve|done|].
    intros l' i' Hi'. destruct (wr_dom T K HO _ _ _ _ _ Hw1 _ Hi') as [Heq|(l2 & j & Heq & Hb2)].
    + simplify_eq. by right.
    + simplify_eq. by left.
  - clear - DB. map_solve.
  - clear - DW. map_solve.
  - rewrite (ch_b _ _ _ _ _ _ R1). assert (D := ch_db _ _ _ _ _ _ R1). clear - D DB12 HBd. map_solve.
  - rewrite (ch_w _ _ _ _ _ _ R1). assert (D := ch_dw _ _ _ _ _ _ R1). clear - D DW12 HWd. map_solve.
  - rewrite (ch_b _ _ _ _ _ _ R1). assert (D := ch_db _ _ _ _ _ _ R1). clear - D DB HBs DB34. map_solve.
  - rewrite (ch_w _ _ _ _ _ _ R1). assert (D := ch_dw _ _ _ _ _ _ R1). clear - D DW HWs DW34. map_solve.
Qed.

Lemma node_td_asg t l b d B W o bo x Bo Wo s :
  mem_ok s -> object (node_cls Sh K) s l b t d B W -> object (node_cls Sh K) s o bo t x Bo Wo ->
  <[l := b]> B ##ₘ <[o := bo]> Bo -> W ##ₘ Wo -> enclosed s l B W ->
  tidy (tp_asgn (nodeTP_step Sh T) t l (ARef ConstL (RBlk o))) s.
Proof.
  intros HM [(v0 & Hobj & (-> & Hld & HBdl & Hmd)) Hb HBd HWd] [(v & Hobjo & (-> & Hls & HBso & Hms)) Hbo HBs HWs] DB DW Hen.
  assert (Hol : o <> l). { intros ->. destruct (dis_at _ _ l DB) as [HX|HX]; by rewrite lookup_insert in HX. }
  assert (HBsl : Bo !! l = None).
  { destruct (dis_at _ _ l DB) as [HX|HX]; [by rewrite lookup_insert in HX|]. by rewrite lookup_insert_ne in HX. }
  assert (DB' : B ##ₘ Bo) by (clear - DB HBdl HBso HBsl; map_solve).
  cbn [nodeTP_step tp_asgn].
  apply tidy_bind; [by apply plain_tidy|]. intros d1 s1' R'. pose proof (run_readobj _ _ _ _ R'); subst s1'. clear R'.
  apply tidy_bind; [by apply plain_tidy|]. intros d2 s1' R'. pose proof (run_readobj _ _ _ _ R'); subst s1'. clear R'.
  destruct (Nat.eqb _ _); [|by apply plain_tidy].
  apply tidy_bind; [apply plain_tidy; by simpl; split; [done|intros []]|]. intros u s1 R1. apply touch_asgn in R1.
  replace (n_kids Sh t d1.2) with (length d.2) by (rewrite Hld; apply HF).
  eapply (tidy_assign_members _ _ _ _ d.2 x.2 B W Bo Wo); [by eapply touch_mem_ok|apply R1; by eexists|done| | |done|done|done|done| |by rewrite (proj1 R1)| |by rewrite (proj1 R1)].
  - rewrite Hld, Hls. apply HF.
  - intros l' i Hl' Hi. rewrite (proj1 R1) in Hi. apply Hen; [by right|done].
  - eapply touch_sub; [done..|]. by intros l' ->.
  - eapply touch_sub; [done..|]. by intros l' ->.
Qed.

Lemma node_tidy : Tidy (nodeTP_step Sh T) (node_cls Sh K).
Proof.
  split; [exact node_td_make|exact node_td_copy|exact node_td_move|exact node_td_destroy|exact node_td_asg].
Qed.
End node.

Section others.
Context {E : Env} (HA : AllocReq E) (Hrefl : forall a, a_eqb E a a = true).
Implicit Types s : store E.

Lemma flat_tidy : Tidy (flatTP E) (flat_cls E).
Proof. split; intros; apply plain_tidy; cbn; (split; [done|]); intros []; done. Qed.

Lemma no_tidy T : Tidy (E := E) T no_cls.
Proof.
  split.
  - by intros a t l b c s [[] _].
  - intros a t l b c o bo [].
  - intros a t l b o bo [].
  - intros a t l b [].
  - intros t l b [].
Qed.

Lemma tower_tidy Sh T K n : ShapeReq Sh -> Fixed Sh -> Honest T K -> Tidy T K -> Tidy (towerTP Sh T n) (tower_cls (E := E) Sh K n).
Proof. intros HS HF HO HT. induction n as [|n IH]; [done|]. cbn. apply node_tidy; try done. by apply tower_honest. Qed.

Lemma copy_only_tidy T K : Tidy (E := E) T K -> Tidy (copy_onlyTP T) (copy_only_cls K).
Proof.
  intros [H2 H3 H4 H5 H6]. split; [exact H2| | | |].
  - intros a t l b c o bo x B W s Hc HM Hst Hob HBl. cbn [copy_onlyTP tp_cons].
    replace (match c with RVal => ARef ConstL (RBlk o) | _ => _ end) with (ARef (E := E) c (RBlk o)) by (by destruct c).
    apply object_as in Hob. by apply (H3 a t l b c o bo x B W s).
  - intros a t l b o bo x B W s HM Hst Hob HBl Hen. cbn [copy_onlyTP tp_cons]. apply object_as in Hob.
    exact (H3 a t l b ConstL o bo x B W s ltac:(done) HM Hst Hob HBl).
  - intros a t l b x B W s Hob%object_as. exact (H5 a t l b x B W s Hob).
  - intros t l b d B W o bo x Bo Wo s HM Hd%object_as Hob%object_as. exact (H6 t l b d B W o bo x Bo Wo s HM Hd Hob).
Qed.

(** ** The class [handle] *)
Context (T : TP E) (K : Cls E) (HO : Honest T K) (HT : Tidy T K) (Hpocs : pocs E = true).

Lemma handle_td_make h0 t0 a t l b c s :
  (exists x, c_make (handle_cls h0 t0 K) t a c x) -> mem_ok s -> storage s l b t ->
  tidy (tp_cons (handleTP h0 t0 T) a t l (AArgs c)) s.
Proof.
  intros (x & _ & v & Hv & _) HM [Hb Hraw Hst Hmem]. cbn [handleTP tp_cons].
  apply tidy_bind; [apply plain_tidy; by simpl; split; [done|intros []]|]. intros u s1 R1. apply touch_cons in R1.
  apply tidy_catch; [|intros ? ? ?; by apply plain_tidy].
  apply (tidy_make T K HO HT); [by exists v|by eapply touch_mem_ok|]. apply R1. by eexists.
Qed.

Lemma handle_td_asg h0 t0 t l b d B W o bo x Bo Wo s :
  mem_ok s -> object (handle_cls h0 t0 K) s l b t d B W -> object (handle_cls h0 t0 K) s o bo t x Bo Wo ->
  <[l := b]> B ##ₘ <[o := bo]> Bo -> W ##ₘ Wo -> enclosed s l B W ->
  tidy (tp_asgn (handleTP h0 t0 T) t l (ARef ConstL (RBlk o))) s.
Proof.
  intros HM [(v0 & Hobj & Hrd) Hb HB HW] [(v & Hobjo & Hro) Hbo HBo HWo] DB DW Hen.
  destruct (handle_rep _ _ _ _ _ _ _ _ _ Hrd) as (kd & -> & HBl & Hwd).
  destruct (handle_rep _ _ _ _ _ _ _ _ _ Hro) as (kx & -> & HBoo & Hwx).
  assert (Hfree : wraps s !! WMem l 1 = None).
  { destruct (wraps s !! WMem l 1) eqn:Hw; [|done]. exfalso.
    destruct (wr_dom T K HO _ _ _ _ _ Hwd (WMem l 1)) as [|(l' & i' & Heq & [q Hq])]; [|done|simplify_eq].
    apply (Hen l 1); [by left|by eexists]. }
  cbn [handleTP tp_asgn].
  apply tidy_bind; [by apply plain_tidy|]. intros d1 s1' R'. pose proof (run_readobj _ _ _ _ R'); subst s1'. clear R'.
  assert (Hox : wrapper_at K s h0 (WMem o 0) kx Bo Wo) by (by split).
  assert (Hhl : home s (WMem l 1)) by (by eexists).
  apply tidy_bind; [by eapply (tidy_copy T K HO HT)|]. intros u s1 R1.
  assert (G := copy_g T K HO h0 (WMem l 1) (WMem o 0) kx Bo Wo s HM Hhl Hfree Hox). rewrite R1 in G.
  destruct G as (k' & B' & W' & Hck & Hw' & [A1 A2 A3 A4 A5]).
  assert (HB'l : B' !! l = None).
  { clear - A4 Hb. apply (fun Q => dis_at _ _ l Q) in A4. at_norm. rewrite Hb in A4. by destruct A4. }
  apply tidy_bind; [apply plain_tidy, plain_swap|]. intros u2 s2 R2.
  destruct (swap_g T K HA h0 (WMem l 0) (WMem l 1) kd k' B W B' W' s1) as (s2' & kd' & kt' & Wx & Wy & R2' & Hsw & Hx2 & Hy2 & DXY & [S1 S2 S3 S4 S5]).
  { split; [done|rewrite A1; clear - HB A4; map_solve|rewrite A2; clear - HW A5; map_solve]. }
  { split; [done|rewrite A1; clear; map_solve|rewrite A2; clear; map_solve]. }
  { clear - A4 HB. map_solve. }
  { clear - A5 HW. map_solve. }
  { by rewrite Hpocs. }
  unfold swapped in Hsw. rewrite Hpocs in Hsw. destruct Hsw as [-> ->].
  rewrite R2' in R2. simplify_eq.
  apply tidy_bind; [by apply plain_tidy|]. intros u3 s3 R3.
  assert (Ht3 : touch (fun l' => l' = l) s2 s3).
  { revert R3. cbn [act run exec]. destruct (deref _ s2) as [|[? ?]]; [done|]. cbn [run]. intros [= _ <-].
    split_and!; [done| |intros l'; cbn; apply alter_some]. intros l' Hl'. cbn. by rewrite lookup_alter_ne by congruence. }
  eapply (tidy_dtor T K HO HT _ h0 (WMem l 1) kd B Wy).
  - split; [done| |rewrite (proj1 Ht3), S2; clear - DXY; map_solve].
    eapply touch_sub; [done| |by intros l' ->]. rewrite S1. clear - A4 HB. map_solve.
  - apply enclosedW_closed. split; [|by intros l' i' [= <- <-]]. intros l' i' [bq Hl'] Hi'.
    rewrite (proj1 Ht3), S2, lookup_un, lookup_un in Hi'. destruct (Wy !! WMem l' i') eqn:HWy; [by eexists|]. exfalso.
    destruct (Wx !! WMem l' i') eqn:HWx.
    + destruct (wr_dom T K HO _ _ _ _ _ Hx2 (WMem l' i')) as [Heq|(l2 & j & Heq & [q Hq])]; [by eexists| |].
      * congruence.
      * simplify_eq. assert (Q := dis_at _ _ l2 A4). rewrite lookup_diff, lookup_empty in Q.
        rewrite (lookup_weaken _ _ _ _ Hl' HB) in Q. destruct Q; congruence.
    + rewrite lookup_diff, lookup_un in Hi'. destruct (W !! WMem l' i') eqn:HWi; [by destruct (W' !! WMem l' i'), Hi'|].
      destruct (W' !! WMem l' i') eqn:HW'i; [by destruct Hi'|].
      rewrite A2, lookup_un, HW'i, lookup_diff, lookup_empty in Hi'.
      destruct (Hen l' i') as [q Hq]; [right; by eexists|done|congruence].
Qed.

Lemma handle_tidy h0 t0 : Tidy (handleTP h0 t0 T) (handle_cls h0 t0 K).
Proof.
  destruct (node_tidy (handle_shape h0) T K HO HT (handle_fixed h0) HA Hrefl) as [N2 N3 N4 N5 N6].
  split; [exact (handle_td_make h0 t0)| | | |exact (handle_td_asg h0 t0)].
  - intros a t l b c o bo x B W s Hc HM Hst Hob%object_as2 HBl.
    exact (N3 a t l b c o bo x B W s Hc HM Hst Hob HBl).
  - intros a t l b o bo x B W s HM Hst Hob%object_as2. exact (N4 a t l b o bo x B W s HM Hst Hob).
  - intros a t l b x B W s Hob%object_as2. exact (N5 a t l b x B W s Hob).
Qed.
End others.
