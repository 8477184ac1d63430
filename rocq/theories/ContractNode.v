(** * Classes with wrapper members keep the contract if the members' value type does. *)

From stdpp Require Import base gmap list.
From Verif Require Import Lang Common Client Spec Rep RunLemmas Headers Hist Tree TreeProps TreeAssign TreeAssignC TreeMove TreeMoveAssign Contract ContractProps ContractOps ContractMove.

Section node.
Context {E : Env} (Sh : Shape E) (T : TP E) (K : Cls E) (HO : Honest T K).
Context (HS : ShapeReq Sh) (HF : Fixed Sh) (HA : AllocReq E) (Hrefl : forall a, a_eqb E a a = true).
Notation A := (eA E).
Notation V := (eV E).
Notation bmap := (gmap loc (block E)).
Notation wmap := (gmap wl (wrapper E)).
Notation wv := (option (ty * c_val K) * A)%type.
Implicit Types s : store E.
Notation wrapped := (wrapped K).
Notation wrapper_at := (wrapper_at K).
Notation members := (members K).

Lemma changed_trans s s1 s2 B1 W1 B1' W1' B2 W2 B2' W2' :
  changed s s1 B1 W1 B1' W1' -> changed s1 s2 B2 W2 B2' W2' ->
  B1 ##ₘ B2 -> W1 ##ₘ W2 -> B2 ⊆ blocks s -> W2 ⊆ wraps s ->
  changed s s2 (B1 ∪ B2) (W1 ∪ W2) (B1' ∪ B2') (W1' ∪ W2') /\ B1' ##ₘ B2' /\ W1' ##ₘ W2'.
Proof.
  intros [R1 R2 R3 R4 R5] [Q1 Q2 Q3 Q4 Q5] D1 D2 S1 S2.
  destruct (replaced_trans s s1 s2 B1 W1 B1' W1' B2 W2 B2' W2') as ([P1 P2 P3 P4 P5] & D3 & D4); [by split|by split|done..|].
  split_and!; [by split|done|done].
Qed.

Lemma members_in hs nm i ks B W : members hs nm i ks B W ->
  forall j, i <= j < i + length ks -> is_Some (W !! nm j).
Proof.
  revert i B W. induction ks as [|k ks IH]; intros i B W Hm j Hj; cbn in Hj; [lia|].
  destruct Hm as (B1 & W1 & B2 & W2 & -> & -> & _ & _ & H1 & H2). rewrite lookup_un.
  destruct (decide (j = i)) as [->|Hne].
  - destruct (wr_in _ _ _ _ _ _ H1) as [q ->]. by eexists.
  - destruct (IH (S i) _ _ H2 j ltac:(lia)) as [q ->]. destruct (W1 !! nm j); by eexists.
Qed.

Lemma members_dom hs nm i ks B W : members hs nm i ks B W ->
  forall u, is_Some (W !! u) -> (exists j, i <= j < i + length ks /\ u = nm j) \/ exists l j, u = WMem l j /\ is_Some (B !! l).
Proof.
  revert i B W. induction ks as [|k ks IH]; intros i B W Hm u [q Hu].
  - destruct Hm as [-> ->]. by rewrite lookup_empty in Hu.
  - destruct Hm as (B1 & W1 & B2 & W2 & -> & -> & DB & DW & H1 & H2).
    rewrite lookup_un in Hu. destruct (W1 !! u) eqn:Hu1.
    + destruct (wr_dom T K HO _ _ _ _ _ H1 u) as [->|(l' & i' & -> & [b' Hb'])]; [by eexists| |].
      * left. exists i. simpl. split; [lia|done].
      * right. exists l', i'. split; [done|]. rewrite lookup_un, Hb'. by eexists.
    + destruct (IH _ _ _ H2 u) as [(j & Hj & ->)|(l' & i' & -> & [b' Hb'])]; [by eexists| |].
      * left. exists j. simpl. split; [lia|done].
      * right. exists l', i'. split; [done|]. rewrite lookup_un, Hb'. destruct (B1 !! l'); by eexists.
Qed.

(** Member wrappers exist only in allocated blocks, still. *)
Lemma changed_mem_ok s s' h x k B W B' W' :
  mem_ok s -> home s x -> enclosedW s x B W -> changed s s' B W B' W' -> wrapped h x k B' W' -> mem_ok s'.
Proof.
  intros HM Hx Hen [C1 C2 _ _ _] Hw l i [w Hl]. rewrite C2, lookup_un in Hl. rewrite C1, lookup_un.
  destruct (B' !! l) eqn:HB'; [by eexists|]. rewrite lookup_diff. destruct (B !! l) eqn:HB.
  - exfalso. destruct (Hen l i) as [Hne HWl]; [by eexists|]. destruct (W' !! WMem l i) eqn:HW'.
    + destruct (wr_dom T K HO _ _ _ _ _ Hw (WMem l i)) as [Heq|(l' & i' & Heq & [b' Hb'])]; [by eexists|done|]. simplify_eq.
    + rewrite lookup_diff in Hl. destruct (W !! WMem l i) eqn:HWi; [done|]. rewrite Hl in HWl. by destruct HWl as [? ?].
  - destruct (W' !! WMem l i) eqn:HW'.
    + destruct (wr_dom T K HO _ _ _ _ _ Hw (WMem l i)) as [Heq|(l' & i' & Heq & [b' Hb'])]; [by eexists| |simplify_eq].
      rewrite <- Heq in Hx. exact Hx.
    + rewrite lookup_diff in Hl. destruct (W !! WMem l i) eqn:HWi; [done|]. apply (HM l i). by eexists.
Qed.

Lemma changed_home s s' B W B' W' l :
  changed s s' B W B' W' -> is_Some (blocks s !! l) -> B !! l = None -> is_Some (blocks s' !! l).
Proof.
  intros [C1 _ _ _ _] [b Hb] HB. rewrite C1, lookup_un, lookup_diff, HB, Hb. destruct (B' !! l); by eexists.
Qed.

(** ** Destruction *)
Lemma destroy_members_g hs nm i ks B W s :
  members hs nm i ks B W -> B ⊆ blocks s -> W ⊆ wraps s ->
  exists s', run (destroy_members (fun j => i_dtor (hdr_impl (hs j) T) (nm j)) i (length ks)) s = ORet tt s' /\
    changed s s' B W ∅ ∅.
Proof.
  revert i B W s. induction ks as [|k ks IH]; intros i B W s Hm HB HW.
  - destruct Hm as [-> ->]. exists s. split; [done|]. by apply changed_none.
  - destruct Hm as (B1 & W1 & B2 & W2 & -> & -> & DB & DW & H1 & H2).
    destruct (IH (S i) B2 W2 s H2) as (s1 & R1 & M1); [map_solve|map_solve|].
    destruct (dtor_g T K HO s1 (hs i) (nm i) k B1 W1) as (s2 & R2 & M2).
    { destruct M1 as [C1 C2 _ _ _]. split; [done|rewrite C1; clear - DB HB; map_solve|rewrite C2; clear - DW HW; map_solve]. }
    exists s2. cbn [length destroy_members]. rewrite run_bind, R1. split; [done|].
    destruct M1 as [C1 C2 C3 _ _], M2 as [D1 D2 D3 _ _]. split; [rewrite D1, C1|rewrite D2, C2|congruence| |]; clear; map_solve.
Qed.

Lemma node_ho_destroy a t l b x B W s :
  object (node_cls Sh K) s l b t x B W ->
  exists s', run (tp_destroy (nodeTP_step Sh T) a t l) s = ORet tt s' /\
      changed s s' (<[l := b]> B) W {[ l := set_obj ORaw b ]} ∅.
Proof.
  intros [(v & Ho & (-> & Hlen & Hl & Hm)) Hb HB HW]. cbn -[destroy_members].
  rewrite Hb, Ho. cbn -[destroy_members]. rewrite Hb, Ho. rewrite bool_decide_eq_true_2 by done.
  rewrite run_bind, <- Hlen.
  set (s1 := log _ _).
  destruct (destroy_members_g (k_hdr Sh t) (WMem l) 0 x.2 B W s1 Hm) as (s2 & R2 & [M1 M2 M3 _ _]).
  { simpl. clear - HB Hl. map_solve. }
  { done. }
  rewrite R2. cbn. rewrite M1. cbn. at_norm.
  rewrite Hl, decide_True by done. cbn. rewrite bool_decide_eq_true_2 by done.
  eexists. split; [done|]. split; cbn; rewrite ?M1, ?M2, ?M3; cbn; [| |done| |].
  - apply map_eq. intros i. at_norm. at_split; first [done|congruence].
  - clear. map_solve.
  - clear. map_solve.
  - clear. map_solve.
Qed.

(** ** Copying *)
Lemma copy_members_g hs src l i ks B W s :
  mem_ok s -> is_Some (blocks s !! l) -> (forall j, i <= j -> wraps s !! WMem l j = None) ->
  members hs src i ks B W -> B ⊆ blocks s -> W ⊆ wraps s ->
  match run (make_members (fun j => i_copy (hdr_impl (hs j) T) (WMem l j) (src j))
                      (fun j => i_dtor (hdr_impl (hs j) T) (WMem l j)) i (length ks)) s with
  | ORet _ s' => exists ks' B' W', Forall2 (fun k k' => copied K (a_soccc E k.2) k k') ks ks' /\
      members hs (WMem l) i ks' B' W' /\ changed s s' ∅ ∅ B' W'
  | OThrow _ s' => same s s'
  | _ => False
  end.
Proof.
  revert i B W s. induction ks as [|k ks IH]; intros i B W s HM Hl Hfree Hm HB HW.
  - exists [], ∅, ∅. split_and!; [by constructor|done|]. by apply changed_none.
  - destruct Hm as (B1 & W1 & B2 & W2 & -> & -> & DB & DW & H1 & H2).
    cbn [length make_members]. rewrite run_bind.
    assert (Hhi : home s (WMem l i)) by done.
    assert (C1 := copy_g T K HO (hs i) (WMem l i) (src i) k B1 W1 s HM Hhi (Hfree i (le_n i))).
    feed specialize C1; [split; [done|clear - HB; map_solve|clear - HW; map_solve]|].
    destruct (run (i_copy _ _ _) s) as [u s1|e s1| |]; [|done|done|done].
    destruct C1 as (k' & B1' & W1' & Hck & Hw1 & A1).
    rewrite run_catch.
    assert (Hen0 : enclosedW s (WMem l i) ∅ ∅) by (intros l' i' [? Hx]; by rewrite lookup_empty in Hx).
    specialize (IH (S i) B2 W2 s1). feed specialize IH; [| | |exact H2| | |].
    { exact (changed_mem_ok _ _ _ _ _ _ _ _ _ HM Hhi Hen0 A1 Hw1). }
    { by eapply changed_home; eauto. }
    { intros j Hj. rewrite (ch_w _ _ _ _ _ _ A1), lookup_un, lookup_diff, lookup_empty. destruct (W1' !! WMem l j) eqn:Hj'; [|apply Hfree; lia].
      exfalso. destruct (wr_dom T K HO _ _ _ _ _ Hw1 (WMem l j)) as [Heq|(l' & i' & Heq & [b Hb])]; [by eexists| |].
      - simplify_eq. lia.
      - simplify_eq. destruct Hl as [b' Hb']. assert (D := ch_db _ _ _ _ _ _ A1). apply (fun Q => dis_at _ _ l' Q) in D.
        rewrite lookup_diff, lookup_empty in D. destruct D; congruence. }
    { rewrite (ch_b _ _ _ _ _ _ A1). assert (D := ch_db _ _ _ _ _ _ A1). clear - HB D DB. map_solve. }
    { rewrite (ch_w _ _ _ _ _ _ A1). assert (D := ch_dw _ _ _ _ _ _ A1). clear - HW D DW. map_solve. }
    destruct (run (make_members _ _ _ _) s1) as [u2 s2|e s2| |]; [| |done|done].
    + destruct IH as (ks' & B2' & W2' & Hck2 & Hm2 & A2).
      destruct (changed_trans s s1 s2 ∅ ∅ B1' W1' ∅ ∅ B2' W2' A1 A2) as (A3 & D1 & D2); [map_solve..|].
      rewrite !(left_id_L ∅ (∪)) in A3.
      exists (k' :: ks'), (B1' ∪ B2'), (W1' ∪ W2'). split_and!; [by constructor| |done].
      exists B1', W1', B2', W2'. done.
    + destruct IH as [I1 I2 I3]. destruct A1 as [A1b A1w A1x A1d1 A1d2]. rewrite run_bind.
      destruct (dtor_g T K HO s2 (hs i) (WMem l i) k' B1' W1') as (s3 & R3 & [M1 M2 M3 _ _]).
      { split; [done|rewrite I1, A1b; clear; map_solve|rewrite I2, A1w; clear; map_solve]. }
      rewrite R3. simpl. split; [rewrite M1, I1, A1b; clear - A1d1; map_solve|
        rewrite M2, I2, A1w; clear - A1d2; map_solve|congruence].
Qed.

Lemma node_ho_copy a t l b c o bo x B W s :
  c <> RVal -> mem_ok s -> storage s l b t -> object (node_cls Sh K) s o bo t x B W -> B !! l = None ->
  match run (tp_cons (nodeTP_step Sh T) a t l (ARef c (RBlk o))) s with
  | ORet _ s' => exists x' b' B' W', c_copy (node_cls Sh K) t a x x' /\ filled (node_cls Sh K) l b b' t x' B' W' /\
      changed s s' {[ l := b ]} ∅ (<[l := b']> B') W'
  | OThrow _ s' => changed s s' ∅ ∅ ∅ ∅
  | _ => False
  end.
Proof.
  intros Hc HM [Hb Hraw Hst Hmem] [(v & Hobj & (-> & Hlen & Hbo' & Hm)) Hbo HB HW] HBl.
  assert (Hol : o <> l) by congruence.
  destruct x as [v kids]. cbn [fst snd] in *.
  set (v' := (t_cons E ConstL t t a v).1).
  assert (R0 : run (tp_cons (nodeTP_step Sh T) a t l (ARef c (RBlk o))) s =
    run (node_cons Sh a t l (ARef ConstL (RBlk o))
           (fun i => i_copy (hdr_impl (k_hdr Sh t i) T) (WMem l i) (WMem o i))
           (fun i => i_dtor (hdr_impl (k_hdr Sh t i) T) (WMem l i))) s) by (destruct c; done).
  rewrite R0. clear R0. unfold node_cons. rewrite run_bind. cbn [act_thr run exec].
  rewrite Hb, Hst. cbn [negb]. rewrite Hraw. cbn [cons_vals deref]. rewrite Hbo, Hobj.
  destruct (t_cons E ConstL t t a v) as [w1 w2] eqn:Ht. simpl in v'.
  destruct (pop_eq s) as (r & orc' & -> & _). destruct r as [h|e]; cbn [upd_src run]; [|by apply changed_none].
  set (s1 := log _ _). rewrite run_bind. cbn [act run exec deref].
  assert (Hl1 : blocks s1 !! l = Some (set_obj (OLive t v') b)).
  { subst s1. cbn. by rewrite lookup_alter, Hb. }
  assert (Hother : blocks s1 = <[l := set_obj (OLive t v') b]> (blocks s)).
  { subst s1. cbn. apply map_eq. intros i. destruct (decide (l = i)) as [<-|Hne].
    - by rewrite lookup_alter, Hb, lookup_insert.
    - by rewrite lookup_alter_ne, lookup_insert_ne. }
  assert (Hw1 : wraps s1 = wraps s) by done. assert (Hx1 : exts s1 = exts s) by done. clearbody s1.
  rewrite Hl1. cbn [b_obj set_obj run snd].
  rewrite run_catch.
  assert (Hn : n_kids Sh t v' = length kids).
  { rewrite Hlen. subst v'. change w1 with ((w1, w2).1). rewrite <- Ht. apply HS. }
  rewrite Hn.
  assert (CL := copy_members_g (k_hdr Sh t) (WMem o) l 0 kids B W s1).
  feed specialize CL; [| | |exact Hm| |by rewrite Hw1|].
  { intros l' i' Hi'. rewrite Hw1 in Hi'. rewrite Hother. at_norm. case_decide; [by eexists|]. by apply (HM l' i'). }
  { rewrite Hl1. by eexists. }
  { intros j _. rewrite Hw1. apply Hmem. }
  { rewrite Hother. clear - HB HBl. map_solve. }
  destruct (run (make_members _ _ _ _) s1) as [u s2|e s2| |]; [| |done|done].
  - destruct CL as (ks' & B' & W' & Hck & Hm' & [A1 A2 A3 A4 A5]). rewrite Hw1 in *. rewrite Hx1 in *. rewrite Hother in *.
    assert (HB'l : B' !! l = None).
    { clear - A4. apply (fun Q => dis_at _ _ l Q) in A4. at_norm. rewrite decide_True in A4 by done. by destruct A4. }
    exists (v', ks'), (set_obj (OLive t v') b), B', W'. split_and!.
    + split; [|done]. cbn. by rewrite Ht.
    + exists v'. split; [done|]. cbn. split_and!; [done| |done|done]. rewrite <- (Forall2_length _ _ _ Hck). by symmetry.
    + split; [rewrite A1|done|done| |done].
      * clear - HB'l. map_solve.
      * clear - A4. map_solve.
  - destruct CL as [I1 I2 I3]. cbn. rewrite I1, Hl1. cbn. rewrite bool_decide_eq_true_2 by done. cbn.
    apply changed_none. split; cbn; [|congruence|congruence]. rewrite ?I1, Hother, insert_insert.
    replace (set_obj ORaw (set_obj (OLive t v') b)) with b; [by apply insert_id|].
    destruct b. cbn in *. by subst.
Qed.

(** ** Construction from arguments (of a class object without members) *)
Lemma node_ho_make a t l b c s :
  (exists x, c_make (node_cls Sh K) t a c x) -> mem_ok s -> storage s l b t ->
  match run (tp_cons (nodeTP_step Sh T) a t l (AArgs c)) s with
  | ORet _ s' => exists x b' B' W', c_make (node_cls Sh K) t a c x /\ filled (node_cls Sh K) l b b' t x B' W' /\
      changed s s' {[ l := b ]} ∅ (<[l := b']> B') W'
  | OThrow _ s' => changed s s' ∅ ∅ ∅ ∅
  | _ => False
  end.
Proof.
  intros (x & -> & Hn) HM [Hb Hraw Hst Hmem]. cbn [fst] in Hn. cbn [nodeTP_step tp_cons].
  unfold node_cons. rewrite run_bind. cbn [act_thr run exec].
  rewrite Hb, Hst. cbn [negb]. rewrite Hraw. cbn [cons_vals].
  destruct (pop_eq s) as (r & orc' & -> & _). destruct r as [h|e]; cbn [upd_src run]; [|by apply changed_none].
  set (s1 := log _ _). rewrite run_bind. cbn [act run exec deref].
  set (v' := t_make E t a c) in *.
  assert (Hother : blocks s1 = <[l := set_obj (OLive t v') b]> (blocks s)).
  { subst s1. cbn. apply map_eq. intros i. destruct (decide (l = i)) as [<-|Hne].
    - by rewrite lookup_alter, Hb, lookup_insert.
    - by rewrite lookup_alter_ne, lookup_insert_ne. }
  assert (Hl1 : blocks s1 !! l = Some (set_obj (OLive t v') b)) by (by rewrite Hother, lookup_insert).
  assert (Hw1 : wraps s1 = wraps s) by done. assert (Hx1 : exts s1 = exts s) by done. clearbody s1.
  rewrite Hl1. cbn [b_obj set_obj run snd]. rewrite Hn. cbn.
  exists (v', []), (set_obj (OLive t v') b), ∅, ∅. split_and!; [done|done| |].
  - exists v'. done.
  - split; [rewrite Hother|rewrite Hw1|done| |]; clear; map_solve.
Qed.

(** ** Moving *)
Definition emptied (k : wv) : wv := (None, k.2).

Lemma move_members_g hs src l i ks B W s un :
  (forall j, i <= j -> wraps s !! WMem l j = None) ->
  members hs src i ks B W -> B ⊆ blocks s -> W ⊆ wraps s ->
  exists s', run (make_members (fun j => i_move (hdr_impl (hs j) T) (WMem l j) (src j)) un i (length ks)) s = ORet tt s' /\
    blocks s' = blocks s /\ exts s' = exts s /\
    exists W' W'', members hs (WMem l) i ks B W' /\ members hs src i (map emptied ks) ∅ W'' /\
      W' ##ₘ W'' /\ wraps s' = (W' ∪ W'') ∪ (wraps s ∖ W) /\ W' ∪ W'' ##ₘ wraps s ∖ W.
Proof.
  revert i B W s. induction ks as [|k ks IH]; intros i B W s Hfree Hm HB HW.
  - destruct Hm as [-> ->]. exists s. split_and!; [done..|]. exists ∅, ∅.
    split_and!; first [done|map_solve].
  - destruct Hm as (B1 & W1 & B2 & W2 & -> & -> & DB & DW & H1 & H2).
    assert (HW1 : W1 ⊆ wraps s) by (clear - HW; map_solve).
    assert (HB1 : B1 ⊆ blocks s) by (clear - HB; map_solve).
    assert (Hat : wrapper_at s (hs i) (src i) k B1 W1) by (by split).
    destruct (wr_ptr _ _ _ _ _ _ _ Hat) as (p & Hp & Hs & HW1s & _).
    destruct (move_steal Hrefl T (hs i) (WMem l i) (src i) p k.2 s (Hfree i (le_n i)) Hs Hp) as (s1 & R1 & E1 & E2 & E3).
    assert (Hdi := Hfree i (le_n i)).
    assert (HWd : forall j, i <= j -> (W1 ∪ W2) !! WMem l j = None).
    { intros j Hj. destruct (sub_at _ _ (WMem l j) HW) as [|HX]; [done|]. rewrite HX. by apply Hfree. }
    assert (Hds : WMem l i <> src i) by congruence.
    destruct (IH (S i) B2 W2 s1) as (s2 & R2 & F1 & F2 & W' & W'' & Hm' & Hm'' & D & F3 & D').
    { intros j Hj. rewrite E3. assert (Hj' := Hfree j ltac:(lia)).
      rewrite lookup_insert_ne; [rewrite lookup_insert_ne; [done|congruence]|]. intros Heq. simplify_eq. lia. }
    { done. }
    { rewrite E1. clear - HB DB. map_solve. }
    { rewrite E3. assert (Hx := HWd i (le_n i)). clear - Hx HW HW1s DW. map_solve. }
    exists s2. cbn [length make_members]. rewrite run_bind, R1, run_catch, R2.
    split_and!; [done|congruence|congruence|].
    rewrite E3 in F3, D'. assert (Hx := HWd i (le_n i)).
    exists (<[WMem l i := mkW p k.2]> (delete (src i) W1) ∪ W'), ({[src i := mkW PNull k.2]} ∪ W'').
    split_and!.
    + exists B1, (<[WMem l i := mkW p k.2]> (delete (src i) W1)), B2, W'. do 3 (split; [done|]). split; [clear - D' Hx HW1s DW HW; map_solve|]. split; [|done].
      destruct (wrapped_to K (hs i) (src i) (WMem l i) k k.2 B1 W1 H1) as (p' & Hp' & _ & Hw'); [|done|].
      { rewrite lookup_delete_ne by done. rewrite lookup_un in Hx. by destruct (W1 !! WMem l i). }
      assert (p' = p) as -> by congruence. by destruct k.
    + cbn [map]. exists ∅, {[src i := mkW PNull k.2]}, ∅, W''. split; [map_solve|]. split; [done|]. split; [map_solve|].
      split; [clear - D' Hds HW1s DW; map_solve|]. done.
    + clear - D D' Hds HW1s DW Hx HW. map_solve.
    + rewrite F3. clear - D D' Hds HW1s DW Hx HW. map_solve.
    + clear - D D' Hds HW1s DW Hx HW Hdi. map_solve.
Qed.

Lemma node_ho_move a t l b o bo x B W s :
  mem_ok s -> storage s l b t -> object (node_cls Sh K) s o bo t x B W -> B !! l = None -> enclosed s o B W ->
  match run (tp_cons (nodeTP_step Sh T) a t l (ARef RVal (RBlk o))) s with
  | ORet _ s' => exists x' b' B1 W1 y bo' B2 W2, c_move (node_cls Sh K) t a x x' y /\
      filled (node_cls Sh K) l b b' t x' B1 W1 /\ filled (node_cls Sh K) o bo bo' t y B2 W2 /\
      <[l := b']> B1 ##ₘ <[o := bo']> B2 /\ W1 ##ₘ W2 /\
      changed s s' (<[l := b]> (<[o := bo]> B)) W (<[l := b']> B1 ∪ <[o := bo']> B2) (W1 ∪ W2)
  | OThrow _ s' => exists y bo' B2 W2, c_movef (node_cls Sh K) t x y /\ filled (node_cls Sh K) o bo bo' t y B2 W2 /\
      changed s s' (<[o := bo]> B) W (<[o := bo']> B2) W2
  | _ => False
  end.
Proof.
  intros HM [Hb Hraw Hst Hmem] [(v & Hobj & (-> & Hlen & HBo & Hm)) Hbo HB HW] HBl _.
  assert (Hol : o <> l) by congruence. destruct x as [v kids]. cbn [fst snd] in *.
  change (tp_cons (nodeTP_step Sh T) a t l (ARef RVal (RBlk o))) with
    (node_cons Sh a t l (ARef RVal (RBlk o))
       (fun i => i_move (hdr_impl (k_hdr Sh t i) T) (WMem l i) (WMem o i))
       (fun i => i_dtor (hdr_impl (k_hdr Sh t i) T) (WMem l i))).
  unfold node_cons. rewrite run_bind. cbn [act_thr run exec].
  rewrite Hb, Hst. cbn [negb]. rewrite Hraw. cbn [cons_vals deref]. rewrite Hbo, Hobj.
  assert (Hn := sr_move _ HS t a v).
  destruct (t_cons E RVal t t a v) as [w1 w2] eqn:Ht. cbn [fst snd] in *.
  assert (Hupd : forall s0 v', blocks s0 = blocks s -> blocks (upd_ref (RBlk o) v' s0) = <[o := set_obj (OLive t v') bo]> (blocks s)).
  { intros s0 v' Hs0. cbn. rewrite Hs0. apply map_eq. intros i. destruct (decide (o = i)) as [<-|Hne].
    - by rewrite lookup_alter, Hbo, lookup_insert; cbn; rewrite Hobj.
    - by rewrite lookup_alter_ne, lookup_insert_ne. }
  destruct (pop_eq s) as (r & orc' & -> & _). destruct r as [h|e]; cbn [upd_src run].
  2:{ exists (t_cons_fail E RVal t t v, kids), (set_obj (OLive t (t_cons_fail E RVal t t v)) bo), B, W. split_and!; [done| |].
      - eexists. split; [done|]. cbn. split_and!; try done. by rewrite (sr_fail _ HS).
      - split; cbn [log blocks wraps exts]; [rewrite Hupd by done| |done| |].
        + clear - HB Hbo HBo. map_solve.
        + change (wraps (upd_ref _ _ _)) with (wraps s). clear - HW. map_solve.
        + clear. map_solve.
        + clear. map_solve. }
  set (s1 := log _ _). rewrite run_bind. cbn [act run exec deref].
  assert (Hother : blocks s1 = <[l := set_obj (OLive t w1) b]> (<[o := set_obj (OLive t w2) bo]> (blocks s))).
  { subst s1. cbn [log set_blocks blocks]. rewrite Hupd by done. apply map_eq. intros i. destruct (decide (l = i)) as [<-|Hne].
    - by rewrite lookup_alter, lookup_insert_ne, Hb, lookup_insert.
    - by rewrite lookup_alter_ne, (lookup_insert_ne _ l) by done. }
  assert (Hl1 : blocks s1 !! l = Some (set_obj (OLive t w1) b)) by (by rewrite Hother, lookup_insert).
  assert (Hw1 : wraps s1 = wraps s) by done. assert (Hx1 : exts s1 = exts s) by done. clearbody s1.
  rewrite Hl1. cbn [b_obj set_obj run snd].
  rewrite run_catch. destruct Hn as [Hn1 Hn2]. rewrite Hn1, <- Hlen.
  destruct (move_members_g (k_hdr Sh t) (WMem o) l 0 kids B W s1
    (fun i => i_dtor (hdr_impl (k_hdr Sh t i) T) (WMem l i)))
    as (s2 & R2 & F1 & F2 & W' & W'' & Hm' & Hm'' & D & F3 & D').
  { intros j _. rewrite Hw1. apply Hmem. }
  { done. }
  { rewrite Hother. clear - HB HBl HBo. map_solve. }
  { by rewrite Hw1. }
  rewrite R2. rewrite Hw1 in *. rewrite Hother in F1.
  exists (w1, kids), (set_obj (OLive t w1) b), B, W', (w2, map emptied kids), (set_obj (OLive t w2) bo), ∅, W''.
  split_and!.
  - cbn. by rewrite Ht.
  - exists w1. split; [done|]. cbn. split_and!; [done|congruence|done|done].
  - exists w2. split; [done|]. cbn. split_and!; [done|rewrite map_length; congruence|done|done].
  - clear - Hol HBo. map_solve.
  - done.
  - split; [rewrite F1|done|congruence| |done].
    + clear - Hol HBo HBl HB Hbo Hb. map_solve.
    + clear. map_solve.
Qed.

(** ** Assignment *)
Lemma assign_members_g hs l src i ds ks Bd Wd Bs Ws s :
  mem_ok s -> is_Some (blocks s !! l) -> Bd !! l = None -> length ds = length ks ->
  (forall l' i', is_Some (Bd !! l') -> is_Some (wraps s !! WMem l' i') -> is_Some (Wd !! WMem l' i')) ->
  members hs (WMem l) i ds Bd Wd -> members hs src i ks Bs Ws -> Bd ##ₘ Bs -> Wd ##ₘ Ws ->
  Bd ⊆ blocks s -> Wd ⊆ wraps s -> Bs ⊆ blocks s -> Ws ⊆ wraps s ->
  match run (assign_members (fun j => i_copy_assign (hdr_impl (hs j) T) (WMem l j) (src j)) i (length ds)) s with
  | ORet _ s' => exists ds' B' W', assigned_all K hs i ds ks ds' /\ members hs (WMem l) i ds' B' W' /\ changed s s' Bd Wd B' W'
  | OThrow _ s' => exists ds' B' W', assigned_upto K hs i ds ks ds' /\ members hs (WMem l) i ds' B' W' /\ changed s s' Bd Wd B' W'
  | _ => False
  end.
Proof.
  revert i ks Bd Wd Bs Ws s.
  induction ds as [|d ds IH]; intros i [|k ks] Bd Wd Bs Ws s HM Hl HBl Hlen Hen Hd Hs DB DW HBd HWd HBs HWs; try done.
  - destruct Hd as [-> ->]. cbn. exists [], ∅, ∅. split_and!; [done..|]. by apply changed_none.
  - destruct Hd as (B1 & W1 & B2 & W2 & -> & -> & DB12 & DW12 & H1 & H2).
    destruct Hs as (B3 & W3 & B4 & W4 & -> & -> & DB34 & DW34 & H3 & H4).
    cbn [length assign_members]. rewrite run_bind.
    assert (HBl12 : B1 !! l = None /\ B2 !! l = None).
    { rewrite lookup_un in HBl. destruct (B1 !! l); done. }
    destruct HBl12 as [HBl1 HBl2].
    assert (Hen1 : enclosedW s (WMem l i) B1 W1).
    { intros l' i' [b' Hb']. split; [congruence|]. intros Hi'.
      destruct (Hen l' i') as [q Hq]; [rewrite lookup_un, Hb'; by eexists|done|].
      rewrite lookup_un in Hq. destruct (W1 !! WMem l' i') eqn:HW1i; [by eexists|]. exfalso.
      destruct (members_dom _ _ _ _ _ _ H2 (WMem l' i')) as [(j & _ & Heq)|(l2 & j & Heq & [b2 Hb2])]; [by eexists| |].
      - congruence.
      - simplify_eq. destruct (dis_at _ _ l2 DB12); congruence. }
    assert (HX := casg_g T K HO HA (hs i) (WMem l i) (src i) d k B1 W1 B3 W3 s HM Hen1).
    feed specialize HX; [split; [done|clear - HBd; map_solve|clear - HWd; map_solve]|
      split; [done|clear - HBs; map_solve|clear - HWs; map_solve]|clear - DB; map_solve|clear - DW; map_solve|].
    assert (HB2 : B2 ⊆ blocks s) by (clear - HBd DB12; map_solve).
    assert (HW2 : W2 ⊆ wraps s) by (clear - HWd DW12; map_solve).
    destruct (run (i_copy_assign _ _ _) s) as [u s1|e s1| |]; [| |done|done].
    + destruct HX as (d' & B1' & W1' & Hasg & Hw1 & R1).
      specialize (IH (S i) ks B2 W2 B4 W4 s1).
      feed specialize IH; [| |done|by simplify_eq/=| |exact H2|exact H4| | | | | | |].
      { exact (changed_mem_ok s s1 (hs i) (WMem l i) _ _ _ _ _ HM Hl Hen1 R1 Hw1). }
      { by eapply changed_home. }
      { intros l' i' [b' Hb'] Hi'. rewrite (ch_w _ _ _ _ _ _ R1), lookup_un in Hi'. destruct (W1' !! WMem l' i') eqn:HW1'.
        - exfalso. destruct (wr_dom T K HO _ _ _ _ _ Hw1 (WMem l' i')) as [Heq|(l2 & j & Heq & [b2 Hb2])]; [by eexists| |].
          + congruence.
          + simplify_eq. assert (D := ch_db _ _ _ _ _ _ R1). apply (fun Q => dis_at _ _ l2 Q) in D. rewrite lookup_diff in D.
            destruct (dis_at _ _ l2 DB12) as [HB1|]; [|congruence]. rewrite HB1 in D.
            pose proof (lookup_weaken _ _ _ _ Hb' HB2). destruct D; congruence.
        - rewrite lookup_diff in Hi'. destruct (W1 !! WMem l' i') eqn:HW1i; [by destruct Hi'|].
          destruct (Hen l' i') as [q Hq]; [rewrite lookup_un, Hb'; destruct (B1 !! l'); by eexists|done|].
          rewrite lookup_un, HW1i in Hq. by eexists. }
      { clear - DB. map_solve. }
      { clear - DW. map_solve. }
      { rewrite (ch_b _ _ _ _ _ _ R1). assert (D := ch_db _ _ _ _ _ _ R1). clear - D DB12 HBd. map_solve. }
      { rewrite (ch_w _ _ _ _ _ _ R1). assert (D := ch_dw _ _ _ _ _ _ R1). clear - D DW12 HWd. map_solve. }
      { rewrite (ch_b _ _ _ _ _ _ R1). assert (D := ch_db _ _ _ _ _ _ R1). clear - D DB HBs DB34. map_solve. }
      { rewrite (ch_w _ _ _ _ _ _ R1). assert (D := ch_dw _ _ _ _ _ _ R1). clear - D DW HWs DW34. map_solve. }
      destruct (run (assign_members _ _ _) s1) as [u2 s2|e s2| |]; [| |done|done];
        destruct IH as (ds' & B2' & W2' & Hasg2 & Hm2 & R2);
        destruct (changed_trans s s1 s2 B1 W1 B1' W1' B2 W2 B2' W2') as (R3 & D1 & D2); try done;
        exists (d' :: ds'), (B1' ∪ B2'), (W1' ∪ W2').
      * split; [done|]. split; [by exists B1', W1', B2', W2'|done].
      * split; [by right|]. split; [by exists B1', W1', B2', W2'|done].
    + destruct HX as (d' & B1' & W1' & Hasg & Hw1 & R1).
      destruct (changed_trans s s1 s1 B1 W1 B1' W1' B2 W2 B2 W2) as (R3 & D1 & D2); [done| |done..|].
      { apply changed_refl; [rewrite (ch_b _ _ _ _ _ _ R1)|rewrite (ch_w _ _ _ _ _ _ R1)].
        - assert (D := ch_db _ _ _ _ _ _ R1). clear - D DB12 HBd. map_solve.
        - assert (D := ch_dw _ _ _ _ _ _ R1). clear - D DW12 HWd. map_solve. }
      exists (d' :: ds), (B1' ∪ B2), (W1' ∪ W2). split; [by left|]. split; [by exists B1', W1', B2, W2|done].
Qed.

Lemma assigned_all_length hs i ds ks ds' : assigned_all K hs i ds ks ds' -> length ds' = length ds.
Proof. revert i ks ds'. induction ds as [|d ds IH]; intros i [|k ks] [|d' ds']; cbn; try done. intros [_ H]. f_equal. by eapply IH. Qed.
Lemma assigned_upto_length hs i ds ks ds' : assigned_upto K hs i ds ks ds' -> length ds' = length ds.
Proof.
  revert i ks ds'. induction ds as [|d ds IH]; intros i [|k ks] [|d' ds']; cbn; try done.
  intros [[_ ->]|[_ H]]; [done|]. f_equal. by eapply IH.
Qed.

Lemma node_ho_asg t l b d B W o bo x Bo Wo s :
  mem_ok s -> object (node_cls Sh K) s l b t d B W -> object (node_cls Sh K) s o bo t x Bo Wo ->
  <[l := b]> B ##ₘ <[o := bo]> Bo -> W ##ₘ Wo -> enclosed s l B W ->
  match run (tp_asgn (nodeTP_step Sh T) t l (ARef ConstL (RBlk o))) s with
  | ORet _ s' => exists d' b' B' W', c_asg (node_cls Sh K) t d x d' /\ filled (node_cls Sh K) l b b' t d' B' W' /\
      changed s s' (<[l := b]> B) W (<[l := b']> B') W'
  | OThrow _ s' => exists d' b' B' W', c_asgf (node_cls Sh K) t d x d' /\ filled (node_cls Sh K) l b b' t d' B' W' /\
      changed s s' (<[l := b]> B) W (<[l := b']> B') W'
  | _ => False
  end.
Proof.
  intros HM [(v0 & Hobj & (-> & Hld & HBdl & Hmd)) Hb HBd HWd] [(v & Hobjo & (-> & Hls & HBso & Hms)) Hbo HBs HWs] DB DW Hen.
  assert (Hol : o <> l). { intros ->. destruct (dis_at _ _ l DB) as [HX|HX]; by rewrite lookup_insert in HX. }
  assert (HBsl : Bo !! l = None).
  { destruct (dis_at _ _ l DB) as [HX|HX]; [by rewrite lookup_insert in HX|]. by rewrite lookup_insert_ne in HX. }
  assert (DB' : B ##ₘ Bo) by (clear - DB HBdl HBso HBsl; map_solve).
  destruct d as [v0 ds], x as [v ks]. cbn [fst snd] in *.
  assert (R0 : run (tp_asgn (nodeTP_step Sh T) t l (ARef ConstL (RBlk o))) s =
    run (bind (act_thr (PAsgn t l (ARef ConstL (RBlk o)))) (fun _ =>
      assign_members (fun j => i_copy_assign (hdr_impl (k_hdr Sh t j) T) (WMem l j) (WMem o j)) 0 (n_kids Sh t v0))) s).
  { assert (Hro : forall l b t v X (f : ty * V -> prog E X) s, blocks s !! l = Some b -> b_obj b = OLive t v ->
      run (bind (act (PReadObj (RBlk l))) f) s = run (f (t, v)) s).
    { intros. cbn. by rewrite H, H0. }
    cbn [nodeTP_step tp_asgn].
    erewrite Hro by done; cbv beta; erewrite Hro by done; cbv beta; cbn [snd];
    by rewrite (HF t v v0), Nat.eqb_refl. }
  rewrite R0. clear R0. rewrite run_bind. cbn [act_thr run exec deref].
  rewrite Hb, Hobj. rewrite bool_decide_eq_true_2 by done. cbn [negb asgn_vals].
  rewrite bool_decide_eq_false_2 by congruence. cbn [deref]. rewrite Hbo, Hobjo.
  destruct (t_asgn E ConstL t t v0 v) as [d1 d2] eqn:Hd. destruct (t_asgn_fail E ConstL t t v0 v) as [df df2] eqn:Hdf.
  assert (Hupd : forall s0 v', blocks s0 = blocks s -> blocks (upd_ref (RBlk l) v' s0) = <[l := set_obj (OLive t v') b]> (blocks s)).
  { intros s0 v' Hs0. cbn. rewrite Hs0. apply map_eq. intros i. destruct (decide (l = i)) as [<-|Hne].
    - by rewrite lookup_alter, Hb, lookup_insert; cbn; rewrite Hobj.
    - by rewrite lookup_alter_ne, lookup_insert_ne. }
  destruct (pop_eq s) as (r & orc' & -> & _). destruct r as [h|e]; cbn [upd_src run].
  - set (s1 := log _ _).
    assert (H1b : blocks s1 = <[l := set_obj (OLive t d1) b]> (blocks s)) by (by apply Hupd).
    assert (H1w : wraps s1 = wraps s) by done. assert (H1x : exts s1 = exts s) by done. clearbody s1.
    rewrite <- Hld.
    assert (CL := assign_members_g (k_hdr Sh t) l (WMem o) 0 ds ks B W Bo Wo s1).
    feed specialize CL; [| |done| | |done|done|done|done| | | | |].
    { intros l' i' Hi'. rewrite H1w in Hi'. rewrite H1b. at_norm. case_decide; [by eexists|]. by apply (HM l' i'). }
    { rewrite H1b, lookup_insert. by eexists. }
    { rewrite Hld, Hls. apply HF. }
    { intros l' i' Hl' Hi'. rewrite H1w in Hi'. apply (Hen l' i'); [by right|done]. }
    { rewrite H1b. clear - HBd HBdl. map_solve. }
    { by rewrite H1w. }
    { rewrite H1b. clear - HBs HBsl. map_solve. }
    { by rewrite H1w. }
    assert (Htr : forall s2 B' W', changed s1 s2 B W B' W' ->
       B' !! l = None /\ changed s s2 (<[l := b]> B) W (<[l := set_obj (OLive t d1) b]> B') W').
    { intros s2 B' W' [R1 R2 R3 R4 R5]. rewrite H1b in *. rewrite H1w in *. split.
      - clear - R4 HBdl. apply (fun Q => dis_at _ _ l Q) in R4. at_norm. rewrite HBdl, decide_True in R4 by done. by destruct R4.
      - split; [rewrite R1|done|congruence| |done].
        + clear - HBdl R4. map_solve.
        + clear - HBdl R4. map_solve. }
    destruct (run (assign_members _ _ _) s1) as [u s2|e s2| |]; [| |done|done];
      destruct CL as (ds' & B' & W' & Hasg & Hm' & R); apply Htr in R as [R1 R2];
      exists (d1, ds'), (set_obj (OLive t d1) b), B', W'.
    + split_and!; [| |done].
      * cbn. by rewrite Hd.
      * exists d1. split; [done|]. cbn. split_and!; try done.
        rewrite (assigned_all_length _ _ _ _ _ Hasg), Hld. apply HF.
    + split_and!; [| |done].
      * right. cbn. by rewrite Hd.
      * exists d1. split; [done|]. cbn. split_and!; try done.
        rewrite (assigned_upto_length _ _ _ _ _ Hasg), Hld. apply HF.
  - exists (df, ds), (set_obj (OLive t df) b), B, W. split_and!.
    + left. cbn. by rewrite Hdf.
    + exists df. split; [done|]. cbn. split_and!; try done. rewrite Hld. apply HF.
    + split; cbn [log blocks wraps exts].
      * rewrite Hupd by done. clear - HBd HBdl Hb. map_solve.
      * change (wraps (upd_ref _ _ _)) with (wraps s). clear - HWd. map_solve.
      * done.
      * clear. map_solve.
      * clear. map_solve.
Qed.

(** ** The theorem *)
Lemma node_honest : Honest (nodeTP_step Sh T) (node_cls Sh K).
Proof.
  split.
  - intros t l v x B W (-> & Hlen & Hl & Hm). split; [done|]. intros u Hu.
    destruct (members_dom _ _ _ _ _ _ Hm u Hu) as [(j & _ & ->)|(l' & j & -> & Hb)]; eauto 8.
  - exact node_ho_make.
  - exact node_ho_copy.
  - exact node_ho_move.
  - exact node_ho_destroy.
  - exact node_ho_asg.
Qed.
End node.

(** Opaque value types keep the contract. *)
Section flat.
Context {E : Env} (HC : copies_const E).
Implicit Types s : store E.

Lemma alter_put {X} (m : gmap loc X) (f : X -> X) l b : m !! l = Some b -> alter f l m = <[l := f b]> m.
Proof.
  intros Hb. apply map_eq. intros i. destruct (decide (l = i)) as [<-|Hne].
  - by rewrite lookup_alter, Hb, lookup_insert.
  - by rewrite lookup_alter_ne, lookup_insert_ne.
Qed.

Lemma flat_honest : Honest (flatTP E) (flat_cls E).
Proof.
  split.
  - intros t l v x B W (-> & -> & ->). split; [done|]. intros u [q Hq]. by rewrite lookup_empty in Hq.
  - intros a t l b c s _ HM [Hb Hraw Hst Hmem]. cbn. rewrite Hb, Hst. cbn. rewrite Hraw.
    destruct (pop_eq s) as (r & orc' & -> & _). destruct r as [h|e]; cbn; [|by apply changed_none].
    exists (t_make E t a c), (set_obj (OLive t (t_make E t a c)) b), ∅, ∅. split_and!; [done|by eexists|].
    split; cbn; [|map_solve|done|map_solve|map_solve].
    rewrite (alter_put _ _ l b) by done. clear. map_solve.
  - intros a t l b c o bo x B W s Hc HM [Hb Hraw Hst Hmem] [(v & Hobj & (-> & -> & ->)) Hbo _ _] _.
    assert (Hol : o <> l) by congruence.
    cbn [flatTP tp_cons act_thr run exec]. rewrite Hb, Hst. cbn [negb]. rewrite Hraw. cbn [cons_vals deref]. rewrite Hbo, Hobj.
    assert (Hsrc : forall s0 v1, blocks s0 = blocks s -> (c = NonConstL -> v1 = x) ->
       blocks (upd_src (ARef c (RBlk o)) v1 s0) = blocks s /\ wraps (upd_src (ARef c (RBlk o)) v1 s0) = wraps s0 /\
       exts (upd_src (ARef c (RBlk o)) v1 s0) = exts s0).
    { intros s0 v1 Hs0 Hv1. destruct c; [done| |done]. cbn. split_and!; [|done|done]. rewrite Hs0. apply map_eq. intros i.
      destruct (decide (o = i)) as [<-|Hne]; [|by rewrite lookup_alter_ne].
      rewrite lookup_alter, Hbo. cbn. rewrite Hv1, Hobj by done. do 2 f_equal. destruct bo. cbn in *. by subst. }
    destruct (t_cons E c t t a x) as [w1 w2] eqn:Ht.
    destruct (pop_eq s) as (r & orc' & -> & _). destruct r as [h|e].
    + destruct (Hsrc (set_orc orc' s) w2) as (S1 & S2 & S3); [done| |].
      { intros ->. destruct (HC t a x) as [H1 _]. by rewrite Ht in H1. }
      exists w1, (set_obj (OLive t w1) b), ∅, ∅. split; [exists c; by rewrite Ht|]. split; [by eexists|].
      split; cbn [log set_blocks blocks wraps exts]; rewrite ?S1, ?S2, ?S3; [| |done|map_solve|map_solve].
      2:{ change (wraps (set_orc orc' s)) with (wraps s). clear. map_solve. }
      rewrite (alter_put _ _ l b) by done. clear. map_solve.
    + destruct (Hsrc (set_orc orc' s) (t_cons_fail E c t t x)) as (S1 & S2 & S3); [done| |].
      { intros ->. by destruct (HC t a x) as [_ H1]. }
      apply changed_none. split; cbn [log blocks wraps exts]; rewrite ?S1, ?S2, ?S3; done.
  - intros a t l b o bo x B W s HM [Hb Hraw Hst Hmem] [(v & Hobj & (-> & -> & ->)) Hbo _ _] _ _.
    assert (Hol : o <> l) by congruence.
    cbn [flatTP tp_cons act_thr run exec]. rewrite Hb, Hst. cbn [negb]. rewrite Hraw. cbn [cons_vals deref]. rewrite Hbo, Hobj.
    assert (Hupd : forall s0 v', blocks s0 = blocks s -> blocks (upd_ref (RBlk o) v' s0) = <[o := set_obj (OLive t v') bo]> (blocks s)).
    { intros s0 v' Hs0. cbn. rewrite Hs0. apply map_eq. intros i. destruct (decide (o = i)) as [<-|Hne].
      - by rewrite lookup_alter, Hbo, lookup_insert; cbn; rewrite Hobj.
      - by rewrite lookup_alter_ne, lookup_insert_ne. }
    destruct (t_cons E RVal t t a x) as [w1 w2] eqn:Ht.
    destruct (pop_eq s) as (r & orc' & -> & _). destruct r as [h|e]; cbn [upd_src].
    + exists w1, (set_obj (OLive t w1) b), ∅, ∅, w2, (set_obj (OLive t w2) bo), ∅, ∅.
      split_and!; [by cbn; rewrite Ht|by eexists|by eexists|map_solve|map_solve|].
      split; cbn [log set_blocks blocks wraps exts]; [rewrite Hupd by done| |done| |].
      * rewrite (alter_put _ _ l b) by (by rewrite lookup_insert_ne). clear - Hol. map_solve.
      * change (wraps (upd_ref _ _ _)) with (wraps s). clear. map_solve.
      * clear. map_solve.
      * clear. map_solve.
    + exists (t_cons_fail E RVal t t x), (set_obj (OLive t (t_cons_fail E RVal t t x)) bo), ∅, ∅.
      split_and!; [done|by eexists|].
      split; cbn [log set_blocks blocks wraps exts]; [rewrite Hupd by done| |done| |].
      * clear. map_solve.
      * change (wraps (upd_ref _ _ _)) with (wraps s). clear. map_solve.
      * clear. map_solve.
      * clear. map_solve.
  - intros a t l b x B W s [(v & Hobj & (-> & -> & ->)) Hb _ _]. cbn. rewrite Hb, Hobj. rewrite bool_decide_eq_true_2 by done.
    eexists. split; [done|]. split; cbn; [|map_solve|done|map_solve|map_solve].
    clear - Hb. map_solve.
  - intros t l b d B W o bo x Bo Wo s HM [(v0 & Hobj & (-> & -> & ->)) Hb _ _] [(v & Hobjo & (-> & -> & ->)) Hbo _ _] DB _ _.
    assert (Hol : o <> l). { intros ->. destruct (dis_at _ _ l DB) as [HX|HX]; by rewrite lookup_insert in HX. }
    cbn [flatTP tp_asgn act_thr run exec deref]. rewrite Hb, Hobj. rewrite bool_decide_eq_true_2 by done. cbn [negb asgn_vals].
    rewrite bool_decide_eq_false_2 by congruence. cbn [deref]. rewrite Hbo, Hobjo.
    assert (Hupd : forall s0 v', blocks s0 = blocks s -> blocks (upd_ref (RBlk l) v' s0) = <[l := set_obj (OLive t v') b]> (blocks s)).
    { intros s0 v' Hs0. cbn. rewrite Hs0. apply map_eq. intros i. destruct (decide (l = i)) as [<-|Hne].
      - by rewrite lookup_alter, Hb, lookup_insert; cbn; rewrite Hobj.
      - by rewrite lookup_alter_ne, lookup_insert_ne. }
    destruct (t_asgn E ConstL t t d x) as [d1 d2] eqn:Hd. destruct (t_asgn_fail E ConstL t t d x) as [df df2] eqn:Hdf.
    destruct (pop_eq s) as (r & orc' & -> & _). destruct r as [h|e]; cbn [upd_src].
    + exists d1, (set_obj (OLive t d1) b), ∅, ∅. split_and!; [by cbn; rewrite Hd|by eexists|].
      split; cbn [log blocks wraps exts]; [rewrite Hupd by done; clear; map_solve| |done|clear; map_solve|clear; map_solve].
      change (wraps (upd_ref _ _ _)) with (wraps s). clear. map_solve.
    + exists df, (set_obj (OLive t df) b), ∅, ∅. split_and!; [by cbn; rewrite Hdf|by eexists|].
      split; cbn [log blocks wraps exts]; [rewrite Hupd by done; clear; map_solve| |done|clear; map_solve|clear; map_solve].
      change (wraps (upd_ref _ _ _)) with (wraps s). clear. map_solve.
Qed.
End flat.
