(** * Places in values: taking one or two wrappers out of memory and putting back others. *)

From stdpp Require Import base gmap list.
From Verif Require Import Lang Common Client Spec Rep RunLemmas Headers Hist Tree TreeProps TreeAssign TreeAssignC.
From Verif Require Import TreeMove TreeMoveAssign TreeSub TreeClient.

Section tree.
Context {E : Env} (Sh : Shape E).
Notation A := (eA E).
Notation V := (eV E).
Notation wst := (option (tree E) * A)%type.
Notation forest := (gmap nat (header * wst)).
Implicit Types s : store E.
Implicit Types F : forest.
Notation wrap_heap := (wrap_heap Sh).
Notation mem_heap := (mem_heap Sh).
Notation nodeTP := (nodeTP Sh).
Notation node_impl := (node_impl Sh).
Notation forest_heap := (forest_heap Sh).
Notation at_path := (at_path Sh).
Notation at_place := (at_place Sh).

(** ** Members *)
Lemma mem_take hs nm i ks B W j k :
  mem_heap hs nm i ks B W -> ks !! j = Some k ->
  exists B1 W1 R S, wrap_heap (hs (i + j)) (nm (i + j)) k B1 W1 /\ B = B1 ∪ R /\ W = W1 ∪ S /\ B1 ##ₘ R /\ W1 ##ₘ S /\
    forall k' B' W', wrap_heap (hs (i + j)) (nm (i + j)) k' B' W' -> B' ##ₘ R -> W' ##ₘ S ->
      mem_heap hs nm i (<[j := k']> ks) (B' ∪ R) (W' ∪ S).
Proof.
  intros Hm Hj. destruct (mem_focus _ _ _ _ _ _ _ _ _ Hm Hj) as (B1 & W1 & H1 & S1 & S2 & Hplug).
  exists B1, W1, (B ∖ B1), (W ∖ W1). split_and!; [done|map_solve..|done].
Qed.

Lemma mem_take2 hs nm i ks B W j k j2 k2 :
  mem_heap hs nm i ks B W -> ks !! j = Some k -> ks !! j2 = Some k2 -> j <> j2 ->
  exists B1 W1 B2 W2 R S, wrap_heap (hs (i + j)) (nm (i + j)) k B1 W1 /\ wrap_heap (hs (i + j2)) (nm (i + j2)) k2 B2 W2 /\
    B = B1 ∪ (B2 ∪ R) /\ W = W1 ∪ (W2 ∪ S) /\ B1 ##ₘ B2 /\ B1 ##ₘ R /\ B2 ##ₘ R /\ W1 ##ₘ W2 /\ W1 ##ₘ S /\ W2 ##ₘ S /\
    forall k' B' W' k2' B2' W2', wrap_heap (hs (i + j)) (nm (i + j)) k' B' W' -> wrap_heap (hs (i + j2)) (nm (i + j2)) k2' B2' W2' ->
      B' ##ₘ B2' -> B' ##ₘ R -> B2' ##ₘ R -> W' ##ₘ W2' -> W' ##ₘ S -> W2' ##ₘ S ->
      mem_heap hs nm i (<[j2 := k2']> (<[j := k']> ks)) (B' ∪ (B2' ∪ R)) (W' ∪ (W2' ∪ S)).
Proof.
  revert i B W j j2. induction ks as [|k0 ks IH]; intros i B W j j2 Hm Hj Hj2 Hne; [done|].
  apply mem_cons_inv in Hm as (B1 & W1 & B2 & W2 & -> & -> & DB & DW & H1 & H2).
  destruct j as [|j], j2 as [|j2]; cbn in Hj, Hj2; [done|..].
  - simplify_eq. destruct (mem_take _ _ _ _ _ _ _ _ H2 Hj2) as (B3 & W3 & R & S & H3 & -> & -> & D1 & D2 & Hplug).
    rewrite Nat.add_succ_comm in H3. rewrite Nat.add_succ_comm in Hplug.
    exists B1, W1, B3, W3, R, S. rewrite Nat.add_0_r. split_and!; try done; [clear - DB DW D1 D2; map_solve..|].
    intros k' B' W' k2' B2' W2' Hk Hk2 X1 X2 X3 X4 X5 X6. cbn.
    constructor; [done|by apply Hplug|clear - X1 X2; map_solve|clear - X4 X5; map_solve].
  - simplify_eq. destruct (mem_take _ _ _ _ _ _ _ _ H2 Hj) as (B3 & W3 & R & S & H3 & -> & -> & D1 & D2 & Hplug).
    rewrite Nat.add_succ_comm in H3. rewrite Nat.add_succ_comm in Hplug.
    exists B3, W3, B1, W1, R, S. rewrite Nat.add_0_r. split_and!; try done; [clear - DB DW D1 D2; map_solve..|].
    intros k' B' W' k2' B2' W2' Hk Hk2 X1 X2 X3 X4 X5 X6. cbn.
    replace (B' ∪ (B2' ∪ R)) with (B2' ∪ (B' ∪ R)) by (clear - X1; map_solve).
    replace (W' ∪ (W2' ∪ S)) with (W2' ∪ (W' ∪ S)) by (clear - X4; map_solve).
    constructor; [done|by apply Hplug|clear - X1 X3; map_solve|clear - X4 X6; map_solve].
  - destruct (IH (S i) B2 W2 j j2 H2 Hj Hj2) as (B3 & W3 & B4 & W4 & R & T & H3 & H4 & -> & -> & D1 & D2 & D3 & D4 & D5 & D6 & Hplug); [congruence|].
    rewrite !Nat.add_succ_comm in H3, H4. rewrite !Nat.add_succ_comm in Hplug.
    exists B3, W3, B4, W4, (B1 ∪ R), (W1 ∪ T). split_and!; try done; [clear - DB DW D1 D2 D3 D4 D5 D6; map_solve..|].
    intros k' B' W' k2' B2' W2' Hk Hk2 X1 X2 X3 X4 X5 X6. cbn.
    replace (B' ∪ (B2' ∪ (B1 ∪ R))) with (B1 ∪ (B' ∪ (B2' ∪ R))) by (clear - X1 X2 X3; map_solve).
    replace (W' ∪ (W2' ∪ (W1 ∪ T))) with (W1 ∪ (W' ∪ (W2' ∪ T))) by (clear - X4 X5 X6; map_solve).
    constructor; [done| | |].
    + apply Hplug; try done; [clear - X2|clear - X3|clear - X5|clear - X6]; map_solve.
    + clear - X1 X2 X3 DB. map_solve.
    + clear - X4 X5 X6 DW. map_solve.
Qed.

(** ** Paths *)
Lemma alter_insert_list {X} (f : X -> X) i (l : list X) x : l !! i = Some x -> alter f i l = <[i := f x]> l.
Proof. revert i. induction l as [|y l IH]; intros [|i] H; try done; cbn in *; [by simplify_eq|]. f_equal. by apply IH. Qed.

Lemma st_star T h x l t v b a s :
  wraps s !! x = Some (mkW (PLoc l) a) -> blocks s !! l = Some b -> block_ok (header_cls h) l t v a b ->
  run (i_star (hdr_impl h T) x) s = ORet l s.
Proof.
  intros Hx Hb (_ & _ & _ & Hh & _). destruct h; cbn in *; rewrite Hx; cbn; rewrite ?Hb, ?Hh; done.
Qed.

Lemma path_take p h x kx Bx Wx ky :
  wrap_heap h x kx Bx Wx -> at_path kx p = Some ky ->
  exists y By Wy R S, wrap_heap (end_hdr h p) y ky By Wy /\ Bx = By ∪ R /\ Wx = Wy ∪ S /\ By ##ₘ R /\ Wy ##ₘ S /\
    (forall T s, Bx ⊆ blocks s -> Wx ⊆ wraps s -> run (locate T x h p) s = ORet y s) /\ (p <> [] -> Wy !! x = None) /\
    forall ky' By' Wy', wrap_heap (end_hdr h p) y ky' By' Wy' -> By' ##ₘ R -> Wy' ##ₘ S ->
      wrap_heap h x (put kx p ky') (By' ∪ R) (Wy' ∪ S).
Proof.
  revert h x kx Bx Wx. induction p as [|[i hi] p IH]; intros h x kx Bx Wx Hx Hp.
  - cbn in Hp. simplify_eq. exists x, Bx, Wx, ∅, ∅. cbn. split_and!; try done; [map_solve..|].
    intros ky' By' Wy' Hy _ _. by rewrite !(right_id_L ∅ (∪)).
  - cbn [TreeClient.at_path] in Hp. destruct kx as [[[t v kids]|] a]; [|done]. cbn [fst] in Hp.
    case_decide as Hhi; [|done]. destruct (kids !! i) as [k|] eqn:Hi; [|done].
    apply wrap_inv in Hx as (l & b & B1 & W1 & -> & -> & HBl & HWx & Hok & Hlen & Hm).
    destruct (mem_take _ _ _ _ _ _ i k Hm Hi) as (B2 & W2 & R & S & H2 & -> & -> & D1 & D2 & Hplug). cbn in H2, Hplug.
    rewrite Hhi in *.
    destruct (IH hi (WMem l i) k B2 W2 H2 Hp) as (y & By & Wy & R2 & S2 & Hy & -> & -> & D3 & D4 & Hrun & _ & Hrec).
    exists y, By, Wy, (<[l := b]> (R2 ∪ R)), (<[x := mkW (PLoc l) a]> (S2 ∪ S)). cbn [end_hdr]. split_and!; [done| | | | | | |].
    + clear - HBl. map_solve.
    + clear - HWx. map_solve.
    + clear - HBl D3 D1. map_solve.
    + clear - HWx D4 D2. map_solve.
    + intros T s HB HW. cbn [locate]. rewrite run_bind. erewrite st_star; [|..|exact Hok].
      * apply Hrun; [clear - HB HBl; map_solve|clear - HW HWx; map_solve].
      * eapply lookup_weaken; [|exact HW]. apply lookup_insert.
      * eapply lookup_weaken; [|exact HB]. apply lookup_insert.
    + intros _. clear - HWx. at_norm. by destruct (Wy !! x).
    + intros ky' By' Wy' Hy' X1 X2. cbn [put fst snd]. rewrite (alter_insert_list _ _ _ k) by done.
      assert (HBy'l : By' !! l = None).
      { destruct (dis_at _ _ l X1) as [HX|HX]; [done|]. by rewrite lookup_insert in HX. }
      assert (HWy'x : Wy' !! x = None).
      { destruct (dis_at _ _ x X2) as [HX|HX]; [done|]. by rewrite lookup_insert in HX. }
      replace (By' ∪ <[l := b]> (R2 ∪ R)) with (<[l := b]> ((By' ∪ R2) ∪ R)) by (clear - HBy'l; map_solve).
      replace (Wy' ∪ <[x := mkW (PLoc l) a]> (S2 ∪ S)) with (<[x := mkW (PLoc l) a]> ((Wy' ∪ S2) ∪ S)) by (clear - HWy'x; map_solve).
      assert (HR2l : R2 !! l = None /\ R !! l = None).
      { clear - HBl. at_norm. destruct (By !! l), (R2 !! l), (R !! l); done. }
      assert (HS2x : S2 !! x = None /\ S !! x = None).
      { clear - HWx. at_norm. destruct (Wy !! x), (S2 !! x), (S !! x); done. }
      constructor; [done|by rewrite insert_length| | |].
      * apply Hplug; [apply Hrec; [done| |]| |].
        -- clear - X1 HR2l. destruct HR2l. map_solve.
        -- clear - X2 HS2x. destruct HS2x. map_solve.
        -- clear - X1 HR2l D1. destruct HR2l. map_solve.
        -- clear - X2 HS2x D2. destruct HS2x. map_solve.
      * at_norm. by rewrite HBy'l, (proj1 HR2l), (proj2 HR2l).
      * at_norm. by rewrite HWy'x, (proj1 HS2x), (proj2 HS2x).
Qed.

Lemma path_take2 p q h x kx Bx Wx ky kz :
  wrap_heap h x kx Bx Wx -> at_path kx p = Some ky -> at_path kx q = Some kz -> apart p q = true ->
  exists y By Wy z Bz Wz R S, wrap_heap (end_hdr h p) y ky By Wy /\ wrap_heap (end_hdr h q) z kz Bz Wz /\
    Bx = By ∪ (Bz ∪ R) /\ Wx = Wy ∪ (Wz ∪ S) /\ By ##ₘ Bz /\ By ##ₘ R /\ Bz ##ₘ R /\ Wy ##ₘ Wz /\ Wy ##ₘ S /\ Wz ##ₘ S /\
    (forall T s, Bx ⊆ blocks s -> Wx ⊆ wraps s -> run (locate T x h p) s = ORet y s) /\
    (forall T s, Bx ⊆ blocks s -> Wx ⊆ wraps s -> run (locate T x h q) s = ORet z s) /\
    forall ky' By' Wy' kz' Bz' Wz', wrap_heap (end_hdr h p) y ky' By' Wy' -> wrap_heap (end_hdr h q) z kz' Bz' Wz' ->
      By' ##ₘ Bz' -> By' ##ₘ R -> Bz' ##ₘ R -> Wy' ##ₘ Wz' -> Wy' ##ₘ S -> Wz' ##ₘ S ->
      wrap_heap h x (put (put kx p ky') q kz') (By' ∪ (Bz' ∪ R)) (Wy' ∪ (Wz' ∪ S)).
Proof.
  revert q h x kx Bx Wx. induction p as [|[i hi] p IH]; intros [|[j hj] q] h x kx Bx Wx Hx Hp Hq Ha; try done.
  cbn [TreeClient.at_path] in Hp, Hq. destruct kx as [[[t v kids]|] a]; [|done]. cbn [fst] in Hp, Hq.
  destruct (decide (k_hdr Sh t i = hi)) as [Hhi|]; [|done]. destruct (kids !! i) as [k|] eqn:Hi; [|done].
  destruct (decide (k_hdr Sh t j = hj)) as [Hhj|]; [|done]. destruct (kids !! j) as [k2|] eqn:Hj; [|done].
  apply wrap_inv in Hx as (l & b & B1 & W1 & -> & -> & HBl & HWx & Hok & Hlen & Hm).
  assert (Hloc : forall T s i' h' p', <[l := b]> B1 ⊆ blocks s -> <[x := mkW (PLoc l) a]> W1 ⊆ wraps s ->
    run (locate T x h ((i', h') :: p')) s = run (locate T (WMem l i') h' p') s).
  { intros T s i' h' p' HB HW. cbn [locate]. rewrite run_bind. erewrite st_star; [done|..|exact Hok].
    - eapply lookup_weaken; [|exact HW]. apply lookup_insert.
    - eapply lookup_weaken; [|exact HB]. apply lookup_insert. }
  cbn [apart] in Ha. destruct (decide (i = j)) as [<-|Hij].
  - rewrite Nat.eqb_refl in Ha. cbn in Ha. simplify_eq.
    destruct (mem_take _ _ _ _ _ _ i k Hm Hi) as (B2 & W2 & R & S & H2 & -> & -> & D1 & D2 & Hplug). cbn in H2, Hplug.
    destruct (IH q (k_hdr Sh t i) (WMem l i) k B2 W2 H2 Hp Hq Ha)
      as (y & By & Wy & z & Bz & Wz & R2 & S2 & Hy & Hz & -> & -> & X1 & X2 & X3 & X4 & X5 & X6 & Hr1 & Hr2 & Hrec).
    assert (HB0 : By !! l = None /\ Bz !! l = None /\ R2 !! l = None /\ R !! l = None).
    { clear - HBl. at_norm. destruct (By !! l), (Bz !! l), (R2 !! l), (R !! l); done. }
    assert (HW0 : Wy !! x = None /\ Wz !! x = None /\ S2 !! x = None /\ S !! x = None).
    { clear - HWx. at_norm. destruct (Wy !! x), (Wz !! x), (S2 !! x), (S !! x); done. }
    destruct HB0 as (HBy & HBz & HR2 & HR). destruct HW0 as (HWy & HWz & HS2 & HS').
    exists y, By, Wy, z, Bz, Wz, (<[l := b]> (R2 ∪ R)), (<[x := mkW (PLoc l) a]> (S2 ∪ S)). cbn [end_hdr].
    split_and!; try done.
    + clear - HBy HBz. map_solve.
    + clear - HWy HWz. map_solve.
    + clear - HBy X2 D1 X1. map_solve.
    + clear - HBz X3 D1 X1. map_solve.
    + clear - HWy X5 D2 X4. map_solve.
    + clear - HWz X6 D2 X4. map_solve.
    + intros T s HB HW. rewrite Hloc by done. apply Hr1; [clear - HB HBl; map_solve|clear - HW HWx; map_solve].
    + intros T s HB HW. rewrite Hloc by done. apply Hr2; [clear - HB HBl; map_solve|clear - HW HWx; map_solve].
    + intros ky' By' Wy' kz' Bz' Wz' Hy' Hz' Y1 Y2 Y3 Y4 Y5 Y6. cbn [put fst snd].
      rewrite (alter_insert_list _ _ kids k) by done.
      rewrite (alter_insert_list _ _ _ (put k p ky')) by (apply list_lookup_insert; by eapply lookup_lt_Some).
      rewrite list_insert_insert.
      assert (Hl1 : By' !! l = None /\ Bz' !! l = None).
      { split; [destruct (dis_at _ _ l Y2) as [HX|HX]|destruct (dis_at _ _ l Y3) as [HX|HX]]; try done; by rewrite lookup_insert in HX. }
      assert (Hx1 : Wy' !! x = None /\ Wz' !! x = None).
      { split; [destruct (dis_at _ _ x Y5) as [HX|HX]|destruct (dis_at _ _ x Y6) as [HX|HX]]; try done; by rewrite lookup_insert in HX. }
      destruct Hl1 as [Hl1 Hl2]. destruct Hx1 as [Hx1 Hx2].
      replace (By' ∪ (Bz' ∪ <[l := b]> (R2 ∪ R))) with (<[l := b]> ((By' ∪ (Bz' ∪ R2)) ∪ R)) by (clear - Hl1 Hl2; map_solve).
      replace (Wy' ∪ (Wz' ∪ <[x := mkW (PLoc l) a]> (S2 ∪ S))) with (<[x := mkW (PLoc l) a]> ((Wy' ∪ (Wz' ∪ S2)) ∪ S))
        by (clear - Hx1 Hx2; map_solve).
      constructor; [done|by rewrite insert_length| | |].
      * apply Hplug; [apply Hrec; try done| |].
        -- clear - Y2 HR2. map_solve.
        -- clear - Y3 HR2. map_solve.
        -- clear - Y5 HS2. map_solve.
        -- clear - Y6 HS2. map_solve.
        -- clear - Y2 Y3 HR2 HR D1. map_solve.
        -- clear - Y5 Y6 HS2 HS' D2. map_solve.
      * at_norm. by rewrite Hl1, Hl2, HR2, HR.
      * at_norm. by rewrite Hx1, Hx2, HS2, HS'.
  - destruct (mem_take2 _ _ _ _ _ _ i k j k2 Hm Hi Hj Hij)
      as (B2 & W2 & B3 & W3 & R & S & H2 & H3 & -> & -> & D1 & D2 & D3 & D4 & D5 & D6 & Hplug). cbn in H2, H3, Hplug.
    rewrite Hhi, Hhj in *.
    destruct (path_take p hi (WMem l i) k B2 W2 ky H2 Hp) as (y & By & Wy & R2 & S2 & Hy & -> & -> & X1 & X2 & Hr1 & _ & Hrec1).
    destruct (path_take q hj (WMem l j) k2 B3 W3 kz H3 Hq) as (z & Bz & Wz & R3 & S3 & Hz & -> & -> & X3 & X4 & Hr2 & _ & Hrec2).
    assert (HB0 : By !! l = None /\ Bz !! l = None /\ R2 !! l = None /\ R3 !! l = None /\ R !! l = None).
    { clear - HBl. at_norm. destruct (By !! l), (Bz !! l), (R2 !! l), (R3 !! l), (R !! l); done. }
    assert (HW0 : Wy !! x = None /\ Wz !! x = None /\ S2 !! x = None /\ S3 !! x = None /\ S !! x = None).
    { clear - HWx. at_norm. destruct (Wy !! x), (Wz !! x), (S2 !! x), (S3 !! x), (S !! x); done. }
    destruct HB0 as (HBy & HBz & HR2 & HR3 & HR). destruct HW0 as (HWy & HWz & HS2 & HS3 & HS').
    exists y, By, Wy, z, Bz, Wz, (<[l := b]> (R2 ∪ (R3 ∪ R))), (<[x := mkW (PLoc l) a]> (S2 ∪ (S3 ∪ S))). cbn [end_hdr].
    split_and!; try done.
    + clear - HBy HBz D1 D2 D3 X1 X3. map_solve.
    + clear - HWy HWz D4 D5 D6 X2 X4. map_solve.
    + clear - D1. map_solve.
    + clear - HBy D1 D2 X1. map_solve.
    + clear - HBz D1 D3 X3. map_solve.
    + clear - D4. map_solve.
    + clear - HWy D4 D5 X2. map_solve.
    + clear - HWz D4 D6 X4. map_solve.
    + intros T s HB HW. rewrite Hloc by done. apply Hr1; [clear - HB HBl; map_solve|clear - HW HWx; map_solve].
    + intros T s HB HW. rewrite Hloc by done. apply Hr2; [clear - HB HBl D1; map_solve|clear - HW HWx D4; map_solve].
    + intros ky' By' Wy' kz' Bz' Wz' Hy' Hz' Y1 Y2 Y3 Y4 Y5 Y6. cbn [put fst snd].
      rewrite (alter_insert_list _ _ kids k) by done.
      rewrite (alter_insert_list _ _ _ k2) by (by rewrite list_lookup_insert_ne).
      assert (Hl1 : By' !! l = None /\ Bz' !! l = None).
      { split; [destruct (dis_at _ _ l Y2) as [HX|HX]|destruct (dis_at _ _ l Y3) as [HX|HX]]; try done; by rewrite lookup_insert in HX. }
      assert (Hx1 : Wy' !! x = None /\ Wz' !! x = None).
      { split; [destruct (dis_at _ _ x Y5) as [HX|HX]|destruct (dis_at _ _ x Y6) as [HX|HX]]; try done; by rewrite lookup_insert in HX. }
      destruct Hl1 as [Hl1 Hl2]. destruct Hx1 as [Hx1 Hx2].
      replace (By' ∪ (Bz' ∪ <[l := b]> (R2 ∪ (R3 ∪ R)))) with (<[l := b]> ((By' ∪ R2) ∪ ((Bz' ∪ R3) ∪ R)))
        by (clear - Hl1 Hl2 Y3 HR2; map_solve).
      replace (Wy' ∪ (Wz' ∪ <[x := mkW (PLoc l) a]> (S2 ∪ (S3 ∪ S)))) with (<[x := mkW (PLoc l) a]> ((Wy' ∪ S2) ∪ ((Wz' ∪ S3) ∪ S)))
        by (clear - Hx1 Hx2 Y6 HS2; map_solve).
      constructor; [done|by rewrite !insert_length| | |].
      * apply Hplug.
        -- apply Hrec1; [done|clear - Y2 HR2; map_solve|clear - Y5 HS2; map_solve].
        -- apply Hrec2; [done|clear - Y3 HR2 HR3; map_solve|clear - Y6 HS2 HS3; map_solve].
        -- clear - Y1 Y2 Y3 HR2 HR3 D1. map_solve.
        -- clear - Y2 D2 HR2 HR3 HR. map_solve.
        -- clear - Y3 D3 HR2 HR3 HR. map_solve.
        -- clear - Y4 Y5 Y6 HS2 HS3 D4. map_solve.
        -- clear - Y5 D5 HS2 HS3 HS'. map_solve.
        -- clear - Y6 D6 HS2 HS3 HS'. map_solve.
      * at_norm. by rewrite Hl1, Hl2, HR2, HR3, HR.
      * at_norm. by rewrite Hx1, Hx2, HS2, HS3, HS'.
Qed.
End tree.
