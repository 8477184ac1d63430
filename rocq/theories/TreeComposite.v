(** * Memberwise move assignment. *)

From stdpp Require Import base gmap list.
From Verif Require Import Lang Common Client Spec Rep RunLemmas Headers Hist Tree TreeProps TreeAssign TreeAssignC TreeMove TreeMoveAssign.
From Verif Require Import Indirect20 Indirect14 Polymorphic20 Polymorphic14.

Section tree.
Context {E : Env} (Sh : Shape E).
Notation A := (eA E).
Notation wst := (option (tree E) * A)%type.
Implicit Types s : store E.
Notation wrap_heap := (wrap_heap Sh).
Notation mem_heap := (mem_heap Sh).
Notation node_impl := (node_impl Sh).
Notation placed := (placed Sh).
Notation placed_all := (placed_all Sh).

(** Places survive the replacement of two heaps they are not in. *)
Lemma placed_replaced2 h x y kx ky Bx Wx By Wy B' W' s s' u :
  wrap_heap h x kx Bx Wx -> wrap_heap h y ky By Wy -> Wx ##ₘ Wy ->
  replaced s s' (Bx ∪ By) (Wx ∪ Wy) B' W' -> Bx ⊆ blocks s -> By ⊆ blocks s -> placed s u ->
  ((Wx ∪ Wy) !! u = None \/ u = x \/ u = y) -> placed s' u.
Proof.
  intros Hx Hy DW HR HBx HBy Hu HWu. destruct u as [m|l i]; [done|]. destruct Hu as (b & Hb & Hi).
  destruct (wrap_in _ _ _ _ _ _ Hx) as [qx Hqx]. destruct (wrap_in _ _ _ _ _ _ Hy) as [qy Hqy].
  exists b. split; [|done]. rewrite (rp_b _ _ _ _ _ _ HR).
  assert (HBl : Bx !! l = None).
  { destruct (Bx !! l) as [b'|] eqn:HBl; [|done]. exfalso.
    assert (b' = b) as -> by (pose proof (lookup_weaken _ _ _ _ HBl HBx); congruence).
    destruct (heap_full _ _ _ _ _ _ Hx _ _ HBl) as (t & v & Hobj & Hall).
    destruct (Hall i (Hi _ _ Hobj)) as [Hne [q Hq]]. rewrite lookup_un, Hq in HWu.
    destruct HWu as [|[|HX]]; [congruence|congruence|]. rewrite HX in Hq. destruct (dis_at _ _ y DW); congruence. }
  assert (HBl2 : By !! l = None).
  { destruct (By !! l) as [b'|] eqn:HBl2; [|done]. exfalso.
    assert (b' = b) as -> by (pose proof (lookup_weaken _ _ _ _ HBl2 HBy); congruence).
    destruct (heap_full _ _ _ _ _ _ Hy _ _ HBl2) as (t & v & Hobj & Hall).
    destruct (Hall i (Hi _ _ Hobj)) as [Hne [q Hq]]. rewrite lookup_un, Hq in HWu.
    destruct HWu as [HX|[HX|]]; [by destruct (Wx !! WMem l i)| |congruence]. rewrite HX in Hq. destruct (dis_at _ _ x DW); congruence. }
  assert (D := rp_db _ _ _ _ _ _ HR). apply (fun Q => dis_at _ _ l Q) in D. at_norm. rewrite HBl, HBl2 in *.
  destruct D as [->|D]; congruence.
Qed.

Lemma placed_all_replaced2 h x y kx ky kx' ky' Bx Wx By Wy B1 W1 B2 W2 s s' :
  wrap_heap h x kx Bx Wx -> wrap_heap h y ky By Wy -> Wx ##ₘ Wy ->
  wrap_heap h x kx' B1 W1 -> wrap_heap h y ky' B2 W2 -> B1 ##ₘ B2 -> W1 ##ₘ W2 ->
  replaced s s' (Bx ∪ By) (Wx ∪ Wy) (B1 ∪ B2) (W1 ∪ W2) -> Bx ⊆ blocks s -> By ⊆ blocks s ->
  placed s x -> placed s y -> placed_all s -> placed_all s'.
Proof.
  intros Hx Hy DW Hx' Hy' DB' DW' HR HBx HBy Px Py HP u [q Hq]. rewrite (rp_w _ _ _ _ _ _ HR) in Hq.
  destruct (decide (u = x)) as [->|Hnx]; [eapply (placed_replaced2 h x y kx ky); try done; by right; left|].
  destruct (decide (u = y)) as [->|Hny]; [eapply (placed_replaced2 h x y kx ky); try done; by right; right|].
  assert (Hcase : is_Some (W1 !! u) \/ is_Some (W2 !! u) \/ ((Wx ∪ Wy) !! u = None /\ is_Some (wraps s !! u))).
  { rewrite lookup_un, lookup_diff, lookup_un in Hq. destruct (W1 !! u); [by left; eexists|]. destruct (W2 !! u); [by right; left; eexists|].
    right; right. destruct ((Wx ∪ Wy) !! u); [done|]. split; [done|by eexists]. }
  destruct Hcase as [HX|[HX|[H1 H2]]].
  - destruct u as [m|l i]; [done|]. destruct (heap_bound _ _ _ _ _ _ Hx' l i HX Hnx) as (b & Hb & Hi).
    exists b. split; [|done]. rewrite (rp_b _ _ _ _ _ _ HR). at_norm. by rewrite Hb.
  - destruct u as [m|l i]; [done|]. destruct (heap_bound _ _ _ _ _ _ Hy' l i HX Hny) as (b & Hb & Hi).
    exists b. split; [|done]. rewrite (rp_b _ _ _ _ _ _ HR). at_norm. rewrite Hb.
    destruct (dis_at _ _ l DB') as [->|]; [done|congruence].
  - eapply (placed_replaced2 h x y kx ky); try done; [by apply HP|by left].
Qed.

Context (HS : ShapeReq Sh) (HA : AllocReq E) (Hrefl : forall a, a_eqb E a a = true).

Lemma moved_to_fits n a (T : tree E) : fits n (Some T) -> fits n (Some (moved_to a T)).
Proof. destruct T, n; done. Qed.
Lemma moved_from_fits n a (T : tree E) : fits n (Some T) -> fits n (Some (moved_from a T)).
Proof.
  destruct T as [t v kids], n as [|n]; [done|]. intros _. cbn. apply Forall_map, Forall_true. intros k. by destruct n.
Qed.
Lemma move_failed_fits n (T T' : tree E) : move_failed T T' -> fits n (Some T) -> fits n (Some T').
Proof. destruct T as [t v kids]. intros [->| ->]; [done|]. by destruct n. Qed.
Lemma masg_x_fits n (kx ky : wst) : fits n kx.1 -> fits n ky.1 -> fits n (masg_x kx ky).1.
Proof.
  destruct ky as [[T|] ay]; cbn; [|by destruct n]. intros _ H. case_match; [done|by apply moved_to_fits].
Qed.
Lemma masg_y_fits n (kx ky : wst) : fits n ky.1 -> fits n (masg_y kx ky).1.
Proof.
  destruct ky as [[T|] ay]; cbn; [|done]. intros H. case_match; [by destruct n|by apply moved_from_fits].
Qed.

(** Both sequences afterwards, as in [masg_ok]: if an assignment throws the members before it
    have been assigned, the source of that one may have been changed, the rest is untouched. *)
Lemma masg_loop n hs dst src i ds ks Bd Wd Bs Ws s :
  placed_all s -> length ds = length ks ->
  (forall j, i <= j < i + length ds -> placed s (dst j) /\ placed s (src j)) ->
  mem_heap hs dst i ds Bd Wd -> mem_heap hs src i ks Bs Ws -> Bd ##ₘ Bs -> Wd ##ₘ Ws ->
  Bd ⊆ blocks s -> Wd ⊆ wraps s -> Bs ⊆ blocks s -> Ws ⊆ wraps s ->
  Forall (fun k => fits n k.1) ds -> Forall (fun k => fits n k.1) ks ->
  match run (assign_members (fun j => i_move_assign (node_impl n (hs j)) (dst j) (src j)) i (length ds)) s with
  | ORet _ s' => exists B1 W1 B2 W2,
      mem_heap hs dst i (zip_with masg_x ds ks) B1 W1 /\ mem_heap hs src i (zip_with masg_y ds ks) B2 W2 /\
      B1 ##ₘ B2 /\ W1 ##ₘ W2 /\ replaced s s' (Bd ∪ Bs) (Wd ∪ Ws) (B1 ∪ B2) (W1 ∪ W2)
  | OThrow _ s' => pocma E = false /\ exists ds' ks' B1 W1 B2 W2,
      mem_heap hs dst i ds' B1 W1 /\ mem_heap hs src i ks' B2 W2 /\ length ds' = length ds /\ length ks' = length ks /\
      B1 ##ₘ B2 /\ W1 ##ₘ W2 /\ replaced s s' (Bd ∪ Bs) (Wd ∪ Ws) (B1 ∪ B2) (W1 ∪ W2)
  | OTerm => pocma E = true /\ exists j d k, ds !! j = Some d /\ ks !! j = Some k /\ a_eqb E d.2 k.2 = false
  | OUB _ => False
  end.
Proof.
  revert i ks Bd Wd Bs Ws s.
  induction ds as [|d ds IH]; intros i [|k ks] Bd Wd Bs Ws s HP Hlen Hpl Hd Hs DB DW HBd HWd HBs HWs Hfd Hfs; try done.
  - apply mem_nil_inv in Hd as [-> ->]. apply mem_nil_inv in Hs as [-> ->]. cbn. exists ∅, ∅, ∅, ∅.
    split_and!; [constructor|constructor|map_solve|map_solve|]. by apply replaced_refl.
  - apply mem_cons_inv in Hd as (B1 & W1 & B2 & W2 & -> & -> & DB12 & DW12 & H1 & H2).
    apply mem_cons_inv in Hs as (B3 & W3 & B4 & W4 & -> & -> & DB34 & DW34 & H3 & H4).
    inversion Hfd as [|k' ks' Hf1 Hf2]; subst. inversion Hfs as [|k' ks' Hf3 Hf4]; subst.
    assert (DB13 : B1 ##ₘ B3) by (clear - DB; map_solve). assert (DW13 : W1 ##ₘ W3) by (clear - DW; map_solve).
    assert (HB1 : B1 ⊆ blocks s) by (clear - HBd; map_solve). assert (HW1 : W1 ⊆ wraps s) by (clear - HWd; map_solve).
    assert (HB3 : B3 ⊆ blocks s) by (clear - HBs; map_solve). assert (HW3 : W3 ⊆ wraps s) by (clear - HWs; map_solve).
    assert (HB2 : B2 ⊆ blocks s) by (clear - HBd DB12; map_solve). assert (HW2 : W2 ⊆ wraps s) by (clear - HWd DW12; map_solve).
    assert (HB4 : B4 ⊆ blocks s) by (clear - HBs DB34; map_solve). assert (HW4 : W4 ⊆ wraps s) by (clear - HWs DW34; map_solve).
    assert (DBr : B1 ∪ B3 ##ₘ B2 ∪ B4) by (clear - DB DB12 DB34; map_solve).
    assert (DWr : W1 ∪ W3 ##ₘ W2 ∪ W4) by (clear - DW DW12 DW34; map_solve).
    replace ((B1 ∪ B2) ∪ (B3 ∪ B4)) with ((B1 ∪ B3) ∪ (B2 ∪ B4)) by (clear - DB DB12 DB34; map_solve).
    replace ((W1 ∪ W2) ∪ (W3 ∪ W4)) with ((W1 ∪ W3) ∪ (W2 ∪ W4)) by (clear - DW DW12 DW34; map_solve).
    assert (Hi : placed s (dst i) /\ placed s (src i)) by (apply Hpl; simpl; lia). destruct Hi as [Hi1 Hi2].
    cbn [length assign_members]. rewrite run_bind.
    assert (HX := masg_all Sh HS HA Hrefl n (hs i) (dst i) (src i) d k B1 W1 B3 W3 s (placed_mem_ok _ _ HP) H1 H3 DB13 DW13 HB1 HW1 HB3 HW3 Hf1 Hf3).
    (* the remaining members after the first assignment *)
    assert (Hrest : forall s1 B' W', replaced s s1 (B1 ∪ B3) (W1 ∪ W3) B' W' ->
      B2 ⊆ blocks s1 /\ W2 ⊆ wraps s1 /\ B4 ⊆ blocks s1 /\ W4 ⊆ wraps s1).
    { intros s1 B' W' [R1 R2 _ R4 R5]. rewrite R1, R2. split_and!.
      - clear - R4 HB2 DBr DB. map_solve.
      - clear - R5 HW2 DWr DW. map_solve.
      - clear - R4 HB4 DBr DB. map_solve.
      - clear - R5 HW4 DWr DW. map_solve. }
    destruct (run (i_move_assign _ _ _) s) as [u s1|e s1| |]; [| |done|].
    + destruct HX as (B1' & W1' & B3' & W3' & Hw1 & Hw3 & D1 & D3 & R1).
      destruct (Hrest _ _ _ R1) as (HB2' & HW2' & HB4' & HW4').
      specialize (IH (S i) ks B2 W2 B4 W4 s1).
      feed specialize IH; [|by simplify_eq/=| |exact H2|exact H4|clear - DB; map_solve|clear - DW; map_solve|done|done|done|done|done|done|].
      { by eapply (placed_all_replaced2 (hs i) (dst i) (src i) d k). }
      { intros j Hj. assert (Hj' : placed s (dst j) /\ placed s (src j)) by (apply Hpl; simpl; lia).
        destruct Hj' as [Hj1 Hj2].
        destruct (mem_in_gen _ _ _ _ _ _ _ H2 j Hj) as [q Hq].
        destruct (mem_in_gen _ _ _ _ _ _ _ H4 j) as [q' Hq']; [simplify_eq/=; lia|].
        split; (eapply (placed_replaced2 (hs i) (dst i) (src i) d k); [done|done|done|exact R1|done|done|done|left]).
        - destruct (dis_at _ _ (dst j) DWr) as [|HX]; [done|]. rewrite lookup_un, Hq in HX. done.
        - destruct (dis_at _ _ (src j) DWr) as [|HX]; [done|]. rewrite lookup_un, Hq' in HX. by destruct (W2 !! src j). }
      destruct (run (assign_members _ _ _) s1) as [u2 s2|e s2| |]; [| |done|].
      * destruct IH as (B2' & W2' & B4' & W4' & Hm2 & Hm4 & D2 & D4 & R2).
        destruct (replaced_trans s s1 s2 (B1 ∪ B3) (W1 ∪ W3) (B1' ∪ B3') (W1' ∪ W3') (B2 ∪ B4) (W2 ∪ W4) (B2' ∪ B4') (W2' ∪ W4'))
          as (R3 & D5 & D6); [done|done|done|done|clear - HB2 HB4; map_solve|clear - HW2 HW4; map_solve|].
        exists (B1' ∪ B2'), (W1' ∪ W2'), (B3' ∪ B4'), (W3' ∪ W4').
        replace ((B1' ∪ B2') ∪ (B3' ∪ B4')) with ((B1' ∪ B3') ∪ (B2' ∪ B4')) by (clear - D1 D2 D5; map_solve).
        replace ((W1' ∪ W2') ∪ (W3' ∪ W4')) with ((W1' ∪ W3') ∪ (W2' ∪ W4')) by (clear - D3 D4 D6; map_solve).
        split_and!; [| |clear - D1 D2 D5; map_solve|clear - D3 D4 D6; map_solve|done].
        -- cbn [zip_with]. constructor; [done|done|clear - D5; map_solve|clear - D6; map_solve].
        -- cbn [zip_with]. constructor; [done|done|clear - D1 D2 D5; map_solve|clear - D3 D4 D6; map_solve].
      * destruct IH as (Hma & ds' & ks' & B2' & W2' & B4' & W4' & Hm2 & Hm4 & L2 & L4 & D2 & D4 & R2). split; [done|].
        destruct (replaced_trans s s1 s2 (B1 ∪ B3) (W1 ∪ W3) (B1' ∪ B3') (W1' ∪ W3') (B2 ∪ B4) (W2 ∪ W4) (B2' ∪ B4') (W2' ∪ W4'))
          as (R3 & D5 & D6); [done|done|done|done|clear - HB2 HB4; map_solve|clear - HW2 HW4; map_solve|].
        exists (masg_x d k :: ds'), (masg_y d k :: ks'), (B1' ∪ B2'), (W1' ∪ W2'), (B3' ∪ B4'), (W3' ∪ W4').
        replace ((B1' ∪ B2') ∪ (B3' ∪ B4')) with ((B1' ∪ B3') ∪ (B2' ∪ B4')) by (clear - D1 D2 D5; map_solve).
        replace ((W1' ∪ W2') ∪ (W3' ∪ W4')) with ((W1' ∪ W3') ∪ (W2' ∪ W4')) by (clear - D3 D4 D6; map_solve).
        split_and!; [| |cbn; congruence|cbn; congruence|clear - D1 D2 D5; map_solve|clear - D3 D4 D6; map_solve|done].
        -- constructor; [done|done|clear - D5; map_solve|clear - D6; map_solve].
        -- constructor; [done|done|clear - D1 D2 D5; map_solve|clear - D3 D4 D6; map_solve].
      * destruct IH as (Hma & j & d' & k' & ? & ? & ?). split; [done|]. by exists (S j), d', k'.
    + destruct HX as (Hma & _ & _ & T & T' & B3' & W3' & HT & Hmf & Hw3 & R0). split; [done|].
      assert (R1 : replaced s s1 (B1 ∪ B3) (W1 ∪ W3) (B1 ∪ B3') (W1 ∪ W3') /\ B1 ##ₘ B3' /\ W1 ##ₘ W3').
      { destruct (replaced_trans s s s1 B1 W1 B1 W1 B3 W3 B3' W3') as (R1 & Q1 & Q2); [by apply replaced_refl|done..]. }
      destruct R1 as (R1 & D1 & D3).
      destruct (Hrest _ _ _ R1) as (HB2' & HW2' & HB4' & HW4').
      destruct (replaced_trans s s1 s1 (B1 ∪ B3) (W1 ∪ W3) (B1 ∪ B3') (W1 ∪ W3') (B2 ∪ B4) (W2 ∪ W4) (B2 ∪ B4) (W2 ∪ W4))
          as (R3 & D5 & D6); [done| |done|done|clear - HB2 HB4; map_solve|clear - HW2 HW4; map_solve|].
      { apply replaced_refl; [clear - HB2' HB4'; map_solve|clear - HW2' HW4'; map_solve]. }
      exists (d :: ds), ((Some T', k.2) :: ks), (B1 ∪ B2), (W1 ∪ W2), (B3' ∪ B4), (W3' ∪ W4).
      replace ((B1 ∪ B2) ∪ (B3' ∪ B4)) with ((B1 ∪ B3') ∪ (B2 ∪ B4)) by (clear - D1 D5 DB; map_solve).
      replace ((W1 ∪ W2) ∪ (W3' ∪ W4)) with ((W1 ∪ W3') ∪ (W2 ∪ W4)) by (clear - D3 D6 DW; map_solve).
      split_and!; [by constructor| |done|done|clear - D1 D5 DB; map_solve|clear - D3 D6 DW; map_solve|done].
      constructor; [done|done|clear - D1 D5 DB; map_solve|clear - D3 D6 DW; map_solve].
    + destruct HX as [Hma Ha]. split; [done|]. by exists 0, d, k.
Qed.

End tree.
