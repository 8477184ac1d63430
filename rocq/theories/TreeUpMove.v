(** * Move assignment of a wrapper to, and swap with, a wrapper nested in its own value. *)

From stdpp Require Import base gmap list.
From Verif Require Import Lang Common Client Spec Rep RunLemmas Headers Hist Tree TreeProps TreeAssign TreeAssignC TreeMove TreeMoveAssign.
From Verif Require Import TreeSub TreeSubUB TreeObs TreeClient TreePlace TreeForest TreeStep TreeOps TreeSubMem.
From Verif Require Import TreeUp.
From Verif Require Import Indirect20 Indirect14 Polymorphic20 Polymorphic14.

Section up.
Context {E : Env} (Sh : Shape E) (HS : ShapeReq Sh) (HA : AllocReq E) (Hrefl : forall a, a_eqb E a a = true).
Notation A := (eA E).
Notation V := (eV E).
Notation wst := (option (tree E) * A)%type.
Notation forest := (gmap nat (header * wst)).
Implicit Types s : store E.
Implicit Types F : forest.
Notation wrap_heap := (wrap_heap Sh).
Notation mem_heap := (mem_heap Sh).
Notation nodeTP := (nodeTP Sh).
Notation node_impl := (node_impl Sh).
Notation placed := (placed Sh).
Notation placed_all := (placed_all Sh).
Notation forest_heap := (forest_heap Sh).

(** The wrapper at [p] in the value of [x]. *)
Lemma take_here p h x y kx Bx Wx ky s :
  p <> [] -> wrap_heap h x kx Bx Wx -> Wx ⊆ wraps s -> sub_at_path Sh h kx p = Some (h, ky) -> walk s x p = Some y ->
  exists l By Wy R S, kx.1 <> None /\ wrap_heap h y ky By Wy /\ Bx = By ∪ R /\ Wx = Wy ∪ S /\ By ##ₘ R /\ Wy ##ₘ S /\
    S !! x = Some (mkW (PLoc l) kx.2) /\ is_Some (R !! l) /\ Wy !! x = None /\
    (forall ky' By' Wy', wrap_heap h y ky' By' Wy' -> By' ##ₘ R -> Wy' ##ₘ S ->
      wrap_heap h x (put_at kx p ky') (By' ∪ R) (Wy' ∪ S)).
Proof.
  intros Hp Hx HW Hsub Hwalk.
  destruct (take_at Sh p h x kx Bx Wx h ky Hx Hsub) as (y' & By & Wy & R & S & Hy & -> & -> & D1 & D2 & Hwk & HxS & Hplug).
  assert (y' = y) as ->. { specialize (Hwk s). feed specialize Hwk; [clear - HW D2; map_solve|congruence]. }
  destruct (HxS Hp) as [(l & HSx & HRl) HxWy].
  destruct kx as [[T|] a]; [|by destruct p]. exists l, By, Wy, R, S. by split_and!.
Qed.

(** Move assignment [y = std::move(x)] between equal allocators: the two exchange what they own,
    and [x] then destroys what [y] owned.  The node of [x], now owned by its own member, stays. *)
Lemma up_move_eq n p h x y kx ky Bx Wx s :
  p <> [] -> wrap_heap h x kx Bx Wx -> Bx ⊆ blocks s -> Wx ⊆ wraps s -> fits n kx.1 ->
  sub_at_path Sh h kx p = Some (h, ky) -> walk s x p = Some y -> a_eqb E ky.2 kx.2 = true ->
  exists l By Wy R S s', Bx = By ∪ R /\ Wx = Wy ∪ S /\ By ##ₘ R /\ Wy ##ₘ S /\ wrap_heap h y ky By Wy /\
    wraps s !! x = Some (mkW (PLoc l) kx.2) /\ S !! x = Some (mkW (PLoc l) kx.2) /\ is_Some (R !! l) /\ Wy !! x = None /\ is_Some (Wy !! y) /\
    run (i_move_assign (node_impl n h) y x) s = ORet tt s' /\ exts s' = exts s /\ blocks s' = blocks s ∖ By /\
    wraps s' = <[x := mkW PNull kx.2]> (<[y := mkW (PLoc l) (sel (pocma E) ky.2 kx.2)]> (wraps s ∖ Wy)).
Proof.
  intros Hp Hx HB HW Hf Hsub Hwalk Ha.
  destruct (take_here p h x y kx Bx Wx ky s Hp Hx HW Hsub Hwalk)
    as (l & By & Wy & R & S & Hkx & Hy & -> & -> & D1 & D2 & HSx & HRl & HxWy & _).
  assert (Hxs : wraps s !! x = Some (mkW (PLoc l) kx.2)).
  { eapply lookup_weaken; [|exact HW]. by apply lookup_union_Some_raw; right. }
  assert (HWy : Wy ⊆ wraps s) by (clear - HW; map_solve).
  destruct (wrap_ptr _ _ _ _ _ _ s Hy HWy) as (py & Hpy & Hys & _).
  destruct (wrap_in _ _ _ _ _ _ Hy) as [wy Hwy].
  assert (wy = mkW py ky.2) as -> by (pose proof (lookup_weaken _ _ _ _ Hwy HWy); congruence).
  assert (Hyx : y <> x) by congruence.
  assert (Hfy := sub_fits _ _ _ _ _ _ _ Hsub Hf).
  assert (Hres := ar_res _ HA _ _ Ha).
  exists l, By, Wy, R, S. unfold Tree.node_impl. rewrite massign_eq. erewrite massign_eqa by done.
  rewrite run_bind, run_bind. erewrite st_swap by done. set (s1 := set_wraps _ s).
  assert (S1b : blocks s1 = blocks s) by done.
  assert (S1w : wraps s1 = <[y := mkW (PLoc l) ky.2]> (<[x := mkW py kx.2]> (wraps s))) by done.
  assert (S1x : exts s1 = exts s) by done. clearbody s1.
  assert (Hx1 : wrap_heap h x (ky.1, kx.2) By (<[x := mkW py kx.2]> (delete y Wy))).
  { pose proof (realloc Sh h x ky kx.2 By (<[x := mkW py ky.2]> (delete y Wy)) (mkW py ky.2)) as HR.
    cbn [w_p] in HR. rewrite insert_insert in HR. apply HR; [by apply rename|by rewrite lookup_insert|done]. }
  destruct (reset_all Sh n h x (ky.1, kx.2) By _ s1 Hx1) as (s2 & R2 & E1 & E2 & E3).
  { done. }
  { rewrite S1b. clear - HB. map_solve. }
  { rewrite S1w. clear - HWy Hyx. map_solve. }
  cbn [snd] in E2. rewrite R2.
  assert (Hy2 : wraps s2 !! y = Some (mkW (PLoc l) ky.2)).
  { rewrite E2, lookup_insert_ne by done. at_norm. rewrite (decide_False (P := x = y)) by done.
    rewrite decide_True by done. rewrite S1w. by rewrite lookup_insert. }
  set (a := sel (pocma E) ky.2 kx.2).
  assert (Hfin : exists s3, run (if pocma E then bind (act (PReadA x)) (fun a => act (PWriteA y a)) else Ret tt) s2 = ORet tt s3 /\
    blocks s3 = blocks s2 /\ wraps s3 = <[y := mkW (PLoc l) a]> (wraps s2) /\ exts s3 = exts s2).
  { subst a. unfold sel. destruct (pocma E).
    - cbn. rewrite E2, lookup_insert. cbn. rewrite <- E2, Hy2. eexists. split; [done|]. done.
    - exists s2. split_and!; try done. by rewrite insert_id. }
  destruct Hfin as (s3 & -> & F1 & F2 & F3).
  exists s3. split_and!; try done.
  - congruence.
  - by rewrite F1, E1, S1b.
  - rewrite F2, E2, S1w. clear - HWy Hwy Hyx. map_solve.
Qed.

(** Swap, either way round. *)
Lemma up_swap T p h x y kx ky Bx Wx s (b : bool) :
  p <> [] -> wrap_heap h x kx Bx Wx -> Bx ⊆ blocks s -> Wx ⊆ wraps s ->
  sub_at_path Sh h kx p = Some (h, ky) -> walk s x p = Some y ->
  pocs E = true \/ a_eqb E kx.2 ky.2 = true /\ a_eqb E ky.2 kx.2 = true ->
  exists l By Wy R S s' Wx', Bx = By ∪ R /\ Wx = Wy ∪ S /\ By ##ₘ R /\ Wy ##ₘ S /\ wrap_heap h y ky By Wy /\
    wraps s !! x = Some (mkW (PLoc l) kx.2) /\ S !! x = Some (mkW (PLoc l) kx.2) /\ is_Some (R !! l) /\ Wy !! x = None /\
    run (if b then i_swap (hdr_impl h T) x y else i_swap (hdr_impl h T) y x) s = ORet tt s' /\
    exts s' = exts s /\ blocks s' = blocks s /\
    wrap_heap h x (swap_x kx ky) By Wx' /\ Wx' = <[x := default (mkW PNull kx.2) (Wx' !! x)]> (delete y Wy) /\
    wraps s' = <[x := default (mkW PNull kx.2) (Wx' !! x)]> (<[y := mkW (PLoc l) (swap_x ky kx).2]> (wraps s)).
Proof.
  intros Hp Hx HB HW Hsub Hwalk Hc.
  destruct (take_here p h x y kx Bx Wx ky s Hp Hx HW Hsub Hwalk)
    as (l & By & Wy & R & S & Hkx & Hy & -> & -> & D1 & D2 & HSx & HRl & HxWy & _).
  assert (Hxs : wraps s !! x = Some (mkW (PLoc l) kx.2)).
  { eapply lookup_weaken; [|exact HW]. by apply lookup_union_Some_raw; right. }
  assert (HWy : Wy ⊆ wraps s) by (clear - HW; map_solve).
  destruct (wrap_ptr _ _ _ _ _ _ s Hy HWy) as (py & Hpy & Hys & _).
  destruct (wrap_in _ _ _ _ _ _ Hy) as [wy Hwy].
  assert (wy = mkW py ky.2) as -> by (pose proof (lookup_weaken _ _ _ _ Hwy HWy); congruence).
  assert (Hyx : y <> x) by congruence.
  set (a1 := (swap_x kx ky).2). set (a2 := (swap_x ky kx).2).
  exists l, By, Wy, R, S, (set_wraps (<[x := mkW py a1]> (<[y := mkW (PLoc l) a2]> (wraps s))) s), (<[x := mkW py a1]> (delete y Wy)).
  rewrite lookup_insert. cbn [default]. split_and!; try done.
  - assert (Hrun : forall u v, i_swap (hdr_impl h T) u v = Indirect20.swap u v) by (by destruct h). rewrite !Hrun.
    assert (Hgo : forall u v pu au pv av, u <> v -> wraps s !! u = Some (mkW pu au) -> wraps s !! v = Some (mkW pv av) ->
      pu <> PIndet -> pv <> PIndet -> pocs E = true \/ a_eqb E au av = true ->
      run (Indirect20.swap u v) s = ORet tt (set_wraps (<[u := mkW pv (if pocs E then av else au)]> (<[v := mkW pu (if pocs E then au else av)]> (wraps s))) s)).
    { intros u v pu au pv av Huv Hu Hv Hpu Hpv Hc'. unfold Indirect20.swap. rewrite run_noexcept. destruct (pocs E) eqn:Hpo.
      - rewrite run_bind. erewrite st_swap_a by done. erewrite st_swap; [| |by cbn; rewrite lookup_insert|
          by cbn; rewrite lookup_insert_ne, lookup_insert by done|..]; try done.
        cbn. unfold set_wraps. cbn. do 2 f_equal. clear - Huv. map_solve.
      - destruct Hc' as [Hc'|Hc']; [congruence|]. erewrite st_readA by done. cbv beta. erewrite st_readA by done. cbv beta.
        rewrite Hc'. by erewrite st_swap by done. }
    destruct b.
    + erewrite Hgo by first [done|naive_solver]. done.
    + erewrite Hgo by first [done|naive_solver]. rewrite insert_commute by done. done.
  - pose proof (realloc Sh h x ky a1 By (<[x := mkW py ky.2]> (delete y Wy)) (mkW py ky.2)) as HR.
    cbn [w_p] in HR. rewrite insert_insert in HR. apply HR; [by apply rename|by rewrite lookup_insert|].
    subst a1. cbn. destruct Hc as [->|[Hc _]]; [done|]. destruct (pocs E); [done|]. symmetry. by apply (ar_res _ HA).
Qed.

(** ** Leaks *)

Lemma placed_dom s s' :
  placed_all s -> blocks s' = blocks s -> (forall u, is_Some (wraps s' !! u) -> is_Some (wraps s !! u)) -> placed_all s'.
Proof. intros HP HB HW u Hu. apply HW, HP in Hu. destruct u; [done|]. cbn in *. by rewrite HB. Qed.

(** Memory is the forest and something no path from a variable leads to. *)
Lemma forest_addr F B W s v r l :
  placed_all s -> forest_heap F B W -> B ⊆ blocks s -> W ⊆ wraps s ->
  (forall w, is_Some (wraps s !! WVar w) -> is_Some (W !! WVar w)) -> addr s (WVar v) r = Some l -> is_Some (B !! l).
Proof.
  intros HP HF HB HW Hv Ha. destruct (F !! v) as [[h k]|] eqn:HFv.
  - destruct (forest_take Sh _ _ _ _ _ _ HF HFv) as (B1 & W1 & R & S & H1 & _ & -> & -> & D1 & D2).
    destruct (addr_heap Sh r h (WVar v) k B1 W1 s l HP H1) as [b Hb]; [clear - HB; map_solve|clear - HW; map_solve|done|].
    exists b. by apply lookup_union_Some_l.
  - assert (HWv := forest_fresh Sh _ _ _ _ HF HFv). unfold addr in Ha.
    assert (Hn : wraps s !! WVar v = None).
    { apply eq_None_not_Some. intros HX. apply Hv in HX as [? ?]. congruence. }
    destruct r as [|i r]; [cbn in Ha; by rewrite Hn in Ha|]. by rewrite walk_none in Ha.
Qed.

Definition garbage F s (BL : gmap loc (block E)) (WL : gmap wl (wrapper E)) : Prop :=
  forest_heap F (blocks s ∖ BL) (wraps s ∖ WL) /\ forall v, WL !! WVar v = None.

Lemma garbage_lost F s BL WL l v r :
  placed_all s -> garbage F s BL WL -> is_Some (BL !! l) -> addr s (WVar v) r <> Some l.
Proof.
  intros HP [HF Hv] [b Hb] Ha.
  destruct (forest_addr _ _ _ _ v r l HP HF) as [b' Hb']; [clear; map_solve|clear; map_solve| |done|].
  - intros w [q Hq]. exists q. rewrite lookup_diff, Hv. done.
  - rewrite lookup_diff, Hb in Hb'. done.
Qed.

(** The wrapper at [q] in the variable [z], and what becomes of the forest if it is replaced. *)
Lemma forest_at F z q hz kz h kx x s :
  holds Sh F s -> F !! z = Some (hz, kz) -> sub_at_path Sh hz kz q = Some (h, kx) -> walk s (WVar z) q = Some x ->
  exists Bx Wx, wrap_heap h x kx Bx Wx /\ Bx ⊆ blocks s /\ Wx ⊆ wraps s /\
    (forall kx' Bx' Wx', wrap_heap h x kx' Bx' Wx' -> Bx' ##ₘ blocks s ∖ Bx -> Wx' ##ₘ wraps s ∖ Wx ->
      forest_heap (<[z := (hz, put_at kz q kx')]> F) (Bx' ∪ blocks s ∖ Bx) (Wx' ∪ wraps s ∖ Wx)).
Proof.
  intros HF Hz Hsub Hwalk.
  destruct (forest_take Sh _ _ _ _ _ _ HF Hz) as (B1 & W1 & R & S & H1 & HR & EB & EW & D1 & D2).
  destruct (take_at Sh q hz (WVar z) kz B1 W1 h kx H1 Hsub) as (x' & Bx & Wx & R2 & S2 & Hx & -> & -> & X1 & X2 & Hwk & _ & Hplug).
  assert (x' = x) as ->. { specialize (Hwk s). feed specialize Hwk; [rewrite EW; clear - D2 X2; map_solve|congruence]. }
  exists Bx, Wx. split_and!; [done|rewrite EB; clear; map_solve|rewrite EW; clear; map_solve|].
  intros kx' Bx' Wx' Hx' Y1 Y2. rewrite EB in Y1. rewrite EW in Y2.
  replace (Bx' ∪ blocks s ∖ Bx) with ((Bx' ∪ R2) ∪ R) by (rewrite EB; clear - D1 X1 Y1; map_solve).
  replace (Wx' ∪ wraps s ∖ Wx) with ((Wx' ∪ S2) ∪ S) by (rewrite EW; clear - D2 X2 Y2; map_solve).
  apply forest_put; [done|apply Hplug; [done| |]| |].
  - clear - D1 X1 Y1. map_solve.
  - clear - D2 X2 Y2. map_solve.
  - clear - D1 X1 Y1. map_solve.
  - clear - D2 X2 Y2. map_solve.
Qed.

Lemma move_leaks n p q F z hz kz h x y kx ky s :
  holds Sh F s -> F !! z = Some (hz, kz) -> sub_at_path Sh hz kz q = Some (h, kx) -> walk s (WVar z) q = Some x ->
  p <> [] -> sub_at_path Sh h kx p = Some (h, ky) -> walk s x p = Some y -> fits n kx.1 -> a_eqb E ky.2 kx.2 = true ->
  exists l s' BL WL, addr s x [] = Some l /\ run (i_move_assign (node_impl n h) y x) s = ORet tt s' /\
    exts s' = exts s /\ placed_all s' /\ is_Some (BL !! l) /\ BL ⊆ blocks s' /\
    garbage (<[z := (hz, put_at kz q (None, kx.2))]> F) s' BL WL.
Proof.
  intros HF Hz Hsubx Hwx Hp Hsub Hwalk Hf Ha.
  assert (HP := holds_placed Sh _ _ HF).
  destruct (forest_at _ _ _ _ _ _ _ _ _ HF Hz Hsubx Hwx) as (Bx & Wx & Hx & HB & HW & Hplug).
  destruct (up_move_eq n p h x y kx ky Bx Wx s Hp Hx HB HW Hf Hsub Hwalk Ha)
    as (l & By & Wy & R & S & s' & -> & -> & D1 & D2 & Hy & Hxs & HSx & HRl & HxWy & [wy HyWy] & Hrun & F1 & F2 & F3).
  assert (Hyx : y <> x) by congruence.
  assert (Hxy : x <> y) by done.
  assert (HSy : S !! y = None) by (destruct (dis_at _ _ y D2); congruence).
  exists l, s', R, (<[y := mkW (PLoc l) (sel (pocma E) ky.2 kx.2)]> (delete x S)). split_and!; try done.
  - unfold addr. cbn. by rewrite Hxs.
  - (* places *)
    assert (HPy : placed s y).
    { apply HP. exists wy. eapply lookup_weaken; [|exact HW]. by apply lookup_union_Some_l. }
    set (s0 := mkS (∅ ∪ (blocks s ∖ By)) ({[ y := mkW PNull ky.2 ]} ∪ (wraps s ∖ Wy)) (exts s) (orc s) (trc s)).
    assert (HP0 : placed_all s0).
    { eapply (placed_all_replaced Sh h y ky (None, ky.2) By Wy ∅ {[ y := mkW PNull ky.2 ]} s s0); try done.
      - constructor.
      - split; [done|done|done|map_solve|clear - HyWy; map_solve].
      - clear - HB. map_solve. }
    eapply (placed_dom s0); [done| |].
    + rewrite F2. cbn. clear. map_solve.
    + intros u [w Hu]. rewrite F3 in Hu. cbn. clear - Hu Hxs HxWy Hxy.
      at_norm. destruct (decide (y = u)) as [->|]; [by eexists|].
      destruct (decide (x = u)) as [->|]; [rewrite HxWy, Hxs; by eexists|by eexists].
  - rewrite F2. clear - HB D1. map_solve.
  - split.
    + specialize (Hplug (None, kx.2) ∅ {[ x := mkW PNull kx.2 ]}). feed specialize Hplug.
      * constructor.
      * clear. map_solve.
      * clear - HSx. map_solve.
      * rewrite F2, F3.
        replace ((blocks s ∖ By) ∖ R) with (∅ ∪ blocks s ∖ (By ∪ R)) by (clear; map_solve).
        match goal with |- forest_heap _ _ ?m => replace m with ({[x := mkW PNull kx.2]} ∪ wraps s ∖ (Wy ∪ S)); [done|] end.
        clear - HSx Hxy HyWy HxWy HW. map_solve.
    + intros v. assert (Hd := wrap_dom Sh _ _ _ _ _ Hx).
      rewrite lookup_ins, lookup_del. case_decide as Hyv.
      * exfalso. destruct (Hd y) as [?|(? & ? & ? & _)]; [exists wy; by apply lookup_union_Some_l|done|congruence].
      * case_decide as Hxv; [done|]. destruct (S !! WVar v) as [w|] eqn:HSv; [|done]. exfalso.
        destruct (Hd (WVar v)) as [?|(? & ? & ? & _)]; [|congruence|done].
        rewrite lookup_un, HSv. destruct (Wy !! WVar v); by eexists.
Qed.

Lemma swap_leaks T p q F z hz kz h x y kx ky s (b : bool) :
  holds Sh F s -> F !! z = Some (hz, kz) -> sub_at_path Sh hz kz q = Some (h, kx) -> walk s (WVar z) q = Some x ->
  p <> [] -> sub_at_path Sh h kx p = Some (h, ky) -> walk s x p = Some y ->
  pocs E = true \/ a_eqb E kx.2 ky.2 = true /\ a_eqb E ky.2 kx.2 = true ->
  exists l s' BL WL, addr s x [] = Some l /\
    run (if b then i_swap (hdr_impl h T) x y else i_swap (hdr_impl h T) y x) s = ORet tt s' /\
    exts s' = exts s /\ placed_all s' /\ is_Some (BL !! l) /\ BL ⊆ blocks s' /\
    garbage (<[z := (hz, put_at kz q (swap_x kx ky))]> F) s' BL WL.
Proof.
  intros HF Hz Hsubx Hwx Hp Hsub Hwalk Hc.
  assert (HP := holds_placed Sh _ _ HF).
  destruct (forest_at _ _ _ _ _ _ _ _ _ HF Hz Hsubx Hwx) as (Bx & Wx & Hx & HB & HW & Hplug).
  destruct (up_swap T p h x y kx ky Bx Wx s b Hp Hx HB HW Hsub Hwalk Hc)
    as (l & By & Wy & R & S & s' & Wx' & -> & -> & D1 & D2 & Hy & Hxs & HSx & HRl & HxWy & Hrun & F1 & F2 & Hx' & EW & F3).
  set (wx := default _ _) in *. clearbody wx. subst Wx'.
  destruct (wrap_in _ _ _ _ _ _ Hy) as [wy HyWy].
  assert (Hyx : y <> x) by congruence.
  assert (Hxy : x <> y) by done.
  assert (HSy : S !! y = None) by (destruct (dis_at _ _ y D2); congruence).
  exists l, s', R, (<[y := mkW (PLoc l) (swap_x ky kx).2]> (delete x S)). split_and!; try done.
  - unfold addr. cbn. by rewrite Hxs.
  - eapply (placed_dom s); [done..|]. intros u [w Hu]. rewrite F3 in Hu.
    assert (Hys : is_Some (wraps s !! y)) by (exists wy; eapply lookup_weaken; [|exact HW]; by apply lookup_union_Some_l).
    clear - Hu Hxs Hys. at_norm. destruct (decide (x = u)) as [->|]; [by eexists|].
    destruct (decide (y = u)) as [->|]; [done|by eexists].
  - rewrite F2. clear - HB D1. map_solve.
  - split.
    + specialize (Hplug (swap_x kx ky) By (<[x := wx]> (delete y Wy))). feed specialize Hplug.
      * done.
      * clear. map_solve.
      * clear - HSx D2. map_solve.
      * rewrite F2, F3.
        replace (blocks s ∖ R) with (By ∪ blocks s ∖ (By ∪ R)) by (clear - HB D1; map_solve).
        match goal with |- forest_heap _ _ ?m => replace m with (<[x := wx]> (delete y Wy) ∪ wraps s ∖ (Wy ∪ S)); [done|] end.
        clear - HSx Hxy HyWy HxWy HW D2. map_solve.
    + intros v. assert (Hd := wrap_dom Sh _ _ _ _ _ Hx).
      rewrite lookup_ins, lookup_del. case_decide as Hyv.
      * exfalso. destruct (Hd y) as [?|(? & ? & ? & _)]; [exists wy; by apply lookup_union_Some_l|done|congruence].
      * case_decide as Hxv; [done|]. destruct (S !! WVar v) as [w|] eqn:HSv; [|done]. exfalso.
        destruct (Hd (WVar v)) as [?|(? & ? & ? & _)]; [|congruence|done].
        rewrite lookup_un, HSv. destruct (Wy !! WVar v); by eexists.
Qed.

(** ** Different allocators *)

Lemma replaced_then s s1 s2 B W B1 W1 B2 W2 :
  replaced s s1 B W B1 W1 -> replaced s1 s2 B1 W1 B2 W2 -> replaced s s2 B W B2 W2.
Proof.
  intros [R1 R2 R3 R4 R5] [Q1 Q2 Q3 Q4 Q5]. rewrite R1 in Q1, Q4. rewrite R2 in Q2, Q5.
  split; [rewrite Q1|rewrite Q2|congruence| |].
  - clear - R4 Q4. map_solve.
  - clear - R5 Q5. map_solve.
  - clear - R4 Q4. map_solve.
  - clear - R5 Q5. map_solve.
Qed.

(** The target is a member of the source's node. *)
Lemma up_move_child n i h x y kx ky Bx Wx s :
  mem_ok s -> wrap_heap h x kx Bx Wx -> Bx ⊆ blocks s -> Wx ⊆ wraps s -> fits n kx.1 ->
  sub_at_path Sh h kx [i] = Some (h, ky) -> walk s x [i] = Some y -> a_eqb E ky.2 kx.2 = false ->
  match run (i_move_assign (node_impl n h) y x) s with
  | ORet _ s' => exists T By' Wy' B' W', kx.1 = Some T /\
      wrap_heap h y (Some (moved_to (sel (pocma E) ky.2 kx.2) T), sel (pocma E) ky.2 kx.2) By' Wy' /\ By' ⊆ B' /\ Wy' ⊆ W' /\
      wrap_heap h x (put_at (Some (moved_from (sel (pocma E) ky.2 kx.2) T), kx.2) [i]
                       (Some (moved_to (sel (pocma E) ky.2 kx.2) T), sel (pocma E) ky.2 kx.2)) B' W' /\
      replaced s s' Bx Wx B' W'
  | OThrow _ s' => pocma E = false /\ always_equal E = false /\
      exists T T' B' W', kx.1 = Some T /\ move_failed T T' /\ wrap_heap h x (Some T', kx.2) B' W' /\ replaced s s' Bx Wx B' W'
  | OTerm => pocma E = true
  | OUB _ => False
  end.
Proof.
  intros HM Hx HB HW Hf Hsub Hwalk Ha.
  destruct kx as [[[t v kids]|] ax]; [|done]. cbn [fst snd] in *.
  assert (Hae : always_equal E = false).
  { destruct (always_equal E) eqn:Hae; [|done]. rewrite (ar_ae _ HA Hae) in Ha. done. }
  assert (Hx0 := Hx).
  apply wrap_inv in Hx as (l & bo & B1 & W1 & -> & -> & HBl & HWx & (Hres & Hobj & Hty & Hhdr & HT) & Hlen & Hm).
  assert (Hbo : blocks s !! l = Some bo) by (eapply lookup_weaken; [|exact HB]; apply lookup_insert).
  assert (Hxs : wraps s !! x = Some (mkW (PLoc l) ax)) by (eapply lookup_weaken; [|exact HW]; apply lookup_insert).
  assert (HB1 : B1 ⊆ blocks s) by (clear - HB HBl; map_solve).
  assert (HW1 : W1 ⊆ wraps s) by (clear - HW HWx; map_solve).
  cbn in Hsub. destruct (kids !! i) as [k|] eqn:Hi; [|done]. cbn in Hsub. injection Hsub as Hh ->.
  assert (y = WMem l i) as ->. { cbn in Hwalk. rewrite Hxs in Hwalk. cbn in Hwalk. congruence. }
  destruct (mem_take Sh _ _ _ _ _ _ i ky Hm Hi) as (By & Wy & R & S & Hy & EB1 & EW1 & D1 & D2 & _). cbn in Hy. rewrite Hh in Hy.
  assert (HWy : Wy ⊆ wraps s) by (rewrite EW1 in HW1; clear - HW1; map_solve).
  destruct (wrap_ptr _ _ _ _ _ _ s Hy HWy) as (py & Hpy & Hys & _).
  assert (Hyx : WMem l i <> x).
  { intros <-. rewrite EW1 in HWx. destruct (wrap_in _ _ _ _ _ _ Hy) as [w Hw]. rewrite lookup_un, Hw in HWx. done. }
  unfold Tree.node_impl. rewrite massign_eq. erewrite massign_nea by done.
  set (a := sel (pocma E) ky.2 ax). destruct n as [|n]; [done|].
  assert (HC := create_rv_ok Sh HS Hrefl (header_cls h) n a l t v kids bo B1 W1 s HM Hbo Hobj Hhdr HT Hlen Hm HB1 HW1).
  rewrite run_bind, run_bind.
  destruct (run (create_rv _ _ _ _) s) as [l' s1|e s1| |]; [| |done|done].
  - destruct HC as (Hfr & b' & W' & W'' & Hok & Hm' & Hm'' & D & F1 & D' & F2 & F3 & _).
    assert (Hlo : l <> l') by congruence.
    set (B2 := <[l := set_obj (OLive t (t_cons E RVal t t a v).2) bo]> ∅ : gmap loc (block E)).
    set (W2 := <[x := mkW (PLoc l) ax]> W'').
    set (s0 := mkS (B2 ∪ (blocks s ∖ <[l := bo]> B1)) (W2 ∪ (wraps s ∖ <[x := mkW (PLoc l) ax]> W1)) (exts s) (orc s) (trc s)).
    assert (HW''x : W'' !! x = None).
    { clear - D' HWx Hxs. apply (fun Q => dis_at _ _ x Q) in D'. at_norm. rewrite HWx, Hxs in D'.
      destruct D' as [D'|D']; [|done]. destruct (W' !! x); [done|]. done. }
    assert (HW'x : W' !! x = None).
    { clear - D' HWx Hxs. apply (fun Q => dis_at _ _ x Q) in D'. at_norm. rewrite HWx, Hxs in D'.
      destruct D' as [D'|D']; [|done]. by destruct (W' !! x). }
    assert (Hx2 : wrap_heap h x (Some (moved_from a (TNode t v kids)), ax) B2 W2).
    { cbn [moved_from]. constructor; [| |done|done|done].
      - split; [done|]. done.
      - rewrite map_length, Hlen. symmetry. apply HS. }
    assert (HR0 : replaced s s0 (<[l := bo]> B1) (<[x := mkW (PLoc l) ax]> W1) B2 W2).
    { split; [done|done|done| |].
      - subst B2. clear. map_solve.
      - subst W2. clear - D' HWx. map_solve. }
    assert (Hsub2 : sub_at_path Sh h (Some (moved_from a (TNode t v kids)), ax) [i] = Some (h, (None, ky.2))).
    { cbn. rewrite list_lookup_fmap, Hi. cbn. by rewrite Hh. }
    assert (HB2 : B2 ⊆ blocks s0) by (cbn; clear; map_solve).
    assert (HW2 : W2 ⊆ wraps s0) by (cbn; clear; map_solve).
    destruct (take_here [i] h x (WMem l i) _ B2 W2 _ s0 ltac:(done) Hx2 HW2 Hsub2)
      as (l0 & By2 & Wy2 & R2 & S2 & _ & Hy2 & EB2 & EW2 & X1 & X2 & HSx & _ & HxWy & Hplug).
    { cbn [walk]. cbn [s0 wraps]. subst W2. by rewrite lookup_un, lookup_insert. }
    destruct (install_any Sh (pocma E) (Datatypes.S n) h (WMem l i) x (None, ky.2) (PLoc l) ax (moved_to a (TNode t v kids)) l'
       By2 Wy2 (<[l' := b']> B1) W' s0 s1) as (s2 & Hrun & W3 & Hw3 & HR3).
    { done. }
    { cbn. subst W2. by rewrite lookup_un, lookup_insert. }
    { done. }
    { rewrite EB2 in HB2. clear - HB2. map_solve. }
    { rewrite EW2 in HW2. clear - HW2. map_solve. }
    { done. }
    { split; cbn [s0 blocks wraps exts].
      - rewrite F3. subst B2. clear - Hfr Hlo HBl HB1. map_solve.
      - rewrite F1. subst W2. clear - D D' HWx Hxs HW'x HW''x. map_solve.
      - done.
      - subst B2. clear - Hfr Hlo HBl HB1. map_solve.
      - subst W2. clear - D D' HWx Hxs HW'x HW''x. map_solve. }
    { cbn [moved_to fresh_node fst snd]. exists b', B1. split_and!; [done| |done| |done].
      - clear - HB1 Hfr. destruct (sub_at _ _ l' HB1); congruence.
      - rewrite Hlen. symmetry. apply HS. }
    rewrite run_bind in Hrun. rewrite Hrun. cbn [snd] in *. fold a in Hw3.
    destruct (replaced_frame _ _ _ _ _ _ R2 S2 HR3 X1 X2) as (RF & Y1 & Y2 & _);
      [rewrite EB2 in HB2; clear - HB2 X1; map_solve|rewrite EW2 in HW2; clear - HW2 X2; map_solve|].
    rewrite <- EB2, <- EW2 in RF.
    eexists (TNode t v kids), _, _, _, _. split_and!; [done|exact Hw3|apply map_union_subseteq_l|apply map_union_subseteq_l|by apply Hplug|].
    by eapply replaced_then.
  - destruct HC as (F1 & F2 & v' & Hv' & F3). destruct (pocma E) eqn:Hpo; cbn [orb]; [done|]. rewrite Hae.
    split_and!; [done..|]. exists (TNode t v kids), (TNode t v' kids), (<[l := set_obj (OLive t v') bo]> B1), (<[x := mkW (PLoc l) ax]> W1).
    split_and!; [done|by destruct Hv' as [->| ->]; [left|right]| |].
    + constructor; [| |done|done|done].
      * split; [done|]. done.
      * destruct Hv' as [->| ->]; [done|]. rewrite Hlen. symmetry. apply HS.
    + split; [rewrite F3|rewrite F2|congruence| |].
      * clear - HB HBl. map_solve.
      * clear - HW HWx. map_solve.
      * clear. map_solve.
      * clear. map_solve.
Qed.

(** The target is deeper: the new node ends up below itself. *)
Lemma move_deep_leaks n i p q F z hz kz h x y kx ky s :
  holds Sh F s -> F !! z = Some (hz, kz) -> sub_at_path Sh hz kz q = Some (h, kx) -> walk s (WVar z) q = Some x ->
  p <> [] -> sub_at_path Sh h kx (i :: p) = Some (h, ky) -> walk s x (i :: p) = Some y -> fits n kx.1 ->
  a_eqb E ky.2 kx.2 = false ->
  match run (i_move_assign (node_impl n h) y x) s with
  | ORet _ s' => exists T l BL WL, kx.1 = Some T /\ addr s' y [] = Some l /\ blocks s !! l = None /\
      exts s' = exts s /\ placed_all s' /\ is_Some (BL !! l) /\ BL ⊆ blocks s' /\
      garbage (<[z := (hz, put_at kz q (Some (moved_from (sel (pocma E) ky.2 kx.2) T), kx.2))]> F) s' BL WL
  | OThrow _ s' => pocma E = false /\ always_equal E = false /\
      exists T T', kx.1 = Some T /\ move_failed T T' /\ exts s' = exts s /\ holds Sh (<[z := (hz, put_at kz q (Some T', kx.2))]> F) s'
  | OTerm => pocma E = true
  | OUB _ => False
  end.
Proof.
  intros HF Hz Hsubx Hwx Hp Hsub Hwalk Hf Ha.
  assert (HP := holds_placed Sh _ _ HF). assert (HM := placed_mem_ok Sh _ HP).
  destruct (forest_at _ _ _ _ _ _ _ _ _ HF Hz Hsubx Hwx) as (Bx & Wx & Hx & HB & HW & Hforest).
  destruct kx as [[[t v kids]|] ax]; [|done]. cbn [fst snd] in *.
  assert (Hae : always_equal E = false).
  { destruct (always_equal E) eqn:Hae; [|done]. rewrite (ar_ae _ HA Hae) in Ha. done. }
  assert (Hfy := sub_fits _ _ _ _ _ _ _ Hsub Hf).
  assert (Hx0 := Hx).
  apply wrap_inv in Hx as (l & bo & B1 & W1 & -> & -> & HBl & HWx & (Hres & Hobj & Hty & Hhdr & HT) & Hlen & Hm).
  assert (Hbo : blocks s !! l = Some bo) by (eapply lookup_weaken; [|exact HB]; apply lookup_insert).
  assert (Hxs : wraps s !! x = Some (mkW (PLoc l) ax)) by (eapply lookup_weaken; [|exact HW]; apply lookup_insert).
  assert (HB1 : B1 ⊆ blocks s) by (clear - HB HBl; map_solve).
  assert (HW1 : W1 ⊆ wraps s) by (clear - HW HWx; map_solve).
  cbn in Hsub. destruct (kids !! i) as [k|] eqn:Hi; [|done].
  cbn in Hwalk. rewrite Hxs in Hwalk.
  destruct (mem_take Sh _ _ _ _ _ _ i k Hm Hi) as (Bk & Wk & Rk & Sk & Hk & EB1 & EW1 & DBk & DWk & _). cbn in Hk.
  destruct (take_at Sh p _ (WMem l i) k Bk Wk h ky Hk Hsub) as (y' & By & Wy & R & S & Hy & EBk & EWk & D1 & D2 & Hwk & HkS & _).
  assert (HWk : Wk ⊆ wraps s) by (rewrite EW1 in HW1; clear - HW1; map_solve).
  assert (y' = y) as ->. { specialize (Hwk s). feed specialize Hwk; [rewrite EWk in HWk; clear - HWk D2; map_solve|congruence]. }
  destruct (HkS Hp) as [(lk & HSk & _) HkWy].
  assert (HByB1 : By ⊆ B1) by (rewrite EB1, EBk; clear - DBk D1; map_solve).
  assert (HWyW1 : Wy ⊆ W1) by (rewrite EW1, EWk; clear - DWk D2; map_solve).
  assert (HWy : Wy ⊆ wraps s) by (by etrans).
  destruct (wrap_ptr _ _ _ _ _ _ s Hy HWy) as (py & Hpy & Hys & _).
  destruct (wrap_in _ _ _ _ _ _ Hy) as [wy Hwy].
  assert (HByl : By !! l = None) by (destruct (sub_at _ _ l HByB1); congruence).
  (* no wrapper of [y] is a member of the node of [x] *)
  assert (Hyl : forall j, y <> WMem l j).
  { intros j ->. destruct (wrap_dom Sh _ _ _ _ _ Hk (WMem l j)) as [?|(m & j' & [= <- <-] & [b0 Hb0])].
    - rewrite EWk. exists wy. by apply lookup_union_Some_l.
    - congruence.
    - rewrite EB1 in HBl. by rewrite lookup_un, Hb0 in HBl. }
  assert (HWyl : forall u, is_Some (Wy !! u) -> forall j, u <> WMem l j).
  { intros u Hu j ->. destruct (wrap_dom Sh _ _ _ _ _ Hy (WMem l j) Hu) as [?|(m & j' & [= <- <-] & [b0 Hb0])]; [by eapply Hyl|congruence]. }
  assert (Hyx : y <> x). { intros ->. pose proof (lookup_weaken _ _ _ _ Hwy HWyW1). congruence. }
  assert (HxWy : Wy !! x = None) by (destruct (sub_at _ _ x HWyW1); congruence).
  unfold Tree.node_impl. rewrite massign_eq. erewrite massign_nea by done.
  set (a := sel (pocma E) ky.2 ax). destruct n as [|n]; [done|].
  assert (HC := create_rv_ok Sh HS Hrefl (header_cls h) n a l t v kids bo B1 W1 s HM Hbo Hobj Hhdr HT Hlen Hm HB1 HW1).
  rewrite run_bind, run_bind.
  destruct (run (create_rv _ _ _ _) s) as [l' s1|e s1| |]; [| |done|done].
  2:{ destruct HC as (F1 & F2 & v' & Hv' & F3). destruct (pocma E) eqn:Hpo; cbn [orb]; [done|]. rewrite Hae.
    split_and!; [done..|]. exists (TNode t v kids), (TNode t v' kids).
    split_and!; [done|by destruct Hv' as [->| ->]; [left|right]|done|].
    eapply (holds_eq Sh); [eapply (Hforest _ (<[l := set_obj (OLive t v') bo]> B1) (<[x := mkW (PLoc l) ax]> W1))| |].
    - constructor; [| |done|done|done].
      + split; [done|]. done.
      + destruct Hv' as [->| ->]; [done|]. rewrite Hlen. symmetry. apply HS.
    - clear. map_solve.
    - clear. map_solve.
    - rewrite F3. clear - HB HBl. map_solve.
    - rewrite F2. clear - HW HWx. map_solve. }
  destruct HC as (Hfr & b' & W' & W'' & Hok & Hm' & Hm'' & D & F1 & D' & F2 & F3 & Hfrm).
  assert (Hlo : l <> l') by congruence.
  assert (Hl'B1 : B1 !! l' = None) by (destruct (sub_at _ _ l' HB1); congruence).
  set (B2 := <[l := set_obj (OLive t (t_cons E RVal t t a v).2) bo]> ∅ : gmap loc (block E)).
  set (W2 := <[x := mkW (PLoc l) ax]> W'').
  assert (HW''x : W'' !! x = None).
  { clear - D' HWx Hxs. apply (fun Q => dis_at _ _ x Q) in D'. at_norm. rewrite HWx, Hxs in D'.
    destruct D' as [D'|D']; [|done]. destruct (W' !! x); [done|]. done. }
  assert (HW'x : W' !! x = None).
  { clear - D' HWx Hxs. apply (fun Q => dis_at _ _ x Q) in D'. at_norm. rewrite HWx, Hxs in D'.
    destruct D' as [D'|D']; [|done]. by destruct (W' !! x). }
  assert (Hx2 : wrap_heap h x (Some (moved_from a (TNode t v kids)), ax) B2 W2).
  { cbn [moved_from]. constructor; [| |done|done|done].
    - split; [done|]. done.
    - rewrite map_length, Hlen. symmetry. apply HS. }
  assert (Hx3 : wrap_heap h x (Some (moved_to a (TNode t v kids)), a) (<[l' := b']> B1) (<[x := mkW (PLoc l') a]> W')).
  { cbn [moved_to]. constructor; try done. rewrite Hlen. symmetry. apply HS. }
  (* what [y] owns has not been touched *)
  assert (Hwk1 : forall u, is_Some (Wy !! u) -> wraps s1 !! u = wraps s !! u).
  { intros u [w Hu]. apply Hfrm. intros j. split; [apply HWyl; by eexists|]. intros ->.
    pose proof (lookup_weaken _ _ _ _ Hu HWy) as Hu'. destruct (HM l' j) as [? ?]; [by eexists|]. congruence. }
  assert (HWy1 : Wy ⊆ wraps s1).
  { apply map_subseteq_spec. intros u w Hu. rewrite Hwk1 by (by eexists). by eapply lookup_weaken. }
  assert (HBy1 : By ⊆ blocks s1).
  { rewrite F3. assert (Hl'By : By !! l' = None) by (destruct (sub_at _ _ l' HByB1); congruence).
    clear - HByB1 HB1 HByl Hl'By. map_solve. }
  assert (HWyW' : forall u, is_Some (Wy !! u) -> is_Some (W' !! u) /\ W'' !! u = None).
  { intros u [w Hu]. assert (HW''u : W'' !! u = None).
    { apply eq_None_not_Some. intros HX.
      destruct (wrap_dom Sh _ _ _ _ _ Hx2 u) as [->|(m & j & -> & [b0 Hb0])].
      - subst W2. rewrite lookup_insert_ne; [done|]. congruence.
      - congruence.
      - subst B2. rewrite lookup_ins in Hb0. case_decide as Hlm; [|by rewrite lookup_empty in Hb0].
        subst m. by apply (HWyl (WMem l j) ltac:(by eexists) j). }
    split; [|done]. pose proof (lookup_weaken _ _ _ _ Hu HWy1) as Hu1. rewrite F1 in Hu1.
    pose proof (lookup_weaken _ _ _ _ Hu HWyW1) as Hu2. clear - Hu1 Hu2 HW''u.
    at_norm. rewrite HW''u, Hu2 in Hu1. destruct (W' !! u); [by eexists|done]. }
  destruct (reset_all Sh (Datatypes.S n) h y ky By Wy s1 Hy Hfy HBy1 HWy1) as (s2 & Hr2 & E1 & E2 & E3).
  rewrite run_bind, Hr2. cbn [act run exec]. rewrite E2, lookup_insert. cbn [w_a run].
  set (s3 := set_wraps _ s2).
  assert (S3b : blocks s3 = blocks s2) by done. assert (S3x : exts s3 = exts s2) by done.
  assert (S3w : wraps s3 = <[y := mkW (PLoc l') ky.2]> (wraps s1 ∖ Wy)) by (subst s3; cbn; by rewrite ?E2, !insert_insert).
  clearbody s3.
  assert (Hx1s : wraps s1 !! x = Some (mkW (PLoc l) ax)).
  { rewrite F1. clear - HW'x HW''x HWx Hxs. at_norm. by rewrite HW'x, HW''x, HWx. }
  assert (Hfin : exists s4, run (if pocma E then bind (act (PReadA x)) (fun a => act (PWriteA y a)) else Ret tt) s3 = ORet tt s4 /\
    blocks s4 = blocks s3 /\ wraps s4 = <[y := mkW (PLoc l') a]> (wraps s1 ∖ Wy) /\ exts s4 = exts s3).
  { subst a. unfold sel. destruct (pocma E).
    - cbn. rewrite S3w, lookup_insert_ne, lookup_diff, HxWy, Hx1s by done. cbn. rewrite ?S3w, lookup_insert. cbn.
      eexists. split; [done|]. cbn. by rewrite ?S3w, insert_insert.
    - exists s3. by split_and!. }
  destruct Hfin as (s4 & -> & G1 & G2 & G3).
  assert (Hl'y : l' <> l) by done.
  assert (HyW' : is_Some (W' !! y) /\ W'' !! y = None) by (apply HWyW'; by eexists). destruct HyW' as [[wy' HyW'] HyW''].
  exists (TNode t v kids), l', (<[l' := b']> (B1 ∖ By)), (<[y := mkW (PLoc l') a]> (W' ∖ Wy)).
  split_and!.
  - done.
  - unfold addr. cbn. by rewrite G2, lookup_insert.
  - done.
  - congruence.
  - (* places *)
    assert (HP1 : placed_all s1).
    { intros u [w Hu]. destruct u as [m|m j]; [done|]. cbn. rewrite F1 in Hu. at_norm.
      destruct (W' !! WMem m j) as [w'|] eqn:HW'u.
      { destruct (heap_bound Sh _ _ _ _ _ Hx3 m j) as (b0 & Hb0 & Hj).
        - rewrite lookup_insert_ne by congruence. by eexists.
        - congruence.
        - exists b0. split; [|done]. rewrite F3. clear - Hb0 HB1 HBl Hlo. at_norm. case_decide; [done|].
          case_decide; [congruence|]. by eapply lookup_weaken. }
      destruct (W'' !! WMem m j) as [w'|] eqn:HW''u.
      { destruct (heap_bound Sh _ _ _ _ _ Hx2 m j) as (b0 & Hb0 & Hj).
        - subst W2. rewrite lookup_insert_ne by congruence. by eexists.
        - congruence.
        - exists b0. split; [|done]. rewrite F3. subst B2. clear - Hb0 Hlo. at_norm. repeat case_decide; congruence. }
      destruct (W1 !! WMem m j); [done|].
      destruct (HP (WMem m j)) as (b0 & Hb0 & Hj); [by eexists|]. rewrite F3.
      assert (m <> l') by congruence. rewrite lookup_insert_ne by done. rewrite lookup_ins. case_decide as Hlm; [|eauto].
      subst m. eexists. split; [done|]. cbn. intros t0 v0 [= <- <-]. simplify_eq.
      specialize (Hj _ _ Hobj). enough (n_kids Sh t (t_cons E RVal t t a v).2 = n_kids Sh t v) by lia. apply HS. }
    set (s0 := mkS (∅ ∪ (blocks s1 ∖ By)) ({[ y := mkW PNull ky.2 ]} ∪ (wraps s1 ∖ Wy)) (exts s1) (orc s1) (trc s1)).
    assert (HP0 : placed_all s0).
    { eapply (placed_all_replaced Sh h y ky (None, ky.2) By Wy ∅ {[ y := mkW PNull ky.2 ]} s1 s0); try done.
      - constructor.
      - split; [done|done|done|clear; map_solve|clear - Hwy; map_solve].
      - apply HP1. exists wy. by eapply lookup_weaken. }
    eapply (placed_dom s0); [done| |].
    + rewrite G1, S3b, E1. cbn. clear. map_solve.
    + intros u [w Hu]. rewrite G2 in Hu. cbn. clear - Hu. at_norm. case_decide; [by eexists|by eexists].
  - rewrite lookup_insert. by eexists.
  - rewrite G1, S3b, E1, F3. clear - HB1 Hl'B1 HBl Hlo HByB1. map_solve.
  - split.
    + specialize (Hforest (Some (moved_from a (TNode t v kids)), ax) B2 W2). feed specialize Hforest.
      * done.
      * subst B2. clear. map_solve.
      * subst W2. clear - D' HWx. map_solve.
      * rewrite G1, S3b, E1, F3, G2, F1.
        match goal with |- forest_heap _ ?b ?m => replace m with (W2 ∪ wraps s ∖ <[x := mkW (PLoc l) ax]> W1);
          [replace b with (B2 ∪ blocks s ∖ <[l := bo]> B1); [done|]|] end.
        -- subst B2. clear - HB1 Hl'B1 HBl Hlo HByB1 Hfr. map_solve.
        -- subst W2. clear - D D' HWyW' HW'x HW''x HWx Hxs Hyx HyW' HyW'' HxWy HWyW1.
           apply map_eq. intros u. assert (HYu := HWyW' u). assert (D1 := dis_at _ _ u D). assert (D2 := dis_at _ _ u D').
           destruct (sub_at _ _ u HWyW1) as [HS1|HS1].
           all: at_norm. all: destruct (decide (y = u)) as [->|]; destruct (decide (x = u)) as [->|]; try done.
           all: destruct (W' !! u) eqn:X1, (W'' !! u) eqn:X2, (W1 !! u) eqn:X3, (wraps s !! u) eqn:X4, (Wy !! u) eqn:X5; try done; naive_solver.
    + intros u. rewrite lookup_ins, lookup_diff. case_decide as Hyu.
      * exfalso. destruct (wrap_dom Sh _ _ _ _ _ Hx3 y) as [?|(? & ? & ? & _)]; [|done|congruence].
        rewrite lookup_insert_ne by done. by eexists.
      * destruct (Wy !! WVar u); [done|]. apply eq_None_not_Some. intros HX.
        destruct (wrap_dom Sh _ _ _ _ _ Hx3 (WVar u)) as [Hux|(? & ? & ? & _)]; [| |congruence].
        -- rewrite lookup_ins. case_decide; [by eexists|done].
        -- rewrite Hux, HW'x in HX. by destruct HX.
Qed.
End up.
