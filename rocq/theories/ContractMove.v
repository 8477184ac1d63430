(** * Moving and swapping wrappers over a value type that keeps its contract. *)

From stdpp Require Import base gmap list.
From Verif Require Import Lang Common Client Spec Rep RunLemmas Headers Hist Tree TreeProps TreeAssign TreeAssignC TreeMove TreeMoveAssign Contract ContractProps ContractOps.
From Verif Require Import Indirect20 Indirect14 Polymorphic20 Polymorphic14.

Section ops.
Context {E : Env} (T : TP E) (K : Cls E) (HO : Honest T K) (HA : AllocReq E).
Notation A := (eA E).
Notation V := (eV E).
Notation bmap := (gmap loc (block E)).
Notation wmap := (gmap wl (wrapper E)).
Notation wv := (option (ty * c_val K) * A)%type.
Implicit Types s : store E.
Notation wrapped := (wrapped K).
Notation wrapper_at := (wrapper_at K).
Notation object := (object K).
Notation filled := (filled K).
Notation fresh := (fresh K).
Notation created := (created K).
Notation create := (create T).

(** ** Moving *)
Lemma wrapped_to h y x k a B W :
  wrapped h y k B W -> delete y W !! x = None -> a_res E k.2 = a_res E a ->
  exists p, W !! y = Some (mkW p k.2) /\ p <> PIndet /\ wrapped h x (k.1, a) B (<[x := mkW p a]> (delete y W)).
Proof.
  intros Hk Hx Hr. destruct k as [[[t v]|] ay]; cbn [fst snd] in *.
  - destruct Hk as (l & b & bv & B1 & W1 & -> & -> & Hw & Hok & Hrep). exists (PLoc l). split_and!; [by rewrite lookup_insert|done|].
    rewrite delete_insert in * by done. exists l, b, bv, B1, W1. split_and!; try done.
    destruct Hok as (H1 & H2 & H3 & H4 & H5). repeat split; try done. congruence.
  - destruct Hk as [-> ->]. exists PNull. split_and!; [by rewrite lookup_singleton|done|].
    split; [done|]. by rewrite delete_singleton.
Qed.

Lemma movea_steal h x y p a ay s :
  steals (E := E) h a ay = true ->
  wraps s !! x = None -> wraps s !! y = Some (mkW p ay) -> p <> PIndet ->
  exists s', run (i_move_a (hdr_impl h T) x a y) s = ORet tt s' /\
    blocks s' = blocks s /\ exts s' = exts s /\
    wraps s' = <[x := mkW p a]> (<[y := mkW PNull ay]> (wraps s)).
Proof.
  intros Hst Hx Hy Hp. assert (Hne : x <> y) by congruence.
  exists (set_wraps (<[x := mkW p a]> (<[y := mkW PNull ay]> (wraps s))) s). split; [|done].
  set (s0 := fun q => set_wraps (<[x := mkW q a]> (wraps s)) s).
  assert (Hx0 : forall q, wraps (s0 q) !! x = Some (mkW q a)) by (intros q; cbn; by rewrite lookup_insert).
  assert (Hy0 : forall q, wraps (s0 q) !! y = Some (mkW p ay)) by (intros q; cbn; by rewrite lookup_insert_ne).
  assert (Hsw : run (swap_p x y) (s0 PNull) = ORet tt (set_wraps (<[x := mkW p a]> (<[y := mkW PNull ay]> (wraps s))) s)).
  { unfold swap_p; destruct p as [| |lp]; [done|..]; erewrite st_readP by done; cbv beta iota; erewrite st_readP by done; cbv beta;
    rewrite run_bind; cbn; rewrite lookup_insert; cbn; rewrite !lookup_insert_ne by done; rewrite Hy; cbn;
    unfold set_wraps; cbn; do 2 f_equal; clear - Hne; map_solve. }
  assert (Hex : run (Polymorphic20.exchange_null x y) (s0 PIndet) = ORet tt (set_wraps (<[x := mkW p a]> (<[y := mkW PNull ay]> (wraps s))) s)).
  { unfold Polymorphic20.exchange_null; destruct p as [| |lp]; [done|..]; erewrite st_readP by done; cbv beta;
    rewrite run_bind; cbn; rewrite lookup_insert_ne by done; rewrite Hy; cbn; rewrite lookup_insert_ne by done; rewrite lookup_insert; cbn;
    unfold set_wraps; cbn; do 2 f_equal; clear - Hne; map_solve. }
  assert (Htk : run (Polymorphic14.take x y) (s0 PIndet) = ORet tt (set_wraps (<[x := mkW p a]> (<[y := mkW PNull ay]> (wraps s))) s)).
  { unfold Polymorphic14.take; destruct p as [| |lp]; [done|..]; erewrite st_readP by done; cbv beta;
    rewrite run_bind; cbn; rewrite lookup_insert; cbn; rewrite !lookup_insert_ne by done; rewrite Hy; cbn;
    unfold set_wraps; cbn; do 2 f_equal; clear - Hne; map_solve. }
  destruct h; cbn [hdr_impl i_move_a indirect20 indirect14 polymorphic20 polymorphic14];
    change (@Indirect14.ctor_move_a E) with (@Indirect20.ctor_move_a E);
    unfold Indirect20.ctor_move_a, Polymorphic20.ctor_move_a, Polymorphic14.ctor_move_a;
    rewrite run_noexcept, st_ctor by done; unfold steals in Hst.
  1,2: fold (s0 PNull). 3,4: fold (s0 PIndet).
  1,2,3: destruct (always_equal E) in Hst |- *; [by rewrite ?Hsw, ?Hex|].
  4: destruct (pocca E) in Hst |- *; [by rewrite Htk; destruct (always_equal E)|].
  all: cbn [orb] in Hst; erewrite st_readA by done; cbv beta; erewrite st_readA by done; cbv beta; rewrite Hst; rewrite ?Hsw, ?Hex, ?Htk; try done; by destruct (always_equal E).
Qed.

Definition move_p0 (h : header) : ptr := match header_cls h with Ind => PNull | Poly => PIndet end.

Lemma movea_other h x y p a ay s :
  steals (E := E) h a ay = false ->
  wraps s !! x = None -> wraps s !! y = Some (mkW p ay) ->
  let s0 := set_wraps (<[x := mkW (move_p0 h) a]> (wraps s)) s in
  match p with
  | PLoc o => forall t bo, blocks s !! o = Some bo -> b_hdr bo = khdr (header_cls h) t o ->
      exists body, run (i_move_a (hdr_impl h T) x a y) s =
        match run (ctor x (move_p0 h) a body) s with
        | OThrow e s' => if always_equal E then OTerm else OThrow e s' | r => r end /\
      run body s0 = match run (create (header_cls h) a t (ARef RVal (RBlk o))) s0 with
                | ORet l s1 => run (act (PWriteP x (Some l))) s1
                | OThrow e s1 => OThrow e s1 | OUB u => OUB u | OTerm => OTerm end
  | PNull => exists s', run (i_move_a (hdr_impl h T) x a y) s = ORet tt s' /\
      blocks s' = blocks s /\ exts s' = exts s /\ wraps s' = <[x := mkW PNull a]> (wraps s)
  | PIndet => True
  end.
Proof.
  intros Hst Hx Hy s0. assert (Hne : x <> y) by congruence.
  assert (Hx0 : wraps s0 !! x = Some (mkW (move_p0 h) a)) by (cbn; by rewrite lookup_insert).
  assert (Hy0 : wraps s0 !! y = Some (mkW p ay)) by (cbn; by rewrite lookup_insert_ne).
  destruct p as [| |o]; [done| |].
  - exists (set_wraps (<[x := mkW PNull a]> (wraps s)) s). split; [|done].
    destruct h; cbn [hdr_impl i_move_a indirect20 indirect14 polymorphic20 polymorphic14];
    change (@Indirect14.ctor_move_a E) with (@Indirect20.ctor_move_a E);
    unfold Indirect20.ctor_move_a, Polymorphic20.ctor_move_a, Polymorphic14.ctor_move_a;
    rewrite run_noexcept, st_ctor by done; apply orb_false_iff in Hst as [Hs1 Hs2]; rewrite ?Hs1;
    fold s0;
    (erewrite st_readA by done); cbv beta; (erewrite st_readA by done); cbv beta; rewrite Hs2;
    change (@Polymorphic20.valueless_after_move E) with (@Indirect20.valueless_after_move E);
    change (@Polymorphic14.valueless_after_move E) with (@Indirect20.valueless_after_move E);
    (erewrite st_valueless by done); cbv beta iota delta [negb];
    cbn; rewrite lookup_insert; cbn; unfold set_wraps; cbn; by rewrite insert_insert.
  - intros t bo Hbo Hhdr. destruct h; cbn [hdr_impl i_move_a indirect20 indirect14 polymorphic20 polymorphic14];
    change (@Indirect14.ctor_move_a E) with (@Indirect20.ctor_move_a E);
    unfold Indirect20.ctor_move_a, Polymorphic20.ctor_move_a, Polymorphic14.ctor_move_a;
    (eexists; split; [rewrite run_noexcept; reflexivity|]); apply orb_false_iff in Hst as [Hs1 Hs2]; rewrite ?Hs1;
    (erewrite st_readA by done); cbv beta; (erewrite st_readA by done); cbv beta; rewrite Hs2;
    change (@Polymorphic20.valueless_after_move E) with (@Indirect20.valueless_after_move E);
    change (@Polymorphic14.valueless_after_move E) with (@Indirect20.valueless_after_move E);
    (erewrite st_valueless by done); cbv beta iota delta [negb].
    1,2: (erewrite st_readA by done); cbv beta; unfold Indirect20.op_star; (erewrite st_deref by done); by rewrite run_bind.
    all: (erewrite st_deref by done); cbv beta; (erewrite st_readA by done); cbv beta; rewrite run_bind;
      unfold Polymorphic20.cb_move, Polymorphic14.cb_move;
      rewrite (st_cbty o bo t (Some o)) by first [exact Hbo|exact Hhdr]; cbv beta; done.
Qed.

(** The result of a move: [x] has been constructed (or assigned) from [y]. *)
Definition move_done (steal : bool) h x a y ky (Bx By : bmap) (Wx Wy : wmap) s s' : Prop :=
  exists k' B' W' ky' By' Wy', moved K steal a ky k' ky' /\
    wrapped h x k' B' W' /\ wrapped h y ky' By' Wy' /\ B' ##ₘ By' /\ W' ##ₘ Wy' /\
    changed s s' (Bx ∪ By) (Wx ∪ Wy) (B' ∪ By') (W' ∪ Wy').

Lemma enclosed_in s y o bo B1 W1 p : enclosedW s y (<[o := bo]> B1) (<[y := p]> W1) -> enclosed s o B1 W1.
Proof.
  intros Hen l' i Hl' Hi. destruct (Hen l' i) as [Hne HWi].
  - rewrite lookup_ins. case_decide; [by eexists|]. by destruct Hl' as [->|].
  - specialize (HWi Hi). by rewrite lookup_insert_ne in HWi.
Qed.

Lemma movea_g h x a y ky By Wy s :
  mem_ok s -> home s x -> wraps s !! x = None -> outside (E := E) x By ->
  wrapper_at s h y ky By Wy -> enclosedW s y By Wy ->
  (steals (E := E) h a ky.2 = true -> a_res E a = a_res E ky.2) ->
  match run (i_move_a (hdr_impl h T) x a y) s with
  | ORet _ s' => move_done (steals (E := E) h a ky.2) h x a y ky ∅ By ∅ Wy s s'
  | OThrow _ s' => exists ky' By' Wy', steals (E := E) h a ky.2 = false /\ move_broken K ky ky' /\ wrapped h y ky' By' Wy' /\ changed s s' By Wy By' Wy'
  | _ => False
  end.
Proof.
  intros HM Hh Hx Hout Hy Hen Hstl.
  destruct (wr_ptr _ _ _ _ _ _ _ Hy) as (p & Hp & Hys & HyW & Hyp).
  assert (Hxy : x <> y) by congruence.
  assert (HxWy : Wy !! x = None).
  { destruct (Wy !! x) as [w|] eqn:HwX; [|done]. pose proof (lookup_weaken _ _ _ _ HwX (wa_w _ _ _ _ _ _ _ Hy)). congruence. }
  destruct (steals (E := E) h a ky.2) eqn:Hst.
  { destruct (movea_steal h x y p a ky.2 s Hst Hx Hys Hp) as (s' & -> & E1 & E2 & E3).
    destruct Hy as [Hy HB HW].
    destruct (wrapped_to h y x ky a By Wy Hy) as (p' & Hp' & _ & Hw); [by rewrite lookup_delete_ne|by rewrite Hstl|].
    assert (p' = p) as -> by congruence.
    exists (ky.1, a), By, (<[x := mkW p a]> (delete y Wy)), (None, ky.2), ∅, {[ y := mkW PNull ky.2 ]}. split_and!; try done.
    - unfold moved. by destruct ky as [[[t v]|] ay].
    - map_solve.
    - clear - Hxy. map_solve.
    - split; [rewrite E1|rewrite E3|done| |].
      + clear - HB. map_solve.
      + clear - Hxy HW HyW Hx. map_solve.
      + clear. map_solve.
      + clear - HyW Hx HW. map_solve. }
  assert (Hoth := movea_other h x y p a ky.2 s Hst Hx Hys).
  destruct ky as [[[t v]|] ay]; cbn [fst snd] in *.
  2:{ subst p. destruct Hoth as (s' & -> & E1 & E2 & E3). destruct Hy as [[-> ->] HB HW].
      exists (None, a), ∅, {[ x := mkW PNull a ]}, (None, ay), ∅, {[ y := mkW PNull ay ]}. split_and!; try done.
      - clear - Hxy. map_solve.
      - split; [rewrite E1|rewrite E3|done| |].
        + clear. map_solve.
        + clear - HW Hxy Hx. map_solve.
        + clear. map_solve.
        + clear - Hx HW. map_solve. }
  destruct Hyp as [o ->].
  destruct (wr_own T K HO _ _ _ _ _ _ _ _ Hy) as (o' & bo & B1 & W1 & -> & -> & HB1 & HW1 & Hob & Hres & Hty & Hhdr & HT).
  assert (o' = o) as -> by (rewrite lookup_insert in HyW; congruence).
  destruct (Hoth t bo (ob_l _ _ _ _ _ _ _ _ Hob) Hhdr) as (body & -> & Hb). clear Hoth.
  assert (Hneq : always_equal E = false).
  { destruct (always_equal E) eqn:Hae; [|done]. assert (Hq := ar_ae _ HA Hae a ay).
    unfold steals in Hst. rewrite Hq in Hst. by rewrite orb_true_r in Hst. }
  set (s0 := set_wraps (<[x := mkW (move_p0 h) a]> (wraps s)) s) in *.
  assert (Hob0 : object s0 o bo t v B1 W1).
  { destruct Hob as [O1 O2 O3 O4]. split; try done. cbn. etrans; [done|by apply insert_subseteq]. }
  assert (Hen0 : enclosed s0 o B1 W1).
  { intros l' i Hl' Hi. cbn in Hi. rewrite lookup_ins in Hi. case_decide as Hd.
    - exfalso. specialize (Hout l' i Hd). rewrite lookup_ins in Hout. case_decide; [done|]. destruct Hl' as [->|[? Hl']]; congruence.
    - by apply (enclosed_in _ _ _ _ _ _ _ Hen). }
  assert (HC := create_move T K HO (header_cls h) a t o bo v B1 W1 s0 (newborn_mem_ok _ _ _ _ HM Hh) HT Hob0 Hen0).
  rewrite st_ctor by done. fold s0. rewrite Hb. rewrite lookup_insert_ne in HxWy by done.
  destruct (run (create _ _ _ _) s0) as [l s1|e s1| |]; [| |done|done].
  - destruct HC as (v' & B' & W' & y0 & bo' & B2 & W2 & Hmv & Hf & (bv & -> & Hrep) & DB & DW & [A1 A2 A3 A4 A5]).
    cbn in A1, A2, A3, A4, A5.
    assert (HW'x : W' !! x = None /\ W2 !! x = None).
    { clear - A5 HxWy. apply (fun Q => dis_at _ _ x Q) in A5. rewrite lookup_un in A5. at_norm. rewrite HxWy in A5.
      rewrite decide_True in A5 by done. destruct (W' !! x), (W2 !! x), A5; done. }
    destruct HW'x as [HW'x HW2x].
    assert (HW'y : W' !! y = None /\ W2 !! y = None).
    { clear - A5 HW1 Hys Hxy. apply (fun Q => dis_at _ _ y Q) in A5. rewrite lookup_un in A5. at_norm. rewrite HW1, Hys in A5.
      rewrite decide_False in A5 by done. destruct (W' !! y), (W2 !! y), A5; done. }
    destruct HW'y as [HW'y HW2y].
    cbn [act run exec]. rewrite A2. rewrite lookup_un, lookup_un, HW'x, HW2x. at_norm. rewrite HxWy.
    rewrite decide_True by done. cbn [w_a run].
    eexists (Some (t, v'), a), B', (<[x := mkW (PLoc l) a]> W'), (Some (t, y0), ay), (<[o := set_obj (OLive t bv) bo]> B2), (<[y := mkW (PLoc o) ay]> W2).
    split_and!; [by eexists _, _|by apply fresh_wrapped| |exact DB| |].
    + exists o, (set_obj (OLive t bv) bo), bv, B2, W2. split_and!; [done|done|done| |done]. repeat split; cbn; done.
    + clear - DW HW'x HW'y HW2x HW2y Hxy. map_solve.
    + split; cbn; [rewrite A1|rewrite ?A2|done| |].
      * clear. map_solve.
      * clear - HW1 HxWy Hxy HW'x HW'y HW2x HW2y Hys Hx. map_solve.
      * clear - A4. map_solve.
      * clear - A5 HW1 HxWy Hxy HW'x HW'y HW2x HW2y Hys Hx. map_solve.
  - destruct HC as (y0 & bo' & B2 & W2 & Hmf & (bv & -> & Hrep) & [A1 A2 A3 A4 A5]). cbn in A1, A2, A3, A4, A5.
    assert (HW2x : W2 !! x = None).
    { clear - A5 HxWy. apply (fun Q => dis_at _ _ x Q) in A5. at_norm. rewrite HxWy in A5.
      rewrite decide_True in A5 by done. destruct A5; done. }
    assert (HW2y : W2 !! y = None).
    { clear - A5 HW1 Hys Hxy. apply (fun Q => dis_at _ _ y Q) in A5. at_norm. rewrite HW1, Hys in A5.
      rewrite decide_False in A5 by done. destruct A5; done. }
    cbn [act run exec]. rewrite A2. rewrite lookup_un, HW2x. at_norm. rewrite HxWy, decide_True by done. cbn [run]. rewrite Hneq.
    exists (Some (t, y0), ay), (<[o := set_obj (OLive t bv) bo]> B2), (<[y := mkW (PLoc o) ay]> W2). split_and!.
    + done.
    + unfold move_broken. cbn. destruct Hmf as [(-> & _)|Hmf]; [by left|right; by exists y0].
    + exists o, (set_obj (OLive t bv) bo), bv, B2, W2. split_and!; [done|done|done| |done]. repeat split; cbn; done.
    + split; cbn; [rewrite A1|rewrite ?A2|done| |].
      * done.
      * clear - HW1 HxWy Hxy HW2x HW2y Hys Hx. map_solve.
      * done.
      * clear - A5 HW1 HxWy Hxy HW2x HW2y Hys Hx. map_solve.
Qed.

Context (Hrefl : forall a, a_eqb E a a = true).

Lemma move_g h x y ky By Wy s :
  wraps s !! x = None -> wrapper_at s h y ky By Wy ->
  exists s', run (i_move (hdr_impl h T) x y) s = ORet tt s' /\
    move_done true h x ky.2 y ky ∅ By ∅ Wy s s'.
Proof.
  intros Hx Hy.
  destruct (wr_ptr _ _ _ _ _ _ _ Hy) as (p & Hp & Hys & HyW & Hyp).
  assert (Hxy : x <> y) by congruence.
  assert (HxWy : Wy !! x = None).
  { destruct (Wy !! x) as [w|] eqn:HwX; [|done]. pose proof (lookup_weaken _ _ _ _ HwX (wa_w _ _ _ _ _ _ _ Hy)). congruence. }
  destruct (move_steal Hrefl T h x y p ky.2 s Hx Hys Hp) as (s' & -> & E1 & E2 & E3).
  exists s'. split; [done|]. destruct Hy as [Hy HB HW].
  destruct (wrapped_to h y x ky ky.2 By Wy Hy) as (p' & Hp' & _ & Hw); [by rewrite lookup_delete_ne|done|].
  assert (p' = p) as -> by congruence.
  exists (ky.1, ky.2), By, (<[x := mkW p ky.2]> (delete y Wy)), (None, ky.2), ∅, {[ y := mkW PNull ky.2 ]}. split_and!; try done.
  - unfold moved. by destruct ky as [[[t v]|] ay].
  - map_solve.
  - clear - Hxy. map_solve.
  - split; [rewrite E1|rewrite E3|done| |].
    + clear - HB. map_solve.
    + clear - Hxy HW HyW Hx. map_solve.
    + clear. map_solve.
    + clear - HyW Hx HW. map_solve.
Qed.

Lemma masg_g h x y kx ky Bx Wx By Wy s :
  mem_ok s -> wrapper_at s h x kx Bx Wx -> wrapper_at s h y ky By Wy -> Bx ##ₘ By -> Wx ##ₘ Wy -> enclosedW s y By Wy ->
  match run (i_move_assign (hdr_impl h T) x y) s with
  | ORet _ s' => move_done (a_eqb E kx.2 ky.2) h x (kept (pocma E) kx.2 ky.2) y ky Bx By Wx Wy s s'
  | OThrow _ s' => exists ky' By' Wy', a_eqb E kx.2 ky.2 = false /\ move_broken K ky ky' /\ wrapped h y ky' By' Wy' /\ changed s s' By Wy By' Wy'
  | OUB _ => False
  | OTerm => pocma E = true /\ a_eqb E kx.2 ky.2 = false /\ ky.1 <> None
  end.
Proof.
  intros HM Hx Hy DB DW Hen. rewrite massign_eq.
  destruct (wr_ptr _ _ _ _ _ _ _ Hx) as (px & Hpx & Hxs & HxW & Hxp).
  destruct (wr_ptr _ _ _ _ _ _ _ Hy) as (py & Hpy & Hys & HyW & Hyp).
  assert (HyWx : Wx !! y = None) by (destruct (dis_at _ _ y DW); congruence).
  assert (HxWy : Wy !! x = None) by (destruct (dis_at _ _ x DW); congruence).
  assert (Hxy : x <> y) by congruence.
  assert (HBx := wa_b _ _ _ _ _ _ _ Hx). assert (HWx := wa_w _ _ _ _ _ _ _ Hx).
  assert (HBy := wa_b _ _ _ _ _ _ _ Hy). assert (HWy := wa_w _ _ _ _ _ _ _ Hy).
  destruct ky as [[[t v]|] ay]; cbn [fst snd] in *.
  2:{ subst py. destruct (install_null_g T K HO (pocma E) h x y kx ay PNull Bx Wx s Hx HyWx Hys) as (s2 & R2 & Hw & [R3 R4 R5 R6 R7]).
      erewrite massign_null by done. rewrite R2.
      assert (Hyw := wa_rep _ _ _ _ _ _ _ Hy). destruct Hyw as [-> ->].
      exists (None, kept (pocma E) kx.2 ay), ∅, {[ x := mkW PNull (kept (pocma E) kx.2 ay) ]}, (None, ay), ∅, {[ y := mkW PNull ay ]}.
      split; [by split|]. split; [by split|]. split; [by split|]. split_and!; [map_solve| |].
      - clear - Hxy. map_solve.
      - split; [rewrite R3|rewrite R4|done| |].
        + clear. map_solve.
        + clear - Hxy HxW HyWx Hys. map_solve.
        + clear. map_solve.
        + clear - Hxy HxW HyWx Hys. map_solve. }
  destruct Hyp as [o ->].
  destruct (a_eqb E kx.2 ay) eqn:Ha.
  - assert (Hres := ar_res _ HA _ _ Ha). erewrite massign_eqa by done.
    rewrite run_bind, run_bind. erewrite st_swap by done.
    set (s1 := set_wraps _ s).
    destruct (wrapped_to h x y kx ay Bx Wx (wa_rep _ _ _ _ _ _ _ Hx)) as (p' & Hp' & _ & Hw); [by rewrite lookup_delete_ne|done|].
    assert (p' = px) as -> by congruence.
    destruct (reset_g T K HO s1 h y (kx.1, ay) Bx (<[y := mkW px ay]> (delete x Wx))) as (s2 & R2 & [E1 E2 E3 E4 E5]).
    { split; [done|done|]. cbn. clear - HWx Hxy HyWx. map_solve. }
    rewrite R2. cbn [snd] in *. cbn in E1, E2.
    assert (E2' : wraps s2 = <[y := mkW PNull ay]> (<[x := mkW (PLoc o) kx.2]> (wraps s ∖ Wx))).
    { rewrite E2. clear - Hxy HxW HyWx. map_solve. }
    clear E2 E4 E5.
    assert (Hfin : exists s3, run (if pocma E then bind (act (PReadA y)) (fun a => act (PWriteA x a)) else Ret tt) s2 = ORet tt s3 /\
      blocks s3 = blocks s2 /\ wraps s3 = <[x := mkW (PLoc o) (kept (pocma E) kx.2 ay)]> (wraps s2) /\ exts s3 = exts s2).
    { unfold kept. destruct (pocma E).
      - cbn. rewrite ?E2'. rewrite lookup_insert. cbn. rewrite ?E2', lookup_insert_ne by done. rewrite lookup_insert. cbn. eexists. split; [done|]. cbn. rewrite ?E2'. done.
      - exists s2. split_and!; try done. rewrite E2'. clear - Hxy. map_solve. }
    destruct Hfin as (s3 & -> & F1 & F2 & F3).
    destruct (wrapped_to h y x (Some (t, v), ay) (kept (pocma E) kx.2 ay) By Wy (wa_rep _ _ _ _ _ _ _ Hy)) as (p' & Hp2 & _ & Hw2).
    { by rewrite lookup_delete_ne. }
    { unfold kept. cbn. by destruct (pocma E). }
    cbn [fst snd] in *. assert (p' = PLoc o) as -> by congruence.
    eexists (Some (t, v), kept (pocma E) kx.2 ay), _, _, (None, ay), ∅, {[ y := mkW PNull ay ]}. split; [by split|]. split; [exact Hw2|]. split; [by split|]. split_and!; [map_solve| |].
    + clear - Hxy. map_solve.
    + split; [rewrite F1, E1|rewrite F2, E2'|rewrite F3, E3; done| |].
      * clear - DB HBy HBx. map_solve.
      * clear - Hxy HxW HyW DW HWx HWy HyWx HxWy. map_solve.
      * clear - DB HBy HBx. map_solve.
      * clear - Hxy HxW HyW DW HWx HWy HyWx HxWy. map_solve.
  - erewrite massign_nea by done.
    change (sel (pocma E) kx.2 ay) with (kept (pocma E) kx.2 ay). set (a := kept (pocma E) kx.2 ay).
    destruct (wr_own T K HO _ _ _ _ _ _ _ _ Hy) as (o' & bo & B1 & W1 & -> & -> & HB1 & HW1 & Hob & Hres & Hty & Hhdr & HT).
    assert (o' = o) as -> by (rewrite lookup_insert in HyW; congruence).
    assert (Hbo := ob_l _ _ _ _ _ _ _ _ Hob).
    assert (Hneq : always_equal E = false).
    { destruct (always_equal E) eqn:Hae; [|done]. assert (Hq := ar_ae _ HA Hae kx.2 ay). congruence. }
    rewrite Hneq, orb_false_r.
    assert (HC := create_move T K HO (header_cls h) a t o bo v B1 W1 s HM HT Hob (enclosed_in _ _ _ _ _ _ _ Hen)).
    assert (Hcr : run (create_rv (header_cls h) T a o) s = run (create (header_cls h) a t (ARef RVal (RBlk o))) s).
    { destruct (header_cls h); [done|]. cbn [create_rv]. unfold Polymorphic20.cb_move.
      rewrite (st_cbty o bo t (Some o)) by first [exact Hbo|exact Hhdr]. done. }
    rewrite run_bind, run_bind, Hcr. clear Hcr.
    destruct (run (create _ _ _ _) s) as [l s1|e s1| |]; [| |done|done].
    + destruct HC as (v' & B' & W' & y0 & bo' & B2 & W2 & Hmv & Hf & (bv & -> & Hrep) & DB' & DW' & [A1 A2 A3 A4 A5]).
      assert (HW'y : W' !! y = None /\ W2 !! y = None).
      { clear - A5 HW1 Hys. apply (fun Q => dis_at _ _ y Q) in A5. rewrite lookup_un in A5. at_norm. rewrite HW1, Hys in A5.
        destruct (W' !! y), (W2 !! y), A5; done. }
      destruct HW'y as [HW'y HW2y].
      pose (sm := set_blocks (<[o := set_obj (OLive t bv) bo]> B2 ∪ (blocks s ∖ <[o := bo]> B1)) (set_wraps (W2 ∪ (wraps s ∖ W1)) s)).
      rewrite lookup_insert_ne in HxWy by done.
      assert (HW2x : W2 !! x = None /\ W' !! x = None).
      { clear - A5 HxWy Hxs. apply (fun Q => dis_at _ _ x Q) in A5. rewrite lookup_un in A5. at_norm. rewrite HxWy, Hxs in A5.
        destruct (W' !! x), (W2 !! x), A5; done. }
      destruct HW2x as [HW2x HW'x].
      assert (Hxm : wrapper_at sm h x kx Bx Wx).
      { split; [apply Hx| |]; cbn.
        - clear - HBx DB A4. map_solve.
        - clear - HWx DW A5 HW1. map_solve. }
      destruct (install_g T K HO (pocma E) h x y kx.2 kx ay t v' l Bx Wx B' W' sm s1 (PLoc o) Hxm eq_refl HyWx) as (s2 & R2 & W3 & Hw & [C1 C2 C3 C4 C5]).
      { cbn. rewrite lookup_un, HW2y, lookup_diff, HW1. exact Hys. }
      { split; cbn; [rewrite A1|rewrite A2|done| |].
        - clear - DB'. map_solve.
        - clear. map_solve.
        - clear - A4 DB'. map_solve.
        - clear - A5 DW'. map_solve. }
      { done. }
      rewrite run_bind in R2. rewrite R2. cbn in C1, C2, C3, C4, C5.
      assert (HW3y : W3 !! y = None).
      { clear - C5 HW1 HW2y HyWx Hys. apply (fun Q => dis_at _ _ y Q) in C5. at_norm. rewrite HW1, HW2y, HyWx, Hys in C5. destruct C5; done. }
      eexists (Some (t, v'), a), _, _, (Some (t, y0), ay), (<[o := set_obj (OLive t bv) bo]> B2), (<[y := mkW (PLoc o) ay]> W2).
      split; [by exists v', y0|]. split; [exact Hw|]. split; [|split_and!].
      * exists o, (set_obj (OLive t bv) bo), bv, B2, W2. split_and!; [done|done|done| |done]. repeat split; cbn; done.
      * exact DB'.
      * clear - C5 HW3y HW2y HyWx HW2x DW HWx A5 HW1. map_solve.
      * split; [rewrite C1|rewrite C2|done| |].
        -- clear - DB A4 HBx HBy. map_solve.
        -- clear - DW A5 HWx HW1 HW2y HyWx HW3y Hys. map_solve.
        -- clear - DB A4 C4 HBx HBy. map_solve.
        -- clear - DW A5 C5 HW1 HyWx HW3y Hys. map_solve.
    + destruct HC as (y0 & bo' & B2 & W2 & Hmf & (bv & -> & Hrep) & [A1 A2 A3 A4 A5]).
      destruct (pocma E) eqn:Hpo; [done|].
      assert (HW2y : W2 !! y = None).
      { clear - A5 HW1 Hys. apply (fun Q => dis_at _ _ y Q) in A5. at_norm. rewrite HW1, Hys in A5. destruct A5; done. }
      exists (Some (t, y0), ay), (<[o := set_obj (OLive t bv) bo]> B2), (<[y := mkW (PLoc o) ay]> W2). split_and!; [done| | |].
      * unfold move_broken. cbn. destruct Hmf as [(-> & _)|Hmf]; [by left|right; by exists y0].
      * exists o, (set_obj (OLive t bv) bo), bv, B2, W2. split_and!; [done|done|done| |done]. repeat split; cbn; done.
      * split; cbn; [rewrite A1|rewrite ?A2|done| |].
        -- done.
        -- clear - HW1 HW2y Hys. map_solve.
        -- done.
        -- clear - A5 HW1 HW2y Hys. map_solve.
Qed.

Lemma swap_g h x y kx ky Bx Wx By Wy s :
  wrapper_at s h x kx Bx Wx -> wrapper_at s h y ky By Wy -> Bx ##ₘ By -> Wx ##ₘ Wy ->
  (pocs E = false -> a_eqb E kx.2 ky.2 = true) ->
  exists s' kx' ky' Wx' Wy', run (i_swap (hdr_impl h T) x y) s = ORet tt s' /\
    swapped K kx ky kx' ky' /\ wrapped h x kx' By Wx' /\ wrapped h y ky' Bx Wy' /\ Wx' ##ₘ Wy' /\
    changed s s' (Bx ∪ By) (Wx ∪ Wy) (By ∪ Bx) (Wx' ∪ Wy').
Proof.
  intros Hx Hy DB DW Heq.
  destruct (wr_ptr _ _ _ _ _ _ _ Hx) as (px & Hpx & Hxs & HxW & Hxp).
  destruct (wr_ptr _ _ _ _ _ _ _ Hy) as (py & Hpy & Hys & HyW & Hyp).
  assert (HyWx : Wx !! y = None) by (destruct (dis_at _ _ y DW); congruence).
  assert (HxWy : Wy !! x = None) by (destruct (dis_at _ _ x DW); congruence).
  assert (Hxy : x <> y) by congruence.
  assert (HBx := wa_b _ _ _ _ _ _ _ Hx). assert (HWx := wa_w _ _ _ _ _ _ _ Hx).
  assert (HBy := wa_b _ _ _ _ _ _ _ Hy). assert (HWy := wa_w _ _ _ _ _ _ _ Hy).
  set (ax := if pocs E then ky.2 else kx.2). set (ay := if pocs E then kx.2 else ky.2).
  assert (Hrun : exists s', run (i_swap (hdr_impl h T) x y) s = ORet tt s' /\ blocks s' = blocks s /\ exts s' = exts s /\
    wraps s' = <[x := mkW py ax]> (<[y := mkW px ay]> (wraps s))).
  { assert (Hall : forall r, (run (if pocs E then bind (swap_a x y) (fun _ => swap_p x y) else
       bind (act (PReadA x)) (fun a1 => bind (act (PReadA y)) (fun a2 => if a_eqb E a1 a2 then swap_p x y else unreachable))) s = r ->
       exists s', r = ORet tt s' /\ blocks s' = blocks s /\ exts s' = exts s /\
        wraps s' = <[x := mkW py ax]> (<[y := mkW px ay]> (wraps s)))).
    { intros r <-. subst ax ay. destruct (pocs E).
      - assert (Hsa : run (swap_a x y) s = ORet tt (set_wraps (<[x := mkW px ky.2]> (<[y := mkW py kx.2]> (wraps s))) s)).
        { unfold swap_a. erewrite st_readA by done. cbv beta. erewrite st_readA by done. cbv beta. rewrite run_bind. cbn. rewrite Hxs. cbn.
          rewrite lookup_insert_ne, Hys by done. cbn. unfold set_wraps. cbn. do 2 f_equal. clear - Hxy. map_solve. }
        rewrite run_bind, Hsa. erewrite (st_swap x y px ky.2 py kx.2); [|done| | |done|done].
        + eexists. split; [done|]. split_and!; try done. cbn. clear - Hxy. map_solve.
        + cbn. by rewrite lookup_insert.
        + cbn. by rewrite lookup_insert_ne, lookup_insert by done.
      - erewrite st_readA by done. cbv beta. erewrite st_readA by done. cbv beta. rewrite Heq by done.
        erewrite st_swap by done. eexists. split; done. }
    destruct h; cbn [hdr_impl i_swap indirect20 indirect14 polymorphic20 polymorphic14];
    unfold Indirect20.swap, Indirect14.swap, Polymorphic20.swap, Polymorphic14.swap; rewrite run_noexcept;
    destruct (Hall _ eq_refl) as (s' & Hr & HH); rewrite Hr; eauto. }
  destruct Hrun as (s' & -> & E1 & E2 & E3).
  assert (Hra : a_res E kx.2 = a_res E ay /\ a_res E ky.2 = a_res E ax).
  { subst ax ay. destruct (pocs E); [done|]. assert (Hq := ar_res _ HA _ _ (Heq eq_refl)). done. }
  destruct (wrapped_to h x y kx ay Bx Wx (wa_rep _ _ _ _ _ _ _ Hx)) as (p1 & Hp1 & _ & Hw1); [by rewrite lookup_delete_ne|apply Hra|].
  destruct (wrapped_to h y x ky ax By Wy (wa_rep _ _ _ _ _ _ _ Hy)) as (p2 & Hp2 & _ & Hw2); [by rewrite lookup_delete_ne|apply Hra|].
  assert (p1 = px) as -> by congruence. assert (p2 = py) as -> by congruence.
  eexists s', _, _, _, _. split_and!; [done| |exact Hw2|exact Hw1| |].
  - unfold swapped. subst ax ay. destruct (pocs E); [|done]. by destruct kx, ky.
  - clear - Hxy DW HyWx HxWy. map_solve.
  - split; [rewrite E1|rewrite E3|done| |].
    + clear - DB HBx HBy. map_solve.
    + clear - Hxy DW HyWx HxWy HxW HyW HWx HWy. map_solve.
    + clear. map_solve.
    + clear - Hxy DW HyWx HxWy HxW HyW HWx HWy. map_solve.
Qed.

End ops.
