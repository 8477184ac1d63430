(** * Moving trees. *)

From stdpp Require Import base gmap list.
From Verif Require Import Lang Common Client Spec Rep RunLemmas Headers Hist Tree TreeProps TreeAssign TreeAssignC.
From Verif Require Import Indirect20 Indirect14 Polymorphic20 Polymorphic14.

Section tree.
Context {E : Env} (Sh : Shape E) (HS : ShapeReq Sh) (HA : AllocReq E) (Hrefl : forall a, a_eqb E a a = true).
Notation A := (eA E).
Notation V := (eV E).
Notation wst := (option (tree E) * A)%type.
Implicit Types s : store E.
Notation wrap_heap := (wrap_heap Sh).
Notation mem_heap := (mem_heap Sh).
Notation nodeTP := (nodeTP Sh).
Notation node_impl := (node_impl Sh).

(** The move constructor takes over the pointer. *)
Lemma move_steal T h x y p a s :
  wraps s !! x = None -> wraps s !! y = Some (mkW p a) -> p <> PIndet ->
  exists s', run (i_move (hdr_impl h T) x y) s = ORet tt s' /\
    blocks s' = blocks s /\ exts s' = exts s /\
    wraps s' = <[x := mkW p a]> (<[y := mkW PNull a]> (wraps s)).
Proof.
  intros Hx Hy Hp. assert (Hne : x <> y) by congruence.
  exists (set_wraps (<[x := mkW p a]> (<[y := mkW PNull a]> (wraps s))) s). split; [|done].
  set (s0 := fun q => set_wraps (<[x := mkW q a]> (wraps s)) s).
  assert (Hx0 : forall q, wraps (s0 q) !! x = Some (mkW q a)) by (intros q; cbn; by rewrite lookup_insert).
  assert (Hy0 : forall q, wraps (s0 q) !! y = Some (mkW p a)) by (intros q; cbn; by rewrite lookup_insert_ne).
  assert (Hsw : run (swap_p x y) (s0 PNull) = ORet tt (set_wraps (<[x := mkW p a]> (<[y := mkW PNull a]> (wraps s))) s)).
  { unfold swap_p; destruct p as [| |lp]; [done|..]; erewrite st_readP by done; cbv beta iota; erewrite st_readP by done; cbv beta;
    rewrite run_bind; cbn; rewrite lookup_insert; cbn; rewrite !lookup_insert_ne by done; rewrite Hy; cbn;
    unfold set_wraps; cbn; do 2 f_equal; clear - Hne; map_solve. }
  assert (Hex : run (Polymorphic20.exchange_null x y) (s0 PIndet) = ORet tt (set_wraps (<[x := mkW p a]> (<[y := mkW PNull a]> (wraps s))) s)).
  { unfold Polymorphic20.exchange_null; destruct p as [| |lp]; [done|..]; erewrite st_readP by done; cbv beta;
    rewrite run_bind; cbn; rewrite lookup_insert_ne by done; rewrite Hy; cbn; rewrite lookup_insert_ne by done; rewrite lookup_insert; cbn;
    unfold set_wraps; cbn; do 2 f_equal; clear - Hne; map_solve. }
  assert (Htk : run (Polymorphic14.take x y) (s0 PIndet) = ORet tt (set_wraps (<[x := mkW p a]> (<[y := mkW PNull a]> (wraps s))) s)).
  { unfold Polymorphic14.take; destruct p as [| |lp]; [done|..]; erewrite st_readP by done; cbv beta;
    rewrite run_bind; cbn; rewrite lookup_insert; cbn; rewrite !lookup_insert_ne by done; rewrite Hy; cbn;
    unfold set_wraps; cbn; do 2 f_equal; clear - Hne; map_solve. }
  destruct h; cbn [hdr_impl i_move indirect20 indirect14 polymorphic20 polymorphic14];
    change (@Indirect14.ctor_move E) with (@Indirect20.ctor_move E);
    unfold Indirect20.ctor_move, Indirect20.ctor_move_a, Polymorphic20.ctor_move, Polymorphic20.ctor_move_a,
      Polymorphic14.ctor_move, Polymorphic14.ctor_move_a;
    rewrite run_noexcept; erewrite st_readA by done; cbv beta;
    rewrite run_noexcept, st_ctor by done.
  1,2: fold (s0 PNull). 3,4: fold (s0 PIndet).
  1,2,3: destruct (always_equal E); [by rewrite ?Hsw, ?Hex|].
  4: destruct (pocca E); [by rewrite Htk|].
  all: erewrite st_readA by done; cbv beta; erewrite st_readA by done; cbv beta; rewrite Hrefl; by rewrite ?Hsw, ?Hex, ?Htk.
Qed.

(** A heap under another name for its root. *)
Lemma rename h y u k B W w :
  wrap_heap h y k B W -> W !! y = Some w -> W !! u = None ->
  wrap_heap h u k B (<[u := w]> (delete y W)).
Proof.
  intros Hh Hy Hu. assert (Hne : u <> y) by congruence. apply wrap_inv in Hh. destruct k as [[[t v kids]|] a].
  - destruct Hh as (l & b & B1 & W1 & -> & -> & HBl & HWy & Hok & Hlen & Hm).
    rewrite lookup_insert in Hy. simplify_eq. rewrite delete_insert by done.
    rewrite lookup_insert_ne in Hu by done. by constructor.
  - destruct Hh as [-> ->]. rewrite lookup_singleton in Hy. simplify_eq.
    rewrite delete_singleton, insert_empty. constructor.
Qed.

(** ... and with an allocator of the same resource. *)
Lemma realloc h y k a B W w :
  wrap_heap h y k B W -> W !! y = Some w -> a_res E k.2 = a_res E a ->
  wrap_heap h y (k.1, a) B (<[y := mkW (w_p w) a]> W).
Proof.
  intros Hh Hy Hr. apply wrap_inv in Hh. destruct k as [[[t v kids]|] a0]; cbn [fst snd] in *.
  - destruct Hh as (l & b & B1 & W1 & -> & -> & HBl & HWy & (Hres & Hrest) & Hlen & Hm).
    rewrite lookup_insert in Hy. simplify_eq. rewrite insert_insert. constructor; try done.
    split; [congruence|done].
  - destruct Hh as [-> ->]. rewrite lookup_singleton in Hy. simplify_eq.
    rewrite insert_singleton. constructor.
Qed.

Definition emptied (k : wst) : wst := (None, k.2).

Lemma move_loop T hs src dst i ks B W s un :
  (forall j, i <= j -> wraps s !! dst j = None) -> (forall j j', dst j = dst j' -> j = j') ->
  mem_heap hs src i ks B W -> W ⊆ wraps s ->
  exists s', run (make_members (fun j => i_move (hdr_impl (hs j) T) (dst j) (src j)) un i (length ks)) s = ORet tt s' /\
    blocks s' = blocks s /\ exts s' = exts s /\
    exists W' W'', mem_heap hs dst i ks B W' /\ mem_heap hs src i (map emptied ks) ∅ W'' /\
      W' ##ₘ W'' /\ wraps s' = (W' ∪ W'') ∪ (wraps s ∖ W) /\ W' ∪ W'' ##ₘ wraps s ∖ W /\
      (forall u, (forall j, u <> src j /\ u <> dst j) -> wraps s' !! u = wraps s !! u).
Proof.
  intros Hfree Hinj. revert i B W s Hfree. induction ks as [|k ks IH]; intros i B W s Hfree Hm HW.
  - apply mem_nil_inv in Hm as [-> ->]. exists s. split_and!; [done..|]. exists ∅, ∅.
    split_and!; [constructor|constructor|map_solve|map_solve|map_solve|done].
  - apply mem_cons_inv in Hm as (B1 & W1 & B2 & W2 & -> & -> & DB & DW & H1 & H2).
    assert (HW1 : W1 ⊆ wraps s) by (clear - HW; map_solve).
    destruct (wrap_ptr _ _ _ _ _ _ s H1 HW1) as (p & Hp & Hs & _).
    assert (HW1s : W1 !! src i = Some (mkW p k.2)).
    { destruct (wrap_in _ _ _ _ _ _ H1) as [q Hq]. pose proof (lookup_weaken _ _ _ _ Hq HW1). congruence. }
    destruct (move_steal T (hs i) (dst i) (src i) p k.2 s (Hfree i (le_n i)) Hs Hp) as (s1 & R1 & E1 & E2 & E3).
    assert (Hdi := Hfree i (le_n i)).
    assert (HWd : forall j, i <= j -> (W1 ∪ W2) !! dst j = None).
    { intros j Hj. destruct (sub_at _ _ (dst j) HW) as [|HX]; [done|]. rewrite HX. by apply Hfree. }
    assert (Hds : dst i <> src i) by congruence.
    destruct (IH (S i) B2 W2 s1) as (s2 & R2 & F1 & F2 & W' & W'' & Hm' & Hm'' & D & F3 & D' & Hfrm).
    { intros j Hj. rewrite E3. assert (Hj' := Hfree j ltac:(lia)).
      rewrite lookup_insert_ne; [rewrite lookup_insert_ne; [done|congruence]|]. intros Heq. apply Hinj in Heq. lia. }
    { done. }
    { rewrite E3. assert (Hx := HWd i (le_n i)). clear - Hx HW HW1s DW. map_solve. }
    exists s2. cbn [length make_members]. rewrite run_bind, R1, run_catch, R2.
    split_and!; [done|congruence|congruence|].
    rewrite E3 in F3, D'. assert (Hx := HWd i (le_n i)).
    exists (<[dst i := mkW p k.2]> (delete (src i) W1) ∪ W'), ({[src i := mkW PNull k.2]} ∪ W'').
    split_and!.
    + constructor; [|done|done|]; [|clear - D' Hx HW1s DW HW; map_solve].
      apply rename; [done|done|]. rewrite lookup_un in Hx. by destruct (W1 !! dst i).
    + cbn [map]. rewrite <- (map_empty_union ∅). constructor; [constructor|done|map_solve|].
      clear - D' Hds HW1s DW. map_solve.
    + clear - D D' Hds HW1s DW Hx HW. map_solve.
    + rewrite F3. clear - D D' Hds HW1s DW Hx HW. map_solve.
    + clear - D D' Hds HW1s DW Hx HW Hdi. map_solve.
    + intros u Hu. rewrite Hfrm, E3 by done. destruct (Hu i). by rewrite !lookup_insert_ne by done.
Qed.

(** Move construction of the node in [o] into the raw storage [l]. *)
Lemma node_move n a t l o v kids b bo B W s :
  (forall j, wraps s !! WMem l j = None) -> o <> l ->
  blocks s !! l = Some b -> b_obj b = ORaw -> storage_for t b = true ->
  blocks s !! o = Some bo -> b_obj bo = OLive t v ->
  length kids = n_kids Sh t v -> mem_heap (k_hdr Sh t) (WMem o) 0 kids B W -> W ⊆ wraps s ->
  match run (tp_cons (nodeTP (S n)) a t l (ARef RVal (RBlk o))) s with
  | ORet _ s' => exists W' W'', mem_heap (k_hdr Sh t) (WMem l) 0 kids B W' /\
      mem_heap (k_hdr Sh t) (WMem o) 0 (map emptied kids) ∅ W'' /\
      W' ##ₘ W'' /\ wraps s' = (W' ∪ W'') ∪ (wraps s ∖ W) /\ W' ∪ W'' ##ₘ wraps s ∖ W /\ exts s' = exts s /\
      blocks s' = <[l := set_obj (OLive t (t_cons E RVal t t a v).1) b]>
                    (<[o := set_obj (OLive t (t_cons E RVal t t a v).2) bo]> (blocks s)) /\
      (forall u, (forall j, u <> WMem o j /\ u <> WMem l j) -> wraps s' !! u = wraps s !! u)
  | OThrow _ s' => exts s' = exts s /\ wraps s' = wraps s /\
      blocks s' = <[o := set_obj (OLive t (t_cons_fail E RVal t t v)) bo]> (blocks s)
  | _ => False
  end.
Proof.
  intros Hmem Hol Hb Hraw Hst Hbo Hobj Hlen Hm HW.
  change (tp_cons (nodeTP (S n)) a t l (ARef RVal (RBlk o))) with
    (node_cons Sh a t l (ARef RVal (RBlk o))
       (fun i => i_move (hdr_impl (k_hdr Sh t i) (nodeTP n)) (WMem l i) (WMem o i))
       (fun i => i_dtor (hdr_impl (k_hdr Sh t i) (nodeTP n)) (WMem l i))).
  unfold node_cons. rewrite run_bind. cbn [act_thr run exec].
  rewrite Hb, Hst. cbn [negb]. rewrite Hraw. cbn [cons_vals deref]. rewrite Hbo, Hobj.
  assert (Hn := sr_move _ HS t a v).
  destruct (t_cons E RVal t t a v) as [w1 w2] eqn:Ht. cbn [fst snd] in *.
  assert (Hupd : forall s0 v', blocks s0 = blocks s -> blocks (upd_ref (RBlk o) v' s0) = <[o := set_obj (OLive t v') bo]> (blocks s)).
  { intros s0 v' Hs0. cbn. rewrite Hs0. apply map_eq. intros i. destruct (decide (o = i)) as [<-|Hne].
    - by rewrite lookup_alter, Hbo, lookup_insert; cbn; rewrite Hobj.
    - by rewrite lookup_alter_ne, lookup_insert_ne. }
  destruct (pop_eq s) as (r & orc' & -> & _). destruct r as [h|e]; cbn [upd_src run].
  2:{ split_and!; [done..|]. cbn [log blocks]. by apply Hupd. }
  set (s1 := log _ _). rewrite run_bind. cbn [act run exec deref].
  assert (Hother : blocks s1 = <[l := set_obj (OLive t w1) b]> (<[o := set_obj (OLive t w2) bo]> (blocks s))).
  { subst s1. cbn [log set_blocks blocks]. rewrite Hupd by done. apply map_eq. intros i. destruct (decide (l = i)) as [<-|Hne].
    - by rewrite lookup_alter, lookup_insert_ne, Hb, lookup_insert.
    - by rewrite lookup_alter_ne, (lookup_insert_ne _ l) by done. }
  assert (Hl1 : blocks s1 !! l = Some (set_obj (OLive t w1) b)) by (by rewrite Hother, lookup_insert).
  assert (Hw1 : wraps s1 = wraps s) by done. assert (Hx1 : exts s1 = exts s) by done. clearbody s1.
  rewrite Hl1. cbn [b_obj set_obj run snd].
  rewrite run_catch. destruct Hn as [Hn _]. rewrite Hn, <- Hlen.
  destruct (move_loop (nodeTP n) (k_hdr Sh t) (WMem o) (WMem l) 0 kids B W s1
    (fun i => i_dtor (hdr_impl (k_hdr Sh t i) (nodeTP n)) (WMem l i)))
    as (s2 & R2 & F1 & F2 & W' & W'' & Hm' & Hm'' & D & F3 & D' & Hfrm).
  { intros j _. rewrite Hw1. apply Hmem. }
  { congruence. }
  { done. }
  { by rewrite Hw1. }
  rewrite R2. exists W', W''. rewrite Hw1 in *. split_and!; try done; congruence.
Qed.

End tree.
