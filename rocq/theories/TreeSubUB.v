(** * Assignment from a nested wrapper: what goes wrong. *)

From stdpp Require Import base gmap list.
From Verif Require Import Lang Common Client Spec Rep RunLemmas Headers Hist Tree TreeProps TreeAssign TreeAssignC TreeMove TreeMoveAssign TreeSub.
From Verif Require Import Indirect20 Indirect14 Polymorphic20 Polymorphic14.

Section tree.
Context {E : Env} (Sh : Shape E).
Notation A := (eA E).
Notation V := (eV E).
Notation wst := (option (tree E) * A)%type.
Implicit Types s : store E.
Notation wrap_heap := (wrap_heap Sh).
Notation mem_heap := (mem_heap Sh).
Notation nodeTP := (nodeTP Sh).
Notation node_impl := (node_impl Sh).

Lemma mem_split hs nm i ks B W j k :
  mem_heap hs nm i ks B W -> ks !! j = Some k ->
  exists B1 W1 B2 W2, wrap_heap (hs (i + j)) (nm (i + j)) k B1 W1 /\
    mem_heap hs nm (S (i + j)) (drop (S j) ks) B2 W2 /\
    B1 ##ₘ B2 /\ W1 ##ₘ W2 /\ B1 ⊆ B /\ W1 ⊆ W /\ B2 ⊆ B /\ W2 ⊆ W.
Proof.
  revert i B W j. induction ks as [|k0 ks IH]; intros i B W j Hm Hj; [done|].
  apply mem_cons_inv in Hm as (B1 & W1 & B2 & W2 & -> & -> & DB & DW & H1 & H2).
  destruct j as [|j].
  - cbn in Hj. simplify_eq. rewrite Nat.add_0_r. cbn [drop]. rewrite drop_0.
    exists B1, W1, B2, W2. split_and!; try done; clear - DB DW; map_solve.
  - cbn in Hj. destruct (IH (S i) B2 W2 j H2 Hj) as (B3 & W3 & B4 & W4 & H3 & H4 & D1 & D2 & S1 & S2 & S3 & S4).
    rewrite Nat.add_succ_comm in H3, H4. exists B3, W3, B4, W4.
    split_and!; [done|done|done|done|clear - S1 DB|clear - S2 DW|clear - S3 DB|clear - S4 DW]; map_solve.
Qed.

(** Undefined behaviour in a suffix of the members' destruction. *)
Lemma destroy_ub (un : nat -> prog E unit) j i r s u :
  run (destroy_members un (i + j) r) s = OUB u -> run (destroy_members un i (j + r)) s = OUB u.
Proof.
  revert i. induction j as [|j IH]; intros i H; cbn; [by rewrite Nat.add_0_r in H|].
  rewrite run_bind, (IH (S i)); [done|]. by rewrite Nat.add_succ_comm.
Qed.

(** The block [l] is being destroyed, and [y] points to it. *)
Definition looped s (l : loc) (y : wl) (h : header) : Prop :=
  exists b t a, blocks s !! l = Some b /\ b_obj b = ODying t /\ b_hdr b = khdr (header_cls h) t l /\
    wraps s !! y = Some (mkW (PLoc l) a).

(** Destroying a sequence of members in one of which, at path [p], is [y]. *)
Definition dtor_ub (n : nat) : Prop :=
  forall p h z kz B W s0 s h' T ay y l,
    wrap_heap h z kz B W -> W ⊆ wraps s0 -> sub_at_path Sh h kz p = Some (h', (Some T, ay)) -> walk s0 z p = Some y ->
    fits n kz.1 -> B ⊆ blocks s -> delete y W ⊆ wraps s -> B !! l = None -> looped s l y h' ->
    run (i_dtor (node_impl n h) z) s = OUB UBBadObj.

Lemma dtor_run n h z s u :
  run (reset_of (header_cls h) (nodeTP n) z) s = OUB u -> run (i_dtor (node_impl n h) z) s = OUB u.
Proof.
  intros Hr. assert (Hd : run (noexcept_if true (reset_of (header_cls h) (nodeTP n) z) ;; act (PDelW z))%prog s = OUB u).
  { by rewrite run_bind, run_noexcept, Hr. }
  by destruct h.
Qed.

Lemma reset_run n h z m t a b s u :
  wraps s !! z = Some (mkW (PLoc m) a) -> blocks s !! m = Some b -> b_hdr b = khdr (header_cls h) t m ->
  run (tp_destroy (nodeTP n) a (match header_cls h with Ind => tT E | Poly => t end) m) s = OUB u ->
  run (reset_of (header_cls h) (nodeTP n) z) s = OUB u.
Proof.
  intros Hz Hm Hh Hr. destruct (header_cls h); cbn [reset_of khdr] in *.
  - unfold Indirect20.reset, Indirect20.destroy_with. rewrite run_noexcept.
    erewrite st_readP by done. cbv beta iota. erewrite st_readA by done. cbv beta. by rewrite !run_bind, Hr.
  - unfold Polymorphic20.reset, Polymorphic20.cb_destroy. rewrite run_noexcept.
    erewrite st_readP by done. cbv beta iota. erewrite st_readA by done. cbv beta.
    rewrite run_bind. erewrite st_cbty by done. cbv beta. by rewrite run_bind, Hr.
Qed.

(** The members of a node, one of which holds [y] at path [p]. *)
Lemma members_ub n hs nm ks i p k B W s0 s h' T ay y l :
  dtor_ub n -> mem_heap hs nm 0 ks B W -> ks !! i = Some k -> W ⊆ wraps s0 ->
  sub_at_path Sh (hs i) k p = Some (h', (Some T, ay)) -> walk s0 (nm i) p = Some y ->
  Forall (fun k => fits n k.1) ks -> B ⊆ blocks s -> delete y W ⊆ wraps s -> B !! l = None -> looped s l y h' ->
  run (destroy_members (fun j => i_dtor (node_impl n (hs j)) (nm j)) 0 (length ks)) s = OUB UBBadObj.
Proof.
  intros IH Hm Hi HW0 Hsub Hwalk Hf HB HW Hl (b & t & a & Hb & Hob & Hhd & Hy).
  destruct (mem_split _ _ _ _ _ _ i k Hm Hi) as (B1 & W1 & B2 & W2 & H1 & H2 & DB & DW & S1 & S2 & S3 & S4).
  cbn [Nat.add] in *. assert (HW1 : W1 ⊆ wraps s0) by (by etrans).
  (* [y] is in [W1] *)
  destruct (focus Sh p (hs i) (nm i) k B1 W1 s0 h' (Some T, ay) H1 HW1 Hsub) as (y' & By & Wy & Hwalk' & Hyh & _ & SW & _).
  assert (y' = y) as -> by congruence. destruct (wrap_in _ _ _ _ _ _ Hyh) as [wy Hwy].
  assert (HyW1 : W1 !! y = Some wy) by (by eapply lookup_weaken).
  assert (HyW2 : W2 !! y = None) by (destruct (dis_at _ _ y DW); congruence).
  assert (Hlt := lookup_lt_Some _ _ _ Hi).
  assert (Hlen : length ks = i + S (length (drop (S i) ks))) by (rewrite drop_length; lia).
  rewrite Hlen. apply destroy_ub. cbn [Nat.add destroy_members]. rewrite run_bind.
  destruct (destroy_loop Sh n hs nm (S i) (drop (S i) ks) B2 W2 s (dtor_all Sh n) H2) as (s1 & -> & [M1 M2 M3]).
  { by apply Forall_drop. }
  { by etrans. }
  { clear - HW S4 HyW2. map_solve. }
  apply (IH p (hs i) (nm i) k B1 W1 s0 s1 h' T ay y l); [done|done|done|done| | | | |].
  - rewrite Forall_lookup in Hf. by eapply Hf.
  - rewrite M1. clear - DB S1 HB. map_solve.
  - rewrite M2. clear - DW S2 HW HyW2. map_solve.
  - clear - S1 Hl. destruct (sub_at _ _ l S1); congruence.
  - exists b, t, a. rewrite M1, M2. at_norm. rewrite HyW2.
    destruct (sub_at _ _ l S3) as [->| ->]; rewrite ?Hl; done.
Qed.

Lemma dtor_ub_all n : dtor_ub n.
Proof.
  induction n as [|n IH]; intros p h z kz B W s0 s h' T ay y l Hz HW0 Hsub Hwalk Hf HB HW Hl Hlp.
  { destruct kz as [[[t v kids]|] a]; [done|]. destruct p; cbn in Hsub; by simplify_eq. }
  apply dtor_run. destruct p as [|i p].
  - (* [z] is [y] *)
    cbn in Hsub, Hwalk. simplify_eq. destruct Hlp as (b & t & a & Hb & Hob & Hhd & Hy).
    eapply reset_run; [done..|]. cbn. by rewrite Hb, Hob.
  - cbn in Hsub. destruct kz as [[[t v kids]|] a]; [|done]. cbn in Hsub.
    destruct (kids !! i) as [k|] eqn:Hi; [|done]. cbn [fits fst] in Hf.
    apply wrap_inv in Hz as (m & b & B1 & W1 & -> & -> & HBm & HWz & (Hres & Hobj & Hty & Hhdr & HT) & Hlen & Hm).
    assert (Hz0 : wraps s0 !! z = Some (mkW (PLoc m) a)).
    { eapply lookup_weaken; [|exact HW0]. apply lookup_insert. }
    cbn in Hwalk. rewrite Hz0 in Hwalk.
    assert (HW1 : W1 ⊆ wraps s0) by (clear - HW0 HWz; map_solve).
    assert (HyW1 : is_Some (W1 !! y)).
    { destruct (mem_focus Sh _ _ _ _ _ _ i k Hm Hi) as (B2 & W2 & H2 & _ & S2 & _).
      destruct (focus Sh p (k_hdr Sh t i) (WMem m i) k B2 W2 s0 h' (Some T, ay) H2) as (y' & By & Wy & Hwalk' & Hyh & _ & SW & _); [by etrans|done|].
      assert (y' = y) as -> by congruence. destruct (wrap_in _ _ _ _ _ _ Hyh) as [wy Hwy]. exists wy.
      eapply lookup_weaken; [|exact S2]. by eapply lookup_weaken. }
    assert (Hyz : y <> z) by (intros ->; rewrite HWz in HyW1; by destruct HyW1).
    assert (Hzs : wraps s !! z = Some (mkW (PLoc m) a)).
    { eapply lookup_weaken; [|exact HW]. rewrite lookup_delete_ne by done. apply lookup_insert. }
    assert (Hb : blocks s !! m = Some b).
    { eapply lookup_weaken; [|exact HB]. apply lookup_insert. }
    assert (Hlm : l <> m) by (intros ->; by rewrite lookup_insert in Hl).
    eapply reset_run; [done..|].
    replace (match header_cls h with Ind => tT E | Poly => t end) with t by (destruct (header_cls h); [by apply HT|done]).
    cbn -[destroy_members]. rewrite Hb, Hobj. cbn -[destroy_members]. rewrite Hb, Hobj. rewrite bool_decide_eq_true_2 by done.
    rewrite run_bind, <- Hlen. set (s1 := log _ _).
    assert (Hub := members_ub n (k_hdr Sh t) (WMem m) kids i p k B1 W1 s0 s1 h' T ay y l IH Hm Hi HW1 Hsub Hwalk Hf).
    feed specialize Hub.
    + cbn. clear - HB HBm. apply sub_all. intros j. at_key j. at_norm. at_split; auto; congruence.
    + cbn. clear - HW HWz Hyz. map_solve.
    + by rewrite lookup_insert_ne in Hl.
    + destruct Hlp as (bl & tl & al & Hbl & Hbo & Hhd & Hyl). exists bl, tl, al. cbn.
      by rewrite lookup_insert_ne.
    + unfold Tree.node_impl in Hub. by rewrite Hub.
Qed.

(** Move assignment between equal allocators, from any non-valueless wrapper nested in the
    assigned-to one: the node that is destroyed is reached again through the source. *)
Lemma sub_move_ub n p h x y kx T ay Bx Wx s :
  p <> [] -> wrap_heap h x kx Bx Wx -> sub_at_path Sh h kx p = Some (h, (Some T, ay)) -> walk s x p = Some y ->
  Bx ⊆ blocks s -> Wx ⊆ wraps s -> fits n kx.1 -> a_eqb E kx.2 ay = true ->
  run (i_move_assign (node_impl n h) x y) s = OUB UBBadObj.
Proof.
  intros Hp Hx Hsub Hwalk HBx HWx Hf Ha.
  destruct (focus Sh p h x kx Bx Wx s h _ Hx HWx Hsub) as (y' & By & Wy & Hwalk' & Hy & SB & SW & HxWy & _).
  assert (y' = y) as -> by congruence. specialize (HxWy Hp). clear Hwalk'.
  destruct (wrap_in _ _ _ _ _ _ Hy) as [wy Hwy]. assert (Hxy : x <> y) by congruence.
  destruct p as [|i p]; [done|]. cbn in Hsub. destruct kx as [[[t v kids]|] a]; [|done]. cbn in Hsub.
  destruct (kids !! i) as [k|] eqn:Hi; [|done]. destruct n as [|n]; [done|]. cbn [fits fst snd] in *.
  assert (Hx0 := Hx).
  apply wrap_inv in Hx as (l & b & B1 & W1 & -> & -> & HBl & HW1x & (Hres & Hobj & Hty & Hhdr & HT) & Hlen & Hm).
  assert (Hxs : wraps s !! x = Some (mkW (PLoc l) a)).
  { eapply lookup_weaken; [|exact HWx]. apply lookup_insert. }
  destruct (wrap_own _ _ _ _ _ _ s Hy) as [o Hys]; [by etrans|].
  assert (Hb : blocks s !! l = Some b).
  { eapply lookup_weaken; [|exact HBx]. apply lookup_insert. }
  cbn in Hwalk. rewrite Hxs in Hwalk.
  unfold Tree.node_impl. rewrite massign_eq. erewrite massign_eqa by done.
  rewrite run_bind, run_bind. erewrite st_swap by done.
  set (s1 := set_wraps _ s).
  assert (Hr : run (reset_of (header_cls h) (nodeTP (S n)) y) s1 = OUB UBBadObj).
  { assert (Hb1 : blocks s1 !! l = Some b) by done.
    eapply (reset_run (S n) h y l t ay b); [|done|done|].
    { cbn. by rewrite lookup_insert_ne, lookup_insert by done. }
    replace (match header_cls h with Ind => tT E | Poly => t end) with t by (destruct (header_cls h); [by apply HT|done]).
    cbn -[destroy_members s1]. rewrite Hb1, Hobj. cbn -[destroy_members s1]. rewrite Hb1, Hobj. rewrite bool_decide_eq_true_2 by done.
    rewrite run_bind, <- Hlen. set (s2 := log _ _).
    assert (S2w : wraps s2 = <[x := mkW (PLoc o) a]> (<[y := mkW (PLoc l) ay]> (wraps s))) by done.
    assert (S2b : blocks s2 = <[l := set_obj (ODying t) b]> (blocks s)) by done. clearbody s2.
    assert (Hub := members_ub n (k_hdr Sh t) (WMem l) kids i p k B1 W1 s s2 h T ay y l (dtor_ub_all n) Hm Hi).
    feed specialize Hub.
    - clear - HWx HW1x. map_solve.
    - done.
    - done.
    - done.
    - rewrite S2b. clear - HBx HBl. map_solve.
    - rewrite S2w. clear - HWx HW1x Hxy. map_solve.
    - done.
    - exists (set_obj (ODying t) b), t, ay. rewrite S2b, S2w, lookup_insert.
      by rewrite lookup_insert_ne, lookup_insert by done.
    - unfold Tree.node_impl in Hub. by rewrite Hub. }
  by rewrite Hr.
Qed.

(** Propagating assignments read the source's allocator after the old value, and the source
    with it, has been destroyed. *)
Context (HS : ShapeReq Sh).

Lemma read_gone n h x y kx Bx Wx (q : prog E loc) (Q : loc -> gmap loc (block E) -> gmap wl (wrapper E) -> Prop) s :
  wrap_heap h x kx Bx Wx -> is_Some (Wx !! y) -> x <> y -> Bx ⊆ blocks s -> Wx ⊆ wraps s -> fits n kx.1 ->
  makes q s Q ->
  match run (bind (bind q (fun tmp => bind (reset_of (header_cls h) (nodeTP n) x) (fun _ => act (PWriteP x (Some tmp)))))
              (fun _ => bind (act (PReadA y)) (fun a => act (PWriteA x a)))) s with
  | OUB u => u = UBBadWrapper
  | OThrow _ s' => same s s'
  | _ => False
  end.
Proof.
  intros Hx [wy Hy] Hxy HB HW Hf Hq. unfold makes in Hq. rewrite !run_bind.
  destruct (run q s) as [l s1|e s1| |]; [|done|done|done].
  destruct Hq as (B' & W' & _ & [A1 A2 A3 A4 A5]).
  destruct (reset_all Sh n h x kx Bx Wx s1 Hx Hf) as (s2 & R2 & E1 & E2 & E3).
  { rewrite A1. clear - HB A4. map_solve. }
  { rewrite A2. clear - HW A5. map_solve. }
  rewrite run_bind, R2. cbn. rewrite E2, lookup_insert. cbn.
  rewrite ?E2. rewrite !lookup_insert_ne by done. by rewrite lookup_diff, Hy.
Qed.

Lemma read_gone_null n h x y kx Bx Wx s :
  wrap_heap h x kx Bx Wx -> is_Some (Wx !! y) -> x <> y -> Bx ⊆ blocks s -> Wx ⊆ wraps s -> fits n kx.1 ->
  run (bind (reset_of (header_cls h) (nodeTP n) x)
            (fun _ => bind (act (PReadA y)) (fun a => act (PWriteA x a)))) s = OUB UBBadWrapper.
Proof.
  intros Hx [wy Hy] Hxy HB HW Hf.
  destruct (reset_all Sh n h x kx Bx Wx s Hx Hf HB HW) as (s2 & R2 & E1 & E2 & E3).
  rewrite run_bind, R2. cbn. rewrite ?E2. rewrite !lookup_insert_ne by done. by rewrite lookup_diff, Hy.
Qed.

Lemma sub_copy_ub n h x y kx ky Bx Wx By Wy s :
  pocca E = true -> mem_ok s -> x <> y -> wrap_heap h x kx Bx Wx -> wrap_heap h y ky By Wy ->
  By ⊆ Bx -> Wy ⊆ Wx -> Bx ⊆ blocks s -> Wx ⊆ wraps s -> fits n kx.1 -> fits n ky.1 ->
  header_cls h = Poly \/ t_assignable E = false \/ a_eqb E kx.2 ky.2 = false \/ ky.1 = None ->
  match run (i_copy_assign (node_impl n h) x y) s with
  | OUB u => u = UBBadWrapper
  | OThrow _ s' => same s s'
  | _ => False
  end.
Proof.
  intros Hca HM Hxy Hx Hy SB SW HBx HWx Hfx Hfy Hcase.
  assert (HBy : By ⊆ blocks s) by (by etrans). assert (HWy : Wy ⊆ wraps s) by (by etrans).
  unfold Tree.node_impl. rewrite cassign_eq.
  destruct (wrap_ptr _ _ _ _ _ _ s Hx HWx) as (px & Hpx' & Hxs & Hxp).
  destruct (wrap_ptr _ _ _ _ _ _ s Hy HWy) as (py & Hpy' & Hys & Hyp).
  destruct (wrap_in _ _ _ _ _ _ Hy) as [wy Hwy].
  assert (HyWx : is_Some (Wx !! y)) by (exists wy; by eapply lookup_weaken).
  destruct ky as [[T|] ay]; cbn [fst snd] in *.
  2:{ subst py. assert (HR := read_gone_null n h x y kx Bx Wx s Hx HyWx Hxy HBx HWx Hfx).
      destruct (header_cls h); cbn [cassign reset_of] in *;
        unfold Indirect20.copy_assign, Polymorphic20.copy_assign;
        change (@Polymorphic20.valueless_after_move E) with (@Indirect20.valueless_after_move E);
        rewrite decide_False by done; erewrite st_valueless by done; cbv beta iota; by rewrite Hca, HR. }
  destruct Hyp as [o ->]. destruct n as [|n]; [by destruct T|].
  apply wrap_inv in Hy. destruct T as [t v ks].
  destruct Hy as (o' & bo & B1 & W1 & -> & -> & HBo & HWy1 & (Hres & Hobj & Hty & Hhdr & HT) & Hlen & Hm).
  assert (o' = o) as ->.
  { pose proof (lookup_weaken _ _ y (mkW (PLoc o') ay) (lookup_insert _ _ _) HWy). congruence. }
  assert (Hbo : blocks s !! o = Some bo).
  { eapply lookup_weaken; [|exact HBy]. apply lookup_insert. }
  assert (HB1 : B1 ⊆ blocks s) by (clear - HBy HBo; map_solve).
  assert (HW1 : W1 ⊆ wraps s) by (clear - HWy HWy1; map_solve).
  assert (Hcopy : makes (match header_cls h with
            | Ind => Indirect20.construct_from (nodeTP (S n)) ay (ARef NonConstL (RBlk o))
            | Poly => Polymorphic20.cb_clone (nodeTP (S n)) o ay end) s
     (fresh_node Sh (header_cls h) ay (copy_tree ay (TNode t v ks)))).
  { pose proof (copy_all Sh HS n) as HCn. destruct (header_cls h); cbn in Hhdr.
    - rewrite (HT eq_refl) in *. by eapply ind_copy.
    - by eapply poly_copy. }
  assert (HG := read_gone (S n) h x y kx Bx Wx _ _ s Hx HyWx Hxy HBx HWx Hfx Hcopy). clear Hcopy.
  destruct (header_cls h); cbn [cassign reset_of] in *.
  - unfold Indirect20.copy_assign. rewrite decide_False by done. erewrite st_valueless by done. cbv beta iota.
    rewrite run_bind, Hca.
    assert (Hcond : forall X (f : bool -> prog E X),
      run (bind (if t_assignable E then
           bind (Indirect20.valueless_after_move x) (fun vt =>
           if negb vt then bind (act (PReadA x)) (fun a1 => bind (act (PReadA y)) (fun a2 => Ret (a_eqb E a1 a2)))
           else Ret false) else Ret false) f) s = run (f false) s).
    { intros X f. rewrite run_bind. destruct (t_assignable E) eqn:Hasg; [|done].
      erewrite st_valueless by done. cbv beta. destruct px; [done|done|]. cbn [negb].
      erewrite st_readA by done. cbv beta. erewrite st_readA by done. cbv beta.
      destruct Hcase as [?|[?|[->|?]]]; done. }
    rewrite Hcond. cbv beta iota. erewrite st_readA by done. cbv beta. erewrite st_deref by done. cbv beta.
    rewrite run_bind in HG. exact HG.
  - unfold Polymorphic20.copy_assign.
    change (@Polymorphic20.valueless_after_move E) with (@Indirect20.valueless_after_move E).
    rewrite decide_False by done. erewrite st_valueless by done. cbv beta iota. rewrite run_bind, Hca.
    erewrite st_deref by done. cbv beta. erewrite st_readA by done. cbv beta. rewrite run_bind in HG. exact HG.
Qed.

(** Move assignment with propagation, between different allocators or from a valueless wrapper. *)
Context (Hrefl : forall a, a_eqb E a a = true).
Lemma sub_move_propagating_ub n p h x y kx ky Bx Wx s :
  pocma E = true -> mem_ok s -> p <> [] -> wrap_heap h x kx Bx Wx ->
  sub_at_path Sh h kx p = Some (h, ky) -> walk s x p = Some y ->
  Bx ⊆ blocks s -> Wx ⊆ wraps s -> fits n kx.1 ->
  a_eqb E kx.2 ky.2 = false \/ ky.1 = None ->
  match run (i_move_assign (node_impl n h) x y) s with
  | OUB u => u = UBBadWrapper
  | OTerm => ky.1 <> None
  | _ => False
  end.
Proof.
  intros Hma HM Hp Hx Hsub Hwalk HBx HWx Hfx Hcase.
  destruct (focus Sh p h x kx Bx Wx s h ky Hx HWx Hsub) as (y' & By & Wy & Hwalk' & Hy & SB & SW & HxWy & Hplug).
  assert (y' = y) as -> by congruence. specialize (HxWy Hp). clear Hwalk'.
  assert (HBy : By ⊆ blocks s) by (by etrans). assert (HWy : Wy ⊆ wraps s) by (by etrans).
  unfold Tree.node_impl. rewrite massign_eq.
  destruct (wrap_ptr _ _ _ _ _ _ s Hx HWx) as (px & Hpx & Hxs & Hxp).
  destruct (wrap_in _ _ _ _ _ _ Hx) as [wx Hwx]. destruct (wrap_in _ _ _ _ _ _ Hy) as [wy Hwy].
  assert (Hxy : x <> y) by congruence.
  destruct ky as [[T|] ay]; cbn [fst snd] in *.
  2:{ assert (HyWx : is_Some (Wx !! y)) by (exists wy; by eapply lookup_weaken).
      assert (HR := read_gone_null n h x y kx Bx Wx s Hx HyWx Hxy HBx HWx Hfx).
      erewrite massign_null by first [done|by apply (wrap_own Sh _ _ _ _ _ s Hy HWy)]. rewrite Hma. by rewrite HR. }
  destruct Hcase as [Ha|]; [|done].
  destruct (wrap_own Sh _ _ _ _ _ s Hy HWy) as [o Hys].
  assert (Hfy := sub_fits Sh _ _ _ _ _ _ Hsub Hfx).
  destruct n as [|n]; [by destruct T|].
  erewrite massign_nea by done. rewrite Hma. cbn [sel orb]. apply wrap_inv in Hy. destruct T as [t v kids].
  destruct Hy as (o' & bo & B1 & W1 & -> & -> & HBo & HWy1 & (Hres & Hobj & Hty & Hhdr & HT) & Hlen & Hm).
  assert (o' = o) as ->.
  { pose proof (lookup_weaken _ _ y (mkW (PLoc o') ay) (lookup_insert _ _ _) HWy). congruence. }
  assert (Hbo : blocks s !! o = Some bo).
  { eapply lookup_weaken; [|exact HBy]. apply lookup_insert. }
  assert (HB1 : B1 ⊆ blocks s) by (clear - HBy HBo; map_solve).
  assert (HW1 : W1 ⊆ wraps s) by (clear - HWy HWy1; map_solve).
  assert (HC := create_rv_ok Sh HS Hrefl (header_cls h) n ay o t v kids bo B1 W1 s HM Hbo Hobj Hhdr HT Hlen Hm HB1 HW1).
  rewrite run_bind, run_bind.
  destruct (run (create_rv _ _ _ _) s) as [l s1|e s1| |]; [|done|done|done].
  destruct HC as (Hfr & b' & W' & W'' & Hok & Hm' & Hm'' & D & F1 & D' & F2 & F3 & _).
  assert (Hlo : o <> l) by congruence.
  set (B2 := <[o := set_obj (OLive t (t_cons E RVal t t ay v).2) bo]> ∅ : gmap loc (block E)).
  set (W2 := <[y := mkW (PLoc o) ay]> W'').
  assert (HW''y : W'' !! y = None).
  { clear - D' HWy1 Hys. apply (fun Q => dis_at _ _ y Q) in D'. at_norm. rewrite HWy1, Hys in D'.
    destruct D' as [D'|D']; [|done]. destruct (W' !! y); [done|]. done. }
  assert (HW'y : W' !! y = None).
  { clear - D' HWy1 Hys. apply (fun Q => dis_at _ _ y Q) in D'. at_norm. rewrite HWy1, Hys in D'.
    destruct D' as [D'|D']; [|done]. by destruct (W' !! y). }
  destruct (Hplug (Some (moved_from ay (TNode t v kids)), ay) B2 W2) as (kx' & Hx' & Hk2 & Hfx').
  { cbn [moved_from]. constructor; [| |done|done|done].
    - split; [done|]. done.
    - rewrite map_length, Hlen. symmetry. apply HS. }
  { subst B2. clear. map_solve. }
  { subst W2. clear - D' HWy1 HWx HW''y. map_solve. }
  { intros [|m]; [done|]. intros _. cbn. apply Forall_map, Forall_true. intros k. by destruct m. }
  destruct (reset_all Sh (S n) h x kx' (B2 ∪ Bx ∖ <[o := bo]> B1) (W2 ∪ Wx ∖ <[y := mkW (PLoc o) ay]> W1) s1 Hx') as (s2 & R2 & E1 & E2 & E3).
  { by apply Hfx'. }
  { rewrite F3. subst B2. clear - HBx Hfr Hlo. map_solve. }
  { rewrite F1. subst W2. clear - HWx D D' Hys HWy1 HW'y HW''y. map_solve. }
  rewrite run_bind, R2. cbn. rewrite E2, lookup_insert. cbn.
  rewrite ?E2. rewrite !lookup_insert_ne by done. rewrite lookup_diff. subst W2.
  by rewrite (lookup_union_Some_l _ _ y (mkW (PLoc o) ay)) by apply lookup_insert.
Qed.

End tree.
