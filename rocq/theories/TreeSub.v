(** * Assignment from a wrapper nested in the assigned-to wrapper's own value. *)

From stdpp Require Import base gmap list.
From Verif Require Import Lang Common Client Spec Rep RunLemmas Headers Hist Tree TreeProps TreeAssign TreeAssignC TreeMove TreeMoveAssign.
From Verif Require Import Indirect20 Indirect14 Polymorphic20 Polymorphic14.

Section tree.
Context {E : Env} (Sh : Shape E).
Notation A := (eA E).
Notation V := (eV E).
Notation wst := (option (tree E) * A)%type.
Implicit Types s : store E.
Notation wrap_heap := (wrap_heap Sh).
Notation mem_heap := (mem_heap Sh).
Notation nodeTP := (nodeTP Sh).
Notation node_impl := (node_impl Sh).

(** The wrapper reached from [x] by following members: which object it is, ... *)
Fixpoint walk s (x : wl) (p : list nat) : option wl :=
  match p with
  | [] => Some x
  | i :: p' =>
      match wraps s !! x with
      | Some (mkW (PLoc l) _) => walk s (WMem l i) p'
      | _ => None
      end
  end.

(** ... its class and its state. *)
Fixpoint sub_at_path (h : header) (k : wst) (p : list nat) : option (header * wst) :=
  match p with
  | [] => Some (h, k)
  | i :: p' =>
      match k.1 with
      | Some (TNode t v kids) =>
          match kids !! i with Some k' => sub_at_path (k_hdr Sh t i) k' p' | None => None end
      | None => None
      end
  end.

(** One member of a sequence. *)
Lemma mem_focus hs nm i ks B W j k :
  mem_heap hs nm i ks B W -> ks !! j = Some k ->
  exists B1 W1, wrap_heap (hs (i + j)) (nm (i + j)) k B1 W1 /\ B1 ⊆ B /\ W1 ⊆ W /\
    forall k' B1' W1', wrap_heap (hs (i + j)) (nm (i + j)) k' B1' W1' -> B1' ##ₘ B ∖ B1 -> W1' ##ₘ W ∖ W1 ->
      mem_heap hs nm i (<[j := k']> ks) (B1' ∪ (B ∖ B1)) (W1' ∪ (W ∖ W1)).
Proof.
  revert i B W j. induction ks as [|k0 ks IH]; intros i B W j Hm Hj; [done|].
  apply mem_cons_inv in Hm as (B1 & W1 & B2 & W2 & -> & -> & DB & DW & H1 & H2).
  destruct j as [|j].
  - cbn in Hj. simplify_eq. rewrite Nat.add_0_r. exists B1, W1. split_and!; [done|map_solve|map_solve|].
    intros k' B1' W1' Hk' D1 D2. cbn.
    replace (B1' ∪ (B1 ∪ B2) ∖ B1) with (B1' ∪ B2) by (clear - DB; map_solve).
    replace (W1' ∪ (W1 ∪ W2) ∖ W1) with (W1' ∪ W2) by (clear - DW; map_solve).
    constructor; [done|done|clear - D1 DB; map_solve|clear - D2 DW; map_solve].
  - cbn in Hj. destruct (IH (S i) B2 W2 j H2 Hj) as (B3 & W3 & H3 & S1 & S2 & Hplug).
    rewrite Nat.add_succ_comm in H3. rewrite Nat.add_succ_comm in Hplug.
    exists B3, W3. split_and!; [done|clear - S1 DB; map_solve|clear - S2 DW; map_solve|].
    intros k' B1' W1' Hk' D1 D2. cbn.
    replace (B1' ∪ (B1 ∪ B2) ∖ B3) with (B1 ∪ (B1' ∪ B2 ∖ B3)) by (clear - DB S1 D1; map_solve).
    replace (W1' ∪ (W1 ∪ W2) ∖ W3) with (W1 ∪ (W1' ∪ W2 ∖ W3)) by (clear - DW S2 D2; map_solve).
    constructor; [done| | |].
    + apply Hplug; [done|clear - D1 DB S1; map_solve|clear - D2 DW S2; map_solve].
    + clear - D1 DB S1. map_solve.
    + clear - D2 DW S2. map_solve.
Qed.

(** The wrapper at a path: its heap is part of the whole heap, and can be exchanged. *)
Lemma focus p h x kx Bx Wx s h' ky :
  wrap_heap h x kx Bx Wx -> Wx ⊆ wraps s -> sub_at_path h kx p = Some (h', ky) ->
  exists y By Wy, walk s x p = Some y /\ wrap_heap h' y ky By Wy /\ By ⊆ Bx /\ Wy ⊆ Wx /\
    (p <> [] -> Wy !! x = None) /\
    forall ky' By' Wy', wrap_heap h' y ky' By' Wy' -> By' ##ₘ Bx ∖ By -> Wy' ##ₘ Wx ∖ Wy ->
      (forall n, fits n ky.1 -> fits n ky'.1) ->
      exists kx', wrap_heap h x kx' (By' ∪ (Bx ∖ By)) (Wy' ∪ (Wx ∖ Wy)) /\ (p <> [] -> kx'.2 = kx.2) /\
        forall n, fits n kx.1 -> fits n kx'.1.
Proof.
  revert h x kx Bx Wx. induction p as [|i p IH]; intros h x kx Bx Wx Hx HW Hp.
  - cbn in Hp. simplify_eq. exists x, Bx, Wx. split_and!; try done.
    intros ky' By' Wy' Hy' _ _ Hf. exists ky'. split_and!; [|done|done].
    replace (By' ∪ Bx ∖ Bx) with By' by map_solve. by replace (Wy' ∪ Wx ∖ Wx) with Wy' by map_solve.
  - cbn in Hp. destruct kx as [[[t v kids]|] a]; [|done]. cbn in Hp.
    destruct (kids !! i) as [k|] eqn:Hi; [|done].
    apply wrap_inv in Hx as (l & b & B1 & W1 & -> & -> & HBl & HWx & Hok & Hlen & Hm).
    assert (Hxs : wraps s !! x = Some (mkW (PLoc l) a)).
    { eapply lookup_weaken; [|exact HW]. apply lookup_insert. }
    destruct (mem_focus _ _ _ _ _ _ i k Hm Hi) as (B2 & W2 & H2 & S1 & S2 & Hplug). cbn in H2, Hplug.
    destruct (IH (k_hdr Sh t i) (WMem l i) k B2 W2 H2) as (y & By & Wy & Hwalk & Hy & S3 & S4 & _ & Hrec); [|done|].
    { clear - HW S2 HWx. map_solve. }
    exists y, By, Wy. split_and!; [cbn; by rewrite Hxs|done| | | |].
    + clear - S1 S3 HBl. map_solve.
    + clear - S2 S4 HWx. map_solve.
    + intros _. clear - S2 S4 HWx. destruct (sub_at _ _ x S4) as [|HX]; [done|]. destruct (sub_at _ _ x S2); congruence.
    + intros ky' By' Wy' Hy' D1 D2 Hf.
      destruct (Hrec ky' By' Wy' Hy') as (k' & Hk' & _ & Hfk).
      { clear - D1 S1 S3 HBl. map_solve. }
      { clear - D2 S2 S4 HWx. map_solve. }
      { done. }
      exists (Some (TNode t v (<[i := k']> kids)), a). split_and!.
      * assert (HBy'l : By' !! l = None).
        { apply (fun Q => dis_at _ _ l Q) in D1. at_norm. rewrite decide_True in D1 by done.
          destruct (sub_at _ _ l S3) as [HX|HX]; [rewrite HX in D1; by destruct D1|].
          destruct (sub_at _ _ l S1) as [HX2|HX2]; [rewrite HX, HX2 in D1; by destruct D1|]. rewrite HX, HX2, HBl in D1. by destruct D1. }
        assert (HWy'x : Wy' !! x = None).
        { apply (fun Q => dis_at _ _ x Q) in D2. at_norm. rewrite decide_True in D2 by done.
          destruct (sub_at _ _ x S4) as [HX|HX]; [rewrite HX in D2; by destruct D2|].
          destruct (sub_at _ _ x S2) as [HX2|HX2]; [rewrite HX, HX2 in D2; by destruct D2|]. rewrite HX, HX2, HWx in D2. by destruct D2. }
        replace (By' ∪ <[l := b]> B1 ∖ By) with (<[l := b]> ((By' ∪ (B2 ∖ By)) ∪ (B1 ∖ B2)))
          by (clear - D1 S1 S3 HBl HBy'l; map_solve).
        replace (Wy' ∪ <[x := mkW (PLoc l) a]> W1 ∖ Wy) with (<[x := mkW (PLoc l) a]> ((Wy' ∪ (W2 ∖ Wy)) ∪ (W1 ∖ W2)))
          by (clear - D2 S2 S4 HWx HWy'x; map_solve).
        constructor; [done|by rewrite insert_length| | |].
        -- apply Hplug; [done|clear - D1 S1 S3 HBl; map_solve|clear - D2 S2 S4 HWx; map_solve].
        -- clear - S1 S3 HBl HBy'l. at_key l. at_norm. at_split; congruence.
        -- clear - S2 S4 HWx HWy'x. at_key x. at_norm. at_split; congruence.
      * done.
      * intros [|n]; [done|]. cbn. intros Hall. apply Forall_insert; [done|]. apply Hfk.
        rewrite Forall_lookup in Hall. by eapply Hall.
Qed.

Lemma fits_S n (T : option (tree E)) : fits n T -> fits (S n) T.
Proof.
  revert T. induction n as [|n IH]; intros [[t v kids]|]; try done.
  cbn. intros Hf. eapply Forall_impl; [exact Hf|]. intros k Hk. by apply IH.
Qed.

Lemma sub_fits p h k h' k' n : sub_at_path h k p = Some (h', k') -> fits n k.1 -> fits n k'.1.
Proof.
  revert h k n. induction p as [|i p IH]; intros h k n Hp Hf; cbn in Hp; [by simplify_eq|].
  destruct k as [[[t v kids]|] a]; [|done]. cbn in Hp, Hf. destruct (kids !! i) as [k|] eqn:Hi; [|done].
  destruct n as [|n]; [done|]. cbn in Hf. apply fits_S. eapply IH; [exact Hp|]. rewrite Forall_lookup in Hf. by eapply Hf.
Qed.

Context (HS : ShapeReq Sh).

(** The old value is released and a new one, not part of it, installed. *)
Lemma install_in n h x kx T l Bx Wx B' W' s :
  wrap_heap h x kx Bx Wx -> fits n kx.1 -> Bx ⊆ blocks s -> Wx ⊆ wraps s ->
  B' ##ₘ Bx -> W' ##ₘ Wx -> fresh_node Sh (header_cls h) kx.2 T l B' W' ->
  exists s', run (bind (reset_of (header_cls h) (nodeTP n) x) (fun _ => act (PWriteP x (Some l)))) s = ORet tt s' /\
    wrap_heap h x (Some T, kx.2) B' (<[x := mkW (PLoc l) kx.2]> W') /\
    blocks s' = blocks s ∖ Bx /\ wraps s' = <[x := mkW (PLoc l) kx.2]> (wraps s ∖ Wx) /\ exts s' = exts s.
Proof.
  intros Hx Hf HB HW DB DW Hnode.
  destruct (reset_all Sh n h x kx Bx Wx s Hx Hf HB HW) as (s2 & R2 & E1 & E2 & E3).
  destruct (wrap_in _ _ _ _ _ _ Hx) as [wx Hwx].
  assert (HxW' : W' !! x = None) by (destruct (dis_at _ _ x DW); congruence).
  exists (set_wraps (<[x := mkW (PLoc l) kx.2]> (wraps s2)) s2). split_and!.
  - rewrite run_bind, R2. cbn [act run exec]. by rewrite E2, lookup_insert.
  - destruct T as [t v kids]. destruct Hnode as (b & B1 & -> & HBl & Hok & Hlen & Hm). by constructor.
  - done.
  - cbn. by rewrite E2, insert_insert.
  - done.
Qed.

(** Copy assignment that does not assign to the owned object and does not propagate the
    allocator. *)
Lemma sub_copy n h x y kx ky Bx Wx By Wy s :
  pocca E = false -> mem_ok s -> x <> y -> wrap_heap h x kx Bx Wx -> wrap_heap h y ky By Wy ->
  By ⊆ Bx -> Wy ⊆ Wx -> Bx ⊆ blocks s -> Wx ⊆ wraps s -> fits n kx.1 -> fits n ky.1 ->
  header_cls h = Poly \/ t_assignable E = false \/ a_eqb E kx.2 ky.2 = false \/ ky.1 = None ->
  match run (i_copy_assign (node_impl n h) x y) s with
  | ORet _ s' => exists B' W', wrap_heap h x (copy_as kx.2 ky) B' W' /\ B' ##ₘ Bx /\ replaced s s' Bx Wx B' W'
  | OThrow _ s' => same s s'
  | _ => False
  end.
Proof.
  intros Hca HM Hxy Hx Hy SB SW HBx HWx Hfx Hfy Hcase.
  assert (HBy : By ⊆ blocks s) by (by etrans). assert (HWy : Wy ⊆ wraps s) by (by etrans).
  unfold Tree.node_impl. rewrite cassign_eq.
  destruct (wrap_ptr _ _ _ _ _ _ s Hx HWx) as (px & Hpx' & Hxs & Hxp).
  destruct (wrap_ptr _ _ _ _ _ _ s Hy HWy) as (py & Hpy' & Hys & Hyp).
  destruct (wrap_in _ _ _ _ _ _ Hx) as [wx Hwx].
  destruct ky as [[T|] ay]; cbn [fst snd] in *.
  2:{ subst py. destruct (reset_all Sh n h x kx Bx Wx s Hx Hfx HBx HWx) as (s2 & R2 & E1 & E2 & E3).
      assert (Hrun : run (cassign (header_cls h) (nodeTP n) x y) s = ORet tt s2).
      { destruct (header_cls h); cbn [cassign reset_of] in *;
        unfold Indirect20.copy_assign, Polymorphic20.copy_assign;
        change (@Polymorphic20.valueless_after_move E) with (@Indirect20.valueless_after_move E);
        rewrite decide_False by done; erewrite st_valueless by done; cbv beta iota;
        rewrite run_bind, R2, Hca; done. }
      rewrite Hrun. exists ∅, {[ x := mkW PNull kx.2 ]}. split_and!; [constructor|clear; map_solve|].
      split; [rewrite E1|rewrite E2|done| |]; [map_solve|map_solve|map_solve|].
      clear - Hwx. map_solve. }
  destruct Hyp as [o ->]. destruct n as [|n]; [by destruct T|].
  assert (Hy0 := Hy). apply wrap_inv in Hy. destruct T as [t v ks].
  destruct Hy as (o' & bo & B1 & W1 & -> & -> & HBo & HWy1 & (Hres & Hobj & Hty & Hhdr & HT) & Hlen & Hm).
  assert (o' = o) as ->.
  { pose proof (lookup_weaken _ _ y (mkW (PLoc o') ay) (lookup_insert _ _ _) HWy). congruence. }
  assert (Hbo : blocks s !! o = Some bo).
  { eapply lookup_weaken; [|exact HBy]. apply lookup_insert. }
  assert (HB1 : B1 ⊆ blocks s) by (clear - HBy HBo; map_solve).
  assert (HW1 : W1 ⊆ wraps s) by (clear - HWy HWy1; map_solve).
  assert (Hcopy : makes (match header_cls h with
            | Ind => Indirect20.construct_from (nodeTP (S n)) kx.2 (ARef NonConstL (RBlk o))
            | Poly => Polymorphic20.cb_clone (nodeTP (S n)) o kx.2 end) s
     (fresh_node Sh (header_cls h) kx.2 (copy_tree kx.2 (TNode t v ks)))).
  { pose proof (copy_all Sh HS n) as HCn. destruct (header_cls h); cbn in Hhdr.
    - rewrite (HT eq_refl) in *. by eapply ind_copy.
    - by eapply poly_copy. }
  set (p := match header_cls h with Ind => _ | Poly => _ end) in Hcopy.
  assert (Hrun : run (cassign (header_cls h) (nodeTP (S n)) x y) s =
    run (bind p (fun tmp => bind (reset_of (header_cls h) (nodeTP (S n)) x) (fun _ => act (PWriteP x (Some tmp))))) s).
  { subst p. clear Hcopy. destruct (header_cls h); cbn [cassign reset_of].
    - unfold Indirect20.copy_assign. rewrite decide_False by done. erewrite st_valueless by done. cbv beta iota.
      rewrite run_bind, Hca.
      assert (Hcond : forall X (f : bool -> prog E X),
        run (bind (if t_assignable E then
             bind (Indirect20.valueless_after_move x) (fun vt =>
             if negb vt then bind (act (PReadA x)) (fun a1 => bind (act (PReadA y)) (fun a2 => Ret (a_eqb E a1 a2)))
             else Ret false) else Ret false) f) s = run (f false) s).
      { intros X f. rewrite run_bind. destruct (t_assignable E) eqn:Hasg; [|done].
        erewrite st_valueless by done. cbv beta. destruct px; [done|done|]. cbn [negb].
        erewrite st_readA by done. cbv beta. erewrite st_readA by done. cbv beta.
        destruct Hcase as [?|[?|[->|?]]]; done. }
      rewrite Hcond. cbv beta iota. erewrite st_readA by done. cbv beta. erewrite st_deref by done. cbv beta.
      match goal with |- match ?r with _ => _ end = ?r' => change r' with r; by destruct r as [[]| | |] end.
    - unfold Polymorphic20.copy_assign.
      change (@Polymorphic20.valueless_after_move E) with (@Indirect20.valueless_after_move E).
      rewrite decide_False by done. erewrite st_valueless by done. cbv beta iota. rewrite run_bind, Hca.
      erewrite st_deref by done. cbv beta. erewrite st_readA by done. cbv beta.
      match goal with |- match ?r with _ => _ end = ?r' => change r' with r; by destruct r as [[]| | |] end. }
  rewrite Hrun. rewrite run_bind. unfold makes in Hcopy.
  destruct (run p s) as [l s1|e s1| |]; [|done|done|done].
  destruct Hcopy as (B' & W' & Hnode & [A1 A2 A3 A4 A5]).
  destruct (install_in (S n) h x kx (copy_tree kx.2 (TNode t v ks)) l Bx Wx B' W' s1) as (s2 & -> & Hw & F1 & F2 & F3);
    [done|done| | | | |done|].
  { rewrite A1. clear - HBx A4. map_solve. }
  { rewrite A2. clear - HWx A5. map_solve. }
  { clear - HBx A4. map_solve. }
  { clear - HWx A5. map_solve. }
  eexists _, _. split_and!; [exact Hw|clear - A4 HBx; map_solve|]. split; [rewrite F1, A1|rewrite F2, A2|congruence| |].
  - clear - A4 HBx. map_solve.
  - clear - A5 Hwx HWx. map_solve.
  - clear - A4. map_solve.
  - clear - A5 Hwx. map_solve.
Qed.

Context (HA : AllocReq E) (Hrefl : forall a, a_eqb E a a = true).

(** Move assignment between different allocators, or from a valueless wrapper, not
    propagating the allocator. *)
Lemma sub_move n p h x y kx ky Bx Wx s :
  pocma E = false -> mem_ok s -> p <> [] -> wrap_heap h x kx Bx Wx ->
  sub_at_path h kx p = Some (h, ky) -> walk s x p = Some y ->
  Bx ⊆ blocks s -> Wx ⊆ wraps s -> fits n kx.1 ->
  a_eqb E kx.2 ky.2 = false \/ ky.1 = None ->
  match run (i_move_assign (node_impl n h) x y) s with
  | ORet _ s' => exists B' W', wrap_heap h x (moved_to kx.2 <$> ky.1, kx.2) B' W' /\ replaced s s' Bx Wx B' W'
  | OThrow _ s' => exists k' B' W', wrap_heap h x k' B' W' /\ k'.2 = kx.2 /\ replaced s s' Bx Wx B' W'
  | _ => False
  end.
Proof.
  intros Hma HM Hp Hx Hsub Hwalk HBx HWx Hfx Hcase.
  assert (Hfy := sub_fits _ _ _ _ _ _ Hsub Hfx).
  destruct (focus p h x kx Bx Wx s h ky Hx HWx Hsub) as (y' & By & Wy & Hwalk' & Hy & SB & SW & HxWy & Hplug).
  assert (y' = y) as -> by congruence. specialize (HxWy Hp). clear Hwalk'.
  assert (HBy : By ⊆ blocks s) by (by etrans). assert (HWy : Wy ⊆ wraps s) by (by etrans).
  unfold Tree.node_impl. rewrite massign_eq.
  destruct (wrap_ptr _ _ _ _ _ _ s Hx HWx) as (px & Hpx & Hxs & Hxp).
  destruct (wrap_in _ _ _ _ _ _ Hx) as [wx Hwx]. destruct (wrap_in _ _ _ _ _ _ Hy) as [wy Hwy].
  assert (Hxy : x <> y) by congruence.
  destruct ky as [[T|] ay]; cbn [fst snd] in *.
  2:{ destruct (reset_all Sh n h x kx Bx Wx s Hx Hfx HBx HWx) as (s2 & R2 & E1 & E2 & E3).
      erewrite massign_null by first [done|by apply (wrap_own _ _ _ _ _ _ s Hy HWy)]. rewrite run_bind, R2, Hma. cbn [run].
      exists ∅, {[ x := mkW PNull kx.2 ]}. split; [constructor|].
      split; [rewrite E1|rewrite E2|done| |]; [map_solve|map_solve|map_solve|].
      clear - Hwx. map_solve. }
  destruct Hcase as [Ha|]; [|done].
  destruct (wrap_own _ _ _ _ _ _ s Hy HWy) as [o Hys].
  destruct n as [|n]; [by destruct T|].
  erewrite massign_nea by done. rewrite Hma.
  assert (Hae : always_equal E = false).
  { destruct (always_equal E) eqn:Hae; [|done]. rewrite (ar_ae _ HA Hae) in Ha. done. }
  rewrite Hae. cbn [sel orb]. apply wrap_inv in Hy. destruct T as [t v kids].
  destruct Hy as (o' & bo & B1 & W1 & -> & -> & HBo & HWy1 & (Hres & Hobj & Hty & Hhdr & HT) & Hlen & Hm).
  assert (o' = o) as ->.
  { pose proof (lookup_weaken _ _ y (mkW (PLoc o') ay) (lookup_insert _ _ _) HWy). congruence. }
  assert (Hbo : blocks s !! o = Some bo).
  { eapply lookup_weaken; [|exact HBy]. apply lookup_insert. }
  assert (HB1 : B1 ⊆ blocks s) by (clear - HBy HBo; map_solve).
  assert (HW1 : W1 ⊆ wraps s) by (clear - HWy HWy1; map_solve).
  set (a := kx.2) in *.
  assert (HC := create_rv_ok Sh HS Hrefl (header_cls h) n a o t v kids bo B1 W1 s HM Hbo Hobj Hhdr HT Hlen Hm HB1 HW1).
  rewrite run_bind, run_bind.
  destruct (run (create_rv _ _ _ _) s) as [l s1|e s1| |]; [| |done|done].
  - destruct HC as (Hfr & b' & W' & W'' & Hok & Hm' & Hm'' & D & F1 & D' & F2 & F3 & _).
    assert (Hlo : o <> l) by congruence.
    set (B2 := <[o := set_obj (OLive t (t_cons E RVal t t a v).2) bo]> ∅ : gmap loc (block E)).
    set (W2 := <[y := mkW (PLoc o) ay]> W'').
    assert (HW''y : W'' !! y = None).
    { clear - D' HWy1 Hys. apply (fun Q => dis_at _ _ y Q) in D'. at_norm. rewrite HWy1, Hys in D'.
      destruct D' as [D'|D']; [|done]. destruct (W' !! y); [done|]. done. }
    assert (HW'y : W' !! y = None).
    { clear - D' HWy1 Hys. apply (fun Q => dis_at _ _ y Q) in D'. at_norm. rewrite HWy1, Hys in D'.
      destruct D' as [D'|D']; [|done]. by destruct (W' !! y). }
    destruct (Hplug (Some (moved_from a (TNode t v kids)), ay) B2 W2) as (kx' & Hx' & Hk2 & Hfx').
    { cbn [moved_from]. constructor; [| |done|done|done].
      - split; [done|]. done.
      - rewrite map_length, Hlen. symmetry. apply HS. }
    { subst B2. clear. map_solve. }
    { subst W2. clear - D' HWy1 HWx HW''y. map_solve. }
    { intros [|m]; [done|]. intros _. cbn. apply Forall_map, Forall_true. intros k. by destruct m. }
    specialize (Hk2 Hp).
    assert (HxW' : W' !! x = None /\ W'' !! x = None).
    { clear - D' HWx Hwx HxWy Hxy Hxs. apply (fun Q => dis_at _ _ x Q) in D'. at_norm.
      rewrite (decide_False (P := y = x)) in HxWy by done. rewrite HxWy, Hxs in D'.
      destruct D' as [D'|D']; [|done]. by destruct (W' !! x), (W'' !! x). }
    destruct HxW' as [HxW' HxW''].
    destruct (install_in (S n) h x kx' (moved_to a (TNode t v kids)) l (B2 ∪ Bx ∖ <[o := bo]> B1) (W2 ∪ Wx ∖ <[y := mkW (PLoc o) ay]> W1)
       (<[l := b']> B1) W' s1) as (s2 & R2 & Hw & G1 & G2 & G3).
    { done. }
    { by apply Hfx'. }
    { rewrite F3. subst B2. clear - HBx Hfr Hlo. map_solve. }
    { rewrite F1. subst W2. clear - HWx D D' Hys HWy1 HW'y HW''y. map_solve. }
    { subst B2. clear - HBx Hfr Hlo HB1 HBo. map_solve. }
    { subst W2. clear - HWx D D' HWy1 HW'y. map_solve. }
    { rewrite Hk2. cbn [moved_to fresh_node]. exists b', B1. split_and!; [done| |done| |done].
      - clear - HB1 Hfr. destruct (sub_at _ _ l HB1); congruence.
      - rewrite Hlen. symmetry. apply HS. }
    rewrite R2. cbn [run]. rewrite Hk2 in *.
    eexists _, _. split; [exact Hw|]. split; [rewrite G1, F3|rewrite G2, F1|congruence| |].
    + subst B2. clear - HBx SB Hfr Hlo HB1 HBo. map_solve.
    + subst W2. clear - HWx SW D D' HWy1 HW'y HW''y Hwx HxWy Hys HxW' HxW''. map_solve.
    + clear - HBx SB Hfr HB1. map_solve.
    + clear - HWx SW D D' HWy1 HW'y HW''y Hwx HxWy Hys HxW' HxW''. map_solve.
  - destruct HC as (F1 & F2 & v' & Hv' & F3).
    destruct (Hplug (Some (TNode t v' kids), ay) (<[o := set_obj (OLive t v') bo]> B1) (<[y := mkW (PLoc o) ay]> W1)) as (kx' & Hx' & Hk2 & _).
    { constructor; [| |done|done|done].
      - split; [done|]. done.
      - rewrite Hlen. destruct Hv' as [->| ->]; [done|]. symmetry. apply HS. }
    { clear. map_solve. }
    { clear. map_solve. }
    { by intros [|m]. }
    exists kx', (<[o := set_obj (OLive t v') bo]> B1 ∪ Bx ∖ <[o := bo]> B1), (<[y := mkW (PLoc o) ay]> W1 ∪ Wx ∖ <[y := mkW (PLoc o) ay]> W1).
    split_and!; [done|by apply Hk2|]. split; [rewrite F3|rewrite F2|done| |].
    + clear - HBx SB HBo. map_solve.
    + clear - HWx SW. map_solve.
    + clear - HBx SB. map_solve.
    + clear - SW. map_solve.
Qed.

End tree.
