(** * Move assignment of trees. *)

From stdpp Require Import base gmap list.
From Verif Require Import Lang Common Client Spec Rep RunLemmas Headers Hist Tree TreeProps TreeAssign TreeAssignC TreeMove.
From Verif Require Import Indirect20 Indirect14 Polymorphic20 Polymorphic14.

Section tree.
Context {E : Env} (Sh : Shape E) (HS : ShapeReq Sh) (HA : AllocReq E) (Hrefl : forall a, a_eqb E a a = true).
Notation A := (eA E).
Notation V := (eV E).
Notation wst := (option (tree E) * A)%type.
Implicit Types s : store E.
Notation wrap_heap := (wrap_heap Sh).
Notation mem_heap := (mem_heap Sh).
Notation nodeTP := (nodeTP Sh).
Notation node_impl := (node_impl Sh).

(** A node moved into new storage, and what is left of it. *)
Definition moved_to (a : A) (T : tree E) : tree E :=
  match T with TNode t v kids => TNode t (t_cons E RVal t t a v).1 kids end.
Definition moved_from (a : A) (T : tree E) : tree E :=
  match T with TNode t v kids => TNode t (t_cons E RVal t t a v).2 (map emptied kids) end.
(** ... if moving it threw: allocation failed, or its data's constructor threw. *)
Definition move_failed (T T' : tree E) : Prop :=
  match T with TNode t v kids => T' = T \/ T' = TNode t (t_cons_fail E RVal t t v) kids end.

Definition create_rv (k : cls) (T : TP E) (a : A) (o : loc) : prog E loc :=
  match k with
  | Ind => Indirect20.construct_from T a (ARef RVal (RBlk o))
  | Poly => Polymorphic20.cb_move T o a
  end.

Lemma create_rv_ok k n a o t v kids bo B W s :
  mem_ok s -> blocks s !! o = Some bo -> b_obj bo = OLive t v -> b_hdr bo = khdr k t o -> (k = Ind -> t = tT E) ->
  length kids = n_kids Sh t v -> mem_heap (k_hdr Sh t) (WMem o) 0 kids B W -> B ⊆ blocks s -> W ⊆ wraps s ->
  match run (create_rv k (nodeTP (S n)) a o) s with
  | ORet l s' => blocks s !! l = None /\ exists b' W' W'', block_ok k l t (t_cons E RVal t t a v).1 a b' /\
      mem_heap (k_hdr Sh t) (WMem l) 0 kids B W' /\
      mem_heap (k_hdr Sh t) (WMem o) 0 (map emptied kids) ∅ W'' /\
      W' ##ₘ W'' /\ wraps s' = (W' ∪ W'') ∪ (wraps s ∖ W) /\ W' ∪ W'' ##ₘ wraps s ∖ W /\ exts s' = exts s /\
      blocks s' = <[l := b']> (<[o := set_obj (OLive t (t_cons E RVal t t a v).2) bo]> (blocks s)) /\
      (forall u, (forall j, u <> WMem o j /\ u <> WMem l j) -> wraps s' !! u = wraps s !! u)
  | OThrow _ s' => exts s' = exts s /\ wraps s' = wraps s /\
      exists v', (v' = v \/ v' = t_cons_fail E RVal t t v) /\
        blocks s' = <[o := set_obj (OLive t v') bo]> (blocks s)
  | _ => False
  end.
Proof.
  intros HM Hbo Hobj Hhdr HT Hlen Hm HB HW.
  assert (Hid : <[o := set_obj (OLive t v) bo]> (blocks s) = blocks s).
  { apply insert_id. rewrite Hbo. f_equal. destruct bo. cbn in *. by subst. }
  destruct k; cbn [create_rv khdr] in *.
  - rewrite (HT eq_refl) in *. unfold Indirect20.construct_from.
    rewrite run_bind. cbn [act_thr run exec].
    destruct (pop_eq s) as (r & orc' & -> & _). destruct r as [h|e]; cbn [run].
    2:{ split_and!; [done..|]. exists v. split; [by left|]. by rewrite Hid. }
    assert (Hfr := choose_fresh h (blocks s)). set (l := choose h (blocks s)) in *. clearbody l.
    set (b := mkB a (BObj (tT E)) HNone ORaw). set (s1 := log _ _).
    assert (H1b : blocks s1 = <[l := b]> (blocks s)) by done.
    assert (H1w : wraps s1 = wraps s) by done. assert (H1x : exts s1 = exts s) by done. clearbody s1.
    assert (Hol : o <> l) by congruence.
    assert (HNC := node_move Sh HS Hrefl n a (tT E) l o v kids b bo B W s1).
    feed specialize HNC; [|done| |done| | |done|done|done|by rewrite H1w|].
    { intros j. rewrite H1w. apply eq_None_not_Some. intros HH. apply HM in HH as [? ?]. congruence. }
    { by rewrite H1b, lookup_insert. }
    { cbn. by rewrite bool_decide_eq_true_2. }
    { by rewrite H1b, lookup_insert_ne. }
    rewrite run_catch, run_bind.
    destruct (run (tp_cons _ _ _ _ _) s1) as [u s2|e s2| |]; [| |done|done].
    + destruct HNC as (W' & W'' & Hm' & Hm'' & D & F1 & D' & F2 & F3 & Hfrm). cbn [run]. split; [done|].
      rewrite H1w in *. eexists _, W', W''. split_and!; [|done|done|done|done|done|congruence| |done].
      2:{ rewrite F3, H1b. rewrite (insert_commute _ o l) by done. by rewrite insert_insert. }
      done.
    + destruct HNC as (F1 & F2 & F3). cbn.
      rewrite F3, H1b, lookup_insert_ne, lookup_insert by done. cbn.
      rewrite bool_decide_eq_true_2, Nat.eqb_refl by done. cbn.
      split_and!; [congruence|congruence|]. eexists. split; [by right|].
      rewrite ?F3, ?H1b. rewrite delete_insert_ne by done. by rewrite delete_insert.
  - unfold Polymorphic20.cb_move, Polymorphic20.cb_ctor. erewrite st_cbty by done. cbv beta.
    rewrite run_bind. cbn [act_thr run exec].
    destruct (pop_eq s) as (r & orc' & -> & _). destruct r as [h|e]; cbn [run].
    2:{ split_and!; [done..|]. exists v. split; [by left|]. by rewrite Hid. }
    assert (Hfr := choose_fresh h (blocks s)). set (l := choose h (blocks s)) in *. clearbody l.
    set (s0 := log _ _).
    rewrite run_catch, run_bind, run_bind. cbn [act run exec].
    assert (H0b : blocks s0 !! l = Some (mkB a (BCb t) HNone ORaw)) by (cbn; by rewrite lookup_insert).
    rewrite H0b. cbn [b_hdr b_obj b_ty]. rewrite bool_decide_eq_true_2 by done.
    set (b := mkB a (BCb t) (HCb t None) ORaw).
    set (s1 := set_blocks _ _).
    assert (H1b : blocks s1 = <[l := b]> (blocks s)) by (cbn; by rewrite insert_insert).
    assert (H1w : wraps s1 = wraps s) by done. assert (H1x : exts s1 = exts s) by done. clearbody s1. clear s0 H0b.
    assert (Hol : o <> l) by congruence.
    assert (HNC := node_move Sh HS Hrefl n a t l o v kids b bo B W s1).
    feed specialize HNC; [|done| |done| | |done|done|done|by rewrite H1w|].
    { intros j. rewrite H1w. apply eq_None_not_Some. intros HH. apply HM in HH as [? ?]. congruence. }
    { by rewrite H1b, lookup_insert. }
    { cbn. by rewrite bool_decide_eq_true_2. }
    { by rewrite H1b, lookup_insert_ne. }
    cbn [run]. rewrite run_bind.
    destruct (run (tp_cons _ _ _ _ _) s1) as [u s2|e s2| |]; [| |done|done].
    + destruct HNC as (W' & W'' & Hm' & Hm'' & D & F1 & D' & F2 & F3 & Hfrm).
      unfold act; cbn [run exec]; rewrite F3, lookup_insert. cbn [b_hdr set_obj b run]. split; [done|].
      rewrite H1w in *. eexists _, W', W''. split_and!; [|done|done|done|done|done|cbn; congruence| |done].
      2:{ cbn [set_blocks blocks]. rewrite ?F3, insert_insert, H1b. rewrite (insert_commute _ o l) by done. by rewrite insert_insert. }
      done.
    + destruct HNC as (F1 & F2 & F3). cbn.
      rewrite F3, H1b, lookup_insert_ne, lookup_insert by done. cbn.
      rewrite bool_decide_eq_true_2, Nat.eqb_refl by done. cbn.
      split_and!; [congruence|congruence|]. eexists. split; [by right|].
      rewrite ?F3, ?H1b. rewrite delete_insert_ne by done. by rewrite delete_insert.
Qed.

(** Where move assignment leaves the two wrappers. *)
Definition masg_x (kx ky : wst) : wst :=
  let a := sel (pocma E) kx.2 ky.2 in
  (match ky.1 with
   | None => None
   | Some T => if a_eqb E kx.2 ky.2 then Some T else Some (moved_to a T)
   end, a).
Definition masg_y (kx ky : wst) : wst :=
  (match ky.1 with
   | None => None
   | Some T => if a_eqb E kx.2 ky.2 then None else Some (moved_from (sel (pocma E) kx.2 ky.2) T)
   end, ky.2).

Definition masg_ok (n : nat) : Prop :=
  forall h x y kx ky Bx Wx By Wy s,
    mem_ok s ->
    wrap_heap h x kx Bx Wx -> wrap_heap h y ky By Wy -> Bx ##ₘ By -> Wx ##ₘ Wy ->
    Bx ⊆ blocks s -> Wx ⊆ wraps s -> By ⊆ blocks s -> Wy ⊆ wraps s -> fits n kx.1 -> fits n ky.1 ->
    match run (i_move_assign (node_impl n h) x y) s with
    | ORet _ s' => exists B1 W1 B2 W2,
        wrap_heap h x (masg_x kx ky) B1 W1 /\ wrap_heap h y (masg_y kx ky) B2 W2 /\ B1 ##ₘ B2 /\ W1 ##ₘ W2 /\
        replaced s s' (Bx ∪ By) (Wx ∪ Wy) (B1 ∪ B2) (W1 ∪ W2)
    | OThrow _ s' => pocma E = false /\ always_equal E = false /\ a_eqb E kx.2 ky.2 = false /\
        exists T T' B2 W2, ky.1 = Some T /\ move_failed T T' /\ wrap_heap h y (Some T', ky.2) B2 W2 /\ replaced s s' By Wy B2 W2
    | OTerm => pocma E = true /\ a_eqb E kx.2 ky.2 = false
    | OUB _ => False
    end.

Definition massign (k : cls) (T : TP E) : wl -> wl -> prog E unit :=
  match k with Ind => Indirect20.move_assign T | Poly => Polymorphic20.move_assign T end.
Lemma massign_eq h T x y : i_move_assign (hdr_impl h T) x y = massign (header_cls h) T x y.
Proof. by destruct h. Qed.

Lemma wrap_own h w k B W s : wrap_heap h w k B W -> W ⊆ wraps s ->
  match k with
  | (None, a) => wraps s !! w = Some (mkW PNull a)
  | (Some T, a) => exists l, wraps s !! w = Some (mkW (PLoc l) a)
  end.
Proof.
  intros Hh HW. destruct (wrap_ptr _ _ _ _ _ _ s Hh HW) as (p & _ & Hp & Hq).
  destruct k as [[T|] a]; cbn in *; [destruct Hq as [l ->]; eauto|by subst].
Qed.

(** The body of move assignment between different objects, case by case. *)
Lemma massign_null k T x y a s :
  x <> y -> wraps s !! y = Some (mkW PNull a) ->
  run (massign k T x y) s =
  match run (bind (reset_of k T x)
              (fun _ => if pocma E then bind (act (PReadA y)) (fun a => act (PWriteA x a)) else Ret tt)) s with
  | OThrow e s' => if pocma E || always_equal E then OTerm else OThrow e s' | r => r end.
Proof.
  intros Hxy Hy. destruct k; cbn [massign]; unfold Indirect20.move_assign, Polymorphic20.move_assign;
  rewrite run_noexcept, decide_False by done;
  change (@Polymorphic20.valueless_after_move E) with (@Indirect20.valueless_after_move E);
  by erewrite st_valueless by done.
Qed.

Lemma massign_eqa k T x y px ax o ay s :
  x <> y -> wraps s !! x = Some (mkW px ax) -> wraps s !! y = Some (mkW (PLoc o) ay) -> a_eqb E ax ay = true ->
  run (massign k T x y) s =
  match run (bind (bind (swap_p x y) (fun _ => reset_of k T y))
              (fun _ => if pocma E then bind (act (PReadA y)) (fun a => act (PWriteA x a)) else Ret tt)) s with
  | OThrow e s' => if pocma E || always_equal E then OTerm else OThrow e s' | r => r end.
Proof.
  intros Hxy Hx Hy Ha. destruct k; cbn [massign]; unfold Indirect20.move_assign, Polymorphic20.move_assign;
  rewrite run_noexcept, decide_False by done;
  change (@Polymorphic20.valueless_after_move E) with (@Indirect20.valueless_after_move E);
  erewrite st_valueless by done; cbv beta iota; rewrite (run_bind (bind (act (PReadA x)) _));
  (erewrite st_readA by done); cbv beta; (erewrite st_readA by done); cbv beta; rewrite Ha; by rewrite <- run_bind.
Qed.

Lemma massign_nea k T x y px ax o ay s :
  x <> y -> wraps s !! x = Some (mkW px ax) -> wraps s !! y = Some (mkW (PLoc o) ay) -> a_eqb E ax ay = false ->
  run (massign k T x y) s =
  match run (bind (bind (create_rv k T (sel (pocma E) ax ay) o) (fun tmp => bind (reset_of k T x) (fun _ => act (PWriteP x (Some tmp)))))
              (fun _ => if pocma E then bind (act (PReadA y)) (fun a => act (PWriteA x a)) else Ret tt)) s with
  | OThrow e s' => if pocma E || always_equal E then OTerm else OThrow e s' | r => r end.
Proof.
  intros Hxy Hx Hy Ha.
  assert (Hread : forall X (f : A -> prog E X), run (bind (if pocma E then act (PReadA y) else act (PReadA x)) f) s =
     run (f (sel (pocma E) ax ay)) s).
  { intros X f. unfold sel. destruct (pocma E); by erewrite st_readA by done. }
  destruct k; cbn [massign create_rv]; unfold Indirect20.move_assign, Polymorphic20.move_assign;
  rewrite run_noexcept, decide_False by done;
  change (@Polymorphic20.valueless_after_move E) with (@Indirect20.valueless_after_move E);
  erewrite st_valueless by done; cbv beta iota; rewrite (run_bind (bind (act (PReadA x)) _));
  (erewrite st_readA by done); cbv beta; (erewrite st_readA by done); cbv beta; rewrite Ha.
  - rewrite Hread. cbv beta. erewrite st_deref by done. cbv beta. by rewrite <- run_bind.
  - erewrite st_deref by done. cbv beta. rewrite Hread. cbv beta. by rewrite <- run_bind.
Qed.

Lemma st_swap x y px ax py ay s :
  x <> y -> wraps s !! x = Some (mkW px ax) -> wraps s !! y = Some (mkW py ay) -> px <> PIndet -> py <> PIndet ->
  run (swap_p x y) s = ORet tt (set_wraps (<[x := mkW py ax]> (<[y := mkW px ay]> (wraps s))) s).
Proof.
  intros Hxy Hx Hy Hpx Hpy. unfold swap_p. erewrite st_readP by done. cbv beta. erewrite st_readP by done. cbv beta.
  rewrite run_bind. cbn. rewrite Hx. cbn. rewrite lookup_insert_ne, Hy by done. cbn. unfold set_wraps. cbn.
  do 2 f_equal. destruct px, py; try done; clear - Hxy; map_solve.
Qed.

Lemma masg_all n : masg_ok n.
Proof.
  intros h x y kx ky Bx Wx By Wy s HM Hx Hy DB DW HBx HWx HBy HWy Hfx Hfy.
  unfold Tree.node_impl. rewrite massign_eq.
  destruct (wrap_ptr _ _ _ _ _ _ s Hx HWx) as (px & Hpx & Hxs & Hxp).
  destruct (wrap_in _ _ _ _ _ _ Hx) as [wx Hwx]. destruct (wrap_in _ _ _ _ _ _ Hy) as [wy Hwy].
  assert (wx = mkW px kx.2) as -> by (pose proof (lookup_weaken _ _ _ _ Hwx HWx); congruence).
  assert (Hxy : x <> y).
  { intros ->. destruct (dis_at _ _ y DW); congruence. }
  assert (HyWx : Wx !! y = None) by (destruct (dis_at _ _ y DW); congruence).
  assert (HxWy : Wy !! x = None) by (destruct (dis_at _ _ x DW); congruence).
  destruct ky as [[T|] ay].
  2:{ assert (By = ∅) as -> by (by apply wrap_inv in Hy as [-> _]).
      destruct (install_null Sh (pocma E) n h x y kx ay Bx Wx Wy s) as (s2 & R2 & W2 & Hw & HR); [done..|].
      erewrite massign_null by first [done|by apply (wrap_own _ _ _ _ _ s Hy HWy)]. rewrite R2.
      exists ∅, W2, ∅, Wy. split_and!; [exact Hw|exact Hy|map_solve| |].
      - destruct HR as [R1 R3 _ R4 R5]. clear - DW R5 HWy. map_solve.
      - destruct (replaced_trans s s2 s2 Bx Wx ∅ W2 ∅ Wy ∅ Wy) as (RR & _); [done| |map_solve|done|map_solve|done|done].
        apply replaced_refl; [map_solve|]. rewrite (rp_w _ _ _ _ _ _ HR). destruct HR as [R1 R3 _ R4 R5]. clear - DW HWy R5. map_solve. }
  destruct (wrap_own _ _ _ _ _ s Hy HWy) as [o Hys].
  destruct n as [|n]; [by destruct T|].
  destruct (a_eqb E kx.2 ay) eqn:Ha.
  - (* equal allocators *)
    erewrite massign_eqa by done.
    assert (Hres := ar_res _ HA _ _ Ha).
    rewrite run_bind, run_bind. erewrite st_swap by done.
    set (s1 := set_wraps _ s).
    (* the two heaps after the swap *)
    assert (Hy' : wy = mkW (PLoc o) ay) by (pose proof (lookup_weaken _ _ _ _ Hwy HWy); congruence). subst wy.
    assert (Hx1 : wrap_heap h y (kx.1, ay) Bx (<[y := mkW px ay]> (delete x Wx))).
    { eapply (realloc Sh h y kx ay Bx (<[y := mkW px kx.2]> (delete x Wx)) (mkW px kx.2)) in Hres as HR.
      - cbn [w_p] in HR. by rewrite insert_insert in HR.
      - by apply rename.
      - by rewrite lookup_insert. }
    assert (Hy1 : forall a, a_res E ay = a_res E a -> wrap_heap h x (Some T, a) By (<[x := mkW (PLoc o) a]> (delete y Wy))).
    { intros a Hra. pose proof (realloc Sh h x (Some T, ay) a By (<[x := mkW (PLoc o) ay]> (delete y Wy)) (mkW (PLoc o) ay)) as HR.
      cbn [fst snd w_p] in HR. rewrite insert_insert in HR. apply HR; [by apply rename|by rewrite lookup_insert|done]. }
    assert (S1b : blocks s1 = blocks s) by done.
    assert (S1w : wraps s1 = <[x := mkW (PLoc o) kx.2]> (<[y := mkW px ay]> (wraps s))) by done.
    assert (S1x : exts s1 = exts s) by done. clearbody s1.
    destruct (reset_all Sh (S n) h y (kx.1, ay) Bx _ s1 Hx1) as (s2 & R2 & E1 & E2 & E3).
    { done. }
    { by rewrite S1b. }
    { rewrite S1w. clear - HWx Hxy. map_solve. }
    cbn [snd] in E2.
    rewrite R2. set (a := sel (pocma E) kx.2 ay).
    assert (Hx2 : wraps s2 !! x = Some (mkW (PLoc o) kx.2)).
    { rewrite E2, lookup_insert_ne by done. at_norm. rewrite (decide_False (P := y = x)) by done.
      rewrite decide_True by done. rewrite S1w. by rewrite lookup_insert. }
    assert (Hfin : exists s3, run (if pocma E then bind (act (PReadA y)) (fun a => act (PWriteA x a)) else Ret tt) s2 = ORet tt s3 /\
      blocks s3 = blocks s2 /\ wraps s3 = <[x := mkW (PLoc o) a]> (wraps s2) /\ exts s3 = exts s2).
    { subst a. unfold sel. destruct (pocma E).
      - cbn. rewrite E2, lookup_insert. cbn. rewrite <- E2, Hx2. eexists. split; [done|]. done.
      - exists s2. split_and!; try done. by rewrite insert_id. }
    destruct Hfin as (s3 & -> & F1 & F2 & F3).
    exists By, (<[x := mkW (PLoc o) a]> (delete y Wy)), ∅, {[ y := mkW PNull ay ]}.
    split_and!.
    + unfold masg_x. cbn [fst snd]. rewrite Ha. fold a. apply Hy1. subst a. unfold sel. destruct (pocma E); [done|congruence].
    + unfold masg_y. cbn [fst snd]. rewrite Ha. constructor.
    + map_solve.
    + clear - Hxy. map_solve.
    + split; [rewrite F1, E1, S1b|rewrite F2, E2, S1w|congruence| |].
      * clear - DB HBx HBy. map_solve.
      * clear - DW HWx HWy Hxy Hwx Hwy. map_solve.
      * clear - DB HBx HBy. map_solve.
      * clear - DW HWx HWy Hxy Hwx Hwy. map_solve.
  - (* different allocators *)
    erewrite massign_nea by done. cbn [fst snd] in *.
    assert (Hae : always_equal E = false).
    { destruct (always_equal E) eqn:Hae; [|done]. rewrite (ar_ae _ HA Hae) in Ha. done. }
    assert (Hy0 := Hy). apply wrap_inv in Hy. destruct T as [t v kids].
    destruct Hy as (o' & bo & B1 & W1 & -> & -> & HBo & HWy1 & (Hres & Hobj & Hty & Hhdr & HT) & Hlen & Hm).
    assert (o' = o) as ->.
    { pose proof (lookup_weaken _ _ y (mkW (PLoc o') ay) (lookup_insert _ _ _) HWy). congruence. }
    assert (Hbo : blocks s !! o = Some bo).
    { eapply lookup_weaken; [|exact HBy]. apply lookup_insert. }
    assert (HB1 : B1 ⊆ blocks s) by (clear - HBy HBo; map_solve).
    assert (HW1 : W1 ⊆ wraps s) by (clear - HWy HWy1; map_solve).
    rewrite lookup_insert in Hwy. simplify_eq.
    set (a := sel (pocma E) kx.2 ay).
    assert (HC := create_rv_ok (header_cls h) n a o t v kids bo B1 W1 s HM Hbo Hobj Hhdr HT Hlen Hm HB1 HW1).
    rewrite run_bind, run_bind.
    destruct (run (create_rv _ _ _ _) s) as [l s1|e s1| |]; [| |done|done].
    + destruct HC as (Hfr & b' & W' & W'' & Hok & Hm' & Hm'' & D & F1 & D' & F2 & F3 & _).
      assert (Hlo : o <> l) by congruence.
      set (B2 := <[o := set_obj (OLive t (t_cons E RVal t t a v).2) bo]> ∅ : gmap loc (block E)).
      set (W2 := <[y := mkW (PLoc o) ay]> W'').
      set (s0 := mkS (B2 ∪ (blocks s ∖ <[o := bo]> B1)) (W2 ∪ (wraps s ∖ <[y := mkW (PLoc o) ay]> W1)) (exts s) (orc s) (trc s)).
      assert (HW''y : W'' !! y = None).
      { clear - D' HWy1 Hys. apply (fun Q => dis_at _ _ y Q) in D'. at_norm. rewrite HWy1, Hys in D'.
        destruct D' as [D'|D']; [|done]. destruct (W' !! y); [done|]. done. }
      assert (HW'y : W' !! y = None).
      { clear - D' HWy1 Hys. apply (fun Q => dis_at _ _ y Q) in D'. at_norm. rewrite HWy1, Hys in D'.
        destruct D' as [D'|D']; [|done]. by destruct (W' !! y). }
      assert (Hy2 : wrap_heap h y (Some (moved_from a (TNode t v kids)), ay) B2 W2).
      { cbn [moved_from]. constructor; [| |done|done|done].
        - split; [done|]. done.
        - rewrite map_length, Hlen. symmetry. apply HS. }
      assert (HR0 : replaced s s0 (<[o := bo]> B1) (<[y := mkW (PLoc o) ay]> W1) B2 W2).
      { split; [done|done|done| |].
        - subst B2. clear. map_solve.
        - subst W2. clear - D' HWy1. map_solve. }
      destruct (install Sh (pocma E) (S n) h x y kx (Some (moved_from a (TNode t v kids)), ay) (moved_to a (TNode t v kids)) l
         Bx Wx B2 W2 (<[l := b']> B1) W' s0 s1) as (s2 & R2 & W3 & Hw3 & HR3).
      { done. }
      { done. }
      { subst W2. clear - DW D' HyWx HWx. map_solve. }
      { cbn. subst B2. clear - DB HBx. map_solve. }
      { cbn. subst W2. clear - DW HWx D' HyWx. map_solve. }
      { cbn. subst W2. clear. map_solve. }
      { done. }
      { split; cbn [s0 blocks wraps exts].
        - rewrite F3. subst B2. clear - Hfr Hlo HBo HB1. map_solve.
        - rewrite F1. subst W2. clear - D D' HWy1 Hys HW'y HW''y. map_solve.
        - done.
        - subst B2. clear - Hfr Hlo HBo HB1. map_solve.
        - subst W2. clear - D D' HWy1 Hys HW'y HW''y. map_solve. }
      { cbn [moved_to fresh_node fst snd]. exists b', B1. split_and!; [done| |done| |done].
        - clear - HB1 Hfr. destruct (sub_at _ _ l HB1); congruence.
        - rewrite Hlen. symmetry. apply HS. }
      rewrite run_bind in R2. rewrite R2. cbn [snd] in *. fold a in Hw3.
      destruct (replaced_trans s s0 s2 (<[o := bo]> B1) (<[y := mkW (PLoc o) ay]> W1) B2 W2 Bx Wx (<[l := b']> B1) W3)
        as (RR & D1 & D2); [done|done|by symmetry|by symmetry|done|done|].
      exists (<[l := b']> B1), W3, B2, W2. split_and!.
      * unfold masg_x. cbn [fst snd]. rewrite Ha. exact Hw3.
      * unfold masg_y. cbn [fst snd]. rewrite Ha. exact Hy2.
      * by symmetry.
      * by symmetry.
      * rewrite (map_union_comm Bx), (map_union_comm Wx) by done.
        rewrite (map_union_comm (<[l := b']> B1)), (map_union_comm W3) by (by symmetry). exact RR.
    + destruct HC as (F1 & F2 & v' & Hv' & F3). rewrite Hae, orb_false_r. destruct (pocma E); [done|].
      split_and!; [done..|].
      exists (TNode t v kids), (TNode t v' kids), (<[o := set_obj (OLive t v') bo]> B1), (<[y := mkW (PLoc o) ay]> W1).
      split_and!; [done| | |].
      * cbn. destruct Hv' as [->| ->]; [by left|by right].
      * constructor; [| |done|done|done].
        -- split; [done|]. done.
        -- rewrite Hlen. destruct Hv' as [->| ->]; [done|]. symmetry. apply HS.
      * split; [rewrite F3|rewrite F2|done| |].
        -- clear - HBy HBo. map_solve.
        -- clear - HWy. map_solve.
        -- clear - HBy. map_solve.
        -- clear. map_solve.
Qed.

End tree.
