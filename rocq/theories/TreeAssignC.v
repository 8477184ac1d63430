(** * Copy assignment of trees. *)

From stdpp Require Import base gmap list.
From Verif Require Import Lang Common Client Spec Rep RunLemmas Headers Hist Tree TreeProps TreeAssign.
From Verif Require Import Indirect20 Indirect14 Polymorphic20 Polymorphic14.

Section tree.
Context {E : Env} (Sh : Shape E) (HS : ShapeReq Sh) (HF : Fixed Sh) (HA : AllocReq E).
Notation A := (eA E).
Notation V := (eV E).
Notation wst := (option (tree E) * A)%type.
Implicit Types s : store E.
Notation wrap_heap := (wrap_heap Sh).
Notation mem_heap := (mem_heap Sh).
Notation nodeTP := (nodeTP Sh).
Notation node_impl := (node_impl Sh).
Notation casg_ok := (casg_ok Sh).
Notation asg_w := (asg_w Sh).
Notation asg_ws := (asg_ws Sh).
Notation asg_to := (asg_to Sh).
Notation placed := (placed Sh).
Notation casg_failed := (casg_failed Sh).
Notation kids_part := (kids_part Sh).
Notation placed_all := (placed_all Sh).

Lemma asg_to_fits n (T D : tree E) : fits n (Some T) -> fits n (Some D) -> fits n (Some (asg_to T D)).
Proof.
  revert T D. induction n as [|n IH]; intros [t v kids] [t0 v0 dkids]; [done|]. rewrite asg_to_eq.
  cbn [fits]. generalize 0. revert dkids. induction kids as [|k kids IHk]; intros [|d ds] i Hk Hd; [constructor..|].
  cbn [TreeAssign.asg_ws]. inversion Hk; inversion Hd; subst. constructor; [|by apply IHk].
  destruct k as [[T'|] a]; [|done]. destruct d as [D ad]. cbn [TreeAssign.asg_w].
  unfold asg_some. cbn [fst snd] in *.
  assert (Hc : forall a', fits n (Some (copy_tree a' T'))) by (intros a'; by apply (copy_fits n a' (Some T'))).
  repeat case_match; simplify_eq/=; auto.
Qed.

Lemma asg_w_fits n c d k : fits n d.1 -> fits n k.1 -> fits n (asg_w c d k).1.
Proof.
  destruct k as [[T|] a], d as [D ad]; [|done]. cbn [TreeAssign.asg_w]. unfold asg_some. cbn [fst snd].
  intros H1 H2. assert (Hc : forall a', fits n (Some (copy_tree a' T))) by (intros a'; by apply (copy_fits n a' (Some T))).
  repeat case_match; simplify_eq/=; auto. by apply asg_to_fits.
Qed.

Lemma casg_loop n hs dst src i ds ks Bd Wd Bs Ws s :
  casg_ok n -> placed_all s -> length ds = length ks ->
  (forall j, i <= j < i + length ds -> placed s (dst j)) ->
  mem_heap hs dst i ds Bd Wd -> mem_heap hs src i ks Bs Ws -> Bd ##ₘ Bs -> Wd ##ₘ Ws ->
  Bd ⊆ blocks s -> Wd ⊆ wraps s -> Bs ⊆ blocks s -> Ws ⊆ wraps s ->
  Forall (fun k => fits n k.1) ds -> Forall (fun k => fits n k.1) ks ->
  match run (assign_members (fun j => i_copy_assign (node_impl n (hs j)) (dst j) (src j)) i (length ds)) s with
  | ORet _ s' => exists B' W', mem_heap hs dst i (asg_ws hs i ks ds) B' W' /\ replaced s s' Bd Wd B' W'
  | OThrow _ s' => exists ds' B' W', mem_heap hs dst i ds' B' W' /\ length ds' = length ds /\
      Forall (fun k => fits n k.1) ds' /\ replaced s s' Bd Wd B' W' /\ kids_part hs i ks ds ds'
  | _ => False
  end.
Proof.
  intros HC. revert i ks Bd Wd Bs Ws s.
  induction ds as [|d ds IH]; intros i [|k ks] Bd Wd Bs Ws s HP Hlen Hpl Hd Hs DB DW HBd HWd HBs HWs Hfd Hfs; try done.
  - apply mem_nil_inv in Hd as [-> ->]. cbn. exists ∅, ∅. split; [constructor|by apply replaced_refl].
  - apply mem_cons_inv in Hd as (B1 & W1 & B2 & W2 & -> & -> & DB12 & DW12 & H1 & H2).
    apply mem_cons_inv in Hs as (B3 & W3 & B4 & W4 & -> & -> & DB34 & DW34 & H3 & H4).
    inversion Hfd as [|k' ks' Hf1 Hf2]; subst. inversion Hfs as [|k' ks' Hf3 Hf4]; subst.
    cbn [length assign_members]. rewrite run_bind.
    assert (HX := HC (hs i) (dst i) (src i) d k B1 W1 B3 W3 s HP).
    feed specialize HX; [apply Hpl; simpl; lia|done|done|map_solve|map_solve|map_solve|map_solve|map_solve|map_solve|done|done|].
    assert (Hi : placed s (dst i)) by (apply Hpl; simpl; lia).
    destruct (run (i_copy_assign _ _ _) s) as [u s1|e s1| |]; [| |done|done].
    + destruct HX as (B1' & W1' & Hw1 & R1).
      assert (HB2 : B2 ⊆ blocks s) by (clear - HBd DB12; map_solve).
      assert (HW2 : W2 ⊆ wraps s) by (clear - HWd DW12; map_solve).
      specialize (IH (S i) ks B2 W2 B4 W4 s1).
      feed specialize IH; [|by simplify_eq/=| |exact H2|exact H4| | | | | | |done|done|].
      { by eapply (placed_all_replaced Sh (hs i) (dst i) d); [done|exact Hw1|exact R1|clear - HBd; map_solve|done|done]. }
      { intros j Hj. eapply (placed_replaced Sh (hs i) (dst i) d); [done|exact R1|clear - HBd; map_solve|apply Hpl; simpl; lia|left].
        destruct (mem_in_gen _ _ _ _ _ _ _ H2 j Hj) as [q Hq].
        destruct (dis_at _ _ (dst j) DW12); congruence. }
      { clear - DB. map_solve. }
      { clear - DW. map_solve. }
      { rewrite (rp_b _ _ _ _ _ _ R1). assert (D := rp_db _ _ _ _ _ _ R1). clear - D DB12 HBd. map_solve. }
      { rewrite (rp_w _ _ _ _ _ _ R1). assert (D := rp_dw _ _ _ _ _ _ R1). clear - D DW12 HWd. map_solve. }
      { rewrite (rp_b _ _ _ _ _ _ R1). assert (D := rp_db _ _ _ _ _ _ R1). clear - D DB HBs DB34. map_solve. }
      { rewrite (rp_w _ _ _ _ _ _ R1). assert (D := rp_dw _ _ _ _ _ _ R1). clear - D DW HWs DW34. map_solve. }
      destruct (run (assign_members _ _ _) s1) as [u2 s2|e s2| |]; [| |done|done].
      * destruct IH as (B2' & W2' & Hm2 & R2).
        destruct (replaced_trans s s1 s2 B1 W1 B1' W1' B2 W2 B2' W2') as (R3 & D1 & D2); [done..|].
        exists (B1' ∪ B2'), (W1' ∪ W2'). split; [|done]. cbn [TreeAssign.asg_ws]. by constructor.
      * destruct IH as (ds' & B2' & W2' & Hm2 & Hl2 & Hf' & R2 & HK).
        destruct (replaced_trans s s1 s2 B1 W1 B1' W1' B2 W2 B2' W2') as (R3 & D1 & D2); [done..|].
        eexists (_ :: ds'), (B1' ∪ B2'), (W1' ∪ W2'). split_and!; [by econstructor| | |done|by constructor].
        -- cbn. by rewrite Hl2.
        -- constructor; [|done]. by apply asg_w_fits.
    + destruct HX as (k' & B1' & W1' & Hw1 & Hfk & R1 & HK).
      assert (HB2 : B2 ⊆ blocks s) by (clear - HBd DB12; map_solve).
      assert (HW2 : W2 ⊆ wraps s) by (clear - HWd DW12; map_solve).
      destruct (replaced_trans s s1 s1 B1 W1 B1' W1' B2 W2 B2 W2) as (R3 & D1 & D2); [done| |done..|].
      { apply replaced_refl; [rewrite (rp_b _ _ _ _ _ _ R1)|rewrite (rp_w _ _ _ _ _ _ R1)].
        - assert (D := rp_db _ _ _ _ _ _ R1). clear - D DB12 HBd. map_solve.
        - assert (D := rp_dw _ _ _ _ _ _ R1). clear - D DW12 HWd. map_solve. }
      exists (k' :: ds), (B1' ∪ B2), (W1' ∪ W2). split_and!; [by constructor|done|by constructor|done|by constructor].
Qed.

(** Memberwise assignment of the node in [l] from the node in [o]. *)
Lemma node_asgn n t c l o v0 v ds ks b bo Bd Wd Bs Ws s :
  casg_ok n -> c <> RVal -> placed_all s -> o <> l ->
  blocks s !! l = Some b -> b_obj b = OLive t v0 -> blocks s !! o = Some bo -> b_obj bo = OLive t v ->
  length ds = n_kids Sh t v0 -> length ks = n_kids Sh t v ->
  mem_heap (k_hdr Sh t) (WMem l) 0 ds Bd Wd -> mem_heap (k_hdr Sh t) (WMem o) 0 ks Bs Ws -> Bd ##ₘ Bs -> Wd ##ₘ Ws ->
  Bd !! l = None -> Bs !! l = None ->
  Bd ⊆ blocks s -> Wd ⊆ wraps s -> Bs ⊆ blocks s -> Ws ⊆ wraps s ->
  Forall (fun k => fits n k.1) ds -> Forall (fun k => fits n k.1) ks ->
  match run (tp_asgn (nodeTP (S n)) t l (ARef c (RBlk o))) s with
  | ORet _ s' => exists B' W',
      mem_heap (k_hdr Sh t) (WMem l) 0 (asg_ws (k_hdr Sh t) 0 ks ds) B' W' /\ B' !! l = None /\
      replaced s s' (<[l := b]> Bd) Wd (<[l := set_obj (OLive t (t_asgn E ConstL t t v0 v).1) b]> B') W'
  | OThrow _ s' => exists v' ds' B' W', mem_heap (k_hdr Sh t) (WMem l) 0 ds' B' W' /\ B' !! l = None /\
      length ds' = length ds /\ Forall (fun k => fits n k.1) ds' /\
      replaced s s' (<[l := b]> Bd) Wd (<[l := set_obj (OLive t v') b]> B') W' /\
      asg_part Sh (TNode t v ks) (TNode t v0 ds) (TNode t v' ds')
  | _ => False
  end.
Proof.
  intros HC Hc HP Hol Hb Hobj Hbo Hobjo Hld Hls Hmd Hms DB DW HBdl HBsl HBd HWd HBs HWs Hfd Hfs.
  assert (R0 : run (tp_asgn (nodeTP (S n)) t l (ARef c (RBlk o))) s =
    run (bind (act_thr (PAsgn t l (ARef ConstL (RBlk o)))) (fun _ =>
      assign_members (fun j => i_copy_assign (node_impl n (k_hdr Sh t j)) (WMem l j) (WMem o j)) 0 (n_kids Sh t v0))) s).
  { assert (Hro : forall l b t v X (f : ty * V -> prog E X) s, blocks s !! l = Some b -> b_obj b = OLive t v ->
      run (bind (act (PReadObj (RBlk l))) f) s = run (f (t, v)) s).
    { intros. cbn. by rewrite H, H0. }
    destruct c; [| |done]; cbn [Tree.nodeTP nodeTP_step tp_asgn];
    erewrite Hro by done; cbv beta; erewrite Hro by done; cbv beta; cbn [snd];
    by rewrite (HF t v v0), Nat.eqb_refl. }
  rewrite R0. clear R0. rewrite run_bind. cbn [act_thr run exec deref].
  rewrite Hb, Hobj. rewrite bool_decide_eq_true_2 by done. cbn [negb asgn_vals].
  rewrite bool_decide_eq_false_2 by congruence. cbn [deref]. rewrite Hbo, Hobjo.
  destruct (t_asgn E ConstL t t v0 v) as [d1 d2] eqn:Hd. destruct (t_asgn_fail E ConstL t t v0 v) as [df df2] eqn:Hdf.
  assert (Hupd : forall s0 v', blocks s0 = blocks s -> blocks (upd_ref (RBlk l) v' s0) = <[l := set_obj (OLive t v') b]> (blocks s)).
  { intros s0 v' Hs0. cbn. rewrite Hs0. apply map_eq. intros i. destruct (decide (l = i)) as [<-|Hne].
    - by rewrite lookup_alter, Hb, lookup_insert; cbn; rewrite Hobj.
    - by rewrite lookup_alter_ne, lookup_insert_ne. }
  destruct (pop_eq s) as (r & orc' & -> & _). destruct r as [h|e]; cbn [upd_src run].
  - set (s1 := log _ _).
    assert (H1b : blocks s1 = <[l := set_obj (OLive t d1) b]> (blocks s)) by (by apply Hupd).
    assert (H1w : wraps s1 = wraps s) by done. assert (H1x : exts s1 = exts s) by done. clearbody s1.
    assert (Hmono : forall u, placed s u -> placed s1 u).
    { intros [m|l' i']; [done|]. intros (b' & Hb' & Hi'). cbn. rewrite H1b. destruct (decide (l = l')) as [<-|Hne].
      - rewrite lookup_insert. eexists. split; [done|]. cbn. intros t' v' Hv. simplify_eq.
        rewrite (HF t' v' v0). by apply Hi'.
      - rewrite lookup_insert_ne by done. eauto. }
    rewrite <- Hld.
    assert (CL := casg_loop n (k_hdr Sh t) (WMem l) (WMem o) 0 ds ks Bd Wd Bs Ws s1 HC).
    feed specialize CL; [| | |done|done|done|done| | | | |done|done|].
    { intros u Hu. apply Hmono, HP. by rewrite <- H1w. }
    { rewrite Hld, Hls. apply HF. }
    { intros j Hj. cbn. rewrite H1b, lookup_insert. eexists. split; [done|]. intros t' v' Hv. cbn in Hv. simplify_eq.
      rewrite (HF t' v' v0). lia. }
    { rewrite H1b. clear - HBd HBdl. map_solve. }
    { by rewrite H1w. }
    { rewrite H1b. clear - HBs HBsl. map_solve. }
    { by rewrite H1w. }
    assert (Htr : forall s2 B' W', replaced s1 s2 Bd Wd B' W' ->
       B' !! l = None /\ replaced s s2 (<[l := b]> Bd) Wd (<[l := set_obj (OLive t d1) b]> B') W').
    { intros s2 B' W' [R1 R2 R3 R4 R5]. rewrite H1b in *. rewrite H1w in *. split.
      - apply (fun Q => dis_at _ _ l Q) in R4. at_norm. rewrite HBdl, decide_True in R4 by done. by destruct R4.
      - split; [rewrite R1|done|congruence| |done].
        + clear - HBdl R4. map_solve.
        + clear - HBdl R4. map_solve. }
    destruct (run (assign_members _ _ _) s1) as [u s2|e s2| |]; [| |done|done].
    + destruct CL as (B' & W' & Hm' & R). apply Htr in R as [R1 R2]. eauto.
    + destruct CL as (ds' & B' & W' & Hm' & Hl' & Hf' & R & HK). apply Htr in R as [R1 R2]. exists d1, ds', B', W'.
      split_and!; try done. replace d1 with (t_asgn E ConstL t t v0 v).1 by (by rewrite Hd). by constructor.
  - exists df, ds, Bd, Wd. split_and!; try done; [|replace df with (t_asgn_fail E ConstL t t v0 v).1 by (by rewrite Hdf); constructor].
    split; cbn [log blocks wraps exts].
    + rewrite Hupd by done. clear - HBd HBdl Hb. map_solve.
    + change (wraps (upd_ref _ _ _)) with (wraps s). clear - HWd. map_solve.
    + done.
    + clear - HBd. map_solve.
    + clear. map_solve.
Qed.

(** The end of an assignment from a valueless source. *)
Lemma install_null (f : bool) n h x y kx ay Bx Wx Wy s :
  wrap_heap h x kx Bx Wx -> wrap_heap h y (None, ay) ∅ Wy -> Wx ##ₘ Wy -> Bx ⊆ blocks s -> Wx ⊆ wraps s -> Wy ⊆ wraps s ->
  fits n kx.1 ->
  exists s2,
    run (bind (reset_of (header_cls h) (nodeTP n) x)
              (fun _ => if f then bind (act (PReadA y)) (fun a => act (PWriteA x a)) else Ret tt)) s
    = ORet tt s2 /\
    exists W2, wrap_heap h x (None, sel f kx.2 ay) ∅ W2 /\ replaced s s2 Bx Wx ∅ W2.
Proof.
  intros Hx Hy DW HBx HWx HWy Hf.
  destruct (reset_all Sh n h x kx Bx Wx s Hx Hf HBx HWx) as (s2 & R2 & E1 & E2 & E3).
  destruct (wrap_in _ _ _ _ _ _ Hx) as [wx Hwx].
  destruct (wrap_ptr _ _ _ _ _ _ s Hy HWy) as (p & _ & Hys & _).
  assert (HyW : Wx !! y = None).
  { destruct (wrap_in _ _ _ _ _ _ Hy) as [wy Hwy]. destruct (dis_at _ _ y DW); congruence. }
  assert (Hyx : y <> x) by congruence.
  exists (set_wraps (<[x := mkW PNull (sel f kx.2 ay)]> (wraps s2)) s2). split.
  - rewrite !run_bind, R2. unfold sel. destruct f.
    + cbn. rewrite ?E2. rewrite !lookup_insert_ne by done. rewrite lookup_diff, HyW, Hys. cbn.
      rewrite ?E2, lookup_insert. cbn. by rewrite ?E2, !insert_insert.
    + cbn. destruct s2. cbn in *. subst. by rewrite insert_insert.
  - exists {[ x := mkW PNull (sel f kx.2 ay) ]}. split; [constructor|].
    split; cbn; [rewrite E1|rewrite E2|done| |].
    + clear. map_solve.
    + clear - Hwx. map_solve.
    + clear. map_solve.
    + clear - Hwx. map_solve.
Qed.

Definition cassign (k : cls) (T : TP E) : wl -> wl -> prog E unit :=
  match k with Ind => Indirect20.copy_assign T | Poly => Polymorphic20.copy_assign T end.
Lemma cassign_eq h T x y : i_copy_assign (hdr_impl h T) x y = cassign (header_cls h) T x y.
Proof. by destruct h. Qed.

(** The copying path. *)
Lemma casg_by_copy n h x y kx T ay Bx Wx By Wy s (p : prog E loc) :
  wrap_heap h x kx Bx Wx -> wrap_heap h y (Some T, ay) By Wy -> Wx ##ₘ Wy -> Bx ⊆ blocks s -> Wx ⊆ wraps s -> Wy ⊆ wraps s ->
  fits n kx.1 ->
  makes p s (fresh_node Sh (header_cls h) (na kx.2 ay) (copy_tree (na kx.2 ay) T)) ->
  match run (bind (bind p (fun tmp => bind (reset_of (header_cls h) (nodeTP n) x) (fun _ => act (PWriteP x (Some tmp)))))
              (fun _ => if pocca E then bind (act (PReadA y)) (fun a => act (PWriteA x a)) else Ret tt)) s with
  | ORet _ s' => exists B' W', wrap_heap h x (Some (copy_tree (na kx.2 ay) T), na kx.2 ay) B' W' /\ replaced s s' Bx Wx B' W'
  | OThrow _ s' => exists k' B' W', wrap_heap h x k' B' W' /\ fits n k'.1 /\ replaced s s' Bx Wx B' W' /\ k' = kx
  | _ => False
  end.
Proof.
  intros Hx Hy DW HBx HWx HWy Hf Hp. unfold makes in Hp. rewrite run_bind. rewrite run_bind.
  destruct (run p s) as [l s1|e s1| |]; [| |done|done].
  - destruct Hp as (B' & W' & Hnode & HAd).
    destruct (install Sh (pocca E) n h x y kx (Some T, ay) (copy_tree (na kx.2 ay) T) l Bx Wx By Wy B' W' s s1) as (s2 & R2 & W2 & Hw & HR);
      [done..|].
    rewrite run_bind in R2. rewrite R2. eauto.
  - exists kx, Bx, Wx. split_and!; [done|done| |done]. by apply same_replaced.
Qed.

Lemma casg_step n : (forall m, n = S m -> casg_ok m) -> casg_ok n.
Proof.
  intros IH h x y kx ky Bx Wx By Wy s HP Hpx Hx Hy DB DW HBx HWx HBy HWy Hfx Hfy.
  unfold Tree.node_impl. rewrite cassign_eq.
  destruct (wrap_ptr _ _ _ _ _ _ s Hx HWx) as (px & Hpx' & Hxs & Hxp).
  destruct (wrap_ptr _ _ _ _ _ _ s Hy HWy) as (py & Hpy' & Hys & Hyp).
  assert (Hxy : x <> y).
  { destruct (wrap_in _ _ _ _ _ _ Hx) as [? ?], (wrap_in _ _ _ _ _ _ Hy) as [? ?].
    intros ->. destruct (dis_at _ _ y DW); congruence. }
  destruct ky as [[T|] ay]; cbn [fst snd] in *.
  2:{ subst py. assert (By = ∅) as -> by (by apply wrap_inv in Hy as [-> _]).
      destruct (install_null (pocca E) n h x y kx ay Bx Wx Wy s) as (s2 & R2 & W2 & Hw & HR); [done..|].
      assert (Hrun : run (cassign (header_cls h) (nodeTP n) x y) s = ORet tt s2).
      { destruct (header_cls h); cbn [cassign] in *;
        unfold Indirect20.copy_assign, Polymorphic20.copy_assign;
        change (@Polymorphic20.valueless_after_move E) with (@Indirect20.valueless_after_move E);
        rewrite decide_False by done; erewrite st_valueless by done; exact R2. }
      rewrite Hrun. cbn [TreeAssign.asg_w]. eauto. }
  destruct Hyp as [o ->]. destruct n as [|n]; [by destruct T|].
  specialize (IH n eq_refl). assert (Hy0 := Hy). apply wrap_inv in Hy.
  destruct T as [t v ks].
  destruct Hy as (o' & bo & B1 & W1 & -> & -> & HBo & HWy1 & (Hres & Hobj & Hty & Hhdr & HT) & Hlen & Hm).
  assert (o' = o) as ->.
  { pose proof (lookup_weaken _ _ y (mkW (PLoc o') ay) (lookup_insert _ _ _) HWy). congruence. }
  assert (Hbo : blocks s !! o = Some bo).
  { eapply lookup_weaken; [|exact HBy]. apply lookup_insert. }
  assert (HB1 : B1 ⊆ blocks s) by (clear - HBy HBo; map_solve).
  assert (HW1 : W1 ⊆ wraps s) by (clear - HWy HWy1; map_solve).
  assert (Hcopy : forall a, copy_ok Sh n ->
     makes (match header_cls h with
            | Ind => Indirect20.construct_from (nodeTP (S n)) a (ARef NonConstL (RBlk o))
            | Poly => Polymorphic20.cb_clone (nodeTP (S n)) o a end) s
       (fresh_node Sh (header_cls h) a (copy_tree a (TNode t v ks)))).
  { intros a HC. apply placed_mem_ok in HP. destruct (header_cls h).
    - rewrite (HT eq_refl) in *. by eapply ind_copy; eauto.
    - by eapply poly_copy; eauto. }
  specialize (Hcopy (na kx.2 ay) (copy_all Sh HS n)).
  assert (Hc := casg_by_copy (S n) h x y kx (TNode t v ks) ay Bx Wx _ _ s _ Hx Hy0 DW HBx HWx HWy Hfx Hcopy).
  assert (Hread : forall X (f : A -> prog E X), run (bind (if pocca E then act (PReadA y) else act (PReadA x)) f) s =
     run (f (na kx.2 ay)) s).
  { intros X f. unfold na, sel. destruct (pocca E); by erewrite st_readA by done. }
  destruct (header_cls h) eqn:Hcls.
  2:{ assert (Hrun : run (cassign Poly (nodeTP (S n)) x y) s =
        run (bind (bind (Polymorphic20.cb_clone (nodeTP (S n)) o (na kx.2 ay)) (fun tmp => bind (reset_of Poly (nodeTP (S n)) x) (fun _ => act (PWriteP x (Some tmp)))))
              (fun _ => if pocca E then bind (act (PReadA y)) (fun a => act (PWriteA x a)) else Ret tt)) s).
      { cbn [cassign]. unfold Polymorphic20.copy_assign.
        change (@Polymorphic20.valueless_after_move E) with (@Indirect20.valueless_after_move E).
        rewrite decide_False by done. erewrite st_valueless by done. cbv beta iota. rewrite run_bind.
        erewrite st_deref by done. cbv beta. rewrite Hread. cbv beta. by rewrite <- run_bind. }
      rewrite Hrun. destruct (run _ s); try done.
      destruct Hc as (k' & B' & W' & H1 & H2 & H3 & ->). exists kx, B', W'. split_and!; try done. by apply cf_same. }
  (* indirect *)
  pose (c := match t_assignable E, kx.1 with true, Some _ => a_eqb E kx.2 ay | _, _ => false end).
  assert (Hcond : forall X (f : bool -> prog E X),
    run (bind (if t_assignable E then
             bind (Indirect20.valueless_after_move x) (fun vt =>
             if negb vt then bind (act (PReadA x)) (fun a1 => bind (act (PReadA y)) (fun a2 => Ret (a_eqb E a1 a2)))
             else Ret false) else Ret false) f) s = run (f c) s).
  { intros X f. subst c. rewrite run_bind. destruct (t_assignable E); [|done].
    erewrite st_valueless by done. cbv beta. destruct kx as [[Tx|] ax]; cbn [fst snd] in *.
    - destruct Hxp as [lx ->]. cbn [negb]. erewrite st_readA by done. cbv beta. by erewrite st_readA by done.
    - by subst px. }
  assert (Hrun : run (cassign Ind (nodeTP (S n)) x y) s =
    run (bind (if c then bind (deref_p x) (fun l => bind (Indirect20.op_star y) (fun o => tp_asgn (nodeTP (S n)) (tT E) l (ARef ConstL (RBlk o))))
               else bind (Indirect20.construct_from (nodeTP (S n)) (na kx.2 ay) (ARef NonConstL (RBlk o)))
                (fun tmp => bind (reset_of Ind (nodeTP (S n)) x) (fun _ => act (PWriteP x (Some tmp)))))
           (fun _ => if pocca E then bind (act (PReadA y)) (fun a => act (PWriteA x a)) else Ret tt)) s).
  { cbn [cassign]. unfold Indirect20.copy_assign.
    rewrite decide_False by done. erewrite st_valueless by done. cbv beta iota. rewrite run_bind.
    rewrite Hcond. cbv beta. rewrite (run_bind (if c then _ else _)). destruct c; [done|].
    rewrite Hread. cbv beta. by erewrite st_deref by done. }
  rewrite Hrun. clear Hrun. destruct c eqn:Hcv.
  2:{ replace (asg_w Ind kx (Some (TNode t v ks), ay)) with (Some (copy_tree (na kx.2 ay) (TNode t v ks)), na kx.2 ay).
      1:{ assert (Hcf : forall k', k' = kx -> casg_failed Ind kx (Some (TNode t v ks), ay) k').
          { intros k' ->. apply cf_same. unfold in_place. subst c. cbn [fst snd].
            destruct (t_assignable E), kx as [[Tx|] ax]; try done. }
          destruct (run _ s); try done. destruct Hc as (k' & B' & W' & H1 & H2 & H3 & H4). exists k', B', W'. auto. }
      subst c. cbn [TreeAssign.asg_w]. unfold asg_some. destruct (t_assignable E), kx as [[Tx|] ax]; try done.
      cbn [fst snd] in *. by rewrite Hcv. }
  (* assignment to the value *)
  subst c. destruct (t_assignable E) eqn:Hasg; [|done]. destruct kx as [[[t0 v0 ds]|] ax]; [|done].
  cbn [fst snd] in *. assert (Hax : a_res E ax = a_res E ay) by (by apply HA).
  clear Hc Hcopy Hcond Hread. destruct Hxp as [l ->]. assert (Hx0 := Hx). apply wrap_inv in Hx.
  destruct Hx as (l' & b & B2 & W2 & -> & -> & HBl & HWx1 & (Hresx & Hobjx & Htyx & Hhdrx & HTx) & Hlenx & Hmx).
  assert (l' = l) as ->.
  { pose proof (lookup_weaken _ _ x (mkW (PLoc l') ax) (lookup_insert _ _ _) HWx). congruence. }
  rewrite Hcls in *. rewrite (HT eq_refl), (HTx eq_refl) in *.
  assert (Hl : blocks s !! l = Some b).
  { eapply lookup_weaken; [|exact HBx]. apply lookup_insert. }
  assert (Hol : o <> l).
  { intros ->. destruct (dis_at _ _ l DB) as [HX|HX]; by rewrite lookup_insert in HX. }
  rewrite run_bind. erewrite st_deref by done. cbv beta. unfold Indirect20.op_star. erewrite st_deref by done. cbv beta.
  assert (HN := node_asgn n (tT E) ConstL l o v0 v ds ks b bo B2 W2 B1 W1 s IH).
  feed specialize HN; [done|done|done|done|done|done|done|done|done|done|done| | |done| | | |done|done|done|done|].
  { clear - DB HBl HBo. map_solve. }
  { clear - DW HWx1 HWy1. map_solve. }
  { destruct (dis_at _ _ l DB) as [HX|HX]; [by rewrite lookup_insert in HX|]. by rewrite lookup_insert_ne in HX. }
  { clear - HBx HBl. map_solve. }
  { clear - HWx HWx1. map_solve. }
  destruct (run (tp_asgn _ _ _ _) s) as [u s1|e s1| |]; [| |done|done].
  - destruct HN as (B' & W' & Hm' & HBl' & [R1 R2 R3 R4 R5]).
    assert (Hx1 : wraps s1 !! x = Some (mkW (PLoc l) ax)).
    { rewrite R2. at_norm. rewrite HWx1. destruct (W' !! x) eqn:HWx'; [|done].
      apply (fun Q => dis_at _ _ x Q) in R5. at_norm. rewrite HWx1 in R5. destruct R5; congruence. }
    assert (Hy1 : exists p, wraps s1 !! y = Some (mkW p ay)).
    { assert (W2 !! y = None).
      { destruct (dis_at _ _ y DW) as [HX|HX]; [|by rewrite lookup_insert in HX]. by rewrite lookup_insert_ne in HX. }
      rewrite R2. at_norm. rewrite H. apply (fun Q => dis_at _ _ y Q) in R5. at_norm. rewrite H in R5.
      destruct R5 as [->|]; [eauto|congruence]. }
    destruct Hy1 as [p Hy1].
    assert (Hfin : exists s2, run (if pocca E then bind (act (PReadA y)) (fun a => act (PWriteA x a)) else Ret tt) s1 = ORet tt s2 /\
      blocks s2 = blocks s1 /\ wraps s2 = <[x := mkW (PLoc l) (na ax ay)]> (wraps s1) /\ exts s2 = exts s1).
    { unfold na, sel. destruct (pocca E).
      - cbn. rewrite Hy1. cbn. rewrite Hx1. eexists. split; [done|]. done.
      - exists s1. split_and!; try done. by rewrite insert_id. }
    destruct Hfin as (s2 & -> & F1 & F2 & F3).
    exists (<[l := set_obj (OLive (tT E) (t_asgn E ConstL (tT E) (tT E) v0 v).1) b]> B'), (<[x := mkW (PLoc l) (na ax ay)]> W').
    assert (HW'x : W' !! x = None).
    { apply (fun Q => dis_at _ _ x Q) in R5. at_norm. rewrite HWx1 in R5. destruct R5; congruence. }
    split.
    + cbn [TreeAssign.asg_w]. unfold asg_some. rewrite Hasg. cbn [fst snd]. rewrite Hcv, asg_to_eq.
      constructor; [|rewrite <- (HF _ v0)| |done|done].
      * rewrite Hcls. repeat split; cbn; try done. unfold na, sel. destruct (pocca E); congruence.
      * rewrite <- Hlenx. assert (length ks = length ds) by (rewrite Hlen, Hlenx; apply HF).
        clear - H. generalize 0. revert ds H. induction ks as [|k ks IHk]; intros [|d ds] Hl i; try done.
        cbn. f_equal. apply IHk. by simplify_eq/=.
      * done.
    + split; [rewrite F1, R1|rewrite F2, R2|congruence| |].
      * done.
      * clear - HW'x HWx1. map_solve.
      * done.
      * clear - R5 HWx1. map_solve.
  - destruct HN as (v' & ds' & B' & W' & Hm' & HBl' & Hlen' & Hf' & [R1 R2 R3 R4 R5] & HAP).
    exists (Some (TNode (tT E) v' ds'), ax), (<[l := set_obj (OLive (tT E) v') b]> B'), (<[x := mkW (PLoc l) ax]> W').
    assert (HW'x : W' !! x = None).
    { apply (fun Q => dis_at _ _ x Q) in R5. at_norm. rewrite HWx1 in R5. destruct R5; [done|congruence]. }
    split_and!; [|done| |apply cf_part; [unfold in_place; rewrite Hasg; cbn [fst snd]; by rewrite Hcv|done]].
    + constructor; [|rewrite Hlen', Hlenx; apply HF| |done|done]; [|done].
      rewrite Hcls. repeat split; cbn; try done.
    + split; [rewrite R1|rewrite R2|congruence| |].
      * done.
      * clear - HW'x HWx1 Hxs. map_solve.
      * done.
      * clear - R5 HWx1. map_solve.
Qed.

Lemma casg_all n : casg_ok n.
Proof.
  induction n as [|n IH]; apply casg_step; [done|]. intros m Hm. by simplify_eq.
Qed.

End tree.
