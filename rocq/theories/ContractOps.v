(** * The operations of the class templates over a value type that keeps its contract. *)

From stdpp Require Import base gmap list.
From Verif Require Import Lang Common Client Spec Rep RunLemmas Headers Hist Tree TreeProps TreeAssign TreeAssignC TreeMove TreeMoveAssign Contract ContractProps.
From Verif Require Import Indirect20 Indirect14 Polymorphic20 Polymorphic14.

Section ops.
Context {E : Env} (T : TP E) (K : Cls E) (HO : Honest T K) (HA : AllocReq E).
Notation A := (eA E).
Notation V := (eV E).
Notation bmap := (gmap loc (block E)).
Notation wmap := (gmap wl (wrapper E)).
Notation wv := (option (ty * c_val K) * A)%type.
Implicit Types s : store E.
Notation wrapped := (wrapped K).
Notation wrapper_at := (wrapper_at K).
Notation object := (object K).
Notation filled := (filled K).
Notation fresh := (fresh K).
Notation created := (created K).
Notation create := (create T).

Lemma fresh_wrapped h w a t x l B W :
  fresh (header_cls h) a t x l B W -> W !! w = None -> wrapped h w (Some (t, x), a) B (<[w := mkW (PLoc l) a]> W).
Proof. intros (b & v & B1 & -> & HBl & Hok & Hrep) Hw. by exists l, b, v, B1, W. Qed.

(** The store in a constructor body. *)
Lemma newborn_mem_ok s x p a : mem_ok s -> home s x -> mem_ok (set_wraps (<[x := mkW p a]> (wraps s)) s).
Proof. intros HM Hh l i [q Hq]. cbn in Hq |- *. at_norm. at_split; [done|]. apply (HM l i). by eexists. Qed.

(** A constructor that creates its object with [p] and stores the pointer. *)
Lemma ctor_created h x a t s (P : c_val K -> Prop) (p : prog E loc) body p0 :
  wraps s !! x = None ->
  let s0 := set_wraps (<[x := mkW p0 a]> (wraps s)) s in
  run body s0 = match run p s0 with
                | ORet l s1 => run (act (PWriteP x (Some l))) s1
                | OThrow e s1 => OThrow e s1 | OUB u => OUB u | OTerm => OTerm end ->
  created (header_cls h) a t s0 P (run p s0) ->
  match run (ctor x p0 a body) s with
  | ORet _ s' => exists v B W, P v /\ wrapped h x (Some (t, v), a) B W /\ changed s s' ∅ ∅ B W
  | OThrow _ s' => same s s'
  | _ => False
  end.
Proof.
  intros Hx s0 Hbody Hp. rewrite st_ctor by done. fold s0. rewrite Hbody. unfold ContractProps.created in Hp.
  destruct (run p s0) as [l s1|e s1| |]; [| |done|done].
  - destruct Hp as (v & B & W & HP & Hf & [A1 A2 A3 A4 A5]). cbn in A1, A2, A3, A4, A5.
    destruct (dis_at _ _ x A5) as [HWx|HX]; [|by rewrite lookup_insert in HX].
    cbn [act run exec]. rewrite A2. at_norm. rewrite HWx, decide_True by done. cbn [w_a run].
    exists v, B, (<[x := mkW (PLoc l) a]> W). split_and!; [done|by apply fresh_wrapped|].
    split; cbn; [rewrite A1|rewrite ?A2|done| |].
    + clear. map_solve.
    + clear. map_solve.
    + clear - A4. map_solve.
    + clear - A5 Hx. map_solve.
  - destruct Hp as [I1 I2 I3]. cbn in *. rewrite I2, lookup_insert. cbn. split; cbn; [done| |done].
    rewrite ?I2. by apply delete_insert.
Qed.

Lemma make_g h x a t c s :
  (exists v, c_make K (made (E := E) h t) a c v) -> mem_ok s -> home s x -> wraps s !! x = None ->
  match run (i_inplace_a (hdr_impl h T) x a t (AArgs c)) s with
  | ORet _ s' => exists v B W, c_make K (made (E := E) h t) a c v /\ wrapped h x (Some (made (E := E) h t, v), a) B W /\ changed s s' ∅ ∅ B W
  | OThrow _ s' => same s s'
  | _ => False
  end.
Proof.
  intros Hc HM Hh Hx.
  assert (HI : header_cls h = Ind -> made (E := E) h t = tT E) by (unfold made; by intros ->).
  assert (Hp := create_make T K HO (header_cls h) a (made (E := E) h t) c
     (set_wraps (<[x := mkW PIndet a]> (wraps s)) s) Hc (newborn_mem_ok _ _ _ _ HM Hh) HI).
  assert (Hx0 : wraps (set_wraps (<[x := mkW PIndet a]> (wraps s)) s) !! x = Some (mkW PIndet a)) by (cbn; by rewrite lookup_insert).
  assert (Heq : exists body, i_inplace_a (hdr_impl h T) x a t (AArgs c) = ctor x PIndet a body /\
    run body (set_wraps (<[x := mkW PIndet a]> (wraps s)) s) =
    match run (create (header_cls h) a (made (E := E) h t) (AArgs c)) (set_wraps (<[x := mkW PIndet a]> (wraps s)) s) with
                | ORet l s1 => run (act (PWriteP x (Some l))) s1
                | OThrow e s1 => OThrow e s1 | OUB u => OUB u | OTerm => OTerm end).
  { set (s0 := set_wraps _ s) in *. clearbody s0. destruct h; (eexists; split; [reflexivity|]).
    - erewrite st_readA by done. cbv beta. by rewrite run_bind.
    - erewrite st_readA by done. cbv beta. by rewrite run_bind.
    - unfold Polymorphic20.create_control_block. rewrite run_bind. erewrite st_readA by done. cbv beta. done.
    - unfold Polymorphic14.create_control_block. rewrite run_bind. erewrite st_readA by done. cbv beta. done. }
  destruct Heq as (body & -> & Hb). eapply ctor_created; [done|exact Hb|exact Hp].
Qed.

(** The same for the other constructors from arguments. *)
Lemma make_others h x t c :
  i_inplace (hdr_impl h T) x t (AArgs c) = i_inplace_a (hdr_impl h T) x (a_default E) t (AArgs c) /\
  i_value (hdr_impl h T) x t (AArgs c) = i_inplace_a (hdr_impl h T) x (a_default E) t (AArgs c) /\
  i_default (hdr_impl h T) x = i_inplace_a (hdr_impl h T) x (a_default E) (tT E) (AArgs (c_empty E)) /\
  (forall a, i_default_a (hdr_impl h T) x a = i_inplace_a (hdr_impl h T) x a (tT E) (AArgs (c_empty E))) /\
  (forall a, i_value_a (hdr_impl h T) x a t (AArgs c) = i_inplace_a (hdr_impl h T) x a t (AArgs c)).
Proof. destruct h; repeat split. Qed.

(** ** Copying *)
Lemma wr_grow s h y k B W x p a :
  wrapper_at s h y k B W -> wraps s !! x = None -> wrapper_at (set_wraps (<[x := mkW p a]> (wraps s)) s) h y k B W.
Proof.
  intros [H1 H2 H3] Hx. split; [done|done|]. cbn. etrans; [done|by apply insert_subseteq].
Qed.

Lemma copya_g h x a y k B W s :
  mem_ok s -> home s x -> wraps s !! x = None -> wrapper_at s h y k B W ->
  match run (i_copy_a (hdr_impl h T) x a y) s with
  | ORet _ s' => exists k' B' W', copied K a k k' /\ wrapped h x k' B' W' /\ changed s s' ∅ ∅ B' W'
  | OThrow _ s' => same s s'
  | _ => False
  end.
Proof.
  intros HM Hh Hx Hy. destruct (wr_ptr _ _ _ _ _ _ _ Hy) as (p & Hp & Hys & _ & Hk).
  assert (Hne : y <> x) by congruence.
  set (s0 := set_wraps (<[x := mkW PIndet a]> (wraps s)) s).
  assert (Hx0 : wraps s0 !! x = Some (mkW PIndet a)) by (cbn; by rewrite lookup_insert).
  assert (Hy0 : wraps s0 !! y = Some (mkW p k.2)) by (cbn; by rewrite lookup_insert_ne).
  destruct k as [[[t v]|] ay]; cbn [fst snd] in *.
  - destruct Hk as [o ->].
    assert (Hg := wr_grow _ _ _ _ _ _ x PIndet a Hy Hx). fold s0 in Hg.
    destruct (wr_own T K HO _ _ _ _ _ _ _ _ Hg) as (o' & bo & B1 & W1 & -> & -> & HB1 & HW1 & Hob & Hres & Hty & Hhdr & HT).
    assert (o' = o) as ->.
    { pose proof (lookup_weaken _ _ y (mkW (PLoc o') ay) (lookup_insert _ _ _) (wa_w _ _ _ _ _ _ _ Hy)). congruence. }
    assert (HM0 : mem_ok s0) by (by apply newborn_mem_ok).
    assert (Hp1 : forall c, c <> RVal -> created (header_cls h) a t s0 (c_copy K t a v) (run (create (header_cls h) a t (ARef c (RBlk o))) s0)).
    { intros c Hc. by eapply create_copy. }
    assert (Heq : exists body c, c <> RVal /\ i_copy_a (hdr_impl h T) x a y = ctor x PIndet a body /\
      run body s0 =
      match run (create (header_cls h) a t (ARef c (RBlk o))) s0 with
                  | ORet l s1 => run (act (PWriteP x (Some l))) s1
                  | OThrow e s1 => OThrow e s1 | OUB u => OUB u | OTerm => OTerm end).
    { assert (Hbo := ob_l _ _ _ _ _ _ _ _ Hob). clear Hp1. clearbody s0. destruct h; cbv [header_cls] in *; cbn [khdr] in *.
      1,2: eexists _, ConstL; split_and!; [done|reflexivity|];
        cbn [create header_cls]; change (@Indirect14.valueless_after_move E) with (@Indirect20.valueless_after_move E);
        erewrite st_valueless by done; cbv beta iota; erewrite st_readA by done; cbv beta;
        unfold Indirect20.op_star, Indirect14.op_star; erewrite st_deref by done; by rewrite run_bind.
      all: eexists _, NonConstL; split_and!; [done|reflexivity|];
        change (@Polymorphic14.valueless_after_move E) with (@Indirect20.valueless_after_move E);
        change (@Polymorphic20.valueless_after_move E) with (@Indirect20.valueless_after_move E);
        erewrite st_valueless by done; cbv beta iota delta [negb]; erewrite st_deref by done; cbv beta;
        erewrite st_readA by done; cbv beta; rewrite run_bind;
        unfold Polymorphic20.cb_clone, Polymorphic14.cb_clone; rewrite (st_cbty o bo t (Some o)) by first [exact Hbo|exact Hhdr]; cbv beta; done. }
    destruct Heq as (body & c & Hc & -> & Hb).
    assert (HC := ctor_created h x a t s (c_copy K t a v) _ body PIndet Hx Hb (Hp1 c Hc)).
    destruct (run (ctor _ _ _ _) s) as [u s'|e s'| |]; try done.
    destruct HC as (v' & B' & W' & Hcp & Hw & Hch). exists (Some (t, v'), a), B', W'. split_and!; [|done|done].
    cbn. eauto.
  - subst p.
    assert (Hrun : exists s', run (i_copy_a (hdr_impl h T) x a y) s = ORet tt s' /\
      wraps s' = <[x := mkW PNull a]> (wraps s) /\ blocks s' = blocks s /\ exts s' = exts s).
    { assert (Hy' : forall w, <[x := w]> (wraps s) !! y = Some (mkW PNull ay)) by (intros w; by rewrite lookup_insert_ne).
      destruct h; (eexists; split; [cbn; rewrite Hx; cbn; rewrite Hy'; cbn; rewrite lookup_insert; reflexivity|];
        split_and!; [cbn; by rewrite insert_insert|done|done]). }
    destruct Hrun as (s' & -> & E1 & E2 & E3). exists (None, a), ∅, {[ x := mkW PNull a ]}. split_and!; [done|done|].
    split; [rewrite E2|rewrite E1|done| |].
    + clear. map_solve.
    + clear. map_solve.
    + clear. map_solve.
    + clear - Hx. map_solve.
Qed.

Lemma copy_g h x y k B W s :
  mem_ok s -> home s x -> wraps s !! x = None -> wrapper_at s h y k B W ->
  match run (i_copy (hdr_impl h T) x y) s with
  | ORet _ s' => exists k' B' W', copied K (a_soccc E k.2) k k' /\ wrapped h x k' B' W' /\ changed s s' ∅ ∅ B' W'
  | OThrow _ s' => same s s'
  | _ => False
  end.
Proof.
  intros HM Hh Hx Hy. destruct (wr_ptr _ _ _ _ _ _ _ Hy) as (p & _ & Hys & _).
  assert (Hrun : run (i_copy (hdr_impl h T) x y) s = run (i_copy_a (hdr_impl h T) x (a_soccc E k.2) y) s).
  { destruct h; cbn [hdr_impl i_copy i_copy_a indirect20 indirect14 polymorphic20 polymorphic14];
    unfold Indirect20.ctor_copy, Indirect14.ctor_copy, Polymorphic20.ctor_copy, Polymorphic14.ctor_copy;
    by erewrite st_readA by done. }
  rewrite Hrun. by eapply copya_g.
Qed.

(** ** Assignment *)

(** The old value is released and the new one installed; [y]'s allocator may be taken over. *)
Lemma install_g (f : bool) h x y ax kx ky t v l Bx Wx B' W' s s1 py :
  wrapper_at s h x kx Bx Wx -> kx.2 = ax -> Wx !! y = None -> wraps s !! y = Some (mkW py ky) ->
  adds s s1 B' W' -> fresh (header_cls h) (kept f ax ky) t v l B' W' ->
  exists s2,
    run (bind (bind (reset_of (header_cls h) T x) (fun _ => act (PWriteP x (Some l))))
              (fun _ => if f then bind (act (PReadA y)) (fun a => act (PWriteA x a)) else Ret tt)) s1
    = ORet tt s2 /\
    exists W2, wrapped h x (Some (t, v), kept f ax ky) B' W2 /\ changed s s2 Bx Wx B' W2.
Proof.
  intros Hx <- HyW Hys [A1 A2 A3 A4 A5] Hnode.
  destruct (wr_in _ _ _ _ _ _ (wa_rep _ _ _ _ _ _ _ Hx)) as [wx Hwx].
  destruct Hx as [Hx HBx HWx].
  destruct (reset_g T K HO s1 h x kx Bx Wx) as (s2 & R2 & [E1 E2 E3 E4 E5]).
  { split; [done| |].
    - rewrite A1. clear - HBx A4. map_solve.
    - rewrite A2. clear - HWx A5. map_solve. }
  assert (Hyx : y <> x) by congruence.
  assert (HxW' : W' !! x = None).
  { destruct (dis_at _ _ x A5); [done|]. pose proof (lookup_weaken _ _ _ _ Hwx HWx). congruence. }
  assert (E2' : wraps s2 = <[x := mkW PNull kx.2]> (wraps s1 ∖ Wx)) by (rewrite E2; by rewrite <- insert_union_singleton_l).
  exists (set_wraps (<[x := mkW (PLoc l) (kept f kx.2 ky)]> (wraps s2)) s2). split.
  - rewrite !run_bind, R2. cbn [act run exec]. rewrite E2', lookup_insert. cbn [w_a run exec].
    unfold kept. destruct f; [|by rewrite <- E2'].
    cbn. rewrite ?E2'. rewrite !lookup_insert_ne by done. rewrite lookup_diff, HyW, A2, lookup_un.
    destruct (dis_at _ _ y A5) as [HWy'|]; [|congruence]. rewrite HWy', Hys. cbn. rewrite lookup_insert. cbn.
    by rewrite ?E2', !insert_insert.
  - exists (<[x := mkW (PLoc l) (kept f kx.2 ky)]> W'). split; [by apply fresh_wrapped|].
    split; cbn; [rewrite E1, A1|rewrite E2', A2|congruence| |].
    + clear - A4 HBx. map_solve.
    + clear - A5 Hwx HWx. map_solve.
    + clear - A4. map_solve.
    + clear - A5 Hwx. map_solve.
Qed.

Lemma install_null_g (f : bool) h x y kx ay py Bx Wx s :
  wrapper_at s h x kx Bx Wx -> Wx !! y = None -> wraps s !! y = Some (mkW py ay) ->
  exists s2,
    run (bind (reset_of (header_cls h) T x)
              (fun _ => if f then bind (act (PReadA y)) (fun a => act (PWriteA x a)) else Ret tt)) s
    = ORet tt s2 /\
    wrapped h x (None, kept f kx.2 ay) ∅ {[ x := mkW PNull (kept f kx.2 ay) ]} /\
    changed s s2 Bx Wx ∅ {[ x := mkW PNull (kept f kx.2 ay) ]}.
Proof.
  intros Hx HyW Hys. destruct (reset_g T K HO s h x kx Bx Wx Hx) as (s2 & R2 & [E1 E2 E3 E4 E5]).
  destruct (wr_in _ _ _ _ _ _ (wa_rep _ _ _ _ _ _ _ Hx)) as [wx Hwx].
  assert (Hyx : y <> x) by congruence.
  assert (E2' : wraps s2 = <[x := mkW PNull kx.2]> (wraps s ∖ Wx)) by (rewrite E2; by rewrite <- insert_union_singleton_l).
  exists (set_wraps (<[x := mkW PNull (kept f kx.2 ay)]> (wraps s2)) s2). split.
  - rewrite !run_bind, R2. unfold kept. destruct f.
    + cbn. rewrite ?E2'. rewrite !lookup_insert_ne by done. rewrite lookup_diff, HyW, Hys. cbn.
      rewrite ?E2', lookup_insert. cbn. by rewrite ?E2', !insert_insert.
    + cbn. clear E2. destruct s2. cbn in *. subst wraps. by rewrite insert_insert.
  - split; [done|]. split; cbn; [rewrite E1|rewrite E2'|done| |].
    + clear. map_solve.
    + clear - Hwx. map_solve.
    + clear. map_solve.
    + clear - Hwx. map_solve.
Qed.

Lemma casg_g h x y kx ky Bx Wx By Wy s :
  mem_ok s -> enclosedW s x Bx Wx ->
  wrapper_at s h x kx Bx Wx -> wrapper_at s h y ky By Wy -> Bx ##ₘ By -> Wx ##ₘ Wy ->
  match run (i_copy_assign (hdr_impl h T) x y) s with
  | ORet _ s' => exists k' B' W', assigned K h kx ky k' /\ wrapped h x k' B' W' /\ changed s s' Bx Wx B' W'
  | OThrow _ s' => exists k' B' W', assign_failed K h kx ky k' /\ wrapped h x k' B' W' /\ changed s s' Bx Wx B' W'
  | _ => False
  end.
Proof.
  intros HM Hen Hx Hy DB DW. rewrite cassign_eq.
  destruct (wr_ptr _ _ _ _ _ _ _ Hx) as (px & Hpx' & Hxs & HxW & Hxp).
  destruct (wr_ptr _ _ _ _ _ _ _ Hy) as (py & Hpy' & Hys & HyW & Hyp).
  assert (HyWx : Wx !! y = None) by (destruct (dis_at _ _ y DW); congruence).
  assert (HxWy : Wy !! x = None) by (destruct (dis_at _ _ x DW); congruence).
  assert (Hxy : x <> y) by congruence.
  destruct ky as [[[t v]|] ay]; cbn [fst snd] in *.
  2:{ subst py. destruct (install_null_g (pocca E) h x y kx ay PNull Bx Wx s Hx HyWx Hys) as (s2 & R2 & Hw & HR).
      assert (Hrun : run (cassign (header_cls h) T x y) s = ORet tt s2).
      { destruct (header_cls h); cbn [cassign] in *;
        unfold Indirect20.copy_assign, Polymorphic20.copy_assign;
        change (@Polymorphic20.valueless_after_move E) with (@Indirect20.valueless_after_move E);
        rewrite decide_False by done; erewrite st_valueless by done; exact R2. }
      rewrite Hrun. eexists _, _, _. split_and!; [|exact Hw|exact HR].
      unfold assigned. cbn. by destruct (kx.1) as [[? ?]|]. }
  destruct Hyp as [o ->].
  destruct (wr_own T K HO _ _ _ _ _ _ _ _ Hy) as (o' & bo & B1 & W1 & HBe & HWe & HB1 & HW1 & Hob & Hres & Hty & Hhdr & HT).
  assert (o' = o) as ->.
  { rewrite HWe in HyW. rewrite lookup_insert in HyW. congruence. }
  assert (Hbo := ob_l _ _ _ _ _ _ _ _ Hob).
  set (a := kept (pocca E) kx.2 ay).
  assert (Hread : forall X (f : A -> prog E X), run (bind (if pocca E then act (PReadA y) else act (PReadA x)) f) s =
     run (f a) s).
  { intros X f. subst a. unfold kept. destruct (pocca E); by erewrite st_readA by done. }
  (* the copying path *)
  assert (Hcp : forall c, c <> RVal ->
    match run (bind (bind (create (header_cls h) a t (ARef c (RBlk o))) (fun tmp => bind (reset_of (header_cls h) T x) (fun _ => act (PWriteP x (Some tmp)))))
              (fun _ => if pocca E then bind (act (PReadA y)) (fun a => act (PWriteA x a)) else Ret tt)) s with
    | ORet _ s' => exists k' B' W', (exists x', c_copy K t a v x' /\ k' = (Some (t, x'), a)) /\ wrapped h x k' B' W' /\ changed s s' Bx Wx B' W'
    | OThrow _ s' => changed s s' Bx Wx Bx Wx
    | _ => False
    end).
  { intros c Hc. assert (HC := create_copy T K HO (header_cls h) a t c o bo v B1 W1 s Hc HM HT Hob).
    rewrite run_bind, run_bind. unfold ContractProps.created in HC.
    destruct (run (create _ _ _ _) s) as [l s1|e s1| |]; [| |done|done].
    - destruct HC as (v' & B' & W' & Hcv & Hf & HAd).
      destruct (install_g (pocca E) h x y kx.2 kx ay t v' l Bx Wx B' W' s s1 (PLoc o) Hx eq_refl HyWx Hys HAd Hf) as (s2 & R2 & W2 & Hw & HR).
      rewrite run_bind in R2. rewrite R2. eauto 10.
    - destruct HC as [I1 I2 I3]. destruct Hx as [_ HBx HWx]. split; [rewrite I1|rewrite I2|done| |]; clear - HBx HWx; map_solve. }
  destruct (header_cls h) eqn:Hcls in *.
  2:{ specialize (Hcp NonConstL ltac:(done)).
      assert (Hrun : run (cassign Poly T x y) s =
        run (bind (bind (create Poly a t (ARef NonConstL (RBlk o))) (fun tmp => bind (reset_of Poly T x) (fun _ => act (PWriteP x (Some tmp)))))
              (fun _ => if pocca E then bind (act (PReadA y)) (fun a => act (PWriteA x a)) else Ret tt)) s).
      { cbn [cassign]. unfold Polymorphic20.copy_assign.
        change (@Polymorphic20.valueless_after_move E) with (@Indirect20.valueless_after_move E).
        rewrite decide_False by done. erewrite st_valueless by done. cbv beta iota. rewrite run_bind.
        erewrite st_deref by done. cbv beta. rewrite Hread. cbv beta. rewrite run_bind.
        unfold Polymorphic20.cb_clone. rewrite (st_cbty o bo t (Some o)) by first [exact Hbo|exact Hhdr]. cbv beta. symmetry. rewrite (run_bind (bind (create _ _ _ _) _)). rewrite (run_bind (create _ _ _ _)). done. }
      rewrite Hrun. unfold assigned, assign_failed, reuses. rewrite Hcls. cbn [fst snd].
      destruct (run _ s) as [u s'|e s'| |]; try done.
      - destruct Hcp as (k' & B' & W' & H1 & H2 & H3). exists k', B', W'. split_and!; try done. by destruct (kx.1) as [[? ?]|].
      - exists kx, Bx, Wx. split_and!; [done|apply Hx|done]. }
  (* indirect *)
  pose (c := match kx.1 with Some _ => t_assignable E && a_eqb E kx.2 ay | None => false end).
  assert (Hreu : reuses K h kx (Some (t, v), ay) = c).
  { unfold reuses. by rewrite Hcls. }
  assert (Hcond : forall X (f : bool -> prog E X),
    run (bind (if t_assignable E then
             bind (Indirect20.valueless_after_move x) (fun vt =>
             if negb vt then bind (act (PReadA x)) (fun a1 => bind (act (PReadA y)) (fun a2 => Ret (a_eqb E a1 a2)))
             else Ret false) else Ret false) f) s = run (f c) s).
  { intros X f. subst c. rewrite run_bind. destruct (t_assignable E); [|by destruct (kx.1)].
    erewrite st_valueless by done. cbv beta. destruct kx as [[Tx|] ax]; cbn [fst snd] in *.
    - destruct Hxp as [lx ->]. cbn [negb]. erewrite st_readA by done. cbv beta. by erewrite st_readA by done.
    - by subst px. }
  assert (Hrun : run (cassign Ind T x y) s =
    run (bind (if c then bind (deref_p x) (fun l => bind (Indirect20.op_star y) (fun o => tp_asgn T (tT E) l (ARef ConstL (RBlk o))))
               else bind (create Ind a t (ARef NonConstL (RBlk o)))
                (fun tmp => bind (reset_of Ind T x) (fun _ => act (PWriteP x (Some tmp)))))
           (fun _ => if pocca E then bind (act (PReadA y)) (fun a => act (PWriteA x a)) else Ret tt)) s).
  { cbn [cassign]. unfold Indirect20.copy_assign.
    rewrite decide_False by done. erewrite st_valueless by done. cbv beta iota. rewrite run_bind.
    rewrite Hcond. cbv beta. rewrite (run_bind (if c then _ else _)). destruct c; [done|].
    rewrite Hread. cbv beta. by erewrite st_deref by done. }
  rewrite Hrun. clear Hrun Hcond. unfold assigned, assign_failed. rewrite Hreu. clear Hreu. cbn [fst snd]. destruct c eqn:Hcv.
  2:{ specialize (Hcp NonConstL ltac:(done)). destruct (run _ s) as [u s'|e s'| |]; try done.
      - destruct Hcp as (k' & B' & W' & H1 & H2 & H3). exists k', B', W'. split_and!; try done. by destruct (kx.1) as [[? ?]|].
      - exists kx, Bx, Wx. split_and!; [done|apply Hx|done]. }
  (* assignment to the value *)
  subst c. destruct kx as [[[tx d]|] ax]; [|done]. cbn [fst snd] in *.
  apply andb_true_iff in Hcv as [Hasg Heq]. assert (Hax : a_res E ax = a_res E ay) by (by apply HA).
  clear Hcp Hread. destruct Hxp as [l ->].
  destruct (wr_own T K HO _ _ _ _ _ _ _ _ Hx) as (l' & b & B2 & W2 & HBxe & HWxe & HB2 & HW2 & Hobx & Hresx & Htyx & Hhdrx & HTx).
  assert (l' = l) as ->.
  { rewrite HWxe in HxW. rewrite lookup_insert in HxW. congruence. }
  rewrite ?Hcls in *. rewrite (HT eq_refl), (HTx eq_refl) in *.
  rewrite run_bind. erewrite st_deref by done. cbv beta. unfold Indirect20.op_star. erewrite st_deref by done. cbv beta.
  assert (HN := ho_asg T K HO (tT E) l b d B2 W2 o bo v B1 W1 s HM Hobx Hob).
  feed specialize HN.
  { by rewrite <- HBxe, <- HBe. }
  { clear - DW HWxe HWe HW2 HW1. subst Wx Wy. map_solve. }
  { intros l' i Hl' Hi. destruct (Hen l' i) as [Hne HWi].
    - subst Bx. rewrite lookup_ins. case_decide; [by eexists|]. by destruct Hl' as [->|].
    - specialize (HWi Hi). subst Wx. by rewrite lookup_insert_ne in HWi. }
  destruct (run (tp_asgn _ _ _ _) s) as [u s1|e s1| |]; [| |done|done].
  - destruct HN as (d' & b' & B' & W' & Hasgd & (bv & -> & Hrep) & [R1 R2 R3 R4 R5]).
    assert (HW'x : W' !! x = None).
    { apply (fun Q => dis_at _ _ x Q) in R5. at_norm. rewrite HW2 in R5. destruct R5; congruence. }
    assert (HW2y : W2 !! y = None).
    { subst Wx. by rewrite lookup_insert_ne in HyWx. }
    assert (Hx1 : wraps s1 !! x = Some (mkW (PLoc l) ax)).
    { rewrite R2. at_norm. by rewrite HW'x, HW2. }
    assert (Hy1 : wraps s1 !! y = Some (mkW (PLoc o) ay)).
    { rewrite R2. at_norm. apply (fun Q => dis_at _ _ y Q) in R5. at_norm. rewrite HW2y in *.
      destruct R5 as [->|]; [done|congruence]. }
    assert (Hfin : exists s2, run (if pocca E then bind (act (PReadA y)) (fun a => act (PWriteA x a)) else Ret tt) s1 = ORet tt s2 /\
      blocks s2 = blocks s1 /\ wraps s2 = <[x := mkW (PLoc l) a]> (wraps s1) /\ exts s2 = exts s1).
    { subst a. unfold kept. destruct (pocca E).
      - cbn. rewrite Hy1. cbn. rewrite Hx1. eexists. split; [done|]. done.
      - exists s1. split_and!; try done. by rewrite insert_id. }
    destruct Hfin as (s2 & -> & F1 & F2 & F3).
    exists (Some (tT E, d'), a), (<[l := set_obj (OLive (tT E) bv) b]> B'), (<[x := mkW (PLoc l) a]> W').
    split_and!; [by eauto| |].
    + cbn. rewrite Hcls. eexists l, _, bv, B', W'. split_and!; [done|done|done| |done].
      repeat split; cbn; try done. subst a. unfold kept. destruct (pocca E); congruence.
    + subst Bx Wx. split; [rewrite F1, R1|rewrite F2, R2|congruence| |].
      * done.
      * clear - HW'x HW2. map_solve.
      * done.
      * clear - R5 HW2. map_solve.
  - destruct HN as (d' & b' & B' & W' & Hasgd & (bv & -> & Hrep) & [R1 R2 R3 R4 R5]).
    assert (HW'x : W' !! x = None).
    { apply (fun Q => dis_at _ _ x Q) in R5. at_norm. rewrite HW2 in R5. destruct R5; congruence. }
    exists (Some (tT E, d'), ax), (<[l := set_obj (OLive (tT E) bv) b]> B'), (<[x := mkW (PLoc l) ax]> W').
    split_and!; [by eauto| |].
    + cbn. rewrite Hcls. eexists l, _, bv, B', W'. split_and!; [done|done|done| |done].
      repeat split; cbn; done.
    + subst Bx Wx. split; [rewrite R1|rewrite R2|congruence| |].
      * done.
      * clear - HW'x HW2 Hxs. map_solve.
      * done.
      * clear - R5 HW2. map_solve.
Qed.

End ops.
