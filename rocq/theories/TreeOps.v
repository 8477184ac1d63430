(** * Construction from arguments, allocator-extended move construction and swap of nested
    values. *)

From stdpp Require Import base gmap list.
From Verif Require Import Lang Common Client Spec Rep RunLemmas Headers Hist Tree TreeProps TreeAssign TreeAssignC.
From Verif Require Import TreeMove TreeMoveAssign TreeSub TreeClient.
From Verif Require Import Indirect20 Indirect14 Polymorphic20 Polymorphic14.

Section tree.
Context {E : Env} (Sh : Shape E) (HS : ShapeReq Sh) (HA : AllocReq E) (Hrefl : forall a, a_eqb E a a = true).
Notation A := (eA E).
Notation V := (eV E).
Notation wst := (option (tree E) * A)%type.
Implicit Types s : store E.
Notation wrap_heap := (wrap_heap Sh).
Notation mem_heap := (mem_heap Sh).
Notation nodeTP := (nodeTP Sh).
Notation node_impl := (node_impl Sh).

(** ** Swap *)
Lemma st_swap_a x y px ax py ay s :
  x <> y -> wraps s !! x = Some (mkW px ax) -> wraps s !! y = Some (mkW py ay) ->
  run (swap_a x y) s = ORet tt (set_wraps (<[x := mkW px ay]> (<[y := mkW py ax]> (wraps s))) s).
Proof.
  intros Hxy Hx Hy. unfold swap_a. erewrite st_readA by done. cbv beta. erewrite st_readA by done. cbv beta.
  rewrite run_bind. cbn. rewrite Hx. cbn. rewrite lookup_insert_ne, Hy by done. cbn. unfold set_wraps. cbn.
  do 2 f_equal. clear - Hxy; map_solve.
Qed.

Lemma swap_all T h x y kx ky Bx Wx By Wy s :
  wrap_heap h x kx Bx Wx -> wrap_heap h y ky By Wy -> Bx ##ₘ By -> Wx ##ₘ Wy ->
  Bx ⊆ blocks s -> Wx ⊆ wraps s -> By ⊆ blocks s -> Wy ⊆ wraps s ->
  pocs E = true \/ a_eqb E kx.2 ky.2 = true ->
  exists s', run (i_swap (hdr_impl h T) x y) s = ORet tt s' /\ exists B1 W1 B2 W2,
    wrap_heap h x (swap_x kx ky) B1 W1 /\ wrap_heap h y (swap_x ky kx) B2 W2 /\ B1 ##ₘ B2 /\ W1 ##ₘ W2 /\
    replaced s s' (Bx ∪ By) (Wx ∪ Wy) (B1 ∪ B2) (W1 ∪ W2).
Proof.
  intros Hx Hy DB DW HBx HWx HBy HWy Hc.
  destruct (wrap_ptr _ _ _ _ _ _ s Hx HWx) as (px & Hpx & Hxs & _).
  destruct (wrap_ptr _ _ _ _ _ _ s Hy HWy) as (py & Hpy & Hys & _).
  destruct (wrap_in _ _ _ _ _ _ Hx) as [wx Hwx]. destruct (wrap_in _ _ _ _ _ _ Hy) as [wy Hwy].
  assert (wx = mkW px kx.2) as -> by (pose proof (lookup_weaken _ _ _ _ Hwx HWx); congruence).
  assert (wy = mkW py ky.2) as -> by (pose proof (lookup_weaken _ _ _ _ Hwy HWy); congruence).
  assert (Hxy : x <> y) by (intros ->; destruct (dis_at _ _ y DW); congruence).
  assert (HyWx : Wx !! y = None) by (destruct (dis_at _ _ y DW); congruence).
  assert (HxWy : Wy !! x = None) by (destruct (dis_at _ _ x DW); congruence).
  assert (Hres : pocs E = false -> a_res E kx.2 = a_res E ky.2).
  { intros Hp. destruct Hc as [Hc|Hc]; [congruence|]. by apply (ar_res _ HA). }
  set (a1 := (swap_x kx ky).2). set (a2 := (swap_x ky kx).2).
  set (W1 := <[x := mkW py a1]> (delete y Wy)). set (W2 := <[y := mkW px a2]> (delete x Wx)).
  exists (set_wraps (<[x := mkW py a1]> (<[y := mkW px a2]> (wraps s))) s). split.
  - assert (Hrun : i_swap (hdr_impl h T) x y = Indirect20.swap x y) by (by destruct h). rewrite Hrun.
    unfold Indirect20.swap. rewrite run_noexcept. subst a1 a2. cbn [swap_x snd]. destruct (pocs E) eqn:Hp.
    + rewrite run_bind. erewrite st_swap_a by done. erewrite st_swap; [| |by cbn; rewrite lookup_insert|
        by cbn; rewrite lookup_insert_ne, lookup_insert by done|..]; try done.
      cbn. unfold set_wraps. cbn. do 2 f_equal. clear - Hxy. map_solve.
    + destruct Hc as [Hc|Hc]; [congruence|]. erewrite st_readA by done. cbv beta. erewrite st_readA by done. cbv beta.
      rewrite Hc. by erewrite st_swap by done.
  - exists By, W1, Bx, W2. subst W1 W2. split_and!.
    + pose proof (realloc Sh h x ky a1 By (<[x := mkW py ky.2]> (delete y Wy)) (mkW py ky.2)) as HR.
      cbn [w_p] in HR. rewrite insert_insert in HR. apply HR; [by apply rename|by rewrite lookup_insert|].
      subst a1. cbn. destruct (pocs E); [done|]. symmetry. by apply Hres.
    + pose proof (realloc Sh h y kx a2 Bx (<[y := mkW px kx.2]> (delete x Wx)) (mkW px kx.2)) as HR.
      cbn [w_p] in HR. rewrite insert_insert in HR. apply HR; [by apply rename|by rewrite lookup_insert|].
      subst a2. cbn. destruct (pocs E); [done|]. by apply Hres.
    + by symmetry.
    + clear - DW Hxy HyWx HxWy. map_solve.
    + split; cbn [set_wraps blocks wraps exts]; [| |done| |].
      * clear - DB HBx HBy. map_solve.
      * clear - DW HWx HWy Hxy Hwx Hwy. map_solve.
      * clear. map_solve.
      * clear - DW HWx HWy Hxy Hwx Hwy. map_solve.
Qed.

(** ** Allocator-extended move construction *)

(** Taking over the pointer, or making a valueless object of a valueless one. *)
Lemma mova_take T h x a y p ay s :
  wraps s !! x = None -> wraps s !! y = Some (mkW p ay) -> p <> PIndet -> p = PNull \/ a_eqb E a ay = true ->
  run (i_move_a (hdr_impl h T) x a y) s = ORet tt (set_wraps (<[x := mkW p a]> (<[y := mkW PNull ay]> (wraps s))) s).
Proof.
  intros Hx Hy Hp Hc. assert (Hne : x <> y) by congruence.
  set (s0 := fun q => set_wraps (<[x := mkW q a]> (wraps s)) s).
  assert (Hx0 : forall q, wraps (s0 q) !! x = Some (mkW q a)) by (intros q; cbn; by rewrite lookup_insert).
  assert (Hy0 : forall q, wraps (s0 q) !! y = Some (mkW p ay)) by (intros q; cbn; by rewrite lookup_insert_ne).
  assert (Hsw : run (swap_p x y) (s0 PNull) = ORet tt (set_wraps (<[x := mkW p a]> (<[y := mkW PNull ay]> (wraps s))) s)).
  { erewrite st_swap by done. unfold s0, set_wraps. cbn. do 2 f_equal. clear - Hne. map_solve. }
  assert (Hex : run (Polymorphic20.exchange_null x y) (s0 PIndet) = ORet tt (set_wraps (<[x := mkW p a]> (<[y := mkW PNull ay]> (wraps s))) s)).
  { unfold Polymorphic20.exchange_null. erewrite st_readP by done. cbv beta. rewrite run_bind. cbn.
    rewrite lookup_insert_ne, Hy by done. cbn. rewrite lookup_insert_ne, lookup_insert by done. cbn.
    unfold set_wraps. cbn. do 2 f_equal. destruct p; try done; clear - Hne; map_solve. }
  assert (Htk : run (Polymorphic14.take x y) (s0 PIndet) = ORet tt (set_wraps (<[x := mkW p a]> (<[y := mkW PNull ay]> (wraps s))) s)).
  { unfold Polymorphic14.take. erewrite st_readP by done. cbv beta. rewrite run_bind. cbn.
    rewrite lookup_insert. cbn. rewrite !lookup_insert_ne by done. rewrite Hy. cbn.
    unfold set_wraps. cbn. do 2 f_equal. destruct p; try done; clear - Hne; map_solve. }
  assert (Hnl : forall q, p = PNull -> run (act (PWriteP x None)) (s0 q) = ORet tt (set_wraps (<[x := mkW p a]> (<[y := mkW PNull ay]> (wraps s))) s)).
  { intros q ->. cbn. rewrite lookup_insert. cbn. unfold set_wraps. cbn. do 2 f_equal. rewrite insert_insert. by rewrite (insert_id _ y). }
  assert (Hae : always_equal E = true -> a_eqb E a ay = true).
  { intros Hae. by rewrite (ar_ae _ HA Hae). }
  destruct h; cbn [hdr_impl i_move_a indirect20 indirect14 polymorphic20 polymorphic14];
  unfold Indirect14.ctor_move_a, Indirect20.ctor_move_a, Polymorphic20.ctor_move_a, Polymorphic14.ctor_move_a;
  rewrite run_noexcept, st_ctor by done;
  change (set_wraps (<[x := mkW PNull a]> (wraps s)) s) with (s0 PNull);
  change (set_wraps (<[x := mkW PIndet a]> (wraps s)) s) with (s0 PIndet).
  1-3: destruct (always_equal E); [by rewrite ?Hsw, ?Hex|].
  4: destruct (pocca E); [by rewrite Htk|].
  all: erewrite st_readA by done; cbv beta; erewrite st_readA by done; cbv beta.
  all: destruct (a_eqb E a ay); [by rewrite ?Hsw, ?Hex, ?Htk|].
  all: destruct Hc as [Hc|Hc]; [|done]; rewrite Hc in *; change (@Polymorphic20.valueless_after_move E) with (@Indirect20.valueless_after_move E);
    change (@Polymorphic14.valueless_after_move E) with (@Indirect20.valueless_after_move E);
    change (@Indirect14.valueless_after_move E) with (@Indirect20.valueless_after_move E).
  all: erewrite st_valueless by done; cbv beta iota; cbn [negb]; by rewrite Hnl.
Qed.

(** ... moving the value into new storage. *)
Definition mova_q (k : cls) : ptr := match k with Ind => PNull | Poly => PIndet end.
Lemma mova_make T h x a y o ay s :
  wraps s !! x = None -> wraps s !! y = Some (mkW (PLoc o) ay) -> a_eqb E a ay = false ->
  (h = HPoly14 -> pocca E = false) ->
  run (i_move_a (hdr_impl h T) x a y) s =
  match run (bind (create_rv (header_cls h) T a o) (fun l => act (PWriteP x (Some l))))
            (set_wraps (<[x := mkW (mova_q (header_cls h)) a]> (wraps s)) s) with
  | OThrow e s1 => match run (act (PDelW x)) s1 with
                   | ORet _ s2 => OThrow e s2 | OThrow e' s2 => OThrow e' s2 | OUB u => OUB u | OTerm => OTerm end
  | r => r
  end.
Proof.
  intros Hx Hy Ha H14. assert (Hne : x <> y) by congruence.
  assert (Hae : always_equal E = false).
  { destruct (always_equal E) eqn:Hae; [|done]. rewrite (ar_ae _ HA Hae) in Ha. done. }
  set (s0 := fun q => set_wraps (<[x := mkW q a]> (wraps s)) s).
  assert (Hx0 : forall q, wraps (s0 q) !! x = Some (mkW q a)) by (intros q; cbn; by rewrite lookup_insert).
  assert (Hy0 : forall q, wraps (s0 q) !! y = Some (mkW (PLoc o) ay)) by (intros q; cbn; by rewrite lookup_insert_ne).
  destruct h; cbn [hdr_impl i_move_a indirect20 indirect14 polymorphic20 polymorphic14 header_cls mova_q create_rv];
  unfold Indirect14.ctor_move_a, Indirect20.ctor_move_a, Polymorphic20.ctor_move_a, Polymorphic14.ctor_move_a;
  rewrite run_noexcept, st_ctor by done;
  change (set_wraps (<[x := mkW PNull a]> (wraps s)) s) with (s0 PNull);
  change (set_wraps (<[x := mkW PIndet a]> (wraps s)) s) with (s0 PIndet).
  4: rewrite (H14 eq_refl).
  all: rewrite ?Hae; erewrite st_readA by done; cbv beta; erewrite st_readA by done; cbv beta; rewrite Ha.
  all: change (@Polymorphic20.valueless_after_move E) with (@Indirect20.valueless_after_move E);
    change (@Polymorphic14.valueless_after_move E) with (@Indirect20.valueless_after_move E);
    change (@Indirect14.valueless_after_move E) with (@Indirect20.valueless_after_move E);
    change (@Indirect14.op_star E) with (@deref_p E); change (@Indirect20.op_star E) with (@deref_p E).
  all: erewrite st_valueless by done; cbv beta iota; cbn [negb].
  1,2: erewrite st_readA by done; cbv beta; erewrite st_deref by done; cbv beta.
  3,4: erewrite st_deref by done; cbv beta; erewrite st_readA by done; cbv beta.
  all: try change (@Indirect14.construct_from E) with (@Indirect20.construct_from E);
       try change (@Polymorphic14.cb_move E) with (@Polymorphic20.cb_move E).
  all: lazymatch goal with |- match ?m with _ => _ end = _ => transitivity m; [by destruct m|reflexivity] end.
Qed.

Lemma mova_all n h x a y ky By Wy s :
  mem_ok s -> home s x -> wraps s !! x = None -> wrap_heap h y ky By Wy -> fits n ky.1 -> By ⊆ blocks s -> Wy ⊆ wraps s ->
  (h = HPoly14 -> pocca E = true -> ky.1 = None \/ a_eqb E a ky.2 = true) ->
  match run (i_move_a (node_impl n h) x a y) s with
  | ORet _ s' => exists B1 W1 B2 W2,
      wrap_heap h x (mova_x a ky) B1 W1 /\ wrap_heap h y (mova_y a ky) B2 W2 /\ B1 ##ₘ B2 /\ W1 ##ₘ W2 /\
      replaced s s' By Wy (B1 ∪ B2) (W1 ∪ W2)
  | OThrow _ s' => a_eqb E a ky.2 = false /\
      exists T T' B2 W2, ky.1 = Some T /\ move_failed T T' /\ wrap_heap h y (Some T', ky.2) B2 W2 /\ replaced s s' By Wy B2 W2
  | _ => False
  end.
Proof.
  intros HM Hhome Hx Hy Hf HBy HWy H14.
  destruct (wrap_ptr _ _ _ _ _ _ s Hy HWy) as (p & Hp & Hys & Hyp).
  destruct (wrap_in _ _ _ _ _ _ Hy) as [wy Hwy].
  assert (wy = mkW p ky.2) as -> by (pose proof (lookup_weaken _ _ _ _ Hwy HWy); congruence).
  assert (HxWy : Wy !! x = None).
  { destruct (sub_at _ _ x HWy); congruence. }
  assert (Hxy : x <> y) by congruence.
  assert ((p = PNull \/ a_eqb E a ky.2 = true) \/ ~ (p = PNull \/ a_eqb E a ky.2 = true)) as [Hc|Hc].
  { destruct (a_eqb E a ky.2); [by left; right|]. destruct p; [|by left; left|]; right; by intros [|]. }
  - unfold Tree.node_impl. erewrite mova_take by done.
    exists By, (<[x := mkW p a]> (delete y Wy)), ∅, {[ y := mkW PNull ky.2 ]}. split_and!.
    + pose proof (realloc Sh h x ky a By (<[x := mkW p ky.2]> (delete y Wy)) (mkW p ky.2)) as HR.
      cbn [w_p] in HR. rewrite insert_insert in HR.
      destruct ky as [[T|] ay]; cbn [mova_x fst snd] in *.
      * destruct Hyp as [l ->]. destruct Hc as [Hc|Hc]; [done|]. unfold mova_x. cbn [fst snd]. rewrite Hc.
        apply HR; [by apply rename|by rewrite lookup_insert|]. symmetry. by apply (ar_res _ HA).
      * subst p. assert (By = ∅ /\ Wy = {[ y := mkW PNull ay ]}) as [-> ->] by (by apply wrap_inv in Hy).
        rewrite delete_singleton, insert_empty. constructor.
    + unfold mova_y. destruct ky as [[T|] ay]; cbn [fst snd] in *; [|constructor].
      destruct Hyp as [l ->]. destruct Hc as [Hc|Hc]; [done|]. rewrite Hc. constructor.
    + map_solve.
    + clear - Hxy. map_solve.
    + split; cbn [set_wraps blocks wraps exts]; [| |done| |].
      * clear - HBy. map_solve.
      * clear - HWy Hxy Hwy HxWy. map_solve.
      * clear. map_solve.
      * clear - HWy Hxy Hwy HxWy Hx. map_solve.
  - destruct ky as [[T|] ay]; cbn [fst snd] in *; [|destruct Hc; by left].
    destruct Hyp as [o ->]. assert (Ha : a_eqb E a ay = false) by (destruct (a_eqb E a ay); [destruct Hc; by right|done]).
    destruct n as [|n]; [by destruct T|].
    unfold Tree.node_impl. erewrite mova_make; [|done|done|done|].
    2:{ intros ->. destruct (pocca E) eqn:Hpo; [|done]. destruct (H14 eq_refl eq_refl); [done|congruence]. }
    assert (Hy0 := Hy). apply wrap_inv in Hy. destruct T as [t v kids].
    destruct Hy as (o' & bo & B1 & W1 & -> & -> & HBo & HWy1 & (Hres & Hobj & Hty & Hhdr & HT) & Hlen & Hm).
    assert (o' = o) as ->.
    { pose proof (lookup_weaken _ _ y (mkW (PLoc o') ay) (lookup_insert _ _ _) HWy). congruence. }
    assert (Hbo : blocks s !! o = Some bo).
    { eapply lookup_weaken; [|exact HBy]. apply lookup_insert. }
    assert (HB1 : B1 ⊆ blocks s) by (clear - HBy HBo; map_solve).
    assert (HW1 : W1 ⊆ wraps s) by (clear - HWy HWy1; map_solve).
    set (s0 := set_wraps _ s).
    assert (H0b : blocks s0 = blocks s) by done.
    assert (H0w : wraps s0 = <[x := mkW (mova_q (header_cls h)) a]> (wraps s)) by done.
    assert (H0x : exts s0 = exts s) by done. clearbody s0.
    assert (HC := create_rv_ok Sh HS Hrefl (header_cls h) n a o t v kids bo B1 W1 s0).
    rewrite !H0b, !H0w in HC. feed specialize HC; try done.
    { intros l i. rewrite H0w, H0b. intros [q Hq]. destruct (decide (x = WMem l i)) as [->|Hne]; [done|].
      rewrite lookup_insert_ne in Hq by done. apply (HM l i). by eexists. }
    { clear - HW1 Hx. map_solve. }
    rewrite run_bind. destruct (run (create_rv _ _ _ _) s0) as [l s1|e s1| |]; [| |done|done].
    + destruct HC as (Hfr & b' & W' & W'' & Hok & Hm' & Hm'' & D & F1 & D' & F2 & F3 & _).
      assert (HW1x : W1 !! x = None) by (rewrite lookup_insert_ne in HxWy; [done|by auto]).
      assert (HW'x : W' !! x = None /\ W'' !! x = None).
      { clear - D' HW1x. apply (fun Q => dis_at _ _ x Q) in D'. at_norm. rewrite HW1x, decide_True in D' by done.
        destruct D' as [D'|D']; [|done]. destruct (W' !! x); [done|]. done. }
      assert (HW''y : W' !! y = None /\ W'' !! y = None).
      { clear - D' HWy1 Hys Hxy. apply (fun Q => dis_at _ _ y Q) in D'. at_norm. rewrite HWy1, decide_False, Hys in D' by done.
        destruct D' as [D'|D']; [|done]. destruct (W' !! y); [done|]. done. }
      destruct HW'x as [HW'x HW''x]. destruct HW''y as [HW'y HW''y].
      assert (Hx1 : wraps s1 !! x = Some (mkW (mova_q (header_cls h)) a)).
      { rewrite F1. at_norm. rewrite HW'x, HW''x, HW1x, decide_True by done. done. }
      cbn [act run exec]. rewrite Hx1. cbn [run w_a].
      assert (Hlo : o <> l) by congruence.
      assert (HB1l : B1 !! l = None) by (destruct (sub_at _ _ l HB1); congruence).
      exists (<[l := b']> B1), (<[x := mkW (PLoc l) a]> W'), (<[o := set_obj (OLive t (t_cons E RVal t t a v).2) bo]> ∅),
        (<[y := mkW (PLoc o) ay]> W'').
      split_and!.
      * unfold mova_x. cbn [fst snd moved_to]. rewrite Ha. constructor; try done. rewrite Hlen. symmetry. apply HS.
      * unfold mova_y. cbn [fst snd moved_from]. rewrite Ha. constructor; try done.
        rewrite map_length, Hlen. symmetry. apply HS.
      * clear - Hlo HBo. map_solve.
      * clear - D Hxy HW'x HW''x HW'y HW''y. map_solve.
      * split; cbn [set_wraps blocks wraps exts]; [rewrite F3|rewrite F1|congruence| |].
        -- clear - HBy HBo Hfr Hlo HB1l. map_solve.
        -- clear - D D' Hxy HW'x HW''x HW'y HW''y HWy HWy1 HW1x. map_solve.
        -- clear - HBo Hfr Hlo HB1l. map_solve.
        -- clear - D D' Hxy HW'x HW''x HW'y HW''y HWy HWy1 HW1x Hx. map_solve.
    + destruct HC as (F1 & F2 & v' & Hv' & F3).
      unfold act. cbn [run exec]. rewrite F2, lookup_insert. cbn [run]. rewrite ?F2.
      split; [done|].
      exists (TNode t v kids), (TNode t v' kids), (<[o := set_obj (OLive t v') bo]> B1), (<[y := mkW (PLoc o) ay]> W1).
      split_and!; [done| | |].
      * cbn. destruct Hv' as [->| ->]; [by left|by right].
      * constructor; [| |done|done|done].
        -- split; [done|]. done.
        -- rewrite Hlen. destruct Hv' as [->| ->]; [done|]. symmetry. apply HS.
      * split; cbn [set_wraps blocks wraps exts]; [rewrite F3|rewrite ?F2|congruence| |].
        -- clear - HBy HBo. map_solve.
        -- rewrite delete_insert by done. clear - HWy. map_solve.
        -- clear - HBy. map_solve.
        -- clear. map_solve.
Qed.

(** ** Construction from arguments, some of which are moved into the members *)
Lemma make_members_ext (mk mk' un : nat -> prog E unit) i n :
  (forall j, i <= j < i + n -> mk j = mk' j) -> make_members mk un i n = make_members mk' un i n.
Proof.
  revert i. induction n as [|n IH]; intros i Hj; [done|]. cbn. rewrite (Hj i) by lia. f_equal.
  rewrite (IH (S i)); [done|]. intros j Hj'. apply Hj. lia.
Qed.

Lemma node_make n a t l c nm ks b B W s :
  (forall j, wraps s !! WMem l j = None) ->
  blocks s !! l = Some b -> b_obj b = ORaw -> storage_for t b = true ->
  length ks = n_kids Sh t (t_make E t a c) -> (forall j, j < length ks -> k_args Sh c !! j = Some (nm j)) ->
  mem_heap (k_hdr Sh t) nm 0 ks B W -> W ⊆ wraps s ->
  match run (tp_cons (nodeTP (S n)) a t l (AArgs c)) s with
  | ORet _ s' => exists W' W'', mem_heap (k_hdr Sh t) (WMem l) 0 ks B W' /\
      mem_heap (k_hdr Sh t) nm 0 (map emptied ks) ∅ W'' /\
      W' ##ₘ W'' /\ wraps s' = (W' ∪ W'') ∪ (wraps s ∖ W) /\ W' ∪ W'' ##ₘ wraps s ∖ W /\ exts s' = exts s /\
      blocks s' = <[l := set_obj (OLive t (t_make E t a c)) b]> (blocks s)
  | OThrow _ s' => exts s' = exts s /\ wraps s' = wraps s /\ blocks s' = blocks s
  | _ => False
  end.
Proof.
  intros Hmem Hb Hraw Hst Hlen Hnm Hm HW.
  change (tp_cons (nodeTP (S n)) a t l (AArgs c)) with
    (node_cons Sh a t l (AArgs c)
       (fun i => match k_args Sh c !! i with
                 | Some y => i_move (hdr_impl (k_hdr Sh t i) (nodeTP n)) (WMem l i) y
                 | None => stuck end)
       (fun i => i_dtor (hdr_impl (k_hdr Sh t i) (nodeTP n)) (WMem l i))).
  unfold node_cons. rewrite run_bind. cbn [act_thr run exec].
  rewrite Hb, Hst. cbn [negb]. rewrite Hraw. cbn [cons_vals].
  destruct (pop_eq s) as (r & orc' & -> & _). destruct r as [h|e]; cbn [upd_src run]; [|done].
  set (s1 := log _ _). rewrite run_bind. cbn [act run exec deref].
  assert (H1b : blocks s1 = <[l := set_obj (OLive t (t_make E t a c)) b]> (blocks s)).
  { subst s1. cbn [log set_blocks blocks]. apply map_eq. intros i. destruct (decide (l = i)) as [<-|Hne].
    - rewrite lookup_alter, lookup_insert. cbn. by rewrite Hb.
    - by rewrite lookup_alter_ne, lookup_insert_ne. }
  assert (Hl1 : blocks s1 !! l = Some (set_obj (OLive t (t_make E t a c)) b)) by (by rewrite H1b, lookup_insert).
  assert (Hw1 : wraps s1 = wraps s) by done. assert (Hx1 : exts s1 = exts s) by done. clearbody s1.
  rewrite Hl1. cbn [b_obj set_obj run snd].
  rewrite run_catch. rewrite <- Hlen.
  rewrite (make_members_ext _ (fun i => i_move (hdr_impl (k_hdr Sh t i) (nodeTP n)) (WMem l i) (nm i))).
  2:{ intros j Hj. by rewrite (Hnm j) by lia. }
  destruct (move_loop Sh Hrefl (nodeTP n) (k_hdr Sh t) nm (WMem l) 0 ks B W s1
    (fun i => i_dtor (hdr_impl (k_hdr Sh t i) (nodeTP n)) (WMem l i)))
    as (s2 & R2 & F1 & F2 & W' & W'' & Hm' & Hm'' & D & F3 & D' & _).
  { intros j _. rewrite Hw1. apply Hmem. }
  { congruence. }
  { done. }
  { by rewrite Hw1. }
  rewrite R2. exists W', W''. rewrite Hw1 in *. split_and!; try done; congruence.
Qed.

Definition create_args (k : cls) (T : TP E) (a : A) (t : ty) (c : eC E) : prog E loc :=
  match k with
  | Ind => Indirect20.construct_from T a (AArgs c)
  | Poly => bind (act_thr (PAlloc a (BCb t))) (fun mem =>
              catch (bind (Polymorphic20.cb_ctor T a t mem (AArgs c)) (fun _ => Ret mem))
                    (fun e => bind (act (PDealloc a (BCb t) mem)) (fun _ => Throw e)))
  end.

Lemma create_args_ok k n a t c nm ks B W s :
  mem_ok s -> (k = Ind -> t = tT E) ->
  length ks = n_kids Sh t (t_make E t a c) -> (forall j, j < length ks -> k_args Sh c !! j = Some (nm j)) ->
  mem_heap (k_hdr Sh t) nm 0 ks B W -> B ⊆ blocks s -> W ⊆ wraps s ->
  match run (create_args k (nodeTP (S n)) a t c) s with
  | ORet l s' => blocks s !! l = None /\ exists b' W' W'', block_ok k l t (t_make E t a c) a b' /\
      mem_heap (k_hdr Sh t) (WMem l) 0 ks B W' /\
      mem_heap (k_hdr Sh t) nm 0 (map emptied ks) ∅ W'' /\
      W' ##ₘ W'' /\ wraps s' = (W' ∪ W'') ∪ (wraps s ∖ W) /\ W' ∪ W'' ##ₘ wraps s ∖ W /\ exts s' = exts s /\
      blocks s' = <[l := b']> (blocks s)
  | OThrow _ s' => exts s' = exts s /\ wraps s' = wraps s /\ blocks s' = blocks s
  | _ => False
  end.
Proof.
  intros HM HT Hlen Hnm Hm HB HW. destruct k; cbn [create_args khdr] in *.
  - rewrite (HT eq_refl) in *. unfold Indirect20.construct_from.
    rewrite run_bind. cbn [act_thr run exec].
    destruct (pop_eq s) as (r & orc' & -> & _). destruct r as [h|e]; cbn [run]; [|done].
    assert (Hfr := choose_fresh h (blocks s)). set (l := choose h (blocks s)) in *. clearbody l.
    set (b := mkB a (BObj (tT E)) HNone ORaw). set (s1 := log _ _).
    assert (H1b : blocks s1 = <[l := b]> (blocks s)) by done.
    assert (H1w : wraps s1 = wraps s) by done. assert (H1x : exts s1 = exts s) by done. clearbody s1.
    assert (HNC := node_make n a (tT E) l c nm ks b B W s1).
    feed specialize HNC; [| |done| |done|done|done|by rewrite H1w|].
    { intros j. rewrite H1w. apply eq_None_not_Some. intros HH. apply HM in HH as [? ?]. congruence. }
    { by rewrite H1b, lookup_insert. }
    { cbn. by rewrite bool_decide_eq_true_2. }
    rewrite run_catch, run_bind.
    destruct (run (tp_cons _ _ _ _ _) s1) as [u s2|e s2| |]; [| |done|done].
    + destruct HNC as (W' & W'' & Hm' & Hm'' & D & F1 & D' & F2 & F3). cbn [run]. split; [done|].
      rewrite H1w in *. eexists _, W', W''. split_and!; [|done|done|done|done|done|congruence|].
      2:{ rewrite F3, H1b. by rewrite insert_insert. }
      done.
    + destruct HNC as (F1 & F2 & F3). cbn.
      rewrite F3, H1b, lookup_insert. cbn.
      rewrite bool_decide_eq_true_2, Nat.eqb_refl by done. cbn.
      split_and!; [congruence|congruence|]. rewrite ?F3, ?H1b. by rewrite delete_insert.
  - unfold Polymorphic20.cb_ctor.
    rewrite run_bind. cbn [act_thr run exec].
    destruct (pop_eq s) as (r & orc' & -> & _). destruct r as [h|e]; cbn [run]; [|done].
    assert (Hfr := choose_fresh h (blocks s)). set (l := choose h (blocks s)) in *. clearbody l.
    set (s0 := log _ _).
    rewrite run_catch, run_bind, run_bind. cbn [act run exec].
    assert (H0b : blocks s0 !! l = Some (mkB a (BCb t) HNone ORaw)) by (cbn; by rewrite lookup_insert).
    rewrite H0b. cbn [b_hdr b_obj b_ty]. rewrite bool_decide_eq_true_2 by done.
    set (b := mkB a (BCb t) (HCb t None) ORaw).
    set (s1 := set_blocks _ _).
    assert (H1b : blocks s1 = <[l := b]> (blocks s)) by (cbn; by rewrite insert_insert).
    assert (H1w : wraps s1 = wraps s) by done. assert (H1x : exts s1 = exts s) by done. clearbody s1. clear s0 H0b.
    assert (HNC := node_make n a t l c nm ks b B W s1).
    feed specialize HNC; [| |done| |done|done|done|by rewrite H1w|].
    { intros j. rewrite H1w. apply eq_None_not_Some. intros HH. apply HM in HH as [? ?]. congruence. }
    { by rewrite H1b, lookup_insert. }
    { cbn. by rewrite bool_decide_eq_true_2. }
    cbn [run]. rewrite run_bind.
    destruct (run (tp_cons _ _ _ _ _) s1) as [u s2|e s2| |]; [| |done|done].
    + destruct HNC as (W' & W'' & Hm' & Hm'' & D & F1 & D' & F2 & F3).
      unfold act; cbn [run exec]; rewrite F3, lookup_insert. cbn [b_hdr set_obj b run]. split; [done|].
      rewrite H1w in *. eexists _, W', W''. split_and!; [|done|done|done|done|done|cbn; congruence|].
      2:{ cbn [set_blocks blocks]. rewrite ?F3, insert_insert, H1b. by rewrite insert_insert. }
      done.
    + destruct HNC as (F1 & F2 & F3). cbn.
      rewrite F3, H1b, lookup_insert. cbn.
      rewrite bool_decide_eq_true_2, Nat.eqb_refl by done. cbn.
      split_and!; [congruence|congruence|]. rewrite ?F3, ?H1b. by rewrite delete_insert.
Qed.

Lemma make_run T h x a t c s :
  wraps s !! x = None -> (header_cls h = Ind -> t = tT E) ->
  run (i_inplace_a (hdr_impl h T) x a t (AArgs c)) s =
  match run (bind (create_args (header_cls h) T a t c) (fun l => act (PWriteP x (Some l))))
            (set_wraps (<[x := mkW PIndet a]> (wraps s)) s) with
  | OThrow e s1 => match run (act (PDelW x)) s1 with
                   | ORet _ s2 => OThrow e s2 | OThrow e' s2 => OThrow e' s2 | OUB u => OUB u | OTerm => OTerm end
  | r => r
  end.
Proof.
  intros Hx Ht.
  set (s0 := set_wraps (<[x := mkW PIndet a]> (wraps s)) s).
  assert (Hx0 : wraps s0 !! x = Some (mkW PIndet a)) by (cbn; by rewrite lookup_insert).
  destruct h; cbn [hdr_impl i_inplace_a indirect20 indirect14 polymorphic20 polymorphic14 header_cls create_args];
  unfold Indirect14.ctor_inplace_a, Indirect20.ctor_inplace_a, Indirect20.ctor_from,
    Polymorphic20.ctor_inplace_a, Polymorphic14.ctor_inplace_a, Polymorphic20.create_control_block, Polymorphic14.create_control_block;
  rewrite st_ctor by done; fold s0.
  1,2: by erewrite st_readA by done.
  all: rewrite (run_bind (bind (act (PReadA x)) _)); erewrite st_readA by done; cbv beta; by rewrite <- run_bind.
Qed.

Lemma make_all n h x a t c nm ks B W s :
  mem_ok s -> home s x -> wraps s !! x = None -> (header_cls h = Ind -> t = tT E) ->
  length ks = n_kids Sh t (t_make E t a c) -> (forall j, j < length ks -> k_args Sh c !! j = Some (nm j)) ->
  mem_heap (k_hdr Sh t) nm 0 ks B W -> B ⊆ blocks s -> W ⊆ wraps s ->
  match run (i_inplace_a (node_impl (S n) h) x a t (AArgs c)) s with
  | ORet _ s' => exists B1 W1 W2,
      wrap_heap h x (Some (TNode t (t_make E t a c) ks), a) B1 W1 /\
      mem_heap (k_hdr Sh t) nm 0 (map emptied ks) ∅ W2 /\ W1 ##ₘ W2 /\
      replaced s s' B W B1 (W1 ∪ W2)
  | OThrow _ s' => same s s'
  | _ => False
  end.
Proof.
  intros HM Hhome Hx HT Hlen Hnm Hm HB HW. unfold Tree.node_impl. rewrite make_run by done.
  set (s0 := set_wraps _ s).
  assert (H0b : blocks s0 = blocks s) by done.
  assert (H0w : wraps s0 = <[x := mkW PIndet a]> (wraps s)) by done.
  assert (H0x : exts s0 = exts s) by done. clearbody s0.
  assert (HxW : W !! x = None) by (destruct (sub_at _ _ x HW); congruence).
  assert (HC := create_args_ok (header_cls h) n a t c nm ks B W s0).
  rewrite !H0b, !H0w in HC. feed specialize HC; try done.
  { intros l i. rewrite H0w, H0b. intros [q Hq]. destruct (decide (x = WMem l i)) as [->|Hne]; [done|].
    rewrite lookup_insert_ne in Hq by done. apply (HM l i). by eexists. }
  { clear - HW Hx. map_solve. }
  rewrite run_bind. destruct (run (create_args _ _ _ _ _) s0) as [l s1|e s1| |]; [| |done|done].
  - destruct HC as (Hfr & b' & W' & W'' & Hok & Hm' & Hm'' & D & F1 & D' & F2 & F3).
    assert (HW'x : W' !! x = None /\ W'' !! x = None).
    { clear - D' HxW. apply (fun Q => dis_at _ _ x Q) in D'. at_norm. rewrite HxW, decide_True in D' by done.
      destruct D' as [D'|D']; [|done]. destruct (W' !! x); [done|]. done. }
    destruct HW'x as [HW'x HW''x].
    assert (Hx1 : wraps s1 !! x = Some (mkW PIndet a)).
    { rewrite F1. at_norm. rewrite HW'x, HW''x, HxW, decide_True by done. done. }
    cbn [act run exec]. rewrite Hx1. cbn [run w_a].
    assert (HB1l : B !! l = None) by (destruct (sub_at _ _ l HB); congruence).
    exists (<[l := b']> B), (<[x := mkW (PLoc l) a]> W'), W''. split_and!.
    + by constructor.
    + done.
    + clear - D HW''x. map_solve.
    + split; cbn [set_wraps blocks wraps exts]; [rewrite F3|rewrite F1|congruence| |].
      * clear - HB Hfr. map_solve.
      * clear - D D' HW'x HW''x HW HxW. map_solve.
      * clear - Hfr. map_solve.
      * clear - D D' HW'x HW''x HW HxW Hx. map_solve.
  - destruct HC as (F1 & F2 & F3).
    unfold act. cbn [run exec]. rewrite F2, lookup_insert. cbn [run]. rewrite ?F2.
    split; cbn [set_wraps blocks wraps exts]; [congruence| |congruence]. by rewrite ?F2, delete_insert.
Qed.
End tree.
