(** * Recursive and composite value types: the theorems.

    [wrap_heap Sh h y k B W] with [B ⊆ blocks s], [W ⊆ wraps s] says that in the store [s] the
    wrapper [y] of header [h] owns a tree in state [k], occupying exactly [B] and [W].
    [fits n k.1]: the recursion is followed to a depth [n] at least that of the tree
    ([C37_depth]).  [placed_all]: member wrappers exist only inside live objects. *)

From stdpp Require Import base gmap list.
From Verif Require Import Lang Common Client Spec Rep RunLemmas Headers Hist Draft Tree TreeProps TreeAssign TreeAssignC
  TreeMove TreeMoveAssign TreeSub TreeSubUB TreeComposite TreeObs TreeEx Ex.

(** ** C37: recursive data structures *)

(** Every tree has a depth, and every tree of the declared classes exists in some store. *)
Theorem C37_depth {E : Env} (k : option (tree E) * eA E) : exists n, fits n k.1.
Proof. destruct k as [[T|] a]; [exists (depth T); apply fits_depth|by exists 0]. Qed.
Print Assumptions C37_depth.

Theorem C37_exists {E : Env} (Sh : Shape E) h x (k : option (tree E) * eA E) O :
  shaped_w Sh h k ->
  exists s, wrap_heap Sh h (WVar x) k (blocks s) (wraps s) /\ placed_all Sh s /\ orc s = O.
Proof.
  intros Hs. destruct (C37_depth k) as [n Hf]. exists (tree_store Sh n h x k O).
  destruct (tree_store_ok Sh n h x k O Hf Hs) as (H1 & H2 & _). done.
Qed.
Print Assumptions C37_exists.

(** Copying a tree of any shape and depth, whatever the environment does: either it succeeds,
    the copy's blocks and wrappers are all new, and nothing else changes; or it throws and the
    memory is exactly as before. *)
Theorem C37_copy {E : Env} (Sh : Shape E) (HS : ShapeReq Sh) n h x y k B W (s : store E) :
  placed_all Sh s -> wraps s !! WVar x = None ->
  wrap_heap Sh h y k B W -> B ⊆ blocks s -> W ⊆ wraps s -> fits n k.1 ->
  match run (i_copy (node_impl Sh n h) (WVar x) y) s with
  | ORet _ s' => exists B' W', wrap_heap Sh h (WVar x) (copy_w k) B' W' /\
      blocks s' = B' ∪ blocks s /\ wraps s' = W' ∪ wraps s /\ exts s' = exts s /\
      B' ##ₘ blocks s /\ W' ##ₘ wraps s
  | OThrow _ s' => blocks s' = blocks s /\ wraps s' = wraps s /\ exts s' = exts s
  | _ => False
  end.
Proof.
  intros HP Hx Hy HB HW Hf.
  assert (HC := copy_all Sh HS n h (WVar x) y k B W s (placed_mem_ok _ _ HP) I Hx Hy Hf HB HW).
  unfold makes in HC. destruct (run _ s); try done.
  - destruct HC as (B' & W' & Hw & [A1 A2 A3 A4 A5]). by exists B', W'.
  - destruct HC as [? ? ?]. done.
Qed.
Print Assumptions C37_copy.

(** The same with a given allocator. *)
Theorem C37_copy_a {E : Env} (Sh : Shape E) (HS : ShapeReq Sh) n h x y a k B W (s : store E) :
  placed_all Sh s -> wraps s !! WVar x = None ->
  wrap_heap Sh h y k B W -> B ⊆ blocks s -> W ⊆ wraps s -> fits n k.1 ->
  match run (i_copy_a (node_impl Sh n h) (WVar x) a y) s with
  | ORet _ s' => exists B' W', wrap_heap Sh h (WVar x) (copy_as a k) B' W' /\
      blocks s' = B' ∪ blocks s /\ wraps s' = W' ∪ wraps s /\ exts s' = exts s /\
      B' ##ₘ blocks s /\ W' ##ₘ wraps s
  | OThrow _ s' => blocks s' = blocks s /\ wraps s' = wraps s /\ exts s' = exts s
  | _ => False
  end.
Proof.
  intros HP Hx Hy HB HW Hf.
  assert (HC := copya_all Sh HS n h (WVar x) y k a B W s (placed_mem_ok _ _ HP) I Hx Hy Hf HB HW).
  unfold makes in HC. destruct (run _ s); try done.
  - destruct HC as (B' & W' & Hw & [A1 A2 A3 A4 A5]). by exists B', W'.
  - destruct HC as [? ? ?]. done.
Qed.
Print Assumptions C37_copy_a.

(** If copying an object gives an equal one: the copy holds the same data at every path, shares
    no block with the source at any pair of paths, and the source still holds its data. *)
Theorem C37_copy_equal {E : Env} (Sh : Shape E) (HS : ShapeReq Sh) (HV : CopyValue (E := E)) n h x y k B W (s s' : store E) u :
  placed_all Sh s -> wraps s !! WVar x = None ->
  wrap_heap Sh h y k B W -> B ⊆ blocks s -> W ⊆ wraps s -> fits n k.1 ->
  run (i_copy (node_impl Sh n h) (WVar x) y) s = ORet u s' ->
  equal_trees s' (WVar x) s y /\ share_nothing s' (WVar x) y /\ equal_trees s' y s y.
Proof.
  intros HP Hx Hy HB HW Hf Hr.
  assert (HC := copy_all Sh HS n h (WVar x) y k B W s (placed_mem_ok _ _ HP) I Hx Hy Hf HB HW).
  unfold makes in HC. rewrite Hr in HC. destruct HC as (B' & W' & Hw & HAd).
  assert (HP' : placed_all Sh s') by (by eapply placed_all_adds).
  destruct HAd as [A1 A2 A3 A4 A5].
  assert (HB1 : B' ⊆ blocks s') by (rewrite A1; clear; map_solve).
  assert (HW1 : W' ⊆ wraps s') by (rewrite A2; clear; map_solve).
  assert (HB2 : B ⊆ blocks s') by (rewrite A1; clear - HB A4; map_solve).
  assert (HW2 : W ⊆ wraps s') by (rewrite A2; clear - HW A5; map_solve).
  split_and!.
  - intros p. rewrite (obs_heap Sh p h (WVar x) _ B' W' s' HP' Hw HB1 HW1).
    rewrite (obs_heap Sh p h y k B W s HP Hy HB HW). by apply sub_copy_path.
  - intros p q l H1 H2. apply (addr_heap Sh p h (WVar x) _ B' W' s' l HP' Hw HB1 HW1) in H1 as [b1 H1].
    apply (addr_heap Sh q h y k B W s' l HP' Hy HB2 HW2) in H2 as [b2 H2].
    pose proof (lookup_weaken _ _ _ _ H2 HB). destruct (dis_at _ _ l A4); congruence.
  - intros p. rewrite (obs_heap Sh p h y k B W s' HP' Hy HB2 HW2). by rewrite (obs_heap Sh p h y k B W s HP Hy HB HW).
Qed.
Print Assumptions C37_copy_equal.

(** Destroying the root frees exactly the tree's blocks and ends the lifetime of exactly its
    wrappers; it cannot throw, and in particular destroys and frees nothing twice. *)
Theorem C37_destroy {E : Env} (Sh : Shape E) n h x k B W (s : store E) :
  wrap_heap Sh h x k B W -> B ⊆ blocks s -> W ⊆ wraps s -> fits n k.1 ->
  exists s', run (i_dtor (node_impl Sh n h) x) s = ORet tt s' /\
    blocks s' = blocks s ∖ B /\ wraps s' = wraps s ∖ W /\ exts s' = exts s.
Proof.
  intros Hx HB HW Hf. destruct (dtor_all Sh n h x k B W s Hx Hf HB HW) as (s' & Hr & [M1 M2 M3]). by exists s'.
Qed.
Print Assumptions C37_destroy.

(** A copy that is destroyed again leaves the memory exactly as it was. *)
Theorem C37_copy_destroy {E : Env} (Sh : Shape E) (HS : ShapeReq Sh) n h x y k B W (s s' : store E) u :
  placed_all Sh s -> wraps s !! WVar x = None ->
  wrap_heap Sh h y k B W -> B ⊆ blocks s -> W ⊆ wraps s -> fits n k.1 ->
  run (i_copy (node_impl Sh n h) (WVar x) y) s = ORet u s' ->
  exists s'', run (i_dtor (node_impl Sh n h) (WVar x)) s' = ORet tt s'' /\
    blocks s'' = blocks s /\ wraps s'' = wraps s /\ exts s'' = exts s.
Proof.
  intros HP Hx Hy HB HW Hf Hr.
  assert (HC := C37_copy Sh HS n h x y k B W s HP Hx Hy HB HW Hf). rewrite Hr in HC.
  destruct HC as (B' & W' & Hw & A1 & A2 & A3 & A4 & A5).
  destruct (C37_destroy Sh n h (WVar x) (copy_w k) B' W' s' Hw) as (s'' & Hr' & E1 & E2 & E3).
  { rewrite A1. clear. map_solve. }
  { rewrite A2. clear. map_solve. }
  { by apply copy_fits. }
  exists s''. split_and!; [done|rewrite E1, A1; clear - A4; map_solve|rewrite E2, A2; clear - A5; map_solve|congruence].
Qed.
Print Assumptions C37_copy_destroy.

(** The hypotheses hold of a binary tree of six nodes, for all four headers; copying it succeeds
    if the environment never fails, and throws if the sixth response is a failure. *)
Definition exF : flags := Fl false false false false true false.
Example C37_ex_hyps h O :
  let s := tree_store (exShape exF h) 4 h 0 (Some (exT exF 1), 1) O in
  placed_all (exShape exF h) s /\ wraps s !! WVar 1 = None /\
  wrap_heap (exShape exF h) h (WVar 0) (Some (exT exF 1), 1) (blocks s) (wraps s) /\
  fits 4 (Some (exT exF 1)) /\ size (blocks s) = 6 /\ size (wraps s) = 13.
Proof.
  destruct (tree_store_ok (exShape exF h) 4 h 0 (Some (exT exF 1), 1) O (exT_fits exF 1) (exT_shaped exF h 1)) as (H1 & H2 & _).
  split_and!; [done|by destruct h|done|apply exT_fits|by destruct h|by destruct h].
Qed.
Definition ends {E X} (r : outcome E X) : nat :=
  match r with ORet _ _ => 0 | OThrow _ _ => 1 | OUB _ => 2 | OTerm => 3 end.
Example C37_ex_runs :
  map (fun h => ends (run (i_copy (node_impl (exShape exF h) 4 h) (WVar 1) (WVar 0))
                  (tree_store (exShape exF h) 4 h 0 (Some (exT exF 1), 1) [])))
    [HInd20; HInd14; HPoly20; HPoly14] = [0; 0; 0; 0] /\
  map (fun h => ends (run (i_copy (node_impl (exShape exF h) 4 h) (WVar 1) (WVar 0))
                  (tree_store (exShape exF h) 4 h 0 (Some (exT exF 1), 1) (replicate 5 (RespOk 0) ++ [RespFail 7]))))
    [HInd20; HInd14; HPoly20; HPoly14] = [1; 1; 1; 1].
Proof. by vm_compute. Qed.
Example C37_ex_value : CopyValue (E := exEnv exF).
Proof. done. Qed.

(** ** C39: composite classes *)

(** A class with any number of members [src 0], [src 1], ..., each of any header and owning a
    tree of any shape: the copy constructor copies all of them; if any copy throws the memory is
    exactly as before. *)
Theorem C39_copy {E : Env} (Sh : Shape E) (HS : ShapeReq Sh) n hs (src dst : nat -> nat) ks B W (s : store E) :
  placed_all Sh s -> (forall j, wraps s !! WVar (dst j) = None) -> (forall j j', dst j = dst j' -> j = j') ->
  mem_heap Sh hs (fun j => WVar (src j)) 0 ks B W -> B ⊆ blocks s -> W ⊆ wraps s -> Forall (fun k => fits n k.1) ks ->
  match run (make_members (fun j => i_copy (node_impl Sh n (hs j)) (WVar (dst j)) (WVar (src j)))
                          (fun j => i_dtor (node_impl Sh n (hs j)) (WVar (dst j))) 0 (length ks)) s with
  | ORet _ s' => exists B' W', mem_heap Sh hs (fun j => WVar (dst j)) 0 (map copy_w ks) B' W' /\
      blocks s' = B' ∪ blocks s /\ wraps s' = W' ∪ wraps s /\ exts s' = exts s /\
      B' ##ₘ blocks s /\ W' ##ₘ wraps s
  | OThrow _ s' => blocks s' = blocks s /\ wraps s' = wraps s /\ exts s' = exts s
  | _ => False
  end.
Proof.
  intros HP Hfree Hinj Hm HB HW Hf.
  assert (HC := copy_loop Sh n hs (fun j => WVar (src j)) (fun j => WVar (dst j)) 0 ks B W s (copy_all Sh HS n) (placed_mem_ok _ _ HP)).
  feed specialize HC; [done|by intros; apply Hfree|intros j j' Hj; apply Hinj; congruence|done|done|done|done|].
  unfold makes in HC. destruct (run _ s); try done.
  - destruct HC as (B' & W' & Hw & [A1 A2 A3 A4 A5]). by exists B', W'.
  - destruct HC as [? ? ?]. done.
Qed.
Print Assumptions C39_copy.

(** The destructor frees every member's tree, and nothing else. *)
Theorem C39_destroy {E : Env} (Sh : Shape E) n hs nm ks B W (s : store E) :
  mem_heap Sh hs nm 0 ks B W -> B ⊆ blocks s -> W ⊆ wraps s -> Forall (fun k => fits n k.1) ks ->
  exists s', run (destroy_members (fun j => i_dtor (node_impl Sh n (hs j)) (nm j)) 0 (length ks)) s = ORet tt s' /\
    blocks s' = blocks s ∖ B /\ wraps s' = wraps s ∖ W /\ exts s' = exts s.
Proof.
  intros Hm HB HW Hf. destruct (destroy_loop Sh n hs nm 0 ks B W s (dtor_all Sh n) Hm Hf HB HW) as (s' & Hr & [M1 M2 M3]).
  by exists s'.
Qed.
Print Assumptions C39_destroy.

(** Memberwise copy assignment: afterwards the members own trees again and the memory consists
    of these and of what was there besides the old ones, so nothing leaks; also if one throws. *)
Theorem C39_copy_assign {E : Env} (Sh : Shape E) (HS : ShapeReq Sh) (HF : Fixed Sh) (HA : AllocReq E)
    n hs (dst src : nat -> nat) ds ks Bd Wd Bs Ws (s : store E) :
  placed_all Sh s -> length ds = length ks ->
  mem_heap Sh hs (fun j => WVar (dst j)) 0 ds Bd Wd -> mem_heap Sh hs (fun j => WVar (src j)) 0 ks Bs Ws ->
  Bd ##ₘ Bs -> Wd ##ₘ Ws -> Bd ⊆ blocks s -> Wd ⊆ wraps s -> Bs ⊆ blocks s -> Ws ⊆ wraps s ->
  Forall (fun k => fits n k.1) ds -> Forall (fun k => fits n k.1) ks ->
  match run (assign_members (fun j => i_copy_assign (node_impl Sh n (hs j)) (WVar (dst j)) (WVar (src j))) 0 (length ds)) s with
  | ORet _ s' => exists B' W', mem_heap Sh hs (fun j => WVar (dst j)) 0 (asg_ws Sh hs 0 ks ds) B' W' /\ replaced s s' Bd Wd B' W'
  | OThrow _ s' => exists ds' B' W', mem_heap Sh hs (fun j => WVar (dst j)) 0 ds' B' W' /\ length ds' = length ds /\ replaced s s' Bd Wd B' W' /\
      kids_part Sh hs 0 ks ds ds' (* some members assigned, one partly, the others not *)
  | _ => False
  end.
Proof.
  intros HP Hlen Hd Hs DB DW HBd HWd HBs HWs Hfd Hfs.
  assert (HC := casg_loop Sh n hs (fun j => WVar (dst j)) (fun j => WVar (src j)) 0 ds ks Bd Wd Bs Ws s (casg_all Sh HS HF HA n) HP Hlen).
  feed specialize HC; [done..|]. destruct (run _ s); try done.
  destruct HC as (ds' & B' & W' & ? & ? & _ & ? & ?). by exists ds', B', W'.
Qed.
Print Assumptions C39_copy_assign.

(** Memberwise move assignment likewise; it can end the program only by [noexcept] when the
    allocator propagates and differs (see C21). *)
Theorem C39_move_assign {E : Env} (Sh : Shape E) (HS : ShapeReq Sh) (HA : AllocReq E) (Hrefl : forall a, a_eqb E a a = true)
    n hs (dst src : nat -> nat) ds ks Bd Wd Bs Ws (s : store E) :
  placed_all Sh s -> length ds = length ks ->
  mem_heap Sh hs (fun j => WVar (dst j)) 0 ds Bd Wd -> mem_heap Sh hs (fun j => WVar (src j)) 0 ks Bs Ws ->
  Bd ##ₘ Bs -> Wd ##ₘ Ws -> Bd ⊆ blocks s -> Wd ⊆ wraps s -> Bs ⊆ blocks s -> Ws ⊆ wraps s ->
  Forall (fun k => fits n k.1) ds -> Forall (fun k => fits n k.1) ks ->
  match run (assign_members (fun j => i_move_assign (node_impl Sh n (hs j)) (WVar (dst j)) (WVar (src j))) 0 (length ds)) s with
  | ORet _ s' => exists B1 W1 B2 W2,
      mem_heap Sh hs (fun j => WVar (dst j)) 0 (zip_with masg_x ds ks) B1 W1 /\
      mem_heap Sh hs (fun j => WVar (src j)) 0 (zip_with masg_y ds ks) B2 W2 /\
      B1 ##ₘ B2 /\ W1 ##ₘ W2 /\ replaced s s' (Bd ∪ Bs) (Wd ∪ Ws) (B1 ∪ B2) (W1 ∪ W2)
  | OThrow _ s' => pocma E = false /\ exists ds' ks' B1 W1 B2 W2,
      mem_heap Sh hs (fun j => WVar (dst j)) 0 ds' B1 W1 /\ mem_heap Sh hs (fun j => WVar (src j)) 0 ks' B2 W2 /\
      length ds' = length ds /\ length ks' = length ks /\
      B1 ##ₘ B2 /\ W1 ##ₘ W2 /\ replaced s s' (Bd ∪ Bs) (Wd ∪ Ws) (B1 ∪ B2) (W1 ∪ W2)
  | OTerm => pocma E = true /\ exists j d k, ds !! j = Some d /\ ks !! j = Some k /\ a_eqb E d.2 k.2 = false
  | OUB _ => False
  end.
Proof. intros HP Hlen Hd Hs DB DW HBd HWd HBs HWs Hfd Hfs. by apply masg_loop. Qed.
Print Assumptions C39_move_assign.

(** Three members of three headers, the middle one valueless. *)
Definition ex_hs (j : nat) : header := match j with 0 => HInd20 | 1 => HPoly14 | _ => HPoly20 end.
Definition ex_ks (a : nat) : list (option (tree (exEnv exF)) * nat) := [(Some (exT exF a), a); (None, a); (Some (lf exF a 9), a)].
Definition ex_lay (base a N : nat) : mem3 (E := exEnv exF) :=
  lays (layout (exShape exF HInd20) 4) ex_hs (fun j => WVar (base + j)) 0 (ex_ks a) N.
Lemma ex_lay_ok base a N :
  mem_heap (exShape exF HInd20) ex_hs (fun j => WVar (base + j)) 0 (ex_ks a) (ex_lay base a N).1.1 (ex_lay base a N).1.2 /\
  within (ex_lay base a N) N (fun u => exists j, 0 <= j < 0 + 3 /\ u = WVar (base + j)).
Proof.
  apply (lays_ok (exShape exF HInd20) (layout (exShape exF HInd20) 4) ex_hs (fun j => WVar (base + j)) (ex_ks a) 0 N).
  - intros k Hk h w M Hs Hb. apply layout_ok; [|done|done].
    assert (Hf : Forall (fun k => fits 4 k.1) (ex_ks a)) by (cbn; repeat constructor). rewrite Forall_forall in Hf. by apply Hf.
  - intros j j' Hj. simplify_eq. lia.
  - done.
  - cbn. repeat split; done.
Qed.
(** A second composite beside it, so that both hypotheses of assignment hold, and the outcomes:
    success, and an exception at the second allocation. *)
Definition ex_two (O : list resp) : store (exEnv exF) :=
  let r1 := ex_lay 0 1 0 in let r2 := ex_lay 10 2 r1.2 in mkS (r1.1.1 ∪ r2.1.1) (r1.1.2 ∪ r2.1.2) ∅ O [].
Example C39_ex_hyps O :
  Forall (fun k => fits 4 k.1) (ex_ks 1) /\ Forall (fun k => fits 4 k.1) (ex_ks 2) /\
  let s := ex_two O in
  exists Bd Wd Bs Ws, placed_all (exShape exF HInd20) s /\
    mem_heap (exShape exF HInd20) ex_hs (fun j => WVar (10 + j)) 0 (ex_ks 2) Bd Wd /\
    mem_heap (exShape exF HInd20) ex_hs (fun j => WVar (0 + j)) 0 (ex_ks 1) Bs Ws /\
    Bd ##ₘ Bs /\ Wd ##ₘ Ws /\ Bd ⊆ blocks s /\ Wd ⊆ wraps s /\ Bs ⊆ blocks s /\ Ws ⊆ wraps s.
Proof.
  split_and!; [cbn; repeat constructor..|]. intros s. set (M := (ex_lay 0 1 0).2).
  exists (ex_lay 10 2 M).1.1, (ex_lay 10 2 M).1.2, (ex_lay 0 1 0).1.1, (ex_lay 0 1 0).1.2.
  destruct (ex_lay_ok 0 1 0) as (H1 & _ & I1 & J1). destruct (ex_lay_ok 10 2 M) as (H2 & _ & I2 & J2). fold M in I1, J1.
  assert (D1 : (ex_lay 10 2 M).1.1 ##ₘ (ex_lay 0 1 0).1.1).
  { apply dis_all. intros l. destruct ((ex_lay 10 2 M).1.1 !! l) eqn:E2; [|by left]. right.
    destruct ((ex_lay 0 1 0).1.1 !! l) eqn:E1; [|done].
    pose proof (I1 l ltac:(by eexists)). pose proof (I2 l ltac:(by eexists)). lia. }
  assert (D2 : (ex_lay 10 2 M).1.2 ##ₘ (ex_lay 0 1 0).1.2).
  { apply dis_all. intros u. destruct ((ex_lay 10 2 M).1.2 !! u) eqn:E2; [|by left]. right.
    destruct ((ex_lay 0 1 0).1.2 !! u) eqn:E1; [|done]. exfalso.
    destruct (J1 u ltac:(by eexists)) as [(j & Hj & ->)|(l & j & -> & Hl)];
      destruct (J2 _ ltac:(by eexists)) as [(j' & Hj' & Hu)|(l' & j' & Hu & Hl')]; simplify_eq; lia. }
  split_and!; [|done|done|done|done| | | |].
  2-5: subst s; unfold ex_two; cbn [blocks wraps]; fold M; clear - D1 D2; map_solve.
  intros [m|l i] [q Hq]; [done|]. subst s. unfold ex_two in Hq. cbn [wraps] in Hq. fold M in Hq.
  rewrite lookup_un in Hq. destruct ((ex_lay 0 1 0).1.2 !! WMem l i) eqn:E1; rewrite ?E1 in Hq.
  - destruct (mem_bound _ _ _ _ _ _ _ H1 l i) as (b & Hb & Hi); [by eexists|]. exists b. split; [|done].
    unfold ex_two. cbn [blocks]. by rewrite lookup_un, Hb.
  - destruct (mem_bound _ _ _ _ _ _ _ H2 l i) as (b & Hb & Hi); [by eexists|]. exists b. split; [|done].
    unfold ex_two. cbn [blocks]. fold M. rewrite lookup_un, Hb.
    by destruct (dis_at _ _ l D1) as [HX| ->]; [congruence|].
Qed.
Example C39_ex_runs :
  let p := node_impl (exShape exF HInd20) 4 in
  let mk O := ends (run (make_members (fun j => i_copy (p (ex_hs j)) (WVar (20 + j)) (WVar j))
                                      (fun j => i_dtor (p (ex_hs j)) (WVar (20 + j))) 0 3) (ex_two O)) in
  let ca O := ends (run (assign_members (fun j => i_copy_assign (p (ex_hs j)) (WVar (10 + j)) (WVar j)) 0 3) (ex_two O)) in
  let ma O := ends (run (assign_members (fun j => i_move_assign (p (ex_hs j)) (WVar (10 + j)) (WVar j)) 0 3) (ex_two O)) in
  let fl := [RespOk 0; RespOk 0; RespFail 7] in
  [mk []; ca []; ma []; mk fl; ca fl; ma fl] = [0; 0; 0; 1; 1; 1].
Proof. by vm_compute. Qed.
