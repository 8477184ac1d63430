(** * Assigning to, and swapping with, a wrapper nested in the other's value: the theorems.

    [y] is the wrapper at the position [p] of the value of [x]: the opposite of PropsTreeSub.v,
    where the assigned-to wrapper contains the source.  For the hypotheses see PropsTree.v and
    PropsTreeSub.v.  [put_at k p k'] is the tree [k] with [k'] at [p]. *)

From stdpp Require Import base gmap list.
From Verif Require Import Lang Common Client Spec Rep RunLemmas Headers Hist Draft Tree TreeProps TreeAssign TreeAssignC
  TreeMove TreeMoveAssign TreeSub TreeSubUB TreeComposite TreeObs TreeEx TreeSubMem TreeAsgObs TreeSubDeep TreeClient TreeForest Ex PropsTree.
From Verif Require Import TreeUp TreeUpIn TreeUpMove.

(** ** C45: copy assignment [y = x] *)

(** In every case the behaviour is defined.  Only [y] changes: what [x] owns besides is as it was,
    block by block, and every other wrapper too; nothing leaks.  Where a copy is made, [y] then
    holds, at every path, what [x] held.  Where [indirect] assigns in place ([in_place]: an
    assignable value type, equal allocators and a value in [y]), the data and the members of [x]
    are assigned one by one, and the member of [y] on the path from [x] to [y] is assigned from
    the member of [x] that contains [y], which has been assigned in part by then: what [y] then
    holds at [p] is the data of [x], not its own former data. *)
Theorem C45_copy {E : Env} (Sh : Shape E) (HS : ShapeReq Sh) (HF : Fixed Sh) (HA : AllocReq E)
    m n h x y p kx ky Bx Wx (s : store E) :
  placed_all Sh s -> p <> [] -> wrap_heap Sh h x kx Bx Wx -> Bx ⊆ blocks s -> Wx ⊆ wraps s ->
  fits m kx.1 -> m + m <= n -> walk s x p = Some y -> sub_at_path Sh h kx p = Some (h, ky) ->
  match run (i_copy_assign (node_impl Sh n h) y x) s with
  | ORet _ s' => (exists ky' B' W', wrap_heap Sh h x (put_at kx p ky') B' W' /\ replaced s s' Bx Wx B' W') /\
      (forall q, ~ p `prefix_of` q -> obs s' x q = obs s x q) /\
      (CopyValue (E := E) -> AssignValue (E := E) ->
         (in_place (header_cls h) ky kx = false -> equal_trees s' y s x) /\
         (in_place (header_cls h) ky kx = true -> obs s' y p = obs s x [] /\
            forall j q, head p <> Some j -> obs s' y (j :: q) = obs s x (j :: q)))
  | OThrow _ s' => (exists ky' B' W', wrap_heap Sh h x (put_at kx p ky') B' W' /\ replaced s s' Bx Wx B' W') /\
      (forall q, ~ p `prefix_of` q -> obs s' x q = obs s x q) /\
      (in_place (header_cls h) ky kx = false -> blocks s' = blocks s /\ wraps s' = wraps s /\ exts s' = exts s)
  | _ => False
  end.
Proof.
  intros HP Hp Hx HB HW Hf Hmn Hwalk Hsub.
  assert (HC := up_copy_all Sh HS HF HA m n p h x y kx ky Bx Wx s HP Hp Hx HB HW Hf Hmn Hsub Hwalk).
  destruct (run _ s) as [u s'|e s'| |]; [| |done|done].
  - destruct HC as (k' & By' & Wy' & Hw & R & Hoff & Hval). split_and!; [by eexists _, By', Wy'|done|].
    intros HV HV'. exact (Hval (conj HV HV')).
  - destruct HC as (k' & By' & Wy' & Hw & R & Hoff & Hval). split_and!; [by eexists _, By', Wy'|done|done].
Qed.
Print Assumptions C45_copy.

(** Hence an assignment in place goes wrong wherever the data of [x] and of [y] differ. *)
Theorem C45_copy_wrong {E : Env} (Sh : Shape E) (HS : ShapeReq Sh) (HF : Fixed Sh) (HA : AllocReq E)
    m n h x y p kx ky Bx Wx (s : store E) :
  CopyValue (E := E) -> AssignValue (E := E) ->
  placed_all Sh s -> p <> [] -> wrap_heap Sh h x kx Bx Wx -> Bx ⊆ blocks s -> Wx ⊆ wraps s ->
  fits m kx.1 -> m + m <= n -> walk s x p = Some y -> sub_at_path Sh h kx p = Some (h, ky) ->
  in_place (header_cls h) ky kx = true -> obs s x [] <> obs s x p ->
  forall u s', run (i_copy_assign (node_impl Sh n h) y x) s = ORet u s' -> ~ equal_trees s' y s x.
Proof.
  intros HV HV' HP Hp Hx HB HW Hf Hmn Hwalk Hsub Hip Hne u s' Hrun Heq.
  assert (HC := C45_copy Sh HS HF HA m n h x y p kx ky Bx Wx s HP Hp Hx HB HW Hf Hmn Hwalk Hsub). rewrite Hrun in HC.
  destruct HC as (_ & _ & HC). destruct (HC HV HV') as [_ H2]. destruct (H2 Hip) as [H3 _].
  apply Hne. by rewrite <- H3.
Qed.
Print Assumptions C45_copy_wrong.

(** ** C45: move assignment [y = std::move(x)] *)

(** Memory that no path from a variable leads to. *)
Definition unreachable {E : Env} (s : store E) (l : loc) : Prop :=
  is_Some (blocks s !! l) /\ forall v r, addr s (WVar v) r <> Some l.

(** Between equal allocators, in particular with the standard allocator: for every header, every
    tree, every position, and whatever the environment does, the call returns, what [y] owned is
    destroyed, [x] is valueless, and the node that [x] owned, with whatever it owned besides [y],
    is leaked: it is owned by [y], which is one of its own members.  All else is as it was. *)
Theorem C45_move_leaks {E : Env} (Sh : Shape E) (HS : ShapeReq Sh) (HA : AllocReq E)
    n F z hz kz q h x kx p y ky (s : store E) :
  holds Sh F s -> F !! z = Some (hz, kz) -> walk s (WVar z) q = Some x -> sub_at_path Sh hz kz q = Some (h, kx) ->
  fits n kx.1 -> p <> [] -> walk s x p = Some y -> sub_at_path Sh h kx p = Some (h, ky) -> a_eqb E ky.2 kx.2 = true ->
  exists l s', addr s x [] = Some l /\ run (i_move_assign (node_impl Sh n h) y x) s = ORet tt s' /\ unreachable s' l /\
    exists BL WL, forest_heap Sh (<[z := (hz, put_at kz q (None, kx.2))]> F) (blocks s' ∖ BL) (wraps s' ∖ WL).
Proof.
  intros HF Hz Hwx Hsx Hf Hp Hwy Hsy Ha.
  destruct (move_leaks Sh HA n p q F z hz kz h x y kx ky s HF Hz Hsx Hwx Hp Hsy Hwy Hf Ha)
    as (l & s' & BL & WL & H1 & H2 & _ & H4 & H5 & H6 & H7).
  exists l, s'. split_and!; [done|done| |by exists BL, WL; destruct H7].
  destruct H5 as [b Hb]. split; [exists b; by eapply lookup_weaken|].
  intros v r. eapply (garbage_lost Sh); [done|done|by eexists].
Qed.
Print Assumptions C45_move_leaks.

(** Between different allocators, to a member of the node that [x] owns: correct.  The node is moved
    to a new one, which [y] then owns: [y] holds what [x] held, and [x] what moving leaves of it,
    with [y] in it.  If it throws, only the data of [x] may have changed. *)
Theorem C45_move_member {E : Env} (Sh : Shape E) (HS : ShapeReq Sh) (HA : AllocReq E) (Hrefl : forall a, a_eqb E a a = true)
    n h x i y kx ky Bx Wx (s : store E) :
  placed_all Sh s -> wrap_heap Sh h x kx Bx Wx -> Bx ⊆ blocks s -> Wx ⊆ wraps s ->
  fits n kx.1 -> walk s x [i] = Some y -> sub_at_path Sh h kx [i] = Some (h, ky) -> a_eqb E ky.2 kx.2 = false ->
  match run (i_move_assign (node_impl Sh n h) y x) s with
  | ORet _ s' => (exists T a B' W', kx.1 = Some T /\
        wrap_heap Sh h x (put_at (Some (moved_from a T), kx.2) [i] (Some (moved_to a T), a)) B' W' /\ replaced s s' Bx Wx B' W') /\
      (MoveValue (E := E) -> equal_trees s' y s x)
  | OThrow _ s' => pocma E = false /\ always_equal E = false /\ exists T T' B' W', kx.1 = Some T /\ move_failed T T' /\
      wrap_heap Sh h x (Some T', kx.2) B' W' /\ replaced s s' Bx Wx B' W'
  | OTerm => pocma E = true
  | OUB _ => False
  end.
Proof.
  intros HP Hx HB HW Hf Hwalk Hsub Ha.
  assert (HC := up_move_child Sh HS HA Hrefl n i h x y kx ky Bx Wx s (placed_mem_ok _ _ HP) Hx HB HW Hf Hsub Hwalk Ha).
  destruct (run _ s) as [u s'|e s'|u|]; [|done|done|done].
  destruct HC as (T & By' & Wy' & B' & W' & HT & Hy & SB & SW & Hw & R). set (a := sel _ _ _) in *. split; [by exists T, a, B', W'|].
  intros HV r. destruct (wrap_in _ _ _ _ _ _ Hx) as [wx Hwx].
  assert (HP' : placed_all Sh s').
  { eapply (placed_all_replaced Sh h x kx _ Bx Wx B' W' s s'); try done. apply HP. exists wx. by eapply lookup_weaken. }
  destruct kx as [[T0|] ax]; [|done]. cbn in HT. simplify_eq.
  rewrite (obs_heap Sh r h y _ By' Wy' s' HP' Hy).
  2:{ etrans; [exact SB|]. rewrite (rp_b _ _ _ _ _ _ R). clear. map_solve. }
  2:{ etrans; [exact SW|]. rewrite (rp_w _ _ _ _ _ _ R). clear. map_solve. }
  rewrite (obs_heap Sh r h x _ Bx Wx s HP Hx HB HW). by apply moved_path.
Qed.
Print Assumptions C45_move_member.

(** ... to a wrapper deeper in the tree: the node of [x] is moved to a new one, and what [y] owned
    is destroyed; but [y] is by then part of what the new node owns, so that the new node, with
    all that [x] held, ends up below itself and is leaked.  [x] is left with a node whose members
    are valueless. *)
Theorem C45_move_deep_leaks {E : Env} (Sh : Shape E) (HS : ShapeReq Sh) (HA : AllocReq E) (Hrefl : forall a, a_eqb E a a = true)
    n F z hz kz q h x kx i p y ky (s : store E) :
  holds Sh F s -> F !! z = Some (hz, kz) -> walk s (WVar z) q = Some x -> sub_at_path Sh hz kz q = Some (h, kx) ->
  fits n kx.1 -> p <> [] -> walk s x (i :: p) = Some y -> sub_at_path Sh h kx (i :: p) = Some (h, ky) -> a_eqb E ky.2 kx.2 = false ->
  match run (i_move_assign (node_impl Sh n h) y x) s with
  | ORet _ s' => exists T a l, kx.1 = Some T /\ addr s' y [] = Some l /\ blocks s !! l = None /\ unreachable s' l /\
      exists BL WL, forest_heap Sh (<[z := (hz, put_at kz q (Some (moved_from a T), kx.2))]> F) (blocks s' ∖ BL) (wraps s' ∖ WL)
  | OThrow _ s' => pocma E = false /\ always_equal E = false /\ exists T T', kx.1 = Some T /\ move_failed T T' /\
      holds Sh (<[z := (hz, put_at kz q (Some T', kx.2))]> F) s'
  | OTerm => pocma E = true
  | OUB _ => False
  end.
Proof.
  intros HF Hz Hwx Hsx Hf Hp Hwy Hsy Ha.
  assert (HC := move_deep_leaks Sh HS HA Hrefl n i p q F z hz kz h x y kx ky s HF Hz Hsx Hwx Hp Hsy Hwy Hf Ha).
  destruct (run _ s) as [u s'|e s'|u|]; [| |done|done].
  - destruct HC as (T & l & BL & WL & H1 & H2 & H3 & _ & H4 & H5 & H6 & H7).
    eexists T, _, l. split_and!; [done|done|done| |by exists BL, WL; destruct H7].
    destruct H5 as [b Hb]. split; [exists b; by eapply lookup_weaken|].
    intros v r. eapply (garbage_lost Sh); [done|done|by eexists].
  - destruct HC as (H1 & H2 & T & T' & H3 & H4 & _ & H5). split_and!; [done..|]. by exists T, T'.
Qed.
Print Assumptions C45_move_deep_leaks.

(** ** C45: swap *)

(** Either way round, where swap is defined (a propagating allocator, or equal allocators): [x]
    then holds what [y] held, and the node that [x] owned, with whatever it owned besides [y], is
    leaked, owned by its own member [y]. *)
Theorem C45_swap_leaks {E : Env} (Sh : Shape E) (HA : AllocReq E)
    n F z hz kz q h x kx p y ky (s : store E) (b : bool) :
  holds Sh F s -> F !! z = Some (hz, kz) -> walk s (WVar z) q = Some x -> sub_at_path Sh hz kz q = Some (h, kx) ->
  p <> [] -> walk s x p = Some y -> sub_at_path Sh h kx p = Some (h, ky) ->
  pocs E = true \/ a_eqb E kx.2 ky.2 = true /\ a_eqb E ky.2 kx.2 = true ->
  exists l s', addr s x [] = Some l /\
    run (if b then i_swap (node_impl Sh n h) x y else i_swap (node_impl Sh n h) y x) s = ORet tt s' /\ unreachable s' l /\
    exists BL WL, forest_heap Sh (<[z := (hz, put_at kz q (swap_x kx ky))]> F) (blocks s' ∖ BL) (wraps s' ∖ WL).
Proof.
  intros HF Hz Hwx Hsx Hp Hwy Hsy Hc.
  destruct (swap_leaks Sh HA (nodeTP Sh n) p q F z hz kz h x y kx ky s b HF Hz Hsx Hwx Hp Hsy Hwy Hc)
    as (l & s' & BL & WL & H1 & H2 & _ & H4 & H5 & H6 & H7).
  exists l, s'. split_and!; [done|done| |by exists BL, WL; destruct H7].
  destruct H5 as [b0 Hb]. split; [exists b0; by eapply lookup_weaken|].
  intros v r. eapply (garbage_lost Sh); [done|done|by eexists].
Qed.
Print Assumptions C45_swap_leaks.

(** ** The property as stated is therefore false. *)

Lemma tree_holds {E : Env} (Sh : Shape E) n h x k O :
  fits n k.1 -> shaped_w Sh h k -> holds Sh (<[x := (h, k)]> ∅) (tree_store Sh n h x k O).
Proof.
  intros Hf Hs. destruct (tree_store_ok Sh n h x k O Hf Hs) as (H1 & _).
  unfold holds. rewrite <- (right_id_L ∅ (∪) (blocks _)), <- (right_id_L ∅ (∪) (wraps _)).
  constructor; [done|exact H1|constructor|map_solve|map_solve].
Qed.

(** [x->left = x] for [indirect] does not give [x->left] the value of [x]. *)
Theorem C45_copy_refuted : forall h, header_cls h = Ind -> exists (E : Env) (Sh : Shape E) n (s s' : store E) x y p k k',
  placed_all Sh s /\ wrap_heap Sh h (WVar x) k (blocks s) (wraps s) /\ fits n k.1 /\ p <> [] /\
  CopyValue (E := E) /\ AssignValue (E := E) /\
  walk s (WVar x) p = Some y /\ sub_at_path Sh h k p = Some (h, k') /\
  run (i_copy_assign (node_impl Sh n h) y (WVar x)) s = ORet tt s' /\ ~ equal_trees s' y s (WVar x).
Proof.
  intros h Hh.
  assert (Hf : fits 4 (Some (exT exF 1))) by apply exT_fits.
  assert (Hf8 : fits 8 (Some (exT exF 1))) by (apply (TreeEx.fits_le 4); [lia|exact Hf]).
  destruct (tree_store_ok (exShape exF h) 8 h 0 (Some (exT exF 1), 1) [] Hf8 (exT_shaped exF h 1)) as (H1 & H2 & _).
  set (s := tree_store (exShape exF h) 8 h 0 (Some (exT exF 1), 1) []) in *.
  assert (exists s', run (i_copy_assign (node_impl (exShape exF h) 8 h) (WMem 0 0) (WVar 0)) s = ORet tt s') as [s' Hs'].
  { assert (Ht : match run (i_copy_assign (node_impl (exShape exF h) 8 h) (WMem 0 0) (WVar 0)) s with ORet _ _ => true | _ => false end = true).
    { subst s. destruct h; [by vm_compute|by vm_compute|discriminate Hh|discriminate Hh]. }
    destruct (run _ s) as [[] s'| | |]; [by exists s'|discriminate Ht|discriminate Ht|discriminate Ht]. }
  assert (Hw : walk s (WVar 0) [0] = Some (WMem 0 0)) by (subst s; destruct h; vm_compute; reflexivity).
  assert (Ho : obs s (WVar 0) [] <> obs s (WVar 0) [0]) by (subst s; destruct h; vm_compute; discriminate).
  clearbody s.
  assert (Hsub : sub_at_path (exShape exF h) h (Some (exT exF 1), 1) [0] =
    Some (h, (Some (nd exF 1 2 (Some (nd exF 1 3 None (Some (lf exF 1 4)))) (Some (lf exF 1 5))), 1))) by (destruct h; reflexivity).
  exists (exEnv exF), (exShape exF h), 8, s, s', 0, (WMem 0 0), [0], (Some (exT exF 1), 1). eexists.
  split_and!; [exact H2|exact H1|exact Hf8|discriminate|done|done|exact Hw|exact Hsub|exact Hs'|].
  apply (C45_copy_wrong (exShape exF h) (exShape_req exF h) (exShape_fixed exF h) (ex_alloc exF) 4 8 h (WVar 0) (WMem 0 0) [0] _ _ (blocks s) (wraps s) s
    ltac:(done) ltac:(done) H2 ltac:(discriminate) H1 ltac:(reflexivity) ltac:(reflexivity) Hf ltac:(lia) Hw Hsub) with (u := tt).
  - destruct h; [reflexivity|reflexivity|discriminate Hh|discriminate Hh].
  - exact Ho.
  - exact Hs'.
Qed.
Print Assumptions C45_copy_refuted.

(** ** Examples: the hypotheses hold of the six-node tree and of one with two allocators. *)
Definition exM : tree (exEnv exF) := nd exF 2 1 (Some (nd exF 2 2 (Some (lf exF 2 3)) None)) (Some (lf exF 2 4)).
Example C45_ex_hyps h O :
  let s := tree_store (exShape exF h) 4 h 0 (Some (exT exF 1), 1) O in
  holds (exShape exF h) (<[0 := (h, (Some (exT exF 1), 1))]> ∅) s /\
  walk s (WVar 0) [] = Some (WVar 0) /\ walk s (WVar 0) [0; 0] = Some (WMem 1 0) /\
  sub_at_path (exShape exF h) h (Some (exT exF 1), 1) [0; 0] = Some (h, (Some (nd exF 1 3 None (Some (lf exF 1 4))), 1)) /\
  a_eqb (exEnv exF) 1 1 = true.
Proof.
  intros s. split_and!; [exact (tree_holds (exShape exF h) 4 h 0 (Some (exT exF 1), 1) O (exT_fits exF 1) (exT_shaped exF h 1))|done|by destruct h|by destruct h|done].
Qed.
Example C45_ex_hyps2 h O :
  let s := tree_store (exShape exF h) 4 h 0 (Some exM, 1) O in
  holds (exShape exF h) (<[0 := (h, (Some exM, 1))]> ∅) s /\ fits 4 (Some exM) /\
  walk s (WVar 0) [0] = Some (WMem 0 0) /\ walk s (WVar 0) [0; 0] = Some (WMem 1 0) /\
  sub_at_path (exShape exF h) h (Some exM, 1) [0] = Some (h, (Some (nd exF 2 2 (Some (lf exF 2 3)) None), 2)) /\
  sub_at_path (exShape exF h) h (Some exM, 1) [0; 0] = Some (h, (Some (lf exF 2 3), 2)) /\ a_eqb (exEnv exF) 2 1 = false.
Proof.
  intros s. assert (Hf : fits 4 (Some exM)) by (cbn; by repeat constructor).
  split_and!; [exact (tree_holds (exShape exF h) 4 h 0 (Some exM, 1) O Hf ltac:(cbn; by repeat split))|done|by destruct h..|done].
Qed.

(** The outcomes: the number of blocks afterwards, what [x] is, and what some positions hold. *)
Definition after_up (op : wl -> wl -> header -> prog (exEnv exF) unit) (k : tree (exEnv exF)) h (p : list nat) (look : list (list nat)) :=
  let s := tree_store (exShape exF h) 8 h 0 (Some k, 1) [] in
  match walk s (WVar 0) p with
  | Some y => match run (op y (WVar 0) h) s with
      | ORet _ s' => Some (size (blocks s'), map (obs s' (WVar 0)) look, map (obs s' y) look)
      | _ => None
      end
  | None => None
  end.
Definition up_casg y x h := i_copy_assign (node_impl (exShape exF h) 8 h) y x.
Definition up_masg y x h := i_move_assign (node_impl (exShape exF h) 8 h) y x.
Definition up_swp y x h := i_swap (node_impl (exShape exF h) 8 h) y x.
Definition n1 (v : nat) : option (option (ty * eV (exEnv exF))) := Some (Some (0, v)).
(** [x->left = x]: a copy for [polymorphic]; for [indirect] the new [x->left->left] is a node 1 again. *)
Example C45_ex_copy :
  map (fun h => after_up up_casg (exT exF 1) h [0] [[]; [0]; [1]]) [HPoly20; HPoly14] =
    replicate 2 (Some (8, [n1 1; n1 1; n1 6], [n1 1; n1 2; n1 6])) /\
  map (fun h => after_up up_casg (exT exF 1) h [0] [[]; [0]; [1]]) [HInd20; HInd14] =
    replicate 2 (Some (8, [n1 1; n1 1; n1 6], [n1 1; n1 1; n1 6])).
Proof. by vm_compute. Qed.
(** [x->left = std::move(x)], equal allocators: four of six blocks are freed, [x] is valueless. *)
Example C45_ex_move :
  map (fun h => after_up up_masg (exT exF 1) h [0] [[]; [0]; [1]]) [HInd20; HInd14; HPoly20; HPoly14] =
    replicate 4 (Some (2, [Some None; None; None], [n1 1; n1 1; n1 6])).
Proof. by vm_compute. Qed.
(** Different allocators: [x->left = std::move(x)], then [x->left->left = std::move(x)]. *)
Example C45_ex_move_unequal :
  map (fun h => after_up up_masg exM h [0] [[]; [0]; [0; 0]; [1]]) [HInd20; HInd14; HPoly20; HPoly14] =
    replicate 4 (Some (5, [n1 0; n1 1; n1 2; Some None], [n1 1; n1 2; n1 3; n1 4])) /\
  map (fun h => after_up up_masg exM h [0; 0] [[]; [0]; [0; 0]; [1]]) [HInd20; HInd14; HPoly20; HPoly14] =
    replicate 4 (Some (4, [n1 0; Some None; None; Some None], [n1 1; n1 2; n1 1; n1 4])).
Proof. by vm_compute. Qed.
Example C45_ex_swap :
  map (fun h => after_up up_swp (exT exF 1) h [0] [[]; [0]; [1]]) [HInd20; HInd14; HPoly20; HPoly14] =
    replicate 4 (Some (6, [n1 2; n1 3; n1 5], [n1 1; n1 1; n1 6])).
Proof. by vm_compute. Qed.
