(** * Assignment between trees, and from a part of the assigned-to tree: the theorems.

    For the hypotheses see PropsTree.v.  [walk s x p = Some y]: the wrapper [y] is the one reached
    from [x] along the member numbers [p]; [sub_at_path Sh h k p] gives its header and state. *)

From stdpp Require Import base gmap list.
From Verif Require Import Lang Common Client Spec Rep RunLemmas Headers Hist Draft Tree TreeProps TreeAssign TreeAssignC
  TreeMove TreeMoveAssign TreeSub TreeSubUB TreeComposite TreeObs TreeEx TreeSubMem TreeSubLast TreeAsgObs TreeSubDeep Ex PropsTree.

(** ** C37 continued: assignment between separate trees *)

(** Copy assignment between trees of any shapes and depths: afterwards the source is as before
    and the target holds the same data at every path, in blocks of its own; the memory consists
    of the new tree and everything besides the old one.  If it throws, the target is as it was,
    except that an assignment in place may have assigned some of the members ([casg_failed]);
    again nothing leaks. *)
Theorem C37_assign {E : Env} (Sh : Shape E) (HS : ShapeReq Sh) (HF : Fixed Sh) (HA : AllocReq E)
    n h x y kx ky Bx Wx By Wy (s : store E) :
  placed_all Sh s -> wrap_heap Sh h (WVar x) kx Bx Wx -> wrap_heap Sh h y ky By Wy -> Bx ##ₘ By -> Wx ##ₘ Wy ->
  Bx ⊆ blocks s -> Wx ⊆ wraps s -> By ⊆ blocks s -> Wy ⊆ wraps s -> fits n kx.1 -> fits n ky.1 ->
  match run (i_copy_assign (node_impl Sh n h) (WVar x) y) s with
  | ORet _ s' => exists kx' B' W', wrap_heap Sh h (WVar x) kx' B' W' /\ replaced s s' Bx Wx B' W' /\
      (CopyValue (E := E) -> AssignValue (E := E) -> equal_trees s' (WVar x) s y) /\
      equal_trees s' y s y /\ share_nothing s' (WVar x) y
  | OThrow _ s' => exists kx' B' W', wrap_heap Sh h (WVar x) kx' B' W' /\ replaced s s' Bx Wx B' W' /\ equal_trees s' y s y /\
      casg_failed Sh (header_cls h) kx ky kx' /\ (in_place (header_cls h) kx ky = false -> kx' = kx)
  | _ => False
  end.
Proof.
  intros HP Hx Hy DB DW HBx HWx HBy HWy Hfx Hfy.
  assert (HC := casg_all Sh HS HF HA n h (WVar x) y kx ky Bx Wx By Wy s HP I Hx Hy DB DW HBx HWx HBy HWy Hfx Hfy).
  assert (Hkeep : forall s' k' B' W', wrap_heap Sh h (WVar x) k' B' W' -> replaced s s' Bx Wx B' W' ->
    placed_all Sh s' /\ By ⊆ blocks s' /\ Wy ⊆ wraps s' /\ B' ##ₘ By).
  { intros s' k' B' W' Hk' R. split; [by eapply (placed_all_replaced Sh h (WVar x) kx k' Bx Wx B' W' s s')|].
    destruct (replaced_frame _ _ _ _ _ _ By Wy R DB DW HBy HWy) as (_ & ? & _ & ? & ?). done. }
  assert (Hsrc : forall s', placed_all Sh s' -> By ⊆ blocks s' -> Wy ⊆ wraps s' -> equal_trees s' y s y).
  { intros s' HP' H1 H2 p. rewrite (obs_heap Sh p h y ky By Wy s' HP' Hy H1 H2). by rewrite (obs_heap Sh p h y ky By Wy s HP Hy HBy HWy). }
  destruct (run _ s) as [u s'|e s'| |]; [| |done|done].
  - destruct HC as (B' & W' & Hw & R). destruct (Hkeep _ _ _ _ Hw R) as (HP' & H1 & H2 & D').
    assert (HB' : B' ⊆ blocks s') by (rewrite (rp_b _ _ _ _ _ _ R); clear; map_solve).
    assert (HW' : W' ⊆ wraps s') by (rewrite (rp_w _ _ _ _ _ _ R); clear; map_solve).
    eexists _, B', W'. split_and!; [exact Hw|done| |by apply Hsrc|].
    + intros HV HV' p. rewrite (obs_heap Sh p h (WVar x) _ B' W' s' HP' Hw HB' HW').
      rewrite (obs_heap Sh p h y ky By Wy s HP Hy HBy HWy).
      apply (asg_path Sh HF HV HV' p h kx ky); [by eapply wrap_shaped|by eapply wrap_shaped].
    + intros p q l Hp Hq. apply (addr_heap Sh p h (WVar x) _ B' W' s' l HP' Hw HB' HW') in Hp as [b1 Hp].
      apply (addr_heap Sh q h y ky By Wy s' l HP' Hy H1 H2) in Hq as [b2 Hq]. destruct (dis_at _ _ l D'); congruence.
  - destruct HC as (k' & B' & W' & Hw & _ & R & Hcf). destruct (Hkeep _ _ _ _ Hw R) as (HP' & H1 & H2 & D').
    exists k', B', W'. split_and!; [done|done|by apply Hsrc|done|]. intros Hip. inversion Hcf; subst; congruence.
Qed.
Print Assumptions C37_assign.

(** ** C38: assignment from a part of the assigned-to tree *)

(** Copy assignment from any position [p] of the tree of [x], without propagation, for
    [polymorphic] always and for [indirect] where a copy is made: [x] then holds exactly the
    data the source held, at every path; the memory consists of the new tree and everything
    besides the old one.  If it throws the memory is exactly as before. *)
Theorem C38_copy_made {E : Env} (Sh : Shape E) (HS : ShapeReq Sh) n h x y p kx ky Bx Wx (s : store E) :
  pocca E = false -> placed_all Sh s -> p <> [] -> wrap_heap Sh h (WVar x) kx Bx Wx -> Bx ⊆ blocks s -> Wx ⊆ wraps s ->
  fits n kx.1 -> walk s (WVar x) p = Some y -> sub_at_path Sh h kx p = Some (h, ky) ->
  header_cls h = Poly \/ t_assignable E = false \/ a_eqb E kx.2 ky.2 = false \/ ky.1 = None ->
  match run (i_copy_assign (node_impl Sh n h) (WVar x) y) s with
  | ORet _ s' => (exists B' W', wrap_heap Sh h (WVar x) (copy_as kx.2 ky) B' W' /\ replaced s s' Bx Wx B' W') /\
      (CopyValue (E := E) -> equal_trees s' (WVar x) s y)
  | OThrow _ s' => blocks s' = blocks s /\ wraps s' = wraps s /\ exts s' = exts s
  | _ => False
  end.
Proof.
  intros Hca HP Hp Hx HB HW Hf Hwalk Hsub Hcase.
  destruct (focus Sh p h (WVar x) kx Bx Wx s h ky Hx HW Hsub) as (y' & By & Wy & Hwalk' & Hy & SB & SW & HxWy & _).
  assert (y' = y) as -> by congruence. specialize (HxWy Hp).
  assert (Hxy : WVar x <> y) by (destruct (wrap_in _ _ _ _ _ _ Hy); congruence).
  assert (Hfy := sub_fits _ _ _ _ _ _ _ Hsub Hf).
  assert (HC := sub_copy Sh HS n h (WVar x) y kx ky Bx Wx By Wy s Hca (placed_mem_ok _ _ HP) Hxy Hx Hy SB SW HB HW Hf Hfy Hcase).
  destruct (run _ s) as [u s'|e s'| |]; [| |done|done].
  - destruct HC as (B' & W' & Hw & _ & R). split; [by exists B', W'|]. intros HV q.
    assert (HP' : placed_all Sh s') by (by eapply (placed_all_replaced Sh h (WVar x) kx _ Bx Wx B' W' s s')).
    rewrite (obs_heap Sh q h (WVar x) _ B' W' s' HP' Hw).
    2:{ rewrite (rp_b _ _ _ _ _ _ R). clear. map_solve. }
    2:{ rewrite (rp_w _ _ _ _ _ _ R). clear. map_solve. }
    rewrite (obs_heap Sh q h y ky By Wy s HP Hy); [|by etrans|by etrans]. by apply sub_copy_path.
  - destruct HC as [? ? ?]. done.
Qed.
Print Assumptions C38_copy_made.

(** Copy assignment from any position [p], in every case.  Where [indirect] assigns in place, it
    assigns member by member, and the member that leads to the source is itself assigned from a
    position of its own value, and so on: [descends] lists these members.  The assignment is
    defined exactly if the allocator does not propagate and each of them is the last member of
    its node; then [x] holds what the source held, at every path.  Otherwise the behaviour is
    undefined, unless some operation throws. *)
Theorem C38_copy_assign {E : Env} (Sh : Shape E) (HS : ShapeReq Sh) (HF : Fixed Sh) (HA : AllocReq E)
    n h x y p kx ky Bx Wx (s : store E) :
  placed_all Sh s -> p <> [] -> wrap_heap Sh h (WVar x) kx Bx Wx -> Bx ⊆ blocks s -> Wx ⊆ wraps s ->
  fits n kx.1 -> walk s (WVar x) p = Some y -> sub_at_path Sh h kx p = Some (h, ky) ->
  match run (i_copy_assign (node_impl Sh n h) (WVar x) y) s with
  | ORet _ s' => pocca E = false /\ Forall (is_last Sh) (descends Sh n h kx p) /\
      (exists k' B' W', wrap_heap Sh h (WVar x) (k', kx.2) B' W' /\ replaced s s' Bx Wx B' W') /\
      (CopyValue (E := E) -> AssignValue (E := E) -> equal_trees s' (WVar x) s y)
  | OThrow _ s' => exists k' B' W', wrap_heap Sh h (WVar x) (k', kx.2) B' W' /\ replaced s s' Bx Wx B' W'
  | OUB u => u = UBBadWrapper /\ (pocca E = true \/ ~ Forall (is_last Sh) (descends Sh n h kx p))
  | OTerm => False
  end.
Proof.
  intros HP Hp Hx HB HW Hf Hwalk Hsub.
  assert (HC := deep Sh HS HF HA n p h (WVar x) y kx ky Bx Wx s HP I Hp Hx HB HW Hf Hsub Hwalk).
  destruct (run _ s) as [u s'|e s'|u|]; [|done|done|done].
  destruct HC as (Hca & HL & k' & B' & W' & Hw & R & _ & Hval). split_and!; [done|done|by exists k', B', W'|].
  intros HV HV' q.
  assert (HP' : placed_all Sh s') by (by eapply (placed_all_replaced Sh h (WVar x) kx _ Bx Wx B' W' s s')).
  rewrite (obs_heap Sh q h (WVar x) _ B' W' s' HP' Hw).
  2:{ rewrite (rp_b _ _ _ _ _ _ R). clear. map_solve. }
  2:{ rewrite (rp_w _ _ _ _ _ _ R). clear. map_solve. }
  destruct (focus Sh p h (WVar x) kx Bx Wx s h ky Hx HW Hsub) as (y' & By & Wy & Hwalk' & Hy & SB & SW & _).
  assert (y' = y) as -> by congruence.
  rewrite (obs_heap Sh q h y ky By Wy s HP Hy); [|by etrans|by etrans]. by apply Hval.
Qed.
Print Assumptions C38_copy_assign.

(** In particular: if every class has one member, as a list has, then assignment from any
    position is defined. *)
Theorem C38_copy_assign_list {E : Env} (Sh : Shape E) (HS : ShapeReq Sh) (HF : Fixed Sh) (HA : AllocReq E)
    n h x y p kx ky Bx Wx (s : store E) :
  (forall v, n_kids Sh (tT E) v = 1) -> pocca E = false ->
  placed_all Sh s -> p <> [] -> wrap_heap Sh h (WVar x) kx Bx Wx -> Bx ⊆ blocks s -> Wx ⊆ wraps s ->
  fits n kx.1 -> walk s (WVar x) p = Some y -> sub_at_path Sh h kx p = Some (h, ky) ->
  match run (i_copy_assign (node_impl Sh n h) (WVar x) y) s with
  | ORet _ s' => CopyValue (E := E) -> AssignValue (E := E) -> equal_trees s' (WVar x) s y
  | OThrow _ _ => True
  | _ => False
  end.
Proof.
  intros H1 Hca HP Hp Hx HB HW Hf Hwalk Hsub.
  assert (HC := C38_copy_assign Sh HS HF HA n h x y p kx ky Bx Wx s HP Hp Hx HB HW Hf Hwalk Hsub).
  destruct (run _ s) as [u s'|e s'|u|]; [by destruct HC as (_ & _ & _ & HC)|done| |done].
  destruct HC as [_ [HC|HC]]; [congruence|]. apply HC.
  assert (Hz := descends_members Sh HF n h kx p Bx Wx (WVar x) Hx).
  eapply Forall_impl; [exact Hz|]. intros i Hi v. specialize (Hi v). rewrite H1 in *. lia.
Qed.
Print Assumptions C38_copy_assign_list.

(** [x = x->m] for [indirect], whatever is assigned in place and whatever is copied, where [m]
    is the last (or only) member, as in popping the head of a list. *)
Theorem C38_copy_last_member {E : Env} (Sh : Shape E) (HS : ShapeReq Sh) (HF : Fixed Sh) (HA : AllocReq E)
    n h x a t v ds k l B W (s : store E) :
  pocca E = false -> header_cls h = Ind -> k_hdr Sh (tT E) (length ds) = h ->
  placed_all Sh s -> wrap_heap Sh h (WVar x) (Some (TNode t v (ds ++ [k])), a) B W ->
  B ⊆ blocks s -> W ⊆ wraps s -> fits n (Some (TNode t v (ds ++ [k]))) ->
  wraps s !! WVar x = Some (mkW (PLoc l) a) ->
  match run (i_copy_assign (node_impl Sh n h) (WVar x) (WMem l (length ds))) s with
  | ORet _ s' => (exists k' B' W', wrap_heap Sh h (WVar x) (k', a) B' W' /\ replaced s s' B W B' W') /\
      (CopyValue (E := E) -> AssignValue (E := E) -> equal_trees s' (WVar x) s (WMem l (length ds)))
  | OThrow _ s' => exists k' B' W', wrap_heap Sh h (WVar x) (k', a) B' W' /\ replaced s s' B W B' W'
  | _ => False
  end.
Proof.
  intros Hca Hc Hh HP Hx HB HW Hf Hxs.
  assert (HC := pop_ok Sh HS HF HA h Hc n (WVar x) a t v ds k l B W s Hca Hh HP I Hx HB HW Hf Hxs).
  destruct (run _ s) as [u s'|e s'| |]; [| |done|done].
  - destruct HC as (B' & W' & Hw & R). split; [by eexists _, B', W'|]. intros HV HV' p.
    assert (HP' : placed_all Sh s').
    { by eapply (placed_all_replaced Sh h (WVar x) _ _ B W B' W' s s'). }
    rewrite (obs_heap Sh p h (WVar x) _ B' W' s' HP' Hw).
    2:{ rewrite (rp_b _ _ _ _ _ _ R). clear. map_solve. }
    2:{ rewrite (rp_w _ _ _ _ _ _ R). clear. map_solve. }
    assert (Ht : t = tT E).
    { apply wrap_inv in Hx as (? & ? & ? & ? & _ & _ & _ & _ & Hok & _). by apply Hok. }
    destruct (focus Sh [length ds] h (WVar x) _ B W s h k Hx HW) as (y & By & Wy & Hwalk & Hy & SB & SW & _).
    { cbn. rewrite lookup_app_r, Nat.sub_diag by done. cbn. by rewrite Ht, Hh. }
    cbn in Hwalk. rewrite Hxs in Hwalk. injection Hwalk as <-.
    rewrite (obs_heap Sh p h (WMem l (length ds)) k By Wy s HP Hy); [|by etrans|by etrans].
    apply pop_path; [done|done|done|done|done|]. by eapply wrap_shaped.
  - destruct HC as ([k' a'] & B' & W' & Hw & Ha & R). cbn in Ha. subst a'. by exists k', B', W'.
Qed.
Print Assumptions C38_copy_last_member.

(** [x = x->m] for [indirect], assigned in place (assignable value type, equal allocators),
    where another member follows [m], or the allocator propagates: unless some operation
    throws, the behaviour is undefined, for all trees.  (A member of the node that [m] owned
    is read after that node's destruction.) *)
Theorem C38_copy_member_undefined {E : Env} (Sh : Shape E) (HS : ShapeReq Sh) (HF : Fixed Sh) (HA : AllocReq E)
    n h x a v ds es T ak l B W (s : store E) :
  header_cls h = Ind -> t_assignable E = true -> k_hdr Sh (tT E) (length ds) = h -> es <> [] \/ pocca E = true ->
  placed_all Sh s -> wrap_heap Sh h (WVar x) (Some (TNode (tT E) v (ds ++ (Some T, ak) :: es)), a) B W ->
  B ⊆ blocks s -> W ⊆ wraps s -> fits n (Some (TNode (tT E) v (ds ++ (Some T, ak) :: es))) ->
  wraps s !! WVar x = Some (mkW (PLoc l) a) -> a_eqb E a ak = true ->
  match run (i_copy_assign (node_impl Sh n h) (WVar x) (WMem l (length ds))) s with
  | OUB u => u = UBBadWrapper
  | OThrow _ _ => True
  | _ => False
  end.
Proof. intros Hc Hasg Hh He HP Hx. by apply (pop_ub Sh HS HF HA h Hc n (WVar x) a v ds es T ak l B W s). Qed.
Print Assumptions C38_copy_member_undefined.

(** With a propagating allocator, where a copy is made: likewise for every position. *)
Theorem C38_copy_propagating_undefined {E : Env} (Sh : Shape E) (HS : ShapeReq Sh) n h x y p kx ky Bx Wx (s : store E) :
  pocca E = true -> placed_all Sh s -> p <> [] -> wrap_heap Sh h (WVar x) kx Bx Wx -> Bx ⊆ blocks s -> Wx ⊆ wraps s ->
  fits n kx.1 -> walk s (WVar x) p = Some y -> sub_at_path Sh h kx p = Some (h, ky) ->
  header_cls h = Poly \/ t_assignable E = false \/ a_eqb E kx.2 ky.2 = false \/ ky.1 = None ->
  match run (i_copy_assign (node_impl Sh n h) (WVar x) y) s with
  | OUB u => u = UBBadWrapper
  | OThrow _ s' => blocks s' = blocks s /\ wraps s' = wraps s /\ exts s' = exts s
  | _ => False
  end.
Proof.
  intros Hca HP Hp Hx HB HW Hf Hwalk Hsub Hcase.
  destruct (focus Sh p h (WVar x) kx Bx Wx s h ky Hx HW Hsub) as (y' & By & Wy & Hwalk' & Hy & SB & SW & HxWy & _).
  assert (y' = y) as -> by congruence. specialize (HxWy Hp).
  assert (Hxy : WVar x <> y) by (destruct (wrap_in _ _ _ _ _ _ Hy); congruence).
  assert (Hfy := sub_fits _ _ _ _ _ _ _ Hsub Hf).
  assert (HC := sub_copy_ub Sh HS n h (WVar x) y kx ky Bx Wx By Wy s Hca (placed_mem_ok _ _ HP) Hxy Hx Hy SB SW HB HW Hf Hfy Hcase).
  destruct (run _ s) as [u s'|e s'| |]; [done| |done|done]. destruct HC as [? ? ?]. done.
Qed.
Print Assumptions C38_copy_propagating_undefined.

(** Move assignment from any position, without propagation, between different allocators or
    from a valueless wrapper: [x] then holds the data the source held. *)
Theorem C38_move_unequal {E : Env} (Sh : Shape E) (HS : ShapeReq Sh) (HA : AllocReq E) (Hrefl : forall a, a_eqb E a a = true)
    n h x y p kx ky Bx Wx (s : store E) :
  pocma E = false -> placed_all Sh s -> p <> [] -> wrap_heap Sh h (WVar x) kx Bx Wx -> Bx ⊆ blocks s -> Wx ⊆ wraps s ->
  fits n kx.1 -> walk s (WVar x) p = Some y -> sub_at_path Sh h kx p = Some (h, ky) ->
  a_eqb E kx.2 ky.2 = false \/ ky.1 = None ->
  match run (i_move_assign (node_impl Sh n h) (WVar x) y) s with
  | ORet _ s' => (exists B' W', wrap_heap Sh h (WVar x) (moved_to kx.2 <$> ky.1, kx.2) B' W' /\ replaced s s' Bx Wx B' W') /\
      (MoveValue (E := E) -> equal_trees s' (WVar x) s y)
  | OThrow _ s' => exists k' B' W', wrap_heap Sh h (WVar x) (k', kx.2) B' W' /\ replaced s s' Bx Wx B' W'
  | _ => False
  end.
Proof.
  intros Hma HP Hp Hx HB HW Hf Hwalk Hsub Hcase.
  destruct (focus Sh p h (WVar x) kx Bx Wx s h ky Hx HW Hsub) as (y' & By & Wy & Hwalk' & Hy & SB & SW & _ & _).
  assert (y' = y) as -> by congruence.
  assert (HC := sub_move Sh HS HA Hrefl n p h (WVar x) y kx ky Bx Wx s Hma (placed_mem_ok _ _ HP) Hp Hx Hsub Hwalk HB HW Hf Hcase).
  destruct (run _ s) as [u s'|e s'| |]; [| |done|done].
  - destruct HC as (B' & W' & Hw & R). split; [by exists B', W'|]. intros HV q.
    assert (HP' : placed_all Sh s') by (by eapply (placed_all_replaced Sh h (WVar x) kx _ Bx Wx B' W' s s')).
    rewrite (obs_heap Sh q h (WVar x) _ B' W' s' HP' Hw).
    2:{ rewrite (rp_b _ _ _ _ _ _ R). clear. map_solve. }
    2:{ rewrite (rp_w _ _ _ _ _ _ R). clear. map_solve. }
    rewrite (obs_heap Sh q h y ky By Wy s HP Hy); [|by etrans|by etrans].
    destruct ky as [[T|] ak]; [by apply moved_path|by destruct q].
  - destruct HC as ([k' a'] & B' & W' & Hw & Ha & R). cbn in Ha. subst a'. by exists k', B', W'.
Qed.
Print Assumptions C38_move_unequal.

(** Move assignment between equal allocators (in particular with the standard allocator) from
    a wrapper at any position of the tree that has a value: undefined behaviour, for all trees
    and headers, whatever the environment does. *)
Theorem C38_move_undefined {E : Env} (Sh : Shape E) n h x y p kx T ay Bx Wx (s : store E) :
  p <> [] -> wrap_heap Sh h (WVar x) kx Bx Wx -> Bx ⊆ blocks s -> Wx ⊆ wraps s -> fits n kx.1 ->
  walk s (WVar x) p = Some y -> sub_at_path Sh h kx p = Some (h, (Some T, ay)) -> a_eqb E kx.2 ay = true ->
  run (i_move_assign (node_impl Sh n h) (WVar x) y) s = OUB UBBadObj.
Proof. intros Hp Hx HB HW Hf Hwalk Hsub Ha. by eapply sub_move_ub. Qed.
Print Assumptions C38_move_undefined.

(** With a propagating allocator, between different allocators or from a valueless wrapper:
    undefined behaviour likewise; or, where moving the value throws, termination, move
    assignment being [noexcept] then. *)
Theorem C38_move_propagating_undefined {E : Env} (Sh : Shape E) (HS : ShapeReq Sh) (Hrefl : forall a, a_eqb E a a = true)
    n h x y p kx ky Bx Wx (s : store E) :
  pocma E = true -> placed_all Sh s -> p <> [] -> wrap_heap Sh h (WVar x) kx Bx Wx -> Bx ⊆ blocks s -> Wx ⊆ wraps s ->
  fits n kx.1 -> walk s (WVar x) p = Some y -> sub_at_path Sh h kx p = Some (h, ky) ->
  a_eqb E kx.2 ky.2 = false \/ ky.1 = None ->
  match run (i_move_assign (node_impl Sh n h) (WVar x) y) s with
  | OUB u => u = UBBadWrapper
  | OTerm => ky.1 <> None
  | _ => False
  end.
Proof. intros Hma HP Hp Hx HB HW Hf Hwalk Hsub Hcase. exact (sub_move_propagating_ub Sh HS Hrefl n p h (WVar x) y kx ky Bx Wx s Hma (placed_mem_ok _ _ HP) Hp Hx Hsub Hwalk HB HW Hf Hcase). Qed.
Print Assumptions C38_move_propagating_undefined.

(** The property as stated is therefore false: for every header there are a valid tree and a
    position from which moving is undefined, and for the [indirect] headers one from which
    copying is. *)
Theorem C38_move_refuted : forall h, exists (E : Env) (Sh : Shape E) n (s : store E) x y p k k',
  placed_all Sh s /\ wrap_heap Sh h (WVar x) k (blocks s) (wraps s) /\ fits n k.1 /\ p <> [] /\
  walk s (WVar x) p = Some y /\ sub_at_path Sh h k p = Some (h, k') /\
  (forall u s', run (i_move_assign (node_impl Sh n h) (WVar x) y) s <> ORet u s') /\
  (exists u, run (i_move_assign (node_impl Sh n h) (WVar x) y) s = OUB u).
Proof.
  intros h. exists (exEnv exF), (exShape exF h), 4, (tree_store (exShape exF h) 4 h 0 (Some (exT exF 1), 1) []), 0, (WMem 0 0), [0],
    (Some (exT exF 1), 1). eexists.
  destruct (tree_store_ok (exShape exF h) 4 h 0 (Some (exT exF 1), 1) [] (exT_fits exF 1) (exT_shaped exF h 1)) as (H1 & H2 & _).
  split_and!; [done|done|apply exT_fits|done|by destruct h|done| |].
  - intros u s'. by destruct h; vm_compute.
  - exists UBBadObj. by destruct h; vm_compute.
Qed.
Print Assumptions C38_move_refuted.

Theorem C38_copy_refuted : forall h, header_cls h = Ind -> exists (E : Env) (Sh : Shape E) n (s : store E) x y p k k',
  placed_all Sh s /\ wrap_heap Sh h (WVar x) k (blocks s) (wraps s) /\ fits n k.1 /\ p <> [] /\ pocca E = false /\
  walk s (WVar x) p = Some y /\ sub_at_path Sh h k p = Some (h, k') /\
  (exists u, run (i_copy_assign (node_impl Sh n h) (WVar x) y) s = OUB u).
Proof.
  intros h Hh. exists (exEnv exF), (exShape exF h), 4, (tree_store (exShape exF h) 4 h 0 (Some (exT exF 1), 1) []), 0, (WMem 0 0), [0],
    (Some (exT exF 1), 1). eexists.
  destruct (tree_store_ok (exShape exF h) 4 h 0 (Some (exT exF 1), 1) [] (exT_fits exF 1) (exT_shaped exF h 1)) as (H1 & H2 & _).
  split_and!; [done|done|apply exT_fits|done|done|by destruct h|done|].
  exists UBBadWrapper. destruct h; [by vm_compute|by vm_compute|discriminate Hh|discriminate Hh].
Qed.
Print Assumptions C38_copy_refuted.

(** The positive theorems' hypotheses hold of the six-node tree: for the polymorphic headers at
    position [0; 0], and for the indirect headers at the last member; and the runs succeed. *)
Definition after_copy f h (a : nat) (p : list nat) (O : list resp) : option (list (option (option (ty * nat)))) :=
  let s := tree_store (exShape f h) 4 h 0 (Some (exT f a), a) O in
  match walk s (WVar 0) p with
  | Some y => match run (i_copy_assign (node_impl (exShape f h) 4 h) (WVar 0) y) s with
      | ORet _ s' => Some (map (obs s' (WVar 0)) [[]; [0]; [1]; [1; 0]])
      | _ => None
      end
  | None => None
  end.
Example C38_ex_copy :
  map (fun h => after_copy exF h 1 [0] []) [HPoly20; HPoly14] =
    replicate 2 (Some [Some (Some (0, 2)); Some (Some (0, 3)); Some (Some (0, 5)); Some None]) /\
  map (fun h => after_copy exF h 1 [0; 0] []) [HPoly20; HPoly14] =
    replicate 2 (Some [Some (Some (0, 3)); Some None; Some (Some (0, 4)); Some None]) /\
  map (fun h => after_copy exF h 1 [1] []) [HInd20; HInd14; HPoly20; HPoly14] =
    replicate 4 (Some [Some (Some (0, 6)); Some None; Some None; None]).
Proof. by vm_compute. Qed.
Example C38_ex_values : CopyValue (E := exEnv exF) /\ AssignValue (E := exEnv exF) /\ MoveValue (E := exEnv exF).
Proof. done. Qed.
Example C38_ex_hyps h O :
  let s := tree_store (exShape exF h) 4 h 0 (Some (exT exF 1), 1) O in
  placed_all (exShape exF h) s /\ wrap_heap (exShape exF h) h (WVar 0) (Some (exT exF 1), 1) (blocks s) (wraps s) /\
  exT exF 1 = TNode (E := exEnv exF) (tT (exEnv exF)) 1 ([(Some (nd exF 1 2 (Some (nd exF 1 3 None (Some (lf exF 1 4)))) (Some (lf exF 1 5))), 1)] ++ [(Some (lf exF 1 6), 1)]) /\
  wraps s !! WVar 0 = Some (mkW (E := exEnv exF) (PLoc 0) 1) /\ k_hdr (exShape exF h) (tT (exEnv exF)) 1 = h /\
  walk s (WVar 0) [0; 0] = Some (WMem 1 0) /\
  sub_at_path (exShape exF h) h (Some (exT exF 1), 1) [0; 0] = Some (h, (Some (nd exF 1 3 None (Some (lf exF 1 4))), 1)) /\
  pocca (exEnv exF) = false.
Proof.
  destruct (tree_store_ok (exShape exF h) 4 h 0 (Some (exT exF 1), 1) O (exT_fits exF 1) (exT_shaped exF h 1)) as (H1 & H2 & _).
  split_and!; [done|done|done|by destruct h|done|by destruct h|done|done].
Qed.
(** Moving between different allocators: a tree whose root uses allocator 1 and whose other
    members use allocator 2. *)
Definition exMix : option (tree (exEnv exF)) * nat :=
  (Some (TNode (E := exEnv exF) 0 1 [(Some (exT exF 2), 2); (None, 2)]), 1).
Example C38_ex_move h :
  let s := tree_store (exShape exF h) 5 h 0 exMix [] in
  placed_all (exShape exF h) s /\ wrap_heap (exShape exF h) h (WVar 0) exMix (blocks s) (wraps s) /\ fits 5 exMix.1 /\
  walk s (WVar 0) [0] = Some (WMem 0 0) /\ sub_at_path (exShape exF h) h exMix [0] = Some (h, (Some (exT exF 2), 2)) /\
  a_eqb (exEnv exF) 1 2 = false /\
  match run (i_move_assign (node_impl (exShape exF h) 5 h) (WVar 0) (WMem 0 0)) s with
  | ORet _ s' => map (obs s' (WVar 0)) [[]; [0]; [0; 0; 1]] = map (fun v => Some (Some (0, v))) [1; 2; 4]
  | _ => False
  end.
Proof.
  assert (Hs : shaped_w (exShape exF h) h exMix) by (cbn; repeat split; done).
  assert (Hf : fits 5 exMix.1) by (cbn; repeat constructor).
  destruct (tree_store_ok (exShape exF h) 5 h 0 exMix [] Hf Hs) as (H1 & H2 & _).
  split_and!; [done|done|done|by destruct h|done|done|by destruct h; vm_compute].
Qed.
(** Copying from position [1; 0] of two trees: in the first the assignment descends through member
    1 only, which is the last; in the second through member 1 and then member 0. *)
Definition exDeep1 : option (tree (exEnv exF)) * nat :=
  (Some (nd exF 1 1 (Some (lf exF 1 2)) (Some (nd exF 1 3 (Some (nd exF 1 4 (Some (lf exF 1 5)) None)) (Some (lf exF 1 6))))), 1).
Definition exDeep2 : option (tree (exEnv exF)) * nat :=
  (Some (nd exF 1 1 (Some (lf exF 1 2)) (Some (nd exF 1 3 (Some (nd exF 1 4 (Some (lf exF 1 5)) (Some (lf exF 1 7)))) (Some (lf exF 1 6))))), 1).
Example C38_ex_deep h :
  Forall (fun k =>
    let s := tree_store (exShape exF h) 4 h 0 k [] in
    placed_all (exShape exF h) s /\ wrap_heap (exShape exF h) h (WVar 0) k (blocks s) (wraps s) /\ fits 4 k.1 /\
    (exists y ky, walk s (WVar 0) [1; 0] = Some y /\ sub_at_path (exShape exF h) h k [1; 0] = Some (h, ky))) [exDeep1; exDeep2].
Proof.
  assert (Hs1 : shaped_w (exShape exF h) h exDeep1) by (cbn; repeat split; done).
  assert (Hs2 : shaped_w (exShape exF h) h exDeep2) by (cbn; repeat split; done).
  assert (Hf1 : fits 4 exDeep1.1) by (cbn; repeat constructor).
  assert (Hf2 : fits 4 exDeep2.1) by (cbn; repeat constructor).
  destruct (tree_store_ok (exShape exF h) 4 h 0 exDeep1 [] Hf1 Hs1) as (H1 & H2 & _).
  destruct (tree_store_ok (exShape exF h) 4 h 0 exDeep2 [] Hf2 Hs2) as (H3 & H4 & _).
  apply Forall_cons; split; [|apply Forall_cons; split; [|by apply Forall_nil]];
    (split_and!; [done|done|done|]); eexists _, _; (split; [|done]); by destruct h.
Qed.
Example C38_ex_descends :
  map (fun h => descends (exShape exF h) 4 h exDeep1 [1; 0]) [HInd20; HInd14; HPoly20; HPoly14] = [[1]; [1]; []; []] /\
  map (fun h => descends (exShape exF h) 4 h exDeep2 [1; 0]) [HInd20; HInd14; HPoly20; HPoly14] = [[1; 0]; [1; 0]; []; []] /\
  (forall h, is_last (exShape exF h) 1) /\ forall h, ~ is_last (exShape exF h) 0.
Proof. split_and!; [done|done|done|]. intros h HX. by specialize (HX 0). Qed.
Definition deep_copy (k : option (tree (exEnv exF)) * nat) h : nat + list (option (option (ty * nat))) :=
  match run (i_copy_assign (node_impl (exShape exF h) 4 h) (WVar 0) (WMem 2 0)) (tree_store (exShape exF h) 4 h 0 k []) with
  | ORet _ s' => inr (map (obs s' (WVar 0)) [[]; [0]; [1]])
  | OUB UBBadWrapper => inl 0
  | _ => inl 1
  end.
Example C38_ex_deep_runs :
  map (fun h => walk (tree_store (exShape exF h) 4 h 0 exDeep1 []) (WVar 0) [1; 0]) [HInd20; HInd14; HPoly20; HPoly14] =
    replicate 4 (Some (WMem 2 0)) /\
  map (deep_copy exDeep1) [HInd20; HInd14; HPoly20; HPoly14] =
    replicate 4 (inr [Some (Some (0, 4)); Some (Some (0, 5)); Some None]) /\
  map (deep_copy exDeep2) [HInd20; HInd14; HPoly20; HPoly14] =
    replicate 2 (inl 0) ++ replicate 2 (inr [Some (Some (0, 4)); Some (Some (0, 5)); Some (Some (0, 7))]).
Proof. by vm_compute. Qed.

(** Moving with a propagating allocator: undefined, or terminated if the first allocation fails. *)
Definition exFM := Fl false true false false true false.
Definition exMixM : option (tree (exEnv exFM)) * nat :=
  (Some (TNode (E := exEnv exFM) 0 1 [(Some (exT exFM 2), 2); (None, 2)]), 1).
Example C38_ex_move_propagating h O :
  let s := tree_store (exShape exFM h) 5 h 0 exMixM O in
  pocma (exEnv exFM) = true /\ placed_all (exShape exFM h) s /\
  wrap_heap (exShape exFM h) h (WVar 0) exMixM (blocks s) (wraps s) /\ fits 5 exMixM.1 /\
  walk s (WVar 0) [0] = Some (WMem 0 0) /\ sub_at_path (exShape exFM h) h exMixM [0] = Some (h, (Some (exT exFM 2), 2)) /\
  a_eqb (exEnv exFM) 1 2 = false.
Proof.
  assert (Hs : shaped_w (exShape exFM h) h exMixM) by (cbn; repeat split; done).
  assert (Hf : fits 5 exMixM.1) by (cbn; repeat constructor).
  destruct (tree_store_ok (exShape exFM h) 5 h 0 exMixM O Hf Hs) as (H1 & H2 & _).
  split_and!; [done|done|done|done|by destruct h|done|done].
Qed.
Example C38_ex_move_propagating_runs :
  map (fun h => run (i_move_assign (node_impl (exShape exFM h) 5 h) (WVar 0) (WMem 0 0)) (tree_store (exShape exFM h) 5 h 0 exMixM []))
    [HInd20; HInd14; HPoly20; HPoly14] = replicate 4 (OUB UBBadWrapper).
Proof. by vm_compute. Qed.
