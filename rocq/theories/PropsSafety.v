(** * Safety, ownership and refinement: the theorems.

    Each theorem quantifies over the allocator type and the value type ([E], with the
    allocator requirements [AllocReq E]), over client programs and over everything the
    environment may answer ([O]: which calls throw, which addresses are handed out).
    The statements use only the vocabulary of Lang.v, Client.v, Spec.v/SpecRun.v, OpSpec.v,
    LogSpec.v and the following reading of the store, spelled out first. *)

From stdpp Require Import base gmap list.
From Verif Require Import Lang Common Client Spec SpecRun Rep Effect RunLemmas Refine Headers Hist
  LogSpec LogProof OpSpec Taint Draft OpProps OpProps2 OpProps3 Complete ClientProps Poly14 Ex.

(** ** The vocabulary, in terms of the raw store *)

Theorem owns_meaning {E : Env} (HA : AllocReq E) h (s : store E) x l t v a :
  reachable h s ->
  owns s x l t v a <->
  wraps s !! x = Some (mkW (PLoc l) a) /\ exists b, blocks s !! l = Some b /\ b_obj b = OLive t v.
Proof. intros Hr. by eapply owns_raw, reachable_inv. Qed.

Theorem valueless_meaning {E : Env} (HA : AllocReq E) h (s : store E) x a :
  reachable h s -> valueless_at s x a <-> wraps s !! x = Some (mkW PNull a).
Proof. intros Hr. by eapply valueless_raw, reachable_inv. Qed.

Theorem absent_meaning {E : Env} (HA : AllocReq E) h (s : store E) x :
  reachable h s -> absent s x <-> wraps s !! x = None.
Proof. intros Hr. by eapply absent_raw, reachable_inv. Qed.

(** Every live object is engaged or valueless, never in between. *)
Theorem always_settled {E : Env} (HA : AllocReq E) h (s : store E) x w :
  reachable h s -> wraps s !! x = Some w ->
  (exists l t v, owns s x l t v (w_a w)) \/ valueless_at s x (w_a w).
Proof. intros Hr. by eapply settled, reachable_inv. Qed.

(** The abstract value of an object is what it owns; its address is forgotten. *)
Theorem abs_meaning {E : Env} (HA : AllocReq E) h (s : store E) x t v a :
  reachable h s ->
  (sv (abs s) !! x = Some (Some (t, v), a) <-> exists l, owns s x l t v a) /\
  (sv (abs s) !! x = Some (None, a) <-> valueless_at s x a) /\
  (sv (abs s) !! x = None <-> absent s x).
Proof. intros _. apply abs_raw. Qed.
Print Assumptions owns_meaning.
Print Assumptions always_settled.
Print Assumptions abs_meaning.

(** ** C01 - C04: no undefined behaviour *)

Theorem C01_no_ub {E : Env} (HA : AllocReq E) (c : client E) X O :
  safe code_indirect c (mkSpec ∅ X) ->
  forall u, run_client (indirect20 (flatTP E)) c (init X O) <> HUB u.
Proof. exact (no_ub HA HInd20 c X O). Qed.
Print Assumptions C01_no_ub.

Theorem C02_no_ub {E : Env} (HA : AllocReq E) (c : client E) X O :
  safe code_polymorphic c (mkSpec ∅ X) ->
  forall u, run_client (polymorphic20 (flatTP E)) c (init X O) <> HUB u.
Proof. exact (no_ub HA HPoly20 c X O). Qed.
Print Assumptions C02_no_ub.

Theorem C03_no_ub {E : Env} (HA : AllocReq E) (c : client E) X O :
  safe code_indirect c (mkSpec ∅ X) ->
  forall u, run_client (indirect14 (flatTP E)) c (init X O) <> HUB u.
Proof. exact (no_ub HA HInd14 c X O). Qed.
Print Assumptions C03_no_ub.

(** A client that uses every operation satisfies the hypothesis, for all headers and
    all 64 combinations of traits; and it runs to its end. *)
Example C01_C03_tour h f :
  safe_with (header_cfg h) (adm h) (script (tour (header_cls h) f)) (mkSpec ∅ ∅).
Proof. apply script_safe, tour_ok. Qed.
Example C01_tour_ends :
  finished (run_client (indirect20 (flatTP (exEnv (Fl false true false false true true))))
    (script (tour Ind _)) (init ∅ [])) = true.
Proof. by vm_compute. Qed.

(** Full statement of C04: as C02 for the C++14 header.  It is false: with an
    allocator that propagates on copy assignment, the allocator-extended move constructor
    takes over a block of another allocator's resource. *)
Theorem C04_refuted :
  exists (E : Env) (c : client E) X O, AllocReq E /\ (forall a, a_eqb E a a = true) /\
    safe code_polymorphic c (mkSpec ∅ X) /\
    run_client (polymorphic14 (flatTP E)) c (init X O) = HUB UBWrongAlloc.
Proof.
  set (f := Fl true false false false true false).
  exists (exEnv f),
    (script [ mk (f := f) v0 1 5; OMoveA (E := exEnv f) v1 2 v0; ODestroy v1; ODestroy v0 ]), ∅, [].
  split; [apply ex_alloc|]. split; [intros a; apply Nat.eqb_refl|].
  split; [by apply script_safe; vm_compute|]. by vm_compute.
Qed.
Print Assumptions C04_refuted.

(** What does hold: it is the only deviation that matters.  [move14_ok] excludes exactly moving an
    engaged object with an explicit allocator under POCCA to an unequal allocator;
    [client14] says what the initializer_list constructors really create.
    Missing from the full statement: those moves. *)
Theorem C04_no_ub_partial {E : Env} (HA : AllocReq E) (Hrefl : forall a, a_eqb E a a = true)
    (c : client E) X O :
  safe_with code_polymorphic move14_ok (client14 c) (mkSpec ∅ X) ->
  forall u, run_client (polymorphic14 (flatTP E)) c (init X O) <> HUB u.
Proof. exact (no_ub14 HA Hrefl c X O). Qed.
Print Assumptions C04_no_ub_partial.

(** The exclusion is necessary: from every reachable state, such a move between different memory
    resources makes destroying the new object undefined. *)
Theorem C04_exclusion_necessary {E : Env} (HA : AllocReq E) s x a y l t v ay :
  reachable HPoly14 s -> absent s x -> owns s y l t v ay ->
  pocca E = true -> a_res E a <> a_res E ay ->
  exists s1, run (interp (polymorphic14 (flatTP E)) (OMoveA x a y)) s = ORet ObsUnit s1 /\
    run (interp (polymorphic14 (flatTP E)) (ODestroy x)) s1 = OUB UBWrongAlloc.
Proof. intros Hr. by eapply move14_wrong_alloc, (reachable_inv HA HPoly14). Qed.
Print Assumptions C04_exclusion_necessary.

Example C04_partial_tour f :
  safe_with code_polymorphic move14_ok (client14 (script (tour Poly f))) (mkSpec ∅ ∅) .
Proof. apply tour14. Qed.
Example C04_necessary_case :
  let s := demo_store HPoly14 (Fl true false false false true false) [] in
  reachable HPoly14 s /\ absent s v4 /\ owns s v0 0 0 5 1.
Proof. split; [apply demo_reachable|]. by vm_compute. Qed.

(** ** C05: no leaks *)

Theorem C05_blocks_are_engaged_objects {E : Env} (HA : AllocReq E) h (s : store E) :
  reachable h s ->
  exists D : gset wl, (forall x, x ∈ D <-> exists l a, wraps s !! x = Some (mkW (PLoc l) a)) /\
    size (blocks s) = size D.
Proof. exact (blocks_engaged HA h s). Qed.
Print Assumptions C05_blocks_are_engaged_objects.

Theorem C05_unique_owner {E : Env} (HA : AllocReq E) h (s : store E) l b :
  reachable h s -> blocks s !! l = Some b ->
  exists x a, wraps s !! x = Some (mkW (PLoc l) a) /\
    (exists t v, b_obj b = OLive t v) /\
    forall x' a', wraps s !! x' = Some (mkW (PLoc l) a') -> x' = x.
Proof. exact (unique_owner HA h s l b). Qed.
Print Assumptions C05_unique_owner.

Theorem C05_all_destroyed {E : Env} (HA : AllocReq E) h (s : store E) :
  reachable h s -> wraps s = ∅ -> blocks s = ∅.
Proof. exact (all_destroyed HA h s). Qed.
Print Assumptions C05_all_destroyed.

(** A reachable store with three engaged objects out of four; a reachable store after
    exceptions; and one in which everything has been destroyed. *)
Example C05_demo h f :
  reachable h (demo_store h f []) /\ size (blocks (demo_store h f [])) = 3 /\
  size (wraps (demo_store h f [])) = 4.
Proof. split; [apply demo_reachable|]. by destruct h, f as [[] [] [] [] [] []]; vm_compute. Qed.
Example C05_tour_end h f :
  reachable h (tour_end h f) /\ wraps (tour_end h f) = ∅ /\ 40 <= length (trc (tour_end h f)).
Proof. apply tour_end_ok. Qed.
Example C05_after_exceptions :
  let f := Fl false false false false true false in
  let sc := [mk (f := f) v0 1 5; mk v1 2 6; mk v2 1 7] in
  let r := run_client (header_impl HInd20) (history sc)
             (init ∅ [RespOk 0; RespFail 7; RespFail 8]) in
  reachable HInd20 (final r) /\ outcomes r = [inr 7; inr 8; inl ObsUnit] /\
  size (blocks (final r)) = 1.
Proof.
  split; [|by vm_compute]. apply hist_reachable; by vm_compute.
Qed.

(** ** C06: the log of allocator and value-type calls *)

(** For every deallocation in the log: the block was allocated before, with the same
    type and an allocator of the same resource; it was not allocated again or deallocated in between;
    and what was constructed in it in between was destroyed. *)
Theorem C06_dealloc_matches_alloc {E : Env} h (s : store E) later a b l earlier :
  reachable h s -> trc s = later ++ EvDealloc a b l :: earlier ->
  exists mid a' before, earlier = mid ++ EvAlloc a' b l :: before /\ a_res E a = a_res E a' /\
    count (is_alloc l) mid = 0 /\ count (is_dealloc l) mid = 0 /\
    count (is_cons l) mid = count (is_destroy l) mid.
Proof. exact (log_dealloc h s later a b l earlier). Qed.
Print Assumptions C06_dealloc_matches_alloc.

(** For every destruction: the object was constructed before, as the same type, and not
    constructed again, destroyed, or its block given back in between. *)
Theorem C06_destroy_matches_construct {E : Env} h (s : store E) later a t l earlier :
  reachable h s -> trc s = later ++ EvDestroy a t l :: earlier ->
  exists mid a' x before, earlier = mid ++ EvCons a' t l x :: before /\
    count (is_cons l) mid = 0 /\ count (is_destroy l) mid = 0 /\
    count (is_alloc l) mid = 0 /\ count (is_dealloc l) mid = 0.
Proof. exact (log_destroy h s later a t l earlier). Qed.
Print Assumptions C06_destroy_matches_construct.

(** Construction happens only in a block that is allocated, for that type, and empty. *)
Theorem C06_construct_in_empty_block {E : Env} h (s : store E) later a t l x earlier :
  reachable h s -> trc s = later ++ EvCons a t l x :: earlier ->
  exists mid a' b before, earlier = mid ++ EvAlloc a' b l :: before /\ bty_obj b = t /\
    count (is_dealloc l) mid = 0 /\ count (is_cons l) mid = count (is_destroy l) mid.
Proof. exact (log_cons h s later a t l x earlier). Qed.
Print Assumptions C06_construct_in_empty_block.

(** Assignment is only to a constructed object. *)
Theorem C06_assign_to_object {E : Env} h (s : store E) later t l x earlier :
  reachable h s -> trc s = later ++ EvAsgn t l x :: earlier ->
  exists mid a' x' before, earlier = mid ++ EvCons a' t l x' :: before /\
    count (is_destroy l) mid = 0 /\ count (is_dealloc l) mid = 0.
Proof. exact (log_asgn h s later t l x earlier). Qed.
Print Assumptions C06_assign_to_object.

(** An owned object that something is constructed or assigned from (also if that
    throws) is alive at that moment. *)
Theorem C06_sources_alive {E : Env} h (s : store E) later e earlier c l :
  reachable h s -> trc s = later ++ e :: earlier -> ev_source e = Some (c, l) ->
  exists mid a t x before, earlier = mid ++ EvCons a t l x :: before /\
    count (is_destroy l) mid = 0 /\ count (is_dealloc l) mid = 0.
Proof. exact (log_source h s later e earlier c l). Qed.
Print Assumptions C06_sources_alive.

(** The totals: what was allocated and not given back, and what was constructed and not
    destroyed, are exactly the blocks in existence; per address likewise. *)
Theorem C06_balance {E : Env} (HA : AllocReq E) h (s : store E) :
  reachable h s ->
  count ev_alloc (trc s) = count ev_dealloc (trc s) + size (blocks s) /\
  count ev_cons (trc s) = count ev_destroy (trc s) + size (blocks s) /\
  forall l, count (is_alloc l) (trc s) = count (is_dealloc l) (trc s) + (if blocks s !! l then 1 else 0) /\
    count (is_cons l) (trc s) = count (is_destroy l) (trc s) + (if blocks s !! l then 1 else 0).
Proof. exact (log_balance_all HA h s). Qed.
Print Assumptions C06_balance.

Example C06_demo :
  let f := Fl false false false false true false in
  let s := final (run_client (header_impl HPoly20)
             (script [OValueA (E := exEnv f) v0 2 3 (num 5); ODestroy v0]) (init ∅ [])) in
  reachable HPoly20 s /\
  exists earlier, trc s = [] ++ EvDealloc (E := exEnv f) 2 (BCb 3) 0 :: earlier /\
    count (is_destroy 0) earlier = 1.
Proof.
  split; [apply final_reachable; by vm_compute|]. eexists. split; by vm_compute.
Qed.

(** ** C07, C08: refinement *)

(** Everything a client program does and observes - results, exceptions, and the
    final values - is allowed by the specification with the wording of the draft, for value types
    whose copying from a non-const lvalue is the same as from a const one. *)
Theorem C07_refines {E : Env} (HA : AllocReq E) (HC : CopyReq E) (c : client E) X O :
  safe draft_indirect c (mkSpec ∅ X) ->
  match run_client (indirect20 (flatTP E)) c (init X O) with
  | HOk outs s => spec_run draft_indirect c (mkSpec ∅ X) outs (abs s)
  | HUB _ => False
  | HTerm => spec_term draft_indirect c (mkSpec ∅ X)
  end.
Proof. exact (client_draft HA HC HInd20 c X O). Qed.
Print Assumptions C07_refines.

(** Conversely everything the specification allows can happen. *)
Theorem C07_exact {E : Env} (HA : AllocReq E) (HC : CopyReq E) (c : client E) X outs σ' :
  safe draft_indirect c (mkSpec ∅ X) ->
  (exists O s', run_client (indirect20 (flatTP E)) c (init X O) = HOk outs s' /\ abs s' = σ') <->
  spec_run draft_indirect c (mkSpec ∅ X) outs σ'.
Proof. exact (draft_exact HA HC HInd20 c X outs σ'). Qed.
Print Assumptions C07_exact.

(** For arbitrary value types, with the value categories the code really uses. *)
Theorem C07_exact_any_value_type {E : Env} (HA : AllocReq E) (c : client E) X outs σ' :
  safe code_indirect c (mkSpec ∅ X) ->
  (exists O s', run_client (indirect20 (flatTP E)) c (init X O) = HOk outs s' /\ abs s' = σ') <->
  spec_run code_indirect c (mkSpec ∅ X) outs σ'.
Proof. exact (behaviours_exact HA HInd20 c X outs σ'). Qed.
Print Assumptions C07_exact_any_value_type.

Theorem C08_refines {E : Env} (HA : AllocReq E) (HC : CopyReq E) (c : client E) X O :
  safe draft_polymorphic c (mkSpec ∅ X) ->
  match run_client (polymorphic20 (flatTP E)) c (init X O) with
  | HOk outs s => spec_run draft_polymorphic c (mkSpec ∅ X) outs (abs s)
  | HUB _ => False
  | HTerm => spec_term draft_polymorphic c (mkSpec ∅ X)
  end.
Proof. exact (client_draft HA HC HPoly20 c X O). Qed.
Print Assumptions C08_refines.

Theorem C08_exact {E : Env} (HA : AllocReq E) (HC : CopyReq E) (c : client E) X outs σ' :
  safe draft_polymorphic c (mkSpec ∅ X) ->
  (exists O s', run_client (polymorphic20 (flatTP E)) c (init X O) = HOk outs s' /\ abs s' = σ') <->
  spec_run draft_polymorphic c (mkSpec ∅ X) outs σ'.
Proof. exact (draft_exact HA HC HPoly20 c X outs σ'). Qed.
Print Assumptions C08_exact.

Theorem C08_exact_any_value_type {E : Env} (HA : AllocReq E) (c : client E) X outs σ' :
  safe code_polymorphic c (mkSpec ∅ X) ->
  (exists O s', run_client (polymorphic20 (flatTP E)) c (init X O) = HOk outs s' /\ abs s' = σ') <->
  spec_run code_polymorphic c (mkSpec ∅ X) outs σ'.
Proof. exact (behaviours_exact HA HPoly20 c X outs σ'). Qed.
Print Assumptions C08_exact_any_value_type.

(** If nothing throws, the result is the one computed by the specification. *)
Theorem C07_C08_nothrow {E : Env} (HA : AllocReq E) h (c : client E) X O :
  safe_with (header_cfg h) (adm h) c (mkSpec ∅ X) -> (forall e, RespFail e ∉ O) ->
  exists outs s, run_client (header_impl h) c (init X O) = HOk (inl <$> outs) s /\
    spec_exec (header_cfg h) c (mkSpec ∅ X) = Some (outs, abs s).
Proof. exact (init_nothrow HA h c X O). Qed.
Print Assumptions C07_C08_nothrow.

Example C07_C08_case h f :
  f_nc f = false -> AllocReq (exEnv f) /\ CopyReq (exEnv f) /\
  safe_with (draft_cfg h) (adm h) (script (tour (header_cls h) f)) (mkSpec ∅ ∅).
Proof.
  intros Hf. split; [apply ex_alloc|]. split; [by apply ex_copy|].
  apply (safe_draft (ex_copy f Hf) (header_cfg h)); [apply header_lvalue|]. apply script_safe, tour_ok.
Qed.

(** ** C09: independence *)

Theorem C09_independence {E : Env} (HA : AllocReq E) h (s : store E) o s' w :
  reachable h s -> pre (header_cfg h) o (abs s) = true -> adm h o (abs s) = true ->
  after h s o s' -> w ∉ names o -> same_at s s' w.
Proof. intros Hr. by eapply independence, reachable_inv. Qed.
Print Assumptions C09_independence.

Theorem C09_independence_programs {E : Env} (HA : AllocReq E) h (c : client E) s outs s' w :
  reachable h s -> safe_with (header_cfg h) (adm h) c (abs s) ->
  run_client (header_impl h) c s = HOk outs s' -> client_all (fun o => w ∉ names o) c ->
  same_at s s' w.
Proof. intros Hr. by eapply client_independence, reachable_inv. Qed.
Print Assumptions C09_independence_programs.

(** In particular: an object and its copy do not influence each other. *)
Example C09_case h f :
  let s := demo_store h f [] in
  let s' := final (run_client (header_impl h) (script [OCopy v4 v0; OMutate (E := exEnv f) v4 S; ODestroy v4]) s) in
  reachable h s /\ client_all (fun o => v1 ∉ names o) (script [OCopy v4 v0; OMutate (E := exEnv f) v4 S; ODestroy v4]) /\
  owns s' v1 1 0 6 2.
Proof.
  split; [apply demo_reachable|]. split.
  - simpl. repeat split; try set_solver; intros [|]; simpl; repeat split; try set_solver;
      intros [|]; simpl; repeat split; try set_solver; intros [|]; done.
  - by destruct h, f as [[] [] [] [] [] []]; vm_compute.
Qed.

(** ** C17: valueless only by moving *)

Theorem C17_valueless_only_by_moving {E : Env} (HA : AllocReq E) h (c : client E) X O outs s :
  safe_with (header_cfg h) (adm h) c (mkSpec ∅ X) ->
  run_client (header_impl h) c (init X O) = HOk outs s ->
  forall x a, valueless_at s x a -> x ∈ taint_run c outs ∅.
Proof. exact (valueless_moved HA h c X O outs s). Qed.
Print Assumptions C17_valueless_only_by_moving.

Theorem C17_no_moves_no_valueless {E : Env} (HA : AllocReq E) h (c : client E) X O outs s :
  safe_with (header_cfg h) (adm h) c (mkSpec ∅ X) ->
  client_all (fun o => is_move o = false) c ->
  run_client (header_impl h) c (init X O) = HOk outs s ->
  forall x a, ~ valueless_at s x a.
Proof. exact (never_valueless HA h c X O outs s). Qed.
Print Assumptions C17_no_moves_no_valueless.

Example C17_case h f : valueless_at (demo_store h f []) v3 2.
Proof. by destruct h, f as [[] [] [] [] [] []]; vm_compute. Qed.

(** ** C22: allocators *)

Theorem C22_allocator_after {E : Env} (HA : AllocReq E) h (s : store E) o :
  reachable h s -> pre (header_cfg h) o (abs s) = true -> adm h o (abs s) = true ->
  match run (interp (header_impl h) o) s with
  | ORet _ s' => forall w, get_alloc s' w = alloc_after o (get_alloc s) w
  | OThrow _ s' => forall w, get_alloc s' w = get_alloc s w
  | _ => True
  end.
Proof. intros Hr. by eapply allocator_after, reachable_inv. Qed.
Print Assumptions C22_allocator_after.

Example C22_case h f :
  get_alloc (demo_store h f []) v0 = Some 1 /\ get_alloc (demo_store h f []) v1 = Some 2 /\
  pre (header_cfg h) (OAssignC v0 v1) (abs (demo_store h f [])) = true.
Proof. by destruct h, f as [[] [] [] [] [] []]; vm_compute. Qed.

(** ** C23: storage belongs to the object's allocator *)

(** The address of the object is that of its block, the block has the right type, and it came
    from the memory resource of the allocator the object has now. *)
Theorem C23_storage_resource {E : Env} (HA : AllocReq E) h (s : store E) x l a :
  reachable h s -> wraps s !! x = Some (mkW (PLoc l) a) ->
  exists b t v, blocks s !! l = Some b /\ b_obj b = OLive t v /\ b_ty b = hbty h t /\
    a_res E (b_a b) = a_res E a.
Proof. exact (no_dangling HA h s x l a). Qed.
Print Assumptions C23_storage_resource.

(** For the C++14 [polymorphic] this needs the restriction in [reachable] ([adm]): the same move as in
    C04_refuted leaves an object that owns storage of a foreign resource. *)
Theorem C23_refuted :
  exists (E : Env) (c : client E) X O, AllocReq E /\ safe code_polymorphic c (mkSpec ∅ X) /\
    let s := final (run_client (polymorphic14 (flatTP E)) c (init X O)) in
    finished (run_client (polymorphic14 (flatTP E)) c (init X O)) = true /\
    exists x l a b, wraps s !! x = Some (mkW (PLoc l) a) /\ blocks s !! l = Some b /\
      a_res E (b_a b) <> a_res E a.
Proof.
  set (f := Fl true false false false true false).
  exists (exEnv f), (script [ mk (f := f) v0 1 5; OMoveA (E := exEnv f) v1 2 v0 ]), ∅, [].
  split; [apply ex_alloc|]. split; [by apply script_safe; vm_compute|]. cbv zeta.
  split; [by vm_compute|]. exists v1, 0, 2, (mkB (E := exEnv f) 1 (BCb 0) (HCb 0 (Some 0)) (OLive (E := exEnv f) 0 5)).
  split; [by vm_compute|]. split; [by vm_compute|]. done.
Qed.
Print Assumptions C23_refuted.

Example C23_case h f :
  wraps (demo_store h f []) !! v1 = Some (mkW (E := exEnv f) (PLoc 1) 2).
Proof. by destruct h, f as [[] [] [] [] [] []]; vm_compute. Qed.
