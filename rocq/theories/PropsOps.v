(** * The operations one by one: the theorems.

    All of them hold for each of the four headers ([h]), from every reachable state, for
    every allocator type, value type and behaviour of the environment. *)

From stdpp Require Import base gmap list.
From Verif Require Import Lang Common Client Spec SpecRun Rep Effect RunLemmas Refine Headers Hist
  LogSpec LogProof OpSpec Taint Draft OpProps OpProps2 OpProps3 OpProps4 Complete ClientProps Poly14 Ex.

(** The reachable states used in the examples: [v0] owns 5 at 0 with allocator 1, [v1] owns 6 at 1 with
    allocator 2, [v2] owns 7 at 2 with allocator 1, [v3] is valueless with allocator 2. *)
Example demo_state h f O :
  reachable h (demo_store h f O) /\
  owns (demo_store h f O) v0 0 0 5 1 /\ owns (demo_store h f O) v1 1 0 6 2 /\
  owns (demo_store h f O) v2 2 0 7 1 /\ valueless_at (demo_store h f O) v3 2 /\
  absent (demo_store h f O) v4.
Proof.
  split; [apply demo_reachable|]. by destruct h, f as [[] [] [] [] [] []]; vm_compute.
Qed.

(** ** C10: copy construction *)

Theorem C10_copy_valueless {E : Env} (HA : AllocReq E) h (s : store E) o x y a ay :
  reachable h s -> copies_with s o x y a -> absent s x -> valueless_at s y ay ->
  exists s', run (interp (header_impl h) o) s = ORet ObsUnit s' /\
    view s' = <[x := (None, a)]> (view s) /\ exts s' = exts s /\ no_calls s s'.
Proof. intros Hr. by eapply copy_valueless, reachable_inv. Qed.
Print Assumptions C10_copy_valueless.

Theorem C10_copy_engaged {E : Env} (HA : AllocReq E) h (s : store E) o x y a l t v ay :
  reachable h s -> copies_with s o x y a -> absent s x -> owns s y l t v ay ->
  match run (interp (header_impl h) o) s with
  | ORet r s' =>
      exists l', blocks s !! l' = None /\ l' <> l /\
        owns s' x l' t (t_cons E (hcc h) t t a v).1 a /\
        owns s' y l t (if is_constl (hcc h) then v else (t_cons E (hcc h) t t a v).2) ay /\
        (forall w, w <> x -> w <> y -> same_at s s' w) /\ exts s' = exts s /\
        trc s' = EvCons a t l' (ARef (hcc h) (RBlk l)) :: EvAlloc a (hbty h t) l' :: trc s
  | OThrow e s' =>
      RespFail e ∈ orc s /\ absent s' x /\
      (forall w, w <> y -> same_at s s' w) /\
      (same_at s s' y \/
       owns s' y l t (if is_constl (hcc h) then v else t_cons_fail E (hcc h) t t v) ay)
  | OUB _ | OTerm => False
  end.
Proof. intros Hr. by eapply copy_engaged, reachable_inv. Qed.
Print Assumptions C10_copy_engaged.

Example C10_case h f :
  copies_with (demo_store h f []) (OCopy v4 v0) v4 v0 11 /\
  copies_with (demo_store h f []) (OCopyA (E := exEnv f) v4 2 v0) v4 v0 2 /\
  owns (after1 (header_impl h) (OCopy v4 v0) (demo_store h f [])) v4 3 0 5 11.
Proof.
  split_and!.
  - left. split; [done|]. exists (Some (0, 0, 5)), 1. split; [apply (demo_state h f [])|done].
  - by right.
  - by destruct h, f as [[] [] [] [] [] []]; vm_compute.
Qed.

(** ** C11: move construction *)

Theorem C11_move_steals {E : Env} (HA : AllocReq E) h (s : store E) o x y a oy ay :
  reachable h s -> moves_with s o x y a -> absent s x -> view s !! y = Some (oy, ay) ->
  always_equal E || a_eqb E a ay = true ->
  exists s', run (interp (header_impl h) o) s = ORet ObsUnit s' /\
    view s' = <[x := (oy, a)]> (<[y := (None, ay)]> (view s)) /\
    exts s' = exts s /\ no_calls s s'.
Proof. intros Hr. by eapply move_steals, reachable_inv. Qed.
Print Assumptions C11_move_steals.

(** Spelled out: the same object at the same address has a new owner. *)
Theorem C11_same_address {E : Env} (HA : AllocReq E) h (s : store E) x y l t v ay :
  reachable h s -> absent s x -> owns s y l t v ay -> a_eqb E ay ay = true ->
  exists s', run (interp (header_impl h) (OMove x y)) s = ORet ObsUnit s' /\
    owns s' x l t v ay /\ valueless_at s' y ay /\
    (forall w, w <> x -> w <> y -> same_at s s' w) /\ no_calls s s'.
Proof. intros Hr. by eapply move_plain, reachable_inv. Qed.
Print Assumptions C11_same_address.

Example C11_case h f :
  moves_with (demo_store h f []) (OMove v4 v0) v4 v0 1 /\
  always_equal (exEnv f) || a_eqb (exEnv f) 1 1 = true /\
  owns (after1 (header_impl h) (OMove v4 v0) (demo_store h f [])) v4 0 0 5 1.
Proof.
  split_and!.
  - left. split; [done|]. exists (Some (0, 0, 5)). apply (demo_state h f []).
  - by destruct f as [[] [] [] [] [] []].
  - by destruct h, f as [[] [] [] [] [] []]; vm_compute.
Qed.

(** ** C12: the source of an allocator-extended move *)

(** The claim "the source is valueless afterwards" fails for every header. *)
Theorem C12_refuted h :
  exists (E : Env) (s : store E) x a y s' ay, AllocReq E /\ reachable h s /\
    run (interp (header_impl h) (OMoveA x a y)) s = ORet ObsUnit s' /\
    adm h (OMoveA x a y) (abs s) = true /\ ~ valueless_at s' y ay /\ get_alloc s' y = Some ay.
Proof.
  set (f := Fl false false false false true false).
  exists (exEnv f), (demo_store h f []), v4, 2, v0,
    (after1 (header_impl h) (OMoveA (E := exEnv f) v4 2 v0) (demo_store h f [])), 1.
  split; [apply ex_alloc|]. split; [apply demo_reachable|].
  split; [apply run_after1; by destruct h; vm_compute|]. split; [by destruct h; vm_compute|].
  split; [|by destruct h; vm_compute].
  unfold valueless_at. by destruct h; vm_compute.
Qed.
Print Assumptions C12_refuted.

(** Exactly when it is: when the source already was, or the allocators compare equal. *)
Theorem C12_source_valueless_iff_partial {E : Env} (HA : AllocReq E) h (s : store E) o x y a oy ay r s' :
  reachable h s -> moves_with s o x y a -> adm h o (abs s) = true -> absent s x ->
  view s !! y = Some (oy, ay) ->
  run (interp (header_impl h) o) s = ORet r s' ->
  valueless_at s' y ay <-> oy = None \/ always_equal E || a_eqb E a ay = true.
Proof. intros Hr. by eapply move_source_valueless, reachable_inv. Qed.
Print Assumptions C12_source_valueless_iff_partial.

(** Otherwise the value is moved into new storage and the source keeps its moved-from object. *)
Theorem C12_unequal {E : Env} (HA : AllocReq E) h (s : store E) o x y a l t v ay :
  reachable h s -> moves_with s o x y a -> adm h o (abs s) = true -> absent s x ->
  owns s y l t v ay -> always_equal E || a_eqb E a ay = false ->
  match run (interp (header_impl h) o) s with
  | ORet r s' =>
      exists l', blocks s !! l' = None /\ l' <> l /\
        owns s' x l' t (t_cons E RVal t t a v).1 a /\
        owns s' y l t (t_cons E RVal t t a v).2 ay /\
        (forall w, w <> x -> w <> y -> same_at s s' w) /\ exts s' = exts s /\
        trc s' = EvCons a t l' (ARef RVal (RBlk l)) :: EvAlloc a (hbty h t) l' :: trc s
  | OThrow e s' =>
      RespFail e ∈ orc s /\ absent s' x /\
      (forall w, w <> y -> same_at s s' w) /\
      (same_at s s' y \/ owns s' y l t (t_cons_fail E RVal t t v) ay)
  | OUB _ | OTerm => False
  end.
Proof. intros Hr. by eapply move_unequal, reachable_inv. Qed.
Print Assumptions C12_unequal.

Example C12_case h :
  let f := Fl false true true false true false in
  moves_with (demo_store h f []) (OMoveA (E := exEnv f) v4 2 v0) v4 v0 2 /\
  adm h (OMoveA (E := exEnv f) v4 2 v0) (abs (demo_store h f [])) = true /\
  always_equal (exEnv f) || a_eqb (exEnv f) 2 1 = false.
Proof. split; [by right|]. by destruct h; vm_compute. Qed.

(** ** C13: move assignment *)

Theorem C13_equal_allocators {E : Env} (HA : AllocReq E) h (s : store E) x y ox ax o ay :
  reachable h s -> x <> y -> view s !! x = Some (ox, ax) -> view s !! y = Some (Some o, ay) ->
  a_eqb E ax ay = true ->
  exists s', run (interp (header_impl h) (OAssignM x y)) s = ORet ObsUnit s' /\
    view s' = <[x := (Some o, if pocma E then ay else ax)]> (<[y := (None, ay)]> (view s)) /\
    exts s' = exts s /\ trc s' = release h ox ay ++ trc s.
Proof. intros Hr. by eapply move_assign_equal, reachable_inv. Qed.
Print Assumptions C13_equal_allocators.

Theorem C13_valueless_source {E : Env} (HA : AllocReq E) h (s : store E) x y ox ax ay :
  reachable h s -> x <> y -> view s !! x = Some (ox, ax) -> valueless_at s y ay ->
  exists s', run (interp (header_impl h) (OAssignM x y)) s = ORet ObsUnit s' /\
    view s' = <[x := (None, if pocma E then ay else ax)]> (view s) /\
    exts s' = exts s /\ trc s' = release h ox ax ++ trc s.
Proof. intros Hr. by eapply move_assign_valueless, reachable_inv. Qed.
Print Assumptions C13_valueless_source.

Theorem C13_unequal_allocators {E : Env} (HA : AllocReq E) h (s : store E) x y ox ax l t v ay :
  reachable h s -> x <> y -> view s !! x = Some (ox, ax) -> owns s y l t v ay ->
  a_eqb E ax ay = false ->
  let a := if pocma E then ay else ax in
  match run (interp (header_impl h) (OAssignM x y)) s with
  | ORet r s' =>
      exists l', blocks s !! l' = None /\ l' <> l /\
        owns s' x l' t (t_cons E RVal t t a v).1 a /\
        owns s' y l t (t_cons E RVal t t a v).2 ay /\
        (forall w, w <> x -> w <> y -> same_at s s' w) /\ exts s' = exts s /\
        trc s' = release h ox ax ++
                 EvCons a t l' (ARef RVal (RBlk l)) :: EvAlloc a (hbty h t) l' :: trc s
  | OThrow e s' =>
      pocma E || always_equal E = false /\ RespFail e ∈ orc s /\
      (forall w, w <> y -> same_at s s' w) /\ exts s' = exts s /\
      (same_at s s' y \/ owns s' y l t (t_cons_fail E RVal t t v) ay)
  | OUB _ => False
  | OTerm => pocma E || always_equal E = true /\ exists e, RespFail e ∈ orc s
  end.
Proof. intros Hr. by eapply move_assign_unequal, reachable_inv. Qed.
Print Assumptions C13_unequal_allocators.

(** "The source is valueless afterwards" (DRAFT.md X.Y.5 p7) fails for every header. *)
Theorem C13_refuted h :
  exists (E : Env) (s : store E) x y s' ay, AllocReq E /\ reachable h s /\ x <> y /\
    run (interp (header_impl h) (OAssignM x y)) s = ORet ObsUnit s' /\
    ~ valueless_at s' y ay /\ get_alloc s' y = Some ay.
Proof.
  set (f := Fl false false false false true false).
  exists (exEnv f), (demo_store h f []), v1, v0,
    (after1 (header_impl h) (OAssignM v1 v0) (demo_store h f [])), 1.
  split; [apply ex_alloc|]. split; [apply demo_reachable|]. split; [done|].
  split; [apply run_after1; by destruct h; vm_compute|].
  split; [|by destruct h; vm_compute].
  unfold valueless_at. by destruct h; vm_compute.
Qed.
Print Assumptions C13_refuted.

Theorem C13_source_valueless_iff_partial {E : Env} (HA : AllocReq E) h (s : store E) x y ox ax oy ay r s' :
  reachable h s -> x <> y -> view s !! x = Some (ox, ax) -> view s !! y = Some (oy, ay) ->
  run (interp (header_impl h) (OAssignM x y)) s = ORet r s' ->
  valueless_at s' y ay <-> oy = None \/ a_eqb E ax ay = true.
Proof. intros Hr. by eapply move_assign_source, reachable_inv. Qed.
Print Assumptions C13_source_valueless_iff_partial.

Example C13_case h f :
  let E := exEnv f in
  a_eqb E 1 1 = true /\ (f_ae f = false -> a_eqb E 1 2 = false) /\
  owns (after1 (header_impl h) (OAssignM v0 v2) (demo_store h f [])) v0 2 0 7 1.
Proof. by destruct h, f as [[] [] [] [] [] []]; vm_compute. Qed.

(** ** C14: self-assignment.  In every state, reachable or not. *)

Theorem C14_self_assignment {E : Env} h (s : store E) x :
  run (interp (header_impl h) (OAssignC x x)) s = ORet ObsUnit s /\
  run (interp (header_impl h) (OAssignM x x)) s = ORet ObsUnit s.
Proof. exact (self_assign h s x). Qed.
Print Assumptions C14_self_assignment.

(** ** C15: swap *)

Theorem C15_swap {E : Env} (HA : AllocReq E) h (s : store E) x y ox ax oy ay :
  reachable h s -> view s !! x = Some (ox, ax) -> view s !! y = Some (oy, ay) ->
  pocs E || a_eqb E ax ay = true ->
  exists s', run (interp (header_impl h) (OSwap x y)) s = ORet ObsUnit s' /\
    view s' = (if pocs E then <[y := (ox, ax)]> (<[x := (oy, ay)]> (view s))
               else <[y := (ox, ay)]> (<[x := (oy, ax)]> (view s))) /\
    exts s' = exts s /\ no_calls s s'.
Proof. intros Hr. by eapply swap_run, reachable_inv. Qed.
Print Assumptions C15_swap.

Theorem C15_swap_twice {E : Env} (HA : AllocReq E) h (s : store E) x y ox ax oy ay :
  reachable h s -> view s !! x = Some (ox, ax) -> view s !! y = Some (oy, ay) ->
  pocs E || a_eqb E ax ay = true ->
  exists s1 s2, run (interp (header_impl h) (OSwap x y)) s = ORet ObsUnit s1 /\
    run (interp (header_impl h) (OSwap x y)) s1 = ORet ObsUnit s2 /\
    view s2 = view s /\ exts s2 = exts s /\ no_calls s s2.
Proof. intros Hr. by eapply swap_twice, reachable_inv. Qed.
Print Assumptions C15_swap_twice.

Example C15_case h f :
  pocs (exEnv f) || a_eqb (exEnv f) 1 1 = true /\
  let s' := after1 (header_impl h) (OSwap v0 v2) (demo_store h f []) in
  owns s' v0 2 0 7 1 /\ owns s' v2 0 0 5 1.
Proof. by destruct h, f as [[] [] [] [] [] []]; vm_compute. Qed.

(** ** C16: exact preconditions *)

Theorem C16_exact_precondition {E : Env} (HA : AllocReq E) h (s : store E) (o : op E) :
  reachable h s -> objects_exist h s o -> adm h o (abs s) = true ->
  (exists u, run (interp (header_impl h) o) s = OUB u) <-> derefs_valueless s o \/ swaps_unequal s o.
Proof. intros Hr. by eapply exact_precondition, reachable_inv. Qed.
Print Assumptions C16_exact_precondition.

(** Which undefined behaviour it is. *)
Theorem C16_deref_valueless {E : Env} (HA : AllocReq E) h (s : store E) x a :
  reachable h s -> valueless_at s x a -> run (i_star (header_impl h) x) s = OUB UBNull.
Proof. intros Hr. by eapply star_valueless, reachable_inv. Qed.
Theorem C16_swap_unequal {E : Env} (HA : AllocReq E) h (s : store E) x y ox ax oy ay :
  reachable h s -> view s !! x = Some (ox, ax) -> view s !! y = Some (oy, ay) ->
  pocs E = false -> a_eqb E ax ay = false ->
  run (interp (header_impl h) (OSwap x y)) s = OUB UBUnreachable.
Proof. intros Hr. by eapply swap_unequal, reachable_inv. Qed.
Print Assumptions C16_deref_valueless.
Print Assumptions C16_swap_unequal.

Example C16_cases h :
  let f := Fl true false false false true false in
  let s := demo_store h f [] in
  objects_exist h s (OSwap v0 v1) /\ swaps_unequal s (OSwap v0 v1) /\
  objects_exist h s (OGet v3) /\ derefs_valueless s (OGet v3) /\
  objects_exist h s (OSwap v0 v3).
Proof.
  cbv zeta. split_and!.
  - by destruct h; vm_compute; split; eexists.
  - split; [done|]. exists (Some (0, 0, 5)), 1, (Some (1, 0, 6)), 2.
    destruct (demo_state h (Fl true false false false true false) []) as (_ & H1 & H2 & _). done.
  - by destruct h; vm_compute; eexists.
  - exists 2. apply (demo_state h (Fl true false false false true false) []).
  - by destruct h; vm_compute; split; eexists.
Qed.

(** ** C18: failed construction *)

Theorem C18_failed_construction {E : Env} (HA : AllocReq E) h (s : store E) (o : op E) x e s' :
  reachable h s -> creates o = Some x ->
  pre (header_cfg h) o (abs s) = true -> adm h o (abs s) = true ->
  run (interp (header_impl h) o) s = OThrow e s' ->
  RespFail e ∈ orc s /\ absent s' x /\
  (forall w, same_shape s s' w) /\
  (forall w, (forall c, source h o = Some (c, w) -> c = ConstL) -> same_at s s' w) /\
  (forall l, is_Some (blocks s' !! l) <-> is_Some (blocks s !! l)) /\
  ((exists a b, trc s' = EvAllocFail a b e :: trc s) \/
   (exists a b t l xa, trc s' = EvDealloc a b l :: EvConsFail a t l xa e :: EvAlloc a b l :: trc s)).
Proof. intros Hr. by eapply failed_construction, reachable_inv. Qed.
Print Assumptions C18_failed_construction.

Example C18_case h f :
  let s := demo_store h f [RespOk 9; RespFail 7] in
  reachable h s /\ creates (OCopy (E := exEnv f) v4 v0) = Some v4 /\
  match run (interp (header_impl h) (OCopy v4 v0)) s with OThrow e _ => e = 7 | _ => False end.
Proof. split; [apply demo_reachable|]. by destruct h, f as [[] [] [] [] [] []]; vm_compute. Qed.

(** ** C19: copy assignment and exceptions *)

Theorem C19_copy_assignment_throws {E : Env} (HA : AllocReq E) h (s : store E) x y e s' :
  reachable h s -> is_Some (view s !! x) -> is_Some (view s !! y) ->
  run (interp (header_impl h) (OAssignC x y)) s = OThrow e s' ->
  RespFail e ∈ orc s /\ (forall w, w <> x -> w <> y -> same_at s s' w) /\
  (forall l, is_Some (blocks s' !! l) <-> is_Some (blocks s !! l)) /\ exts s' = exts s /\
  exists l t v ay, owns s y l t v ay /\
    ((same_at s s' x /\
      (same_at s s' y \/ owns s' y l t (t_cons_fail E NonConstL t t v) ay)) \/
     (header_cls h = Ind /\ same_at s s' y /\
      exists lx tx vx ax, owns s x lx tx vx ax /\
        owns s' x lx tx (t_asgn_fail E ConstL tx t vx v).1 ax /\
        trc s' = EvAsgnFail tx lx (ARef ConstL (RBlk l)) e :: trc s)).
Proof. intros Hr. by eapply copy_assign_throws, reachable_inv. Qed.
Print Assumptions C19_copy_assignment_throws.

(** For polymorphic and a value type whose failed copies leave the source alone, nothing changes at all. *)
Theorem C19_polymorphic_strong {E : Env} (HA : AllocReq E) (HC : CopyReq E) h (s : store E) x y e s' :
  reachable h s -> header_cls h = Poly -> is_Some (view s !! x) -> is_Some (view s !! y) ->
  run (interp (header_impl h) (OAssignC x y)) s = OThrow e s' ->
  view s' = view s /\ exts s' = exts s.
Proof. intros Hr. by eapply poly_copy_assign_strong, reachable_inv. Qed.
Print Assumptions C19_polymorphic_strong.

Example C19_case h f :
  let s := demo_store h f [RespFail 7] in
  reachable h s /\
  match run (interp (header_impl h) (OAssignC v0 v1)) s with OThrow e _ => e = 7 | _ => False end.
Proof. split; [apply demo_reachable|]. by destruct h, f as [[] [] [] [] [] []]; vm_compute. Qed.

(** ** C20: move assignment and exceptions *)

Theorem C20_move_assignment_throws {E : Env} (HA : AllocReq E) h (s : store E) x y e s' :
  reachable h s -> is_Some (view s !! x) -> is_Some (view s !! y) ->
  run (interp (header_impl h) (OAssignM x y)) s = OThrow e s' ->
  RespFail e ∈ orc s /\ (forall w, w <> y -> same_at s s' w) /\ exts s' = exts s /\
  exists l t v a, owns s y l t v a /\
    (same_at s s' y \/ owns s' y l t (t_cons_fail E RVal t t v) a).
Proof. intros Hr. by eapply move_assign_throws, reachable_inv. Qed.
Print Assumptions C20_move_assignment_throws.

Example C20_case h :
  let f := Fl false false false false true false in
  let s := demo_store h f [RespOk 0; RespFail 7] in
  reachable h s /\
  match run (interp (header_impl h) (OAssignM v0 v1)) s with OThrow e _ => e = 7 | _ => False end.
Proof. split; [apply demo_reachable|]. by destruct h; vm_compute. Qed.

(** ** C21: noexcept *)

(** No operation terminates the program except move assignment with POCMA of an
    engaged source with an unequal allocator. *)
Theorem C21_noexcept_partial {E : Env} (HA : AllocReq E) h (s : store E) (o : op E) :
  reachable h s -> pre (header_cfg h) o (abs s) = true -> adm h o (abs s) = true ->
  may_terminate o (abs s) = false -> run (interp (header_impl h) o) s <> OTerm.
Proof. intros Hr. by eapply no_terminate, reachable_inv. Qed.
Print Assumptions C21_noexcept_partial.

(** In that case it does, from every reachable state, if the allocation throws. *)
Theorem C21_does_terminate {E : Env} (HA : AllocReq E) h (s : store E) x y ox ax l t v ay e :
  reachable h s -> x <> y -> view s !! x = Some (ox, ax) -> owns s y l t v ay ->
  pocma E = true -> a_eqb E ax ay = false ->
  run (interp (header_impl h) (OAssignM x y)) (set_orc [RespFail e] s) = OTerm.
Proof. intros Hr. by eapply does_terminate, reachable_inv. Qed.
Print Assumptions C21_does_terminate.

Theorem C21_refuted h :
  exists (E : Env) (c : client E) O, AllocReq E /\ safe_with (header_cfg h) (adm h) c (mkSpec ∅ ∅) /\
    run_client (header_impl h) c (init ∅ O) = HTerm.
Proof.
  set (f := Fl false true false false true false).
  exists (exEnv f), (script [mk (f := f) v0 1 5; mk v1 2 6; OAssignM v0 v1]),
    (replicate 4 (RespOk 0) ++ [RespFail 7]).
  split; [apply ex_alloc|]. split; [by apply script_safe; destruct h; vm_compute|].
  by destruct h; vm_compute.
Qed.
Print Assumptions C21_refuted.

(** Programs terminate exactly when the specification says they may. *)
Theorem C21_termination_exact {E : Env} (HA : AllocReq E) h (c : client E) X :
  safe_with (header_cfg h) (adm h) c (mkSpec ∅ X) ->
  (exists O, run_client (header_impl h) c (init X O) = HTerm) <-> spec_term (header_cfg h) c (mkSpec ∅ X).
Proof. exact (termination_exact HA h c X). Qed.
Print Assumptions C21_termination_exact.

(** Operations that never throw at all: whatever the environment answers. *)
Theorem C21_never_throws {E : Env} (HA : AllocReq E) h (s : store E) (o : op E) res :
  reachable h s -> pre (header_cfg h) o (abs s) = true -> adm h o (abs s) = true ->
  step (header_cfg h) o (abs s) = Some res -> r_exn res = [] -> may_terminate o (abs s) = false ->
  exists s', run (interp (header_impl h) o) s = ORet (r_obs res) s'.
Proof. intros Hr. by eapply never_throws, reachable_inv. Qed.
Print Assumptions C21_never_throws.

Example C21_case h f :
  may_terminate (OMove v4 v0) (abs (demo_store h f [])) = false /\
  pre (header_cfg h) (OMove v4 v0) (abs (demo_store h f [])) = true /\
  adm h (OMove v4 v0) (abs (demo_store h f [])) = true.
Proof. by destruct h, f as [[] [] [] [] [] []]; vm_compute. Qed.

(** ** C24: stability *)

Theorem C24_stability {E : Env} (HA : AllocReq E) h (s : store E) o x l t v a :
  reachable h s -> pre (header_cfg h) o (abs s) = true -> adm h o (abs s) = true ->
  owns s x l t v a ->
  match run (interp (header_impl h) o) s with
  | ORet _ s' =>
      match owner_after (header_cls h) o (abs s) x with
      | Some w => exists v' a', owns s' w l t v' a' /\
                    (keeps (header_cfg h) o (abs s) x = true -> v' = v)
      | None => exists a0 new, trc s' = new ++ trc s /\
                    EvDestroy a0 t l ∈ new /\ EvDealloc a0 (hbty h t) l ∈ new
      end
  | OThrow _ s' => exists v', owns s' x l t v' a /\
                    (keeps (header_cfg h) o (abs s) x = true -> v' = v)
  | _ => True
  end.
Proof. intros Hr. by eapply stability, reachable_inv. Qed.
Print Assumptions C24_stability.

Example C24_case h f :
  let s := demo_store h f [] in
  owner_after (header_cls h) (OSwap v0 v2) (abs s) v0 = Some v2 /\
  owner_after (header_cls h) (OMove v4 v0) (abs s) v0 = Some v4 /\
  owner_after (header_cls h) (OAssignM v2 v0) (abs s) v0 = Some v2 /\
  owner_after (header_cls h) (OAssignM v2 v0) (abs s) v2 = None /\
  owner_after (header_cls h) (ODestroy v1) (abs s) v0 = Some v0 /\
  keeps (header_cfg h) (OSwap v0 v2) (abs s) v0 = true.
Proof. by destruct h, f as [[] [] [] [] [] []]; vm_compute. Qed.

(** ** C25: costs *)

Theorem C25_exact_cost {E : Env} (HA : AllocReq E) h (s : store E) o :
  reachable h s -> pre (header_cfg h) o (abs s) = true -> adm h o (abs s) = true ->
  match run (interp (header_impl h) o) s with
  | ORet _ s' => exists new, trc s' = new ++ trc s /\ tally new = cost (header_cls h) o (abs s)
  | _ => True
  end.
Proof. intros Hr. by eapply exact_cost, reachable_inv. Qed.
Print Assumptions C25_exact_cost.

Example C25_case h :
  let f := Fl false false false false true false in
  let s := demo_store h f [] in
  cost (header_cls h) (OAssignM v0 v2) (abs s) = mkCalls 0 1 0 1 0 /\
  cost (header_cls h) (OAssignM v0 v1) (abs s) = mkCalls 1 1 1 1 0 /\
  cost (header_cls h) (OMove v4 v1) (abs s) = mkCalls 0 0 0 0 0 /\
  cost (header_cls h) (OAssignC v0 v2) (abs s) =
    match header_cls h with Ind => mkCalls 0 0 0 0 1 | Poly => mkCalls 1 1 1 1 0 end.
Proof. by destruct h; vm_compute. Qed.

(** ** C26: value assignment *)

Theorem C26_in_place {E : Env} (HA : AllocReq E) h (s : store E) x g l t v a :
  reachable h s -> header_cls h = Ind -> owns s x l t v a -> arg_pre g (abs s) = true ->
  assigns s x g (run (interp (header_impl h) (OAssignV x g)) s).
Proof. intros Hr. by eapply value_assign_in_place, reachable_inv. Qed.
Print Assumptions C26_in_place.

Theorem C26_valueless {E : Env} (HA : AllocReq E) h (s : store E) x g a :
  reachable h s -> header_cls h = Ind -> valueless_at s x a -> arg_pre g (abs s) = true ->
  makes h s x a (tT E) g (run (interp (header_impl h) (OAssignV x g)) s).
Proof. intros Hr. by eapply value_assign_new, reachable_inv. Qed.
Print Assumptions C26_valueless.

Example C26_case h f :
  header_cls h = Ind ->
  arg_pre (GDeref (E := exEnv f) RVal v0) (abs (demo_store h f [])) = true /\
  owns (after1 (header_impl h) (OAssignV (E := exEnv f) v1 (GDeref RVal v0)) (demo_store h f []))
    v1 1 0 5 2 /\
  owns (after1 (header_impl h) (OAssignV (E := exEnv f) v3 (GDeref ConstL v0)) (demo_store h f []))
    v3 3 0 5 2.
Proof. intros Hh. by destruct h, f as [[] [] [] [] [] []]; vm_compute. Qed.

(** ** C27: forwarding and exception identity *)

Theorem C27_forwarding {E : Env} (HA : AllocReq E) h (s : store E) o x a t g :
  reachable h s -> ctor_arg o = Some (x, a, t, g) ->
  pre (header_cfg h) o (abs s) = true -> adm h o (abs s) = true ->
  makes h s x a (created_type (E := E) h t) g (run (interp (header_impl h) o) s).
Proof. intros Hr. by eapply ctor_makes, reachable_inv. Qed.
Print Assumptions C27_forwarding.

(** An operation throws exactly when one of the calls it makes throws, it makes no
    further throwing call after that, and the exception is that one. *)
Theorem C27_exception_identity {E : Env} (HA : AllocReq E) h (s : store E) o :
  reachable h s -> pre (header_cfg h) o (abs s) = true -> adm h o (abs s) = true ->
  match run (interp (header_impl h) o) s with
  | ORet _ s' => exists new, trc s' = new ++ trc s /\ List.filter is_fail new = []
  | OThrow e s' => exists new ev, trc s' = new ++ trc s /\
      List.filter is_fail new = [ev] /\ raises e ev = true
  | OTerm => True
  | OUB _ => False
  end.
Proof. intros Hr. by eapply exception_identity, reachable_inv. Qed.
Print Assumptions C27_exception_identity.

Example C27_case h f :
  let s := demo_store h f [] in
  ctor_arg (OValueA (E := exEnv f) v4 1 0 (GDeref RVal v0)) = Some (v4, 1, 0, GDeref RVal v0) /\
  pre (header_cfg h) (OValueA (E := exEnv f) v4 1 0 (GDeref RVal v0)) (abs s) = true /\
  let s' := after1 (header_impl h) (OValueA (E := exEnv f) v4 1 0 (GDeref RVal v0)) s in
  owns s' v4 3 0 5 1 /\ owns s' v0 0 0 0 1.
Proof. by destruct h, f as [[] [] [] [] [] []]; vm_compute. Qed.

(** ** C28: copying does not modify the source *)

(** For value types meeting the requirements of std::copy_constructible.  Missing from the full
    statement ("for every value type"): types with a constructor from a non-const lvalue. *)
Theorem C28_copy_source_partial {E : Env} (HA : AllocReq E) (HC : CopyReq E) h (s : store E) o x y s' :
  reachable h s -> pre (header_cfg h) o (abs s) = true -> copies_from o x y -> x <> y ->
  after h s o s' -> same_at s s' y.
Proof. intros Hr. by eapply copy_source_unchanged, reachable_inv. Qed.
Print Assumptions C28_copy_source_partial.

(** For every value type: the copy constructors of indirect. *)
Theorem C28_indirect_copy_constructors {E : Env} (HA : AllocReq E) h (s : store E) o x y a s' :
  reachable h s -> header_cls h = Ind -> copies_with s o x y a -> absent s x ->
  is_Some (view s !! y) -> after h s o s' -> same_at s s' y.
Proof. intros Hr. by eapply indirect_copy_source, reachable_inv. Qed.
Print Assumptions C28_indirect_copy_constructors.

(** The full statement is false: for every header there is a value type whose object is
    modified by copy assignment from it, and for polymorphic also by copy construction. *)
Theorem C28_refuted h :
  exists (E : Env) (s : store E) s1 s2 l t v a, AllocReq E /\ reachable h s /\ owns s v0 l t v a /\
    run (interp (header_impl h) (OAssignC v1 v0)) s = ORet ObsUnit s1 /\ ~ same_at s s1 v0 /\
    run (interp (header_impl h) (OCopy v4 v0)) s = ORet ObsUnit s2 /\
    (header_cls h = Poly -> ~ same_at s s2 v0).
Proof.
  set (f := Fl false false false false true true).
  exists (exEnv f), (demo_store h f []),
    (after1 (header_impl h) (OAssignC v1 v0) (demo_store h f [])),
    (after1 (header_impl h) (OCopy v4 v0) (demo_store h f [])), 0, 0, 5, 1.
  split; [apply ex_alloc|]. split; [apply demo_reachable|]. split; [apply (demo_state h f [])|].
  split; [apply run_after1; by destruct h; vm_compute|]. split; [unfold same_at; by destruct h; vm_compute|].
  split; [apply run_after1; by destruct h; vm_compute|]. intros Hh. unfold same_at. by destruct h; vm_compute.
Qed.
Print Assumptions C28_refuted.

Example C28_case h f :
  f_nc f = false -> CopyReq (exEnv f) /\
  copies_from (E := exEnv f) (OAssignC v1 v0) v1 v0 /\
  pre (header_cfg h) (OAssignC v1 v0) (abs (demo_store h f [])) = true.
Proof.
  intros Hf. split; [by apply ex_copy|]. split; [by right; right|].
  by destruct h, f as [[] [] [] [] [] []]; vm_compute.
Qed.
