(** * Wrong programs.

    Variants of the class templates with one mistake each, of the kind one would expect in such code.
    For each there is a client that the specification permits ([script_ok]) and that gets from
    the wrong class what the safety, leak and refinement theorems exclude for the real one.  These are tests of the
    machine and of the specification (that they can tell the difference), not properties of /repo. *)

From stdpp Require Import base gmap list.
From Verif Require Import Lang Common Client Spec SpecRun Rep Headers Hist Draft Poly14 Ex
  Indirect20 Polymorphic20.

Section patch.
Context {E : Env}.

(** [I] with other copy constructor, allocator-extended move constructor, destructor, copy assignment, move
    assignment, swap, in-place constructor with allocator. *)
Definition patch (I : impl E) copy move_a dtor cass mass sw inpl : impl E :=
  mkImpl E (i_default I) (i_default_a I) (i_value I) inpl (i_inplace I) inpl
    (i_ilist I) (i_ilist_a I) copy (i_copy_a I) (i_move I) move_a dtor cass mass (i_value_assign I) sw
    (i_star I) (i_valueless I) (i_alloc I).
Definition copy_is (I : impl E) f := patch I f (i_move_a I) (i_dtor I) (i_copy_assign I) (i_move_assign I) (i_swap I) (i_value_a I).
Definition move_is (I : impl E) f := patch I (i_copy I) f (i_dtor I) (i_copy_assign I) (i_move_assign I) (i_swap I) (i_value_a I).
Definition dtor_is (I : impl E) f := patch I (i_copy I) (i_move_a I) f (i_copy_assign I) (i_move_assign I) (i_swap I) (i_value_a I).
Definition cass_is (I : impl E) f := patch I (i_copy I) (i_move_a I) (i_dtor I) f (i_move_assign I) (i_swap I) (i_value_a I).
Definition mass_is (I : impl E) f := patch I (i_copy I) (i_move_a I) (i_dtor I) (i_copy_assign I) f (i_swap I) (i_value_a I).
Definition swap_is (I : impl E) f := patch I (i_copy I) (i_move_a I) (i_dtor I) (i_copy_assign I) (i_move_assign I) f (i_value_a I).
Definition inpl_is (I : impl E) f := patch I (i_copy I) (i_move_a I) (i_dtor I) (i_copy_assign I) (i_move_assign I) (i_swap I) f.
End patch.

(** How a client ends: what was undefined, or which blocks and wrapper objects remain. *)
Inductive verdict := Undef (u : ub) | Terminated | Ends (blks wrs : nat) (outs : list (nat + nat)).
Definition obs_nat {f} (o : obs (exEnv f)) : nat :=
  match o with ObsUnit => 0 | ObsBool b => if b then 1 else 0 | ObsVal _ v => v | ObsAlloc a => a end.
Definition judge {f} (I : impl (exEnv f)) (sc : list (op (exEnv f))) (O : list resp) : verdict :=
  match run_client I (script sc) (init ∅ O) with
  | HOk outs s => Ends (size (blocks s)) (size (wraps s))
      (map (fun r => match r with inl o => inl (obs_nat o) | inr e => inr e end) outs)
  | HUB u => Undef u
  | HTerm => Terminated
  end.
Definition permitted {f} (h : header) (sc : list (op (exEnv f))) : bool :=
  script_ok (header_cfg h) (adm h) sc (mkSpec ∅ ∅).

(** Nothing propagates; assignable T. Everything propagates. *)
Definition F0 : flags := Fl false false false false true false.
Definition F1 : flags := Fl true true true false true false.
Definition F2 : flags := Fl false false false false false false. (* T not assignable *)

Section wrong.
Context {f : flags}.
Notation E := (exEnv f).
Local Open Scope prog_scope.
Notation fl := (flatTP E).
Notation I20 := (indirect20 fl).
Notation P20 := (polymorphic20 fl).

(** The copy constructor copies the pointer. *)
Definition w_shallow : impl E := copy_is I20 (fun w o =>
  a <- act (PReadA o) ; p <- act (PReadP o) ;
  ctor w PNull a (act (PWriteP w p))).
(** The destructor forgets to destroy the object; to free the memory; to do anything. *)
Definition w_nodestroy : impl E := dtor_is I20 (fun w =>
  p <- act (PReadP w) ; a <- act (PReadA w) ;
  match p with Some l => act (PDealloc a (BObj (tT E)) l) | None => Ret tt end ;; act (PDelW w)).
Definition w_nofree : impl E := dtor_is I20 (fun w =>
  p <- act (PReadP w) ; a <- act (PReadA w) ;
  match p with Some l => tp_destroy fl a (tT E) l | None => Ret tt end ;; act (PDelW w)).
(** The destructor frees with a default-constructed allocator. *)
Definition w_dfltalloc : impl E := dtor_is I20 (fun w =>
  p <- act (PReadP w) ;
  match p with Some l => Indirect20.destroy_with fl (a_default E) l | None => Ret tt end ;; act (PDelW w)).
(** The destructor destroys twice. *)
Definition w_twice : impl E := dtor_is I20 (fun w =>
  p <- act (PReadP w) ; a <- act (PReadA w) ;
  match p with Some l => tp_destroy fl a (tT E) l ;; Indirect20.destroy_with fl a l | None => Ret tt end ;; act (PDelW w)).
(** The destructor runs twice. *)
Definition w_dtor2 : impl E := dtor_is I20 (fun w => i_dtor I20 w ;; i_dtor I20 w).
(** The move constructor does not initialise its pointer when the source is valueless. *)
Definition w_indet : impl E := move_is I20 (fun w a o =>
  v <- i_valueless I20 o ;
  if (v : bool) then act (PNewW w PIndet a) else i_move_a I20 w a o).
(** The move constructor leaves the source as it was. *)
Definition w_keep : impl E := move_is I20 (fun w a o =>
  p <- act (PReadP o) ; ctor w PNull a (act (PWriteP w p))).
(** Move assignment steals although the allocators differ. *)
Definition w_steal : impl E := mass_is I20 (fun x y => swap_p x y ;; Indirect20.reset fl y).
(** Move assignment drops the old value without destroying it. *)
Definition w_drop : impl E := mass_is I20 (fun x y =>
  p <- act (PReadP y) ; act (PWriteP x p) ;; act (PWriteP y None)).
(** Copy assignment: constructs over the live object; reads the source after it was destroyed
    (no self-assignment check, destroy first); destroys the old value first. *)
Definition w_over : impl E := cass_is I20 (fun x y =>
  a <- act (PReadA x) ; l <- deref_p x ; o <- deref_p y ; tp_cons fl a (tT E) l (ARef ConstL (RBlk o))).
Definition w_noself : impl E := cass_is I20 (fun x y =>
  a <- act (PReadA x) ; l <- deref_p x ; o <- deref_p y ;
  tp_destroy fl a (tT E) l ;; tp_cons fl a (tT E) l (ARef ConstL (RBlk o))).
Definition w_early : impl E := cass_is I20 (fun x y =>
  if decide (x = y) then Ret tt else
  a <- act (PReadA x) ; o <- deref_p y ;
  Indirect20.reset fl x ;; l <- Indirect20.construct_from fl a (ARef ConstL (RBlk o)) ; act (PWriteP x (Some l))).
(** Copy assignment dereferences a valueless source. *)
Definition w_null : impl E := cass_is I20 (fun x y =>
  if decide (x = y) then Ret tt else
  a <- act (PReadA x) ; o <- deref_p y ; l <- Indirect20.construct_from fl a (ARef ConstL (RBlk o)) ;
  Indirect20.reset fl x ;; act (PWriteP x (Some l))).
(** Copy assignment moves. *)
Definition w_moves : impl E := cass_is I20 (fun x y =>
  if decide (x = y) then Ret tt else i_move_assign I20 x y).
(** swap forgets the allocators. *)
Definition w_swap : impl E := swap_is I20 (fun x y => swap_p x y).
(** A constructor that leaks when the value type's constructor throws. *)
Definition w_leak : impl E := inpl_is I20 (fun w a t x =>
  ctor w PIndet a (
    mem <- act_thr (PAlloc a (BObj (tT E))) ; tp_cons fl a (tT E) mem x ;; act (PWriteP w (Some mem)))).
(** A constructor whose failure leaves the object alive. *)
Definition w_alive : impl E := inpl_is I20 (fun w a t x =>
  act (PNewW w PNull a) ;; l <- Indirect20.construct_from fl a x ; act (PWriteP w (Some l))).
(** A noexcept constructor that allocates. *)
Definition w_noexc : impl E := inpl_is I20 (fun w a t x => noexcept_if true (Indirect20.ctor_from fl w a x)).
(** polymorphic: frees as T what was allocated for a derived class; clones as T; does not set [p_]. *)
Definition w_nonvirtual : impl E := dtor_is P20 (fun w =>
  p <- act (PReadP w) ; a <- act (PReadA w) ;
  match p with
  | Some l => tp_destroy fl a (tT E) l ;; act (PDealloc a (BCb (tT E)) l)
  | None => Ret tt end ;; act (PDelW w)).
Definition w_slice : impl E := copy_is P20 (fun w o =>
  a <- act (PReadA o) ; l <- i_star P20 o ; i_value_a P20 w (a_soccc E a) (tT E) (ARef ConstL (RBlk l))).
Definition w_nop : impl E := inpl_is P20 (fun w a t x =>
  ctor w PIndet a (
    mem <- act_thr (PAlloc a (BCb t)) ;
    act (PCbInit t mem) ;; tp_cons fl a t mem x ;; act (PWriteP w (Some mem)))).
(** No control block at all. *)
Definition w_nocb : impl E := inpl_is P20 (fun w a t x =>
  ctor w PIndet a (
    mem <- act_thr (PAlloc a (BCb t)) ; tp_cons fl a t mem x ;; act (PWriteP w (Some mem)))).

(** Clients. *)
Definition c_copy : list (op E) := [mk v0 1 5; OCopy v1 v0; OGet v1; ODestroy v0; ODestroy v1].
Definition c_simple : list (op E) := [mk v0 1 5; OGet v0; ODestroy v0].
Definition c_moveA : list (op E) := [mk v0 1 5; OMoveA (E := E) v1 1 v0; OMoveA (E := E) v2 1 v0; ODestroy v0; ODestroy v1; ODestroy v2].
Definition c_mass : list (op E) := [mk v0 1 5; mk v1 2 6; OAssignM v0 v1; OGet v0; OGetAlloc v0; ODestroy v0; ODestroy v1].
Definition c_mass1 : list (op E) := [mk v0 1 5; mk v1 1 6; OAssignM v0 v1; OGet v0; ODestroy v0; ODestroy v1].
Definition c_cass : list (op E) := [mk v0 1 5; mk v1 1 6; OAssignC v0 v1; OGet v0; OGet v1; ODestroy v0; ODestroy v1].
Definition c_self : list (op E) := [mk v0 1 5; OAssignC v0 v0; OGet v0; ODestroy v0].
Definition c_null : list (op E) := [mk v0 1 5; mk v1 1 6; OMove v2 v1; OAssignC v0 v1; OValueless v0; ODestroy v0; ODestroy v1; ODestroy v2].
Definition c_swap : list (op E) := [mk v0 1 5; mk v1 2 6; OSwap v0 v1; OGet v0; OGetAlloc v0; ODestroy v0; ODestroy v1].
Definition c_derived : list (op E) := [OValueA (E := E) v0 1 3 (num 5); OCopy v1 v0; ODestroy v0; ODestroy v1].
End wrong.

(** The clients are permitted. *)
Example W_permitted :
  forallb (permitted (f := F0) HInd20) [c_copy; c_simple; c_moveA; c_mass; c_mass1; c_cass; c_self; c_null] = true /\
  forallb (permitted (f := F1) HInd20) [c_mass; c_swap] = true /\
  forallb (permitted (f := F0) HPoly20) [c_copy; c_simple; c_derived] = true.
Proof. by vm_compute. Qed.

(** Undefined behaviour. *)
Example W_shallow : judge (f := F0) w_shallow c_copy [] = Undef UBDangling. Proof. by vm_compute. Qed.
Example W_nodestroy : judge (f := F0) w_nodestroy c_simple [] = Undef UBLiveFree. Proof. by vm_compute. Qed.
Example W_dfltalloc : judge (f := F0) w_dfltalloc c_simple [] = Undef UBWrongAlloc. Proof. by vm_compute. Qed.
Example W_twice : judge (f := F0) w_twice c_simple [] = Undef UBDoubleDestroy. Proof. by vm_compute. Qed.
Example W_dtor2 : judge (f := F0) w_dtor2 c_simple [] = Undef UBBadWrapper. Proof. by vm_compute. Qed.
Example W_indet : judge (f := F0) w_indet c_moveA [] = Undef UBIndet. Proof. by vm_compute. Qed.
Example W_keep : judge (f := F0) w_keep c_moveA [] = Undef UBDangling. Proof. by vm_compute. Qed.
Example W_steal : judge (f := F0) w_steal c_mass [] = Undef UBWrongAlloc. Proof. by vm_compute. Qed.
Example W_over : judge (f := F0) w_over c_cass [] = Undef UBOverLive. Proof. by vm_compute. Qed.
Example W_noself : judge (f := F0) w_noself c_self [] = Undef UBBadObj. Proof. by vm_compute. Qed.
Example W_null : judge (f := F0) w_null c_null [] = Undef UBNull. Proof. by vm_compute. Qed.
Example W_swap : judge (f := F1) w_swap c_swap [] = Undef UBWrongAlloc. Proof. by vm_compute. Qed.
Example W_nonvirtual : judge (f := F0) w_nonvirtual c_derived [] = Undef UBWrongType. Proof. by vm_compute. Qed.
Example W_nop : judge (f := F0) w_nop c_simple [] = Undef UBIndet. Proof. by vm_compute. Qed.
Example W_nocb : judge (f := F0) w_nocb c_simple [] = Undef UBWrongType. Proof. by vm_compute. Qed.
Example W_noexc : judge (f := F0) w_noexc c_simple [RespFail 7] = Terminated. Proof. by vm_compute. Qed.

(** Leaks: everything was destroyed (or never came to be), yet a block remains. *)
Example W_nofree : judge (f := F0) w_nofree c_simple [] = Ends 1 0 [inl 0; inl 5; inl 0]. Proof. by vm_compute. Qed.
Example W_drop : judge (f := F0) w_drop c_mass1 [] = Ends 1 0 [inl 0; inl 0; inl 0; inl 6; inl 0; inl 0]. Proof. by vm_compute. Qed.
Example W_leak : judge (f := F0) w_leak c_simple [RespOk 0; RespFail 7] = Ends 1 0 [inr 7]. Proof. by vm_compute. Qed.
Example W_alive : judge (f := F0) w_alive c_simple [RespFail 7] = Ends 0 1 [inr 7]. Proof. by vm_compute. Qed.

(** Wrong results. *)
Example W_early : (* the old value is gone although the assignment threw *)
  let sc := [mk v0 1 5; mk v1 1 6; OAssignC v0 v1] in
  let O := replicate 4 (RespOk 0) ++ [RespFail 7] in
  permitted (f := F2) HInd20 sc = true /\
  judge (f := F2) w_early sc O = Ends 1 2 [inl 0; inl 0; inr 7] /\
  judge (f := F2) (indirect20 (flatTP _)) sc O = Ends 2 2 [inl 0; inl 0; inr 7].
Proof. by vm_compute. Qed.
Example W_moves : judge (f := F0) w_moves c_cass [] = Undef UBNull. Proof. by vm_compute. Qed.
Example W_slice :
  let ty_of (I : impl (exEnv F0)) := match run_client I (script (removelast (removelast c_derived) ++ [OGet v1])) (init ∅ []) with
    | HOk outs _ => match last outs with Some (inl (ObsVal t _)) => Some t | _ => None end | _ => None end in
  ty_of w_slice = Some 0 /\ ty_of (polymorphic20 (flatTP _)) = Some 3.
Proof. by vm_compute. Qed.

(** The real classes on the same clients. *)
Example W_right :
  map (fun sc => judge (f := F0) (indirect20 (flatTP _)) sc []) [c_copy; c_simple; c_moveA; c_mass; c_mass1; c_cass; c_self; c_null] =
  map (fun outs => Ends 0 0 (map inl outs))
    [[0; 0; 5; 0; 0]; [0; 5; 0]; [0; 0; 0; 0; 0; 0]; [0; 0; 0; 6; 1; 0; 0]; [0; 0; 0; 6; 0; 0];
     [0; 0; 0; 6; 6; 0; 0]; [0; 0; 5; 0]; [0; 0; 0; 0; 1; 0; 0; 0]].
Proof. by vm_compute. Qed.

(** Undefined uses by the client itself are detected, too. *)
Example W_client :
  map (fun sc => judge (f := F0) (indirect20 (flatTP _)) sc [])
    [ [mk v0 1 5; OMove v1 v0; OGet v0];                (* dereference of a valueless object *)
      [mk v0 1 5; mk v1 2 6; OSwap v0 v1];              (* swap of unequal allocators *)
      [mk v0 1 5; mk v0 1 6];                           (* construction of a living object *)
      [mk v0 1 5; ODestroy v0; ODestroy v0];            (* second destruction *)
      [OGet v0]; [OAssignV v0 (num 3)];                 (* no such object *)
      [mk v0 1 5; OAssignV v0 (GExt ConstL 4)] ] =      (* no such source *)
  map Undef [UBNull; UBUnreachable; UBBadWrapper; UBBadWrapper; UBBadWrapper; UBBadWrapper; UBBadObj].
Proof. by vm_compute. Qed.

(** The environment may hand out the address of a freed block again, or another one. *)
Example W_reuse :
  let ptr_of h := match run_client (indirect20 (flatTP (exEnv F0))) (script [mk v0 1 5; ODestroy v0; mk v1 1 6])
                          (init ∅ [RespOk 3; RespOk 0; RespOk h]) with
    | HOk _ s => w_p <$> wraps s !! v1 | _ => None end in
  ptr_of 3 = Some (PLoc 3) /\ ptr_of 4 = Some (PLoc 4).
Proof. by vm_compute. Qed.
