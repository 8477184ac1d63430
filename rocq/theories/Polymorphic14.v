(** * Model of class template [xyz::polymorphic], C++14 header
    /repo/polymorphic_cxx14.h.

    The rebound allocator [cb_allocator cb_alloc(alloc)] has the same identity
    and memory resource as [alloc] (a Cpp17Allocator requirement), so it is
    modelled by [alloc]; the rebound type appears as the block type [BCb t]. *)

From stdpp Require Import base gmap list.
From Verif Require Import Lang Common.

Module Polymorphic14.
Section polymorphic.
Context {E : Env} (T : TP E).
Local Open Scope prog_scope.
Notation A := (eA E).

(** polymorphic_cxx14.h 132-138 constructor of [direct_control_block<t>] at [mem]:
    the base subobject and the (empty) union come into existence, the owned object
    is constructed in the union, then [p_] is set. *)
Definition cb_ctor (a : A) (t : ty) (mem : loc) (x : arg E) : prog E unit :=
  act (PCbInit t mem) ;;
  tp_cons T a t mem x ;;
  act (PCbSetP mem mem).

(** polymorphic_cxx14.h 176-191 [create_control_block<t>] *)
Definition create_control_block (w : wl) (t : ty) (x : arg E) : prog E loc :=
  a <- act (PReadA w) ;
  mem <- act_thr (PAlloc a (BCb t)) ;
  catch (cb_ctor a t mem x ;; Ret mem)
        (fun e => act (PDealloc a (BCb t) mem) ;; Throw e).

(** polymorphic_cxx14.h 140-150 [direct_control_block<t>::clone]; the virtual call
    dispatches on the header of the block. [storage_.u_] is a non-const lvalue. *)
Definition cb_clone (cb : loc) (a : A) : prog E loc :=
  t <- act (PCbTy cb) ;
  mem <- act_thr (PAlloc a (BCb t)) ;
  catch (cb_ctor a t mem (ARef NonConstL (RBlk cb)) ;; Ret mem)
        (fun e => act (PDealloc a (BCb t) mem) ;; Throw e).

(** polymorphic_cxx14.h 152-163 [direct_control_block<t>::move] *)
Definition cb_move (cb : loc) (a : A) : prog E loc :=
  t <- act (PCbTy cb) ;
  mem <- act_thr (PAlloc a (BCb t)) ;
  catch (cb_ctor a t mem (ARef RVal (RBlk cb)) ;; Ret mem)
        (fun e => act (PDealloc a (BCb t) mem) ;; Throw e).

(** polymorphic_cxx14.h 165-169 [direct_control_block<t>::destroy] *)
Definition cb_destroy (cb : loc) (a : A) : prog E unit :=
  t <- act (PCbTy cb) ;
  tp_destroy T a t cb ;;
  act (PDealloc a (BCb t) cb).

(** polymorphic_cxx14.h 466-471 [reset] *)
Definition reset (w : wl) : prog E unit :=
  noexcept_if true (
    p <- act (PReadP w) ;
    match p with
    | None => Ret tt
    | Some l =>
        a <- act (PReadA w) ;
        cb_destroy l a ;;
        act (PWriteP w None)
    end).

(** polymorphic_cxx14.h 437-439 [valueless_after_move] *)
Definition valueless_after_move (w : wl) : prog E bool :=
  p <- act (PReadP w) ;
  Ret (match p with None => true | Some _ => false end).

(** polymorphic_cxx14.h 441 [get_allocator] *)
Definition get_allocator (w : wl) : prog E A := act (PReadA w).

(** polymorphic_cxx14.h 417-435 [operator->], [operator*]: [cb_->p_] *)
Definition op_star (w : wl) : prog E loc :=
  cb <- deref_p w ;
  act (PCbGetP cb).

(** polymorphic_cxx14.h 216-227 [polymorphic(allocator_arg, alloc, in_place_type<t>, ts...)] *)
Definition ctor_inplace_a (w : wl) (a : A) (t : ty) (x : arg E) : prog E unit :=
  ctor w PIndet a (
    cb <- create_control_block w t x ;
    act (PWriteP w (Some cb))).

(** polymorphic_cxx14.h 259-271 *)
Definition ctor_inplace (w : wl) (t : ty) (x : arg E) : prog E unit :=
  ctor_inplace_a w (a_default E) t x.

(** polymorphic_cxx14.h 229-241 [..., in_place_type<t>, ilist, ts...]: the
    code creates a control block for T, not for the requested type [t]
    (line 240). *)
Definition ctor_ilist_a (w : wl) (a : A) (_ : ty) (x : arg E) : prog E unit :=
  ctor w PIndet a (
    cb <- create_control_block w (tT E) x ;
    act (PWriteP w (Some cb))).

(** polymorphic_cxx14.h 243-257 *)
Definition ctor_ilist (w : wl) (t : ty) (x : arg E) : prog E unit :=
  ctor_ilist_a w (a_default E) t x.

(** polymorphic_cxx14.h 199-204 *)
Definition ctor_default_a (w : wl) (a : A) : prog E unit :=
  ctor w PIndet a (
    cb <- create_control_block w (tT E) (AArgs (c_empty E)) ;
    act (PWriteP w (Some cb))).

(** polymorphic_cxx14.h 206-214 *)
Definition ctor_default (w : wl) : prog E unit :=
  ctor w PIndet (a_default E) (
    cb <- create_control_block w (tT E) (AArgs (c_empty E)) ;
    act (PWriteP w (Some cb))).

(** polymorphic_cxx14.h 273-293 [polymorphic(allocator_arg, alloc, U&& u)], [t] being
    [remove_cvref_t<U>] *)
Definition ctor_value_a (w : wl) (a : A) (t : ty) (x : arg E) : prog E unit :=
  ctor_inplace_a w a t x.

(** polymorphic_cxx14.h 295-315 *)
Definition ctor_value (w : wl) (t : ty) (x : arg E) : prog E unit :=
  ctor_inplace_a w (a_default E) t x.

(** polymorphic_cxx14.h 317-324 allocator-extended copy constructor *)
Definition ctor_copy_a (w : wl) (a : A) (other : wl) : prog E unit :=
  ctor w PIndet a (
    v <- valueless_after_move other ;
    if negb v then
      o <- deref_p other ;
      a' <- act (PReadA w) ;
      cb <- cb_clone o a' ;
      act (PWriteP w (Some cb))
    else act (PWriteP w None)).

(** polymorphic_cxx14.h 326-330 copy constructor *)
Definition ctor_copy (w : wl) (other : wl) : prog E unit :=
  a <- act (PReadA other) ;
  ctor_copy_a w (a_soccc E a) other.

(** [cb_ = other.cb_; other.cb_ = nullptr;] (polymorphic_cxx14.h 337-338, 341-342) *)
Definition take (w other : wl) : prog E unit :=
  p <- act (PReadP other) ;
  act (PWriteP w p) ;;
  act (PWriteP other None).

(** polymorphic_cxx14.h 332-351 allocator-extended move constructor; the code tests
    propagate_on_container_copy_assignment (line 336) where the C++20 header
    tests is_always_equal *)
Definition ctor_move_a (w : wl) (a : A) (other : wl) : prog E unit :=
  noexcept_if (always_equal E) (
    ctor w PIndet a (
      if pocca E then take w other
      else
        a1 <- act (PReadA w) ;
        a2 <- act (PReadA other) ;
        if a_eqb E a1 a2 then take w other
        else
          v <- valueless_after_move other ;
          if negb v then
            o <- deref_p other ;
            a' <- act (PReadA w) ;
            cb <- cb_move o a' ;
            act (PWriteP w (Some cb))
          else act (PWriteP w None))).

(** polymorphic_cxx14.h 353-355 move constructor, unconditionally noexcept *)
Definition ctor_move (w : wl) (other : wl) : prog E unit :=
  noexcept_if true (
    a <- act (PReadA other) ;
    ctor_move_a w a other).

(** polymorphic_cxx14.h 357 destructor *)
Definition dtor (w : wl) : prog E unit :=
  noexcept_if true (reset w) ;;
  act (PDelW w).

(** polymorphic_cxx14.h 359-382 copy assignment *)
Definition copy_assign (this other : wl) : prog E unit :=
  if decide (this = other) then Ret tt else
  vo <- valueless_after_move other ;
  (if (vo : bool) then reset this
   else
     o <- deref_p other ;
     a <- (if pocca E then act (PReadA other) else act (PReadA this)) ;
     tmp <- cb_clone o a ;
     reset this ;;
     act (PWriteP this (Some tmp))) ;;
  if pocca E then
    a <- act (PReadA other) ;
    act (PWriteA this a)
  else Ret tt.

(** polymorphic_cxx14.h 384-415 move assignment *)
Definition move_assign (this other : wl) : prog E unit :=
  noexcept_if (pocma E || always_equal E) (
    if decide (this = other) then Ret tt else
    vo <- valueless_after_move other ;
    (if (vo : bool) then reset this
     else
       a1 <- act (PReadA this) ;
       a2 <- act (PReadA other) ;
       if a_eqb E a1 a2 then
         swap_p this other ;;
         reset other
       else
         o <- deref_p other ;
         a <- (if pocma E then act (PReadA other) else act (PReadA this)) ;
         tmp <- cb_move o a ;
         reset this ;;
         act (PWriteP this (Some tmp))) ;;
    if pocma E then
      a <- act (PReadA other) ;
      act (PWriteA this a)
    else Ret tt).

(** polymorphic_cxx14.h 443-458 [swap] and 460-463 friend [swap] *)
Definition swap (this other : wl) : prog E unit :=
  noexcept_if (pocs E || always_equal E) (
    if pocs E then
      swap_a this other ;;
      swap_p this other
    else
      a1 <- act (PReadA this) ;
      a2 <- act (PReadA other) ;
      if a_eqb E a1 a2 then swap_p this other
      else unreachable).

End polymorphic.
End Polymorphic14.
