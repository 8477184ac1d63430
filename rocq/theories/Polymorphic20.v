(** * Model of class template [xyz::polymorphic], C++20 header
    /repo/polymorphic.h.

    The rebound allocator [cb_allocator cb_alloc(alloc)] has the same identity
    and memory resource as [alloc] (a Cpp17Allocator requirement), so it is
    modelled by [alloc]; the rebound type appears as the block type [BCb t]. *)

From stdpp Require Import base gmap list.
From Verif Require Import Lang Common.

Module Polymorphic20.
Section polymorphic.
Context {E : Env} (T : TP E).
Local Open Scope prog_scope.
Notation A := (eA E).

(** polymorphic.h 77-83 constructor of [direct_control_block<t>] at [mem]:
    the base subobject and the (empty) union come into existence, the owned object
    is constructed in the union, then [p_] is set. *)
Definition cb_ctor (a : A) (t : ty) (mem : loc) (x : arg E) : prog E unit :=
  act (PCbInit t mem) ;;
  tp_cons T a t mem x ;;
  act (PCbSetP mem mem).

(** polymorphic.h 128-144 [create_control_block<t>] *)
Definition create_control_block (w : wl) (t : ty) (x : arg E) : prog E loc :=
  a <- act (PReadA w) ;
  mem <- act_thr (PAlloc a (BCb t)) ;
  catch (cb_ctor a t mem x ;; Ret mem)
        (fun e => act (PDealloc a (BCb t) mem) ;; Throw e).

(** polymorphic.h 85-95 [direct_control_block<t>::clone]; the virtual call
    dispatches on the header of the block. [storage_.u_] is a non-const lvalue. *)
Definition cb_clone (cb : loc) (a : A) : prog E loc :=
  t <- act (PCbTy cb) ;
  mem <- act_thr (PAlloc a (BCb t)) ;
  catch (cb_ctor a t mem (ARef NonConstL (RBlk cb)) ;; Ret mem)
        (fun e => act (PDealloc a (BCb t) mem) ;; Throw e).

(** polymorphic.h 97-108 [direct_control_block<t>::move] *)
Definition cb_move (cb : loc) (a : A) : prog E loc :=
  t <- act (PCbTy cb) ;
  mem <- act_thr (PAlloc a (BCb t)) ;
  catch (cb_ctor a t mem (ARef RVal (RBlk cb)) ;; Ret mem)
        (fun e => act (PDealloc a (BCb t) mem) ;; Throw e).

(** polymorphic.h 110-114 [direct_control_block<t>::destroy] *)
Definition cb_destroy (cb : loc) (a : A) : prog E unit :=
  t <- act (PCbTy cb) ;
  tp_destroy T a t cb ;;
  act (PDealloc a (BCb t) cb).

(** polymorphic.h 396-401 [reset] *)
Definition reset (w : wl) : prog E unit :=
  noexcept_if true (
    p <- act (PReadP w) ;
    match p with
    | None => Ret tt
    | Some l =>
        a <- act (PReadA w) ;
        cb_destroy l a ;;
        act (PWriteP w None)
    end).

(** polymorphic.h 363-365 [valueless_after_move] *)
Definition valueless_after_move (w : wl) : prog E bool :=
  p <- act (PReadP w) ;
  Ret (match p with None => true | Some _ => false end).

(** polymorphic.h 367 [get_allocator] *)
Definition get_allocator (w : wl) : prog E A := act (PReadA w).

(** polymorphic.h 343-361 [operator->], [operator*]: [cb_->p_] *)
Definition op_star (w : wl) : prog E loc :=
  cb <- deref_p w ;
  act (PCbGetP cb).

(** polymorphic.h 219-227 [polymorphic(allocator_arg, alloc, in_place_type<t>, ts...)] *)
Definition ctor_inplace_a (w : wl) (a : A) (t : ty) (x : arg E) : prog E unit :=
  ctor w PIndet a (
    cb <- create_control_block w t x ;
    act (PWriteP w (Some cb))).

(** polymorphic.h 170-177 *)
Definition ctor_inplace (w : wl) (t : ty) (x : arg E) : prog E unit :=
  ctor_inplace_a w (a_default E) t x.

(** polymorphic.h 229-238 [..., in_place_type<t>, ilist, ts...] *)
Definition ctor_ilist_a (w : wl) (a : A) (t : ty) (x : arg E) : prog E unit :=
  ctor w PIndet a (
    cb <- create_control_block w t x ;
    act (PWriteP w (Some cb))).

(** polymorphic.h 179-187 *)
Definition ctor_ilist (w : wl) (t : ty) (x : arg E) : prog E unit :=
  ctor_ilist_a w (a_default E) t x.

(** polymorphic.h 203-208 *)
Definition ctor_default_a (w : wl) (a : A) : prog E unit :=
  ctor w PIndet a (
    cb <- create_control_block w (tT E) (AArgs (c_empty E)) ;
    act (PWriteP w (Some cb))).

(** polymorphic.h 156-160 *)
Definition ctor_default (w : wl) : prog E unit := ctor_default_a w (a_default E).

(** polymorphic.h 210-217 [polymorphic(allocator_arg, alloc, U&& u)], [t] being
    [remove_cvref_t<U>] *)
Definition ctor_value_a (w : wl) (a : A) (t : ty) (x : arg E) : prog E unit :=
  ctor w PIndet a (
    cb <- create_control_block w t x ;
    act (PWriteP w (Some cb))).

(** polymorphic.h 162-168 *)
Definition ctor_value (w : wl) (t : ty) (x : arg E) : prog E unit :=
  ctor_value_a w (a_default E) t x.

(** polymorphic.h 240-248 allocator-extended copy constructor *)
Definition ctor_copy_a (w : wl) (a : A) (other : wl) : prog E unit :=
  ctor w PIndet a (
    v <- valueless_after_move other ;
    if negb v then
      o <- deref_p other ;
      a' <- act (PReadA w) ;
      cb <- cb_clone o a' ;
      act (PWriteP w (Some cb))
    else act (PWriteP w None)).

(** polymorphic.h 189-193 copy constructor *)
Definition ctor_copy (w : wl) (other : wl) : prog E unit :=
  a <- act (PReadA other) ;
  ctor_copy_a w (a_soccc E a) other.

(** [cb_ = std::exchange(other.cb_, nullptr)] (polymorphic.h 255, 258) *)
Definition exchange_null (w other : wl) : prog E unit :=
  p <- act (PReadP other) ;
  act (PWriteP other None) ;;
  act (PWriteP w p).

(** polymorphic.h 250-267 allocator-extended move constructor *)
Definition ctor_move_a (w : wl) (a : A) (other : wl) : prog E unit :=
  noexcept_if (always_equal E) (
    ctor w PIndet a (
      if always_equal E then exchange_null w other
      else
        a1 <- act (PReadA w) ;
        a2 <- act (PReadA other) ;
        if a_eqb E a1 a2 then exchange_null w other
        else
          v <- valueless_after_move other ;
          if negb v then
            o <- deref_p other ;
            a' <- act (PReadA w) ;
            cb <- cb_move o a' ;
            act (PWriteP w (Some cb))
          else act (PWriteP w None))).

(** polymorphic.h 195-197 move constructor *)
Definition ctor_move (w : wl) (other : wl) : prog E unit :=
  noexcept_if (always_equal E) (
    a <- act (PReadA other) ;
    ctor_move_a w a other).

(** polymorphic.h 273 destructor *)
Definition dtor (w : wl) : prog E unit :=
  noexcept_if true (reset w) ;;
  act (PDelW w).

(** polymorphic.h 279-303 copy assignment *)
Definition copy_assign (this other : wl) : prog E unit :=
  if decide (this = other) then Ret tt else
  vo <- valueless_after_move other ;
  (if (vo : bool) then reset this
   else
     o <- deref_p other ;
     a <- (if pocca E then act (PReadA other) else act (PReadA this)) ;
     tmp <- cb_clone o a ;
     reset this ;;
     act (PWriteP this (Some tmp))) ;;
  if pocca E then
    a <- act (PReadA other) ;
    act (PWriteA this a)
  else Ret tt.

(** polymorphic.h 305-337 move assignment *)
Definition move_assign (this other : wl) : prog E unit :=
  noexcept_if (pocma E || always_equal E) (
    if decide (this = other) then Ret tt else
    vo <- valueless_after_move other ;
    (if (vo : bool) then reset this
     else
       a1 <- act (PReadA this) ;
       a2 <- act (PReadA other) ;
       if a_eqb E a1 a2 then
         swap_p this other ;;
         reset other
       else
         o <- deref_p other ;
         a <- (if pocma E then act (PReadA other) else act (PReadA this)) ;
         tmp <- cb_move o a ;
         reset this ;;
         act (PWriteP this (Some tmp))) ;;
    if pocma E then
      a <- act (PReadA other) ;
      act (PWriteA this a)
    else Ret tt).

(** polymorphic.h 373-388 [swap] and 390-393 friend [swap] *)
Definition swap (this other : wl) : prog E unit :=
  noexcept_if (pocs E || always_equal E) (
    if pocs E then
      swap_a this other ;;
      swap_p this other
    else
      a1 <- act (PReadA this) ;
      a2 <- act (PReadA other) ;
      if a_eqb E a1 a2 then swap_p this other
      else unreachable).

End polymorphic.
End Polymorphic20.
