(** * Model of class template [xyz::indirect], C++14 header
    /repo/indirect_cxx14.h.

    [alloc_base::get()] (the empty-base-optimised allocator, lines 62-93) is
    modelled as the allocator member. *)

From stdpp Require Import base gmap list.
From Verif Require Import Lang Common.

Module Indirect14.
Section indirect.
Context {E : Env} (T : TP E).
Local Open Scope prog_scope.
Notation A := (eA E).

(** indirect_cxx14.h 555-565 [construct_from] *)
Definition construct_from (a : A) (x : arg E) : prog E loc :=
  mem <- act_thr (PAlloc a (BObj (tT E))) ;
  catch (tp_cons T a (tT E) mem x ;; Ret mem)
        (fun e => act (PDealloc a (BObj (tT E)) mem) ;; Throw e).

(** indirect_cxx14.h 567-570 [destroy_with] *)
Definition destroy_with (a : A) (p : loc) : prog E unit :=
  tp_destroy T a (tT E) p ;;
  act (PDealloc a (BObj (tT E)) p).

(** indirect_cxx14.h 549-553 [reset] *)
Definition reset (w : wl) : prog E unit :=
  noexcept_if true (
    p <- act (PReadP w) ;
    match p with
    | None => Ret tt
    | Some l =>
        a <- act (PReadA w) ;
        destroy_with a l ;;
        act (PWriteP w None)
    end).

(** indirect_cxx14.h 347-349 [valueless_after_move] *)
Definition valueless_after_move (w : wl) : prog E bool :=
  p <- act (PReadP w) ;
  Ret (match p with None => true | Some _ => false end).

(** indirect_cxx14.h 351 [get_allocator] *)
Definition get_allocator (w : wl) : prog E A := act (PReadA w).

(** indirect_cxx14.h 317-345 [operator*], [operator->] *)
Definition op_star (w : wl) : prog E loc := deref_p w.

(** indirect_cxx14.h 116-118 [indirect(allocator_arg, alloc)] *)
Definition ctor_default_a (w : wl) (a : A) : prog E unit :=
  ctor w PIndet a (
    a' <- act (PReadA w) ;
    l <- construct_from a' (AArgs (c_empty E)) ;
    act (PWriteP w (Some l))).

(** indirect_cxx14.h 120-123 default constructor *)
Definition ctor_default (w : wl) : prog E unit := ctor_default_a w (a_default E).

(** indirect_cxx14.h 125-140 [indirect(allocator_arg, alloc, U&&)]
    (participates only for U = T up to cv-ref) *)
Definition ctor_value_a (w : wl) (a : A) (_ : ty) (x : arg E) : prog E unit :=
  ctor w PIndet a (
    a' <- act (PReadA w) ;
    l <- construct_from a' x ;
    act (PWriteP w (Some l))).

(** indirect_cxx14.h 142-155 *)
Definition ctor_value (w : wl) (t : ty) (x : arg E) : prog E unit :=
  ctor_value_a w (a_default E) t x.

(** indirect_cxx14.h 157-163 *)
Definition ctor_inplace_a (w : wl) (a : A) (_ : ty) (x : arg E) : prog E unit :=
  ctor w PIndet a (
    a' <- act (PReadA w) ;
    l <- construct_from a' x ;
    act (PWriteP w (Some l))).

(** indirect_cxx14.h 165-173 *)
Definition ctor_inplace (w : wl) (t : ty) (x : arg E) : prog E unit :=
  ctor_inplace_a w (a_default E) t x.

(** indirect_cxx14.h 175-184 *)
Definition ctor_ilist_a (w : wl) (a : A) (_ : ty) (x : arg E) : prog E unit :=
  ctor w PIndet a (
    a' <- act (PReadA w) ;
    l <- construct_from a' x ;
    act (PWriteP w (Some l))).

(** indirect_cxx14.h 186-196 *)
Definition ctor_ilist (w : wl) (t : ty) (x : arg E) : prog E unit :=
  ctor_ilist_a w (a_default E) t x.

(** indirect_cxx14.h 198-207 *)
Definition ctor_copy_a (w : wl) (a : A) (other : wl) : prog E unit :=
  ctor w PIndet a (
    v <- valueless_after_move other ;
    if (v : bool) then act (PWriteP w None)
    else
      a' <- act (PReadA w) ;
      o <- op_star other ;
      l <- construct_from a' (ARef ConstL (RBlk o)) ;
      act (PWriteP w (Some l))).

(** indirect_cxx14.h 209-213 *)
Definition ctor_copy (w : wl) (other : wl) : prog E unit :=
  a <- act (PReadA other) ;
  ctor_copy_a w (a_soccc E a) other.

(** indirect_cxx14.h 215-231 *)
Definition ctor_move_a (w : wl) (a : A) (other : wl) : prog E unit :=
  noexcept_if (always_equal E) (
    ctor w PNull a (
      if always_equal E then swap_p w other
      else
        a1 <- act (PReadA w) ;
        a2 <- act (PReadA other) ;
        if a_eqb E a1 a2 then swap_p w other
        else
          v <- valueless_after_move other ;
          if negb v then
            a' <- act (PReadA w) ;
            o <- op_star other ;
            l <- construct_from a' (ARef RVal (RBlk o)) ;
            act (PWriteP w (Some l))
          else act (PWriteP w None))).

(** indirect_cxx14.h 233-235 *)
Definition ctor_move (w : wl) (other : wl) : prog E unit :=
  noexcept_if (always_equal E) (
    a <- act (PReadA other) ;
    ctor_move_a w a other).

(** indirect_cxx14.h 237 *)
Definition dtor (w : wl) : prog E unit :=
  noexcept_if true (reset w) ;;
  act (PDelW w).

(** indirect_cxx14.h 239-268.  [t_assignable] stands for
    [std::is_copy_assignable<T>] here. *)
Definition copy_assign (this other : wl) : prog E unit :=
  if decide (this = other) then Ret tt else
  vo <- valueless_after_move other ;
  (if (vo : bool) then reset this
   else
     c <- (if t_assignable E then
             vt <- valueless_after_move this ;
             if negb vt then
               a1 <- act (PReadA this) ;
               a2 <- act (PReadA other) ;
               Ret (a_eqb E a1 a2)
             else Ret false
           else Ret false) ;
     if (c : bool) then
       l <- deref_p this ;
       o <- op_star other ;
       tp_asgn T (tT E) l (ARef ConstL (RBlk o))
     else
       a <- (if pocca E then act (PReadA other) else act (PReadA this)) ;
       o <- deref_p other ;
       tmp <- construct_from a (ARef NonConstL (RBlk o)) ;
       reset this ;;
       act (PWriteP this (Some tmp))) ;;
  if pocca E then
    a <- act (PReadA other) ;
    act (PWriteA this a)
  else Ret tt.

(** indirect_cxx14.h 270-301 *)
Definition move_assign (this other : wl) : prog E unit :=
  noexcept_if (pocma E || always_equal E) (
    if decide (this = other) then Ret tt else
    vo <- valueless_after_move other ;
    (if (vo : bool) then reset this
     else
       a1 <- act (PReadA this) ;
       a2 <- act (PReadA other) ;
       if a_eqb E a1 a2 then
         swap_p this other ;;
         reset other
       else
         a <- (if pocma E then act (PReadA other) else act (PReadA this)) ;
         o <- deref_p other ;
         tmp <- construct_from a (ARef RVal (RBlk o)) ;
         reset this ;;
         act (PWriteP this (Some tmp))) ;;
    if pocma E then
      a <- act (PReadA other) ;
      act (PWriteA this a)
    else Ret tt).

(** indirect_cxx14.h 303-315 *)
Definition value_assign (this : wl) (x : arg E) : prog E unit :=
  v <- valueless_after_move this ;
  if (v : bool) then
    a <- get_allocator this ;
    l <- construct_from a x ;
    act (PWriteP this (Some l))
  else
    l <- deref_p this ;
    tp_asgn T (tT E) l x.

(** indirect_cxx14.h 353-373 *)
Definition swap (this other : wl) : prog E unit :=
  noexcept_if (pocs E || always_equal E) (
    if pocs E then
      swap_a this other ;;
      swap_p this other
    else
      a1 <- act (PReadA this) ;
      a2 <- act (PReadA other) ;
      if a_eqb E a1 a2 then swap_p this other
      else unreachable).

End indirect.
End Indirect14.
