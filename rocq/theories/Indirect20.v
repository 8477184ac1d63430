(** * Model of class template [xyz::indirect], C++20 header /repo/indirect.h.

    One definition per member function.  Constraints and overload
    resolution are in Overload.v; static_assert and constexpr are not modelled.  Assertions
    [assert(!valueless_after_move())] are not modelled separately: violating
    them is modelled as the undefined behaviour that follows with NDEBUG. *)

From stdpp Require Import base gmap list.
From Verif Require Import Lang Common.

Module Indirect20.
Section indirect.
Context {E : Env} (T : TP E).
Local Open Scope prog_scope.
Notation A := (eA E).

(** indirect.h 443-454 [construct_from] *)
Definition construct_from (a : A) (x : arg E) : prog E loc :=
  mem <- act_thr (PAlloc a (BObj (tT E))) ;
  catch (tp_cons T a (tT E) mem x ;; Ret mem)
        (fun e => act (PDealloc a (BObj (tT E)) mem) ;; Throw e).

(** indirect.h 456-459 [destroy_with] *)
Definition destroy_with (a : A) (p : loc) : prog E unit :=
  tp_destroy T a (tT E) p ;;
  act (PDealloc a (BObj (tT E)) p).

(** indirect.h 437-441 [reset] *)
Definition reset (w : wl) : prog E unit :=
  noexcept_if true (
    p <- act (PReadP w) ;
    match p with
    | None => Ret tt
    | Some l =>
        a <- act (PReadA w) ;
        destroy_with a l ;;
        act (PWriteP w None)
    end).

(** indirect.h 341-343 [valueless_after_move] *)
Definition valueless_after_move (w : wl) : prog E bool :=
  p <- act (PReadP w) ;
  Ret (match p with None => true | Some _ => false end).

(** indirect.h 345 [get_allocator] *)
Definition get_allocator (w : wl) : prog E A := act (PReadA w).

(** indirect.h 311-329 [operator*] (four overloads; the value category of the
    result is chosen by the caller) and 331-339 [operator->]: all return [p_]. *)
Definition op_star (w : wl) : prog E loc := deref_p w.

(** Common shape of the constructors from arguments: [alloc_(a)], then
    [p_ = construct_from(alloc_, x)]. *)
Definition ctor_from (w : wl) (a : A) (x : arg E) : prog E unit :=
  ctor w PIndet a (
    a' <- act (PReadA w) ;
    l <- construct_from a' x ;
    act (PWriteP w (Some l))).

(** indirect.h 96-101 default constructor *)
Definition ctor_default (w : wl) : prog E unit :=
  ctor_from w (a_default E) (AArgs (c_empty E)).

(** indirect.h 145-148 allocator-extended default constructor *)
Definition ctor_default_a (w : wl) (a : A) : prog E unit :=
  ctor_from w a (AArgs (c_empty E)).

(** indirect.h 103-110 [indirect(U&& u)].
    The first [ty] argument (dynamic type requested) is ignored: always T. *)
Definition ctor_value (w : wl) (_ : ty) (x : arg E) : prog E unit :=
  ctor_from w (a_default E) x.

(** indirect.h 150-157 *)
Definition ctor_value_a (w : wl) (a : A) (_ : ty) (x : arg E) : prog E unit :=
  ctor_from w a x.

(** indirect.h 112-118 [indirect(in_place, us...)] *)
Definition ctor_inplace (w : wl) (_ : ty) (x : arg E) : prog E unit :=
  ctor_from w (a_default E) x.

(** indirect.h 159-174 (both overloads have the same body) *)
Definition ctor_inplace_a (w : wl) (a : A) (_ : ty) (x : arg E) : prog E unit :=
  ctor_from w a x.

(** indirect.h 120-127 [indirect(in_place, ilist, us...)]; list and arguments
    form one pack *)
Definition ctor_ilist (w : wl) (_ : ty) (x : arg E) : prog E unit :=
  ctor_from w (a_default E) x.

(** indirect.h 176-183 *)
Definition ctor_ilist_a (w : wl) (a : A) (_ : ty) (x : arg E) : prog E unit :=
  ctor_from w a x.

(** indirect.h 185-195 allocator-extended copy constructor *)
Definition ctor_copy_a (w : wl) (a : A) (other : wl) : prog E unit :=
  ctor w PIndet a (
    v <- valueless_after_move other ;
    if (v : bool) then act (PWriteP w None)
    else
      a' <- act (PReadA w) ;
      o <- op_star other ;
      l <- construct_from a' (ARef ConstL (RBlk o)) ;
      act (PWriteP w (Some l))).

(** indirect.h 129-135 copy constructor *)
Definition ctor_copy (w : wl) (other : wl) : prog E unit :=
  a <- act (PReadA other) ;
  ctor_copy_a w (a_soccc E a) other.

(** indirect.h 197-216 allocator-extended move constructor *)
Definition ctor_move_a (w : wl) (a : A) (other : wl) : prog E unit :=
  noexcept_if (always_equal E) (
    ctor w PNull a (
      if always_equal E then swap_p w other
      else
        a1 <- act (PReadA w) ;
        a2 <- act (PReadA other) ;
        if a_eqb E a1 a2 then swap_p w other
        else
          v <- valueless_after_move other ;
          if negb v then
            a' <- act (PReadA w) ;
            o <- op_star other ;
            l <- construct_from a' (ARef RVal (RBlk o)) ;
            act (PWriteP w (Some l))
          else act (PWriteP w None))).

(** indirect.h 137-139 move constructor *)
Definition ctor_move (w : wl) (other : wl) : prog E unit :=
  noexcept_if (always_equal E) (
    a <- act (PReadA other) ;
    ctor_move_a w a other).

(** indirect.h 222 destructor (implicitly noexcept), then the lifetime ends *)
Definition dtor (w : wl) : prog E unit :=
  noexcept_if true (reset w) ;;
  act (PDelW w).

(** indirect.h 228-258 copy assignment *)
Definition copy_assign (this other : wl) : prog E unit :=
  if decide (this = other) then Ret tt else
  vo <- valueless_after_move other ;
  (if (vo : bool) then reset this
   else
     c <- (if t_assignable E then
             vt <- valueless_after_move this ;
             if negb vt then
               a1 <- act (PReadA this) ;
               a2 <- act (PReadA other) ;
               Ret (a_eqb E a1 a2)
             else Ret false
           else Ret false) ;
     if (c : bool) then
       l <- deref_p this ;
       o <- op_star other ;
       tp_asgn T (tT E) l (ARef ConstL (RBlk o))
     else
       a <- (if pocca E then act (PReadA other) else act (PReadA this)) ;
       o <- deref_p other ;
       tmp <- construct_from a (ARef NonConstL (RBlk o)) ;
       reset this ;;
       act (PWriteP this (Some tmp))) ;;
  if pocca E then
    a <- act (PReadA other) ;
    act (PWriteA this a)
  else Ret tt.

(** indirect.h 260-292 move assignment *)
Definition move_assign (this other : wl) : prog E unit :=
  noexcept_if (pocma E || always_equal E) (
    if decide (this = other) then Ret tt else
    vo <- valueless_after_move other ;
    (if (vo : bool) then reset this
     else
       a1 <- act (PReadA this) ;
       a2 <- act (PReadA other) ;
       if a_eqb E a1 a2 then
         swap_p this other ;;
         reset other
       else
         a <- (if pocma E then act (PReadA other) else act (PReadA this)) ;
         o <- deref_p other ;
         tmp <- construct_from a (ARef RVal (RBlk o)) ;
         reset this ;;
         act (PWriteP this (Some tmp))) ;;
    if pocma E then
      a <- act (PReadA other) ;
      act (PWriteA this a)
    else Ret tt).

(** indirect.h 294-305 [operator=(U&& u)] *)
Definition value_assign (this : wl) (x : arg E) : prog E unit :=
  v <- valueless_after_move this ;
  if (v : bool) then
    a <- act (PReadA this) ;
    l <- construct_from a x ;
    act (PWriteP this (Some l))
  else
    l <- deref_p this ;
    tp_asgn T (tT E) l x.

(** indirect.h 351-366 [swap] and 368-371 friend [swap] *)
Definition swap (this other : wl) : prog E unit :=
  noexcept_if (pocs E || always_equal E) (
    if pocs E then
      swap_a this other ;;
      swap_p this other
    else
      a1 <- act (PReadA this) ;
      a2 <- act (PReadA other) ;
      if a_eqb E a1 a2 then swap_p this other
      else unreachable).

End indirect.
End Indirect20.
