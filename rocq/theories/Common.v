(** * C++ idioms shared by the four class models. *)

From stdpp Require Import base gmap list.
From Verif Require Import Lang.

Section common.
Context (E : Env).
Local Open Scope prog_scope.

(** Execution of a constructor body: the members are initialised first
    ([p] for the pointer member, [a] for the allocator member), then the body
    runs; if it throws, the object never comes into existence (its destructor is
    not run) and the exception propagates. *)
Definition ctor (w : wl) (p : ptr) (a : eA E) (body : prog E unit) : prog E unit :=
  act (PNewW w p a) ;;
  catch body (fun e => act (PDelW w) ;; Throw e).

(** [std::swap] of the pointer members (indirect.h 204, 207, 277, 357, 361;
    polymorphic.h 320, 379, 383; C++14 headers alike). *)
Definition swap_p (x y : wl) : prog E unit :=
  px <- act (PReadP x) ;
  py <- act (PReadP y) ;
  act (PWriteP x py) ;;
  act (PWriteP y px).

(** [std::swap] of the allocator members (indirect.h 356, polymorphic.h 378). *)
Definition swap_a (x y : wl) : prog E unit :=
  ax <- act (PReadA x) ;
  ay <- act (PReadA y) ;
  act (PWriteA x ay) ;;
  act (PWriteA y ax).

(** Built-in dereference of the pointer member: undefined when null. *)
Definition deref_p (w : wl) : prog E loc :=
  p <- act (PReadP w) ;
  match p with
  | Some l => Ret l
  | None => Act (PUndef UBNull) (fun _ => Throw 0)
  end.

(** [unreachable()] (indirect.h 37-45, polymorphic.h 39-47). *)
Definition unreachable : prog E unit := act (PUndef UBUnreachable).

End common.

Arguments ctor {E} _ _ _ _.
Arguments swap_p {E} _ _.
Arguments swap_a {E} _ _.
Arguments deref_p {E} _.
Arguments unreachable {E}.
