(** * exploration/wrapper.h: an approximation of indirect without allocators. *)

From stdpp Require Import base gmap list.

(** The value type: what T() makes, what T(const T&) makes, and operator==. *)
Record vtype := mkVT { vt : Type; vt_new : vt; vt_copy : vt -> vt; vt_eqb : vt -> vt -> bool }.

(** What a new-expression does: [NewFails e]: operator new or the constructor threw [e]
    (in the latter case the new-expression has released the storage). *)
Inductive answer := NewOk | NewFails (e : nat).

(** The objects on the heap that have not been deleted; the pointers [t_] of the wrapper
    objects in scope (wrapper.h 8); the number of objects ever made. Each new object gets a
    new identity: a pointer to a deleted object stays invalid although the address may be
    handed out again. *)
Record wstate (T : vtype) := mkWS { heap : gmap nat (vt T); wr : gmap nat nat; made : nat }.
Arguments mkWS {T}. Arguments heap {T}. Arguments wr {T}. Arguments made {T}.

(** Operations on wrapper objects, numbered by variables. *)
Inductive wop := WDefault (x : nat) | WCopy (x y : nat) | WAssign (x y : nat) | WDestroy (x : nat)
  | WEq (x y : nat).

(** Results: normal (with the result of a comparison), thrown, undefined behaviour, and a
    program that does not exist (it names an object that is not in scope, or constructs one
    that is). *)
Inductive wres (T : vtype) :=
  WOk (b : option bool) (s : wstate T) | WThrown (e : nat) (s : wstate T) | WUB | WIll.
Arguments WOk {T}. Arguments WThrown {T}. Arguments WUB {T}. Arguments WIll {T}.

Section ops.
Context {T : vtype}.
Implicit Types s : wstate T.

Definition wnew (r : answer) (x : nat) (v : vt T) s : wres T :=
  match r with
  | NewOk => WOk None (mkWS (<[made s := v]> (heap s)) (<[x := made s]> (wr s)) (S (made s)))
  | NewFails e => WThrown e s
  end.

(** wrapper.h 11 (and 29-32 for constrained_wrapper with default-initializable T). *)
Definition w_default (r : answer) (x : nat) s : wres T :=
  match wr s !! x with Some _ => WIll | None => wnew r x (vt_new T) s end.

(** wrapper.h 13 (and 37-40 with copy-constructible T). *)
Definition w_copy (r : answer) (x y : nat) s : wres T :=
  match wr s !! x, wr s !! y with
  | None, Some p =>
      match heap s !! p with Some v => wnew r x (vt_copy T v) s | None => WUB end
  | _, _ => WIll
  end.

(** No assignment operator is declared in wrapper.h 7-21 or 25-50, so the implicitly
    defined copy assignment copies the pointer. The copy constructor and the destructor are
    user-declared, so there is no implicit move and moves are copies. *)
Definition w_assign (x y : nat) s : wres T :=
  match wr s !! x, wr s !! y with
  | Some _, Some p => WOk None (mkWS (heap s) (<[x := p]> (wr s)) (made s))
  | _, _ => WIll
  end.

(** wrapper.h 15 (and 42). *)
Definition w_destroy (x : nat) s : wres T :=
  match wr s !! x with
  | Some p =>
      match heap s !! p with
      | Some _ => WOk None (mkWS (delete p (heap s)) (delete x (wr s)) (made s))
      | None => WUB
      end
  | None => WIll
  end.

(** wrapper.h 17-20 (and 44-49), with U = T. *)
Definition w_eq (x y : nat) s : wres T :=
  match wr s !! x, wr s !! y with
  | Some p, Some q =>
      match heap s !! p, heap s !! q with
      | Some v, Some w => WOk (Some (vt_eqb T v w)) s
      | _, _ => WUB
      end
  | _, _ => WIll
  end.

Definition wstep (o : wop) (r : answer) s : wres T :=
  match o with
  | WDefault x => w_default r x s
  | WCopy x y => w_copy r x y s
  | WAssign x y => w_assign x y s
  | WDestroy x => w_destroy x s
  | WEq x y => w_eq x y s
  end.

(** A history: operations with the environment's answers; the program goes on after
    exceptions. *)
Fixpoint wrun (h : list (wop * answer)) s : wres T :=
  match h with
  | [] => WOk None s
  | (o, r) :: h' =>
      match wstep o r s with
      | WOk _ s' => wrun h' s'
      | WThrown _ s' => wrun h' s'
      | WUB => WUB
      | WIll => WIll
      end
  end.

Definition wempty : wstate T := mkWS ∅ ∅ 0.

End ops.
