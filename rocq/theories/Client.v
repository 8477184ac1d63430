(** * Client programs: the operations a user can perform on wrapper objects,
    and client programs built from them. *)

From stdpp Require Import base gmap list.
From Verif Require Import Lang Common Indirect20 Indirect14 Polymorphic20 Polymorphic14.

Section client.
Context (E : Env).
Local Open Scope prog_scope.
Notation A := (eA E).
Notation V := (eV E).
Notation C := (eC E).

(** Argument expression written by the client: a pack of values, one of the client's own
    objects, or [*y] for a wrapper object [y]; each with a value category
    ([ConstL]: as const lvalue, [RVal]: [std::move(...)]). *)
Inductive carg := GArgs (c : C) | GExt (k : cat) (n : nat) | GDeref (k : cat) (y : wl).

(** Client operations.  [x] is the object operated on, [y] the other one,
    [a] an allocator passed with [std::allocator_arg], [t] the requested dynamic type
    (used by polymorphic only). *)
Inductive op :=
  | ODefault (x : wl)
  | ODefaultA (x : wl) (a : A)
  | OValue (x : wl) (t : ty) (g : carg)
  | OValueA (x : wl) (a : A) (t : ty) (g : carg)
  | OInPlace (x : wl) (t : ty) (g : carg)
  | OInPlaceA (x : wl) (a : A) (t : ty) (g : carg)
  | OIlist (x : wl) (t : ty) (g : carg)
  | OIlistA (x : wl) (a : A) (t : ty) (g : carg)
  | OCopy (x y : wl)
  | OCopyA (x : wl) (a : A) (y : wl)
  | OMove (x y : wl)
  | OMoveA (x : wl) (a : A) (y : wl)
  | ODestroy (x : wl)
  | OAssignC (x y : wl)
  | OAssignM (x y : wl)
  | OAssignV (x : wl) (g : carg)
  | OSwap (x y : wl)
  | OMutate (x : wl) (f : V -> V)     (* modify the owned object through operator* / -> *)
  | OGet (x : wl)                     (* read the owned object through operator* / -> *)
  | OValueless (x : wl)
  | OGetAlloc (x : wl)
  | OExtSet (n : nat) (t : ty) (v : V). (* the client (re)creates one of its own objects *)

(** Result of an observation. *)
Inductive obs := ObsUnit | ObsBool (b : bool) | ObsVal (t : ty) (v : V) | ObsAlloc (a : A).

(** The member functions of a class, as used by clients. *)
Record impl := mkImpl {
  i_default : wl -> prog E unit;
  i_default_a : wl -> A -> prog E unit;
  i_value : wl -> ty -> arg E -> prog E unit;
  i_value_a : wl -> A -> ty -> arg E -> prog E unit;
  i_inplace : wl -> ty -> arg E -> prog E unit;
  i_inplace_a : wl -> A -> ty -> arg E -> prog E unit;
  i_ilist : wl -> ty -> arg E -> prog E unit;
  i_ilist_a : wl -> A -> ty -> arg E -> prog E unit;
  i_copy : wl -> wl -> prog E unit;
  i_copy_a : wl -> A -> wl -> prog E unit;
  i_move : wl -> wl -> prog E unit;
  i_move_a : wl -> A -> wl -> prog E unit;
  i_dtor : wl -> prog E unit;
  i_copy_assign : wl -> wl -> prog E unit;
  i_move_assign : wl -> wl -> prog E unit;
  i_value_assign : wl -> arg E -> prog E unit;
  i_swap : wl -> wl -> prog E unit;
  i_star : wl -> prog E loc;
  i_valueless : wl -> prog E bool;
  i_alloc : wl -> prog E A;
}.

Definition indirect20 (T : TP E) : impl :=
  mkImpl (Indirect20.ctor_default T) (Indirect20.ctor_default_a T)
         (Indirect20.ctor_value T) (Indirect20.ctor_value_a T)
         (Indirect20.ctor_inplace T) (Indirect20.ctor_inplace_a T)
         (Indirect20.ctor_ilist T) (Indirect20.ctor_ilist_a T)
         (Indirect20.ctor_copy T) (Indirect20.ctor_copy_a T)
         (Indirect20.ctor_move T) (Indirect20.ctor_move_a T)
         (Indirect20.dtor T) (Indirect20.copy_assign T) (Indirect20.move_assign T)
         (Indirect20.value_assign T) Indirect20.swap
         Indirect20.op_star Indirect20.valueless_after_move Indirect20.get_allocator.

Definition indirect14 (T : TP E) : impl :=
  mkImpl (Indirect14.ctor_default T) (Indirect14.ctor_default_a T)
         (Indirect14.ctor_value T) (Indirect14.ctor_value_a T)
         (Indirect14.ctor_inplace T) (Indirect14.ctor_inplace_a T)
         (Indirect14.ctor_ilist T) (Indirect14.ctor_ilist_a T)
         (Indirect14.ctor_copy T) (Indirect14.ctor_copy_a T)
         (Indirect14.ctor_move T) (Indirect14.ctor_move_a T)
         (Indirect14.dtor T) (Indirect14.copy_assign T) (Indirect14.move_assign T)
         (Indirect14.value_assign T) Indirect14.swap
         Indirect14.op_star Indirect14.valueless_after_move Indirect14.get_allocator.

(** polymorphic has no value assignment. *)
Definition no_value_assign (w : wl) (x : arg E) : prog E unit := act (PUndef UBStuck).

Definition polymorphic20 (T : TP E) : impl :=
  mkImpl (Polymorphic20.ctor_default T) (Polymorphic20.ctor_default_a T)
         (Polymorphic20.ctor_value T) (Polymorphic20.ctor_value_a T)
         (Polymorphic20.ctor_inplace T) (Polymorphic20.ctor_inplace_a T)
         (Polymorphic20.ctor_ilist T) (Polymorphic20.ctor_ilist_a T)
         (Polymorphic20.ctor_copy T) (Polymorphic20.ctor_copy_a T)
         (Polymorphic20.ctor_move T) (Polymorphic20.ctor_move_a T)
         (Polymorphic20.dtor T) (Polymorphic20.copy_assign T) (Polymorphic20.move_assign T)
         no_value_assign Polymorphic20.swap
         Polymorphic20.op_star Polymorphic20.valueless_after_move Polymorphic20.get_allocator.

Definition polymorphic14 (T : TP E) : impl :=
  mkImpl (Polymorphic14.ctor_default T) (Polymorphic14.ctor_default_a T)
         (Polymorphic14.ctor_value T) (Polymorphic14.ctor_value_a T)
         (Polymorphic14.ctor_inplace T) (Polymorphic14.ctor_inplace_a T)
         (Polymorphic14.ctor_ilist T) (Polymorphic14.ctor_ilist_a T)
         (Polymorphic14.ctor_copy T) (Polymorphic14.ctor_copy_a T)
         (Polymorphic14.ctor_move T) (Polymorphic14.ctor_move_a T)
         (Polymorphic14.dtor T) (Polymorphic14.copy_assign T) (Polymorphic14.move_assign T)
         no_value_assign Polymorphic14.swap
         Polymorphic14.op_star Polymorphic14.valueless_after_move Polymorphic14.get_allocator.

Section interp.
Context (I : impl).

(** Evaluation of a client argument expression to a reference. *)
Definition eval_arg (g : carg) : prog E (arg E) :=
  match g with
  | GArgs c => Ret (AArgs c)
  | GExt k n => Ret (ARef k (RExt n))
  | GDeref k y => l <- i_star I y ; Ret (ARef k (RBlk l))
  end.

Definition quiet (p : prog E unit) : prog E obs := p ;; Ret ObsUnit.

Definition interp (o : op) : prog E obs :=
  match o with
  | ODefault x => quiet (i_default I x)
  | ODefaultA x a => quiet (i_default_a I x a)
  | OValue x t g => quiet (v <- eval_arg g ; i_value I x t v)
  | OValueA x a t g => quiet (v <- eval_arg g ; i_value_a I x a t v)
  | OInPlace x t g => quiet (v <- eval_arg g ; i_inplace I x t v)
  | OInPlaceA x a t g => quiet (v <- eval_arg g ; i_inplace_a I x a t v)
  | OIlist x t g => quiet (v <- eval_arg g ; i_ilist I x t v)
  | OIlistA x a t g => quiet (v <- eval_arg g ; i_ilist_a I x a t v)
  | OCopy x y => quiet (i_copy I x y)
  | OCopyA x a y => quiet (i_copy_a I x a y)
  | OMove x y => quiet (i_move I x y)
  | OMoveA x a y => quiet (i_move_a I x a y)
  | ODestroy x => quiet (i_dtor I x)
  | OAssignC x y => quiet (i_copy_assign I x y)
  | OAssignM x y => quiet (i_move_assign I x y)
  | OAssignV x g => quiet (v <- eval_arg g ; i_value_assign I x v)
  | OSwap x y => quiet (i_swap I x y)
  | OMutate x f => quiet (l <- i_star I x ; act (PMutObj (RBlk l) f))
  | OGet x => l <- i_star I x ; o <- act (PReadObj (RBlk l)) ; Ret (ObsVal o.1 o.2)
  | OValueless x => b <- i_valueless I x ; Ret (ObsBool b)
  | OGetAlloc x => a <- i_alloc I x ; Ret (ObsAlloc a)
  | OExtSet n t v => quiet (act (PExtSet n t v))
  end.

(** Result of a client program: what each operation returned or threw, and the
    final store; or undefined behaviour / program termination. *)
Inductive hres :=
  | HOk (outs : list (obs + exn)) (s : store E)
  | HUB (u : ub)
  | HTerm.

Definition hcons (r : obs + exn) (h : hres) : hres :=
  match h with HOk outs s => HOk (r :: outs) s | _ => h end.

(** A client program: an interactive sequence of operations; what comes next may
    depend on what the operations so far returned or threw (every exception is caught). *)
Inductive client := CDone | CDo (o : op) (next : obs + exn -> client).

Fixpoint run_client (c : client) (s : store E) : hres :=
  match c with
  | CDone => HOk [] s
  | CDo o next =>
      match run (interp o) s with
      | ORet x s' => hcons (inl x) (run_client (next (inl x)) s')
      | OThrow e s' => hcons (inr e) (run_client (next (inr e)) s')
      | OUB u => HUB u
      | OTerm => HTerm
      end
  end.

(** A fixed sequence of operations. *)
Fixpoint history (h : list op) : client :=
  match h with
  | [] => CDone
  | o :: h' => CDo o (fun _ => history h')
  end.

End interp.
End client.

Arguments GArgs {E} _.
Arguments GExt {E} _ _.
Arguments GDeref {E} _ _.
Arguments ODefault {E} _.
Arguments ODefaultA {E} _ _.
Arguments OValue {E} _ _ _.
Arguments OValueA {E} _ _ _ _.
Arguments OInPlace {E} _ _ _.
Arguments OInPlaceA {E} _ _ _ _.
Arguments OIlist {E} _ _ _.
Arguments OIlistA {E} _ _ _ _.
Arguments OCopy {E} _ _.
Arguments OCopyA {E} _ _ _.
Arguments OMove {E} _ _.
Arguments OMoveA {E} _ _ _.
Arguments ODestroy {E} _.
Arguments OAssignC {E} _ _.
Arguments OAssignM {E} _ _.
Arguments OAssignV {E} _ _.
Arguments OSwap {E} _ _.
Arguments OMutate {E} _ _.
Arguments OGet {E} _.
Arguments OValueless {E} _.
Arguments OGetAlloc {E} _.
Arguments OExtSet {E} _ _ _.
Arguments ObsUnit {E}.
Arguments ObsBool {E} _.
Arguments ObsVal {E} _ _.
Arguments ObsAlloc {E} _.
Arguments HOk {E} _ _.
Arguments HUB {E} _.
Arguments HTerm {E}.
Arguments hcons {E} _ _.
Arguments eval_arg {E} _ _.
Arguments quiet {E} _.
Arguments interp {E} _ _.
Arguments CDone {E}.
Arguments CDo {E} _ _.
Arguments run_client {E} _ _ _.
Arguments history {E} _.
Arguments i_default {E} _ _.
Arguments i_default_a {E} _ _ _.
Arguments i_value {E} _ _ _ _.
Arguments i_value_a {E} _ _ _ _ _.
Arguments i_inplace {E} _ _ _ _.
Arguments i_inplace_a {E} _ _ _ _ _.
Arguments i_ilist {E} _ _ _ _.
Arguments i_ilist_a {E} _ _ _ _ _.
Arguments i_copy {E} _ _ _.
Arguments i_copy_a {E} _ _ _ _.
Arguments i_move {E} _ _ _.
Arguments i_move_a {E} _ _ _ _.
Arguments i_dtor {E} _ _.
Arguments i_copy_assign {E} _ _ _.
Arguments i_move_assign {E} _ _ _.
Arguments i_value_assign {E} _ _ _.
Arguments i_swap {E} _ _ _.
Arguments i_star {E} _ _.
Arguments i_valueless {E} _ _.
Arguments i_alloc {E} _ _.
Arguments indirect20 {E} _.
Arguments indirect14 {E} _.
Arguments polymorphic20 {E} _.
Arguments polymorphic14 {E} _.
