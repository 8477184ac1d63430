(** * The two allocators that come with the library. *)

From Coq Require Import Arith.Cantor NArith.
From stdpp Require Import base gmap list.
From Verif Require Import Lang Common RunLemmas.

(** tracking_allocator.h 27-29: a TrackingAllocator is a pair of pointers to counters.
    Counters are numbered. *)
Notation tracker := (nat * nat)%type.

(** tracking_allocator.h 34-37, 41-44: the rebinding constructor copies both pointers;
    the element type is not part of the state. *)
Definition track_rebind (a : tracker) : tracker := (a.1, a.2).

(** tracking_allocator.h 58-62 and 64-67. *)
Definition track_eqb (a b : tracker) : bool := Nat.eqb a.1 b.1 && Nat.eqb a.2 b.2.
Definition track_neb (a b : tracker) : bool := negb (track_eqb a b).

(** tagged_allocator.h 33, 37-38, 63-66, 68-71. *)
Definition tag_rebind (a : nat) : nat := a.
Definition tag_eqb (a b : nat) : bool := Nat.eqb a b.
Definition tag_neb (a b : nat) : bool := negb (tag_eqb a b).

(** The counters: unsigned, that is modulo [M] (2^32 on the usual platforms). *)
Definition counters := nat -> N.
Definition bump (M : N) (p : nat) (c : counters) : counters :=
  fun q => if Nat.eqb q p then ((c q + 1) mod M)%N else c q.

(** tracking_allocator.h 46-50: the counter is incremented before std::allocator is
    asked, so also when the allocation then throws. *)
Definition track_allocate (M : N) (a : tracker) (c : counters) : counters := bump M a.1 c.

(** tracking_allocator.h 52-56. *)
Definition track_deallocate (M : N) (a : tracker) (c : counters) : counters := bump M a.2 c.

(** An environment in which the allocator is TrackingAllocator. Everything about the
    value type is taken from [E]; [f] says what the value type's constructors see of the
    allocator. No trait is declared by the class, so std::allocator_traits supplies the
    defaults: select_on_container_copy_construction copies, nothing propagates, and
    is_always_equal is is_empty, false. [d] is what a default-constructed allocator would
    be (the class has no default constructor, so programs using it do not compile).
    Equal allocators share a resource and unequal ones do not; the real class uses the
    global heap for all, which allows more. *)
Definition trackE (E : Env) (f : tracker -> eA E) (d : tracker) : Env := {|
  eA := tracker; eV := eV E; eC := eC E;
  a_eqb := track_eqb;
  a_res := fun a => Cantor.to_nat a;
  a_soccc := fun a => track_rebind a;
  a_default := d;
  pocca := false; pocma := false; pocs := false; always_equal := false;
  tT := tT E;
  t_assignable := t_assignable E;
  c_empty := c_empty E;
  t_make := fun t a c => t_make E t (f a) c;
  t_cons := fun c t t' a v => t_cons E c t t' (f a) v;
  t_cons_fail := t_cons_fail E;
  t_asgn_args := t_asgn_args E;
  t_asgn_args_fail := t_asgn_args_fail E;
  t_asgn := t_asgn E;
  t_asgn_fail := t_asgn_fail E;
  t_self := t_self E;
  t_self_fail := t_self_fail E;
|}.

(** The counters after the allocator calls of a log (newest first), from [c0]. *)
Fixpoint replay {E f d} (M : N) (c0 : counters) (tr : list (event (trackE E f d))) : counters :=
  match tr with
  | [] => c0
  | EvAlloc a _ _ :: tr' => track_allocate M a (replay M c0 tr')
  | EvAllocFail a _ _ :: tr' => track_allocate M a (replay M c0 tr')
  | EvDealloc a _ _ :: tr' => track_deallocate M a (replay M c0 tr')
  | _ :: tr' => replay M c0 tr'
  end.

(** Subtraction of unsigned numbers. *)
Definition usub (M x y : N) : N := ((x + (M - y mod M)) mod M)%N.
