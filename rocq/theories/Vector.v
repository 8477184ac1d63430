(** * Wrappers as elements of containers.

    What [std::vector] and the algorithms do to their elements, when these are wrappers of one of
    the four headers over any value type that keeps its contract (Contract.v).  The containers
    are client code: of /repo only the exception specifications of the move constructors are
    modelled here.  Elements are named by numbers, as the variables of ContractClient.v. *)

From stdpp Require Import base gmap list.
From Verif Require Import Lang Common Client Spec Rep Headers Hist Tree Contract ContractClient.

(** [std::is_nothrow_move_constructible<W>]: indirect.h 137-138, indirect_cxx14.h 233,
    polymorphic.h 195-196: [noexcept(allocator_traits::is_always_equal::value)];
    polymorphic_cxx14.h 353: [noexcept].  (DRAFT.md 964, 1466: [noexcept] for both classes.) *)
Definition nothrow_move (E : Env) (h : header) : bool := match h with HPoly14 => true | _ => always_equal E end.

Section vector.
Context {E : Env} (T : TP E) (hs : nat -> header).
Local Open Scope prog_scope.
Notation impl_of := (fun x => hdr_impl (hs x) T).

(** [construct(x, std::move_if_noexcept(y))]: an rvalue if the move constructor is noexcept; the
    copy constructors of the four classes are always declared. *)
Definition place (x y : nat) : prog E unit :=
  if nothrow_move E (hs x) then i_move (impl_of x) (WVar x) (WVar y) else i_copy (impl_of x) (WVar x) (WVar y).
(** Elements [(x, y)]: [x] in the new storage from [y] in the old; if one throws, those made are
    destroyed. *)
Fixpoint transfer (l : list (nat * nat)) : prog E unit :=
  match l with
  | [] => Ret tt
  | (x, y) :: l => place x y ;; catch (transfer l) (fun e => i_dtor (impl_of x) (WVar x) ;; Throw e)
  end.
Fixpoint destroy_all (l : list nat) : prog E unit :=
  match l with [] => Ret tt | x :: l => i_dtor (impl_of x) (WVar x) ;; destroy_all l end.
(** Reallocation ([reserve], [push_back] beyond capacity, ...). *)
Definition grow (l : list (nat * nat)) : prog E unit := transfer l ;; destroy_all l.*2.

(** [erase] of the element [x] followed by [l]: each is move-assigned to its predecessor, and the
    last destroyed. *)
Fixpoint erase (x : nat) (l : list nat) : prog E unit :=
  match l with
  | [] => i_dtor (impl_of x) (WVar x)
  | y :: l => i_move_assign (impl_of x) (WVar x) (WVar y) ;; erase y l
  end.

(** Algorithms that exchange elements ([reverse], [rotate], [partition], ...). *)
Fixpoint exchange (l : list (nat * nat)) : prog E unit :=
  match l with [] => Ret tt | (x, y) :: l => i_swap (impl_of x) (WVar x) (WVar y) ;; exchange l end.
End vector.

(** ** Specification *)
Section spec.
Context {E : Env} (K : Cls E) (hs : nat -> header).
Notation wv := (option (ty * c_val K) * eA E)%type.
Notation vars := (gmap nat wv).
Implicit Types m : vars.

(** There are the old elements, and room for the new ones. *)
Record room (m : vars) (l : list (nat * nat)) : Prop := {
  rm_new : NoDup l.*1;
  rm_old : NoDup l.*2;
  rm_none : forall x y, (x, y) ∈ l -> m !! x = None;
  rm_some : forall x y, (x, y) ∈ l -> is_Some (m !! y);
  rm_hdr : forall x y, (x, y) ∈ l -> hs x = hs y;
}.
(** The new elements are related to the old by [R]; the old are gone; nothing else has changed. *)
Record regrown (R : wv -> wv -> Prop) (l : list (nat * nat)) m m' : Prop := {
  rg_new : forall x y, (x, y) ∈ l -> exists k k', m !! y = Some k /\ m' !! x = Some k' /\ R k k';
  rg_old : forall y, y ∈ l.*2 -> m' !! y = None;
  rg_rest : forall z, z ∉ l.*1 -> z ∉ l.*2 -> m' !! z = m !! z;
}.
(** The states of elements after the first is erased. *)
Fixpoint closed_up (k : wv) (ks : list wv) : list wv :=
  match ks with [] => [] | k' :: ks => (k'.1, kept (pocma E) k.2 k'.2) :: closed_up k' ks end.
(** Neighbours have equal allocators. *)
Fixpoint one_allocator (k : wv) (ks : list wv) : Prop :=
  match ks with [] => True | k' :: ks => a_eqb E k.2 k'.2 = true /\ one_allocator k' ks end.
(** Exchanging values, elements in their places. *)
Definition exchanged (x y : nat) (z : nat) : nat := if decide (z = x) then y else if decide (z = y) then x else z.
Fixpoint exchanges (l : list (nat * nat)) (z : nat) : nat :=
  match l with [] => z | (x, y) :: l => exchanged x y (exchanges l z) end.
(** The state of [z] when it has the value of [z']: its allocator comes along if it propagates. *)
Definition with_value (k k' : option wv) : option wv :=
  match k, k' with Some k, Some k' => Some (if pocs E then k' else (k'.1, k.2)) | _, _ => None end.
(** The pairs are of two elements of one class, with equal allocators if these stay. *)
Record pairs (m : vars) (l : list (nat * nat)) : Prop := {
  pr_ne : forall x y, (x, y) ∈ l -> x <> y;
  pr_hdr : forall x y, (x, y) ∈ l -> hs x = hs y;
  pr_some : forall x y, (x, y) ∈ l -> is_Some (m !! x) /\ is_Some (m !! y);
  pr_alloc : forall x y kx ky, (x, y) ∈ l -> m !! x = Some kx -> m !! y = Some ky -> pocs E = false -> a_eqb E kx.2 ky.2 = true;
}.
End spec.
