(** * Small specifications of single aspects of the operations.

    Tables over the abstract state of Spec.v: which objects an operation names, which
    allocator each object has afterwards, which calls it costs, where an owned
    object lives afterwards, which objects may become valueless. *)

From stdpp Require Import base gmap list.
From Verif Require Import Lang Client Spec.

Section opspec.
Context {E : Env}.
Notation A := (eA E).
Implicit Types σ : spec E.

(** ** Objects named by an operation *)
Definition arg_names (g : carg E) : list wl := match g with GDeref _ y => [y] | _ => [] end.

Definition names (o : op E) : list wl :=
  match o with
  | ODefault x | ODefaultA x _ => [x]
  | OValue x _ g | OInPlace x _ g | OIlist x _ g
  | OValueA x _ _ g | OInPlaceA x _ _ g | OIlistA x _ _ g => x :: arg_names g
  | OCopy x y | OCopyA x _ y | OMove x y | OMoveA x _ y => [x; y]
  | ODestroy x | OValueless x | OGetAlloc x => [x]
  | OAssignC x y | OAssignM x y | OSwap x y => [x; y]
  | OAssignV x g => x :: arg_names g
  | OMutate x _ | OGet x => [x]
  | OExtSet _ _ _ => []
  end.

(** The object a constructor creates. *)
Definition creates (o : op E) : option wl :=
  match o with
  | ODefault x | ODefaultA x _ => Some x
  | OValue x _ g | OInPlace x _ g | OIlist x _ g
  | OValueA x _ _ g | OInPlaceA x _ _ g | OIlistA x _ _ g => Some x
  | OCopy x y | OCopyA x _ y | OMove x y | OMoveA x _ y => Some x
  | _ => None
  end.

(** ** Allocators *)
Definition alloc_of (w : wl) σ : option A := snd <$> sv σ !! w.

(** The allocator of [w] after a normal return of [o], given the allocators before. *)
Definition alloc_after (o : op E) (al : wl -> option A) (w : wl) : option A :=
  match o with
  | ODefault x => if decide (w = x) then Some (a_default E) else al w
  | ODefaultA x a => if decide (w = x) then Some a else al w
  | OValue x _ _ | OInPlace x _ _ | OIlist x _ _ =>
      if decide (w = x) then Some (a_default E) else al w
  | OValueA x a _ _ | OInPlaceA x a _ _ | OIlistA x a _ _ =>
      if decide (w = x) then Some a else al w
  | OCopy x y => if decide (w = x) then a_soccc E <$> al y else al w
  | OCopyA x a _ => if decide (w = x) then Some a else al w
  | OMove x y => if decide (w = x) then al y else al w
  | OMoveA x a _ => if decide (w = x) then Some a else al w
  | ODestroy x => if decide (w = x) then None else al w
  | OAssignC x y => if decide (w = x) then al (if pocca E then y else x) else al w
  | OAssignM x y => if decide (w = x) then al (if pocma E then y else x) else al w
  | OSwap x y =>
      if pocs E then
        if decide (w = x) then al y else if decide (w = y) then al x
        else al w
      else al w
  | OAssignV _ _ | OMutate _ _ | OGet _ | OValueless _ | OGetAlloc _ | OExtSet _ _ _ => al w
  end.

(** ** Numbers of calls *)
Record calls := mkCalls
  { n_alloc : nat; n_dealloc : nat; n_cons : nat; n_destroy : nat; n_asgn : nat }.

Definition nb (b : bool) : nat := if b then 1 else 0.

(** Can the pointer simply be handed over? *)
Definition can_steal (a : A) (y : wl) σ : bool :=
  match sv σ !! y with
  | Some (_, ay) => always_equal E || a_eqb E a ay
  | None => false
  end.

Definition default_alloc (w : wl) σ : A := match alloc_of w σ with Some a => a | None => a_default E end.

Definition in_place (k : cls) (x y : wl) σ : bool :=
  match k with
  | Ind => engaged x σ && t_assignable E && equal_allocs x y σ
  | Poly => false
  end.

(** Calls made by [o] when it returns normally. *)
Definition cost (k : cls) (o : op E) σ : calls :=
  match o with
  | ODefault _ | ODefaultA _ _ | OValue _ _ _ | OInPlace _ _ _ | OIlist _ _ _
  | OValueA _ _ _ _ | OInPlaceA _ _ _ _ | OIlistA _ _ _ _ => mkCalls 1 0 1 0 0
  | OCopy x y | OCopyA x _ y => let n := nb (engaged y σ) in mkCalls n 0 n 0 0
  | OMove x y =>
      let n := nb (engaged y σ && negb (can_steal (default_alloc y σ) y σ)) in mkCalls n 0 n 0 0
  | OMoveA x a y => let n := nb (engaged y σ && negb (can_steal a y σ)) in mkCalls n 0 n 0 0
  | ODestroy x => let n := nb (engaged x σ) in mkCalls 0 n 0 n 0
  | OAssignC x y =>
      if bool_decide (x = y) then mkCalls 0 0 0 0 0 else
      let d := nb (engaged x σ) in
      if negb (engaged y σ) then mkCalls 0 d 0 d 0
      else if in_place k x y σ then mkCalls 0 0 0 0 1
      else mkCalls 1 d 1 d 0
  | OAssignM x y =>
      if bool_decide (x = y) then mkCalls 0 0 0 0 0 else
      let d := nb (engaged x σ) in
      let n := nb (engaged y σ && negb (equal_allocs x y σ)) in mkCalls n d n d 0
  | OAssignV x _ => if engaged x σ then mkCalls 0 0 0 0 1 else mkCalls 1 0 1 0 0
  | OSwap _ _ | OMutate _ _ | OGet _ | OValueless _ | OGetAlloc _ | OExtSet _ _ _ =>
      mkCalls 0 0 0 0 0
  end.

Definition tally1 (e : event E) (c : calls) : calls :=
  let '(mkCalls al de co ds asg) := c in
  match e with
  | EvAlloc _ _ _ => mkCalls (S al) de co ds asg
  | EvDealloc _ _ _ => mkCalls al (S de) co ds asg
  | EvCons _ _ _ _ => mkCalls al de (S co) ds asg
  | EvDestroy _ _ _ => mkCalls al de co (S ds) asg
  | EvAsgn _ _ _ => mkCalls al de co ds (S asg)
  | EvAllocFail _ _ _ | EvConsFail _ _ _ _ _ | EvAsgnFail _ _ _ _ => c
  end.
Definition tally (evs : list (event E)) : calls := foldr tally1 (mkCalls 0 0 0 0 0) evs.

(** ** Where an owned object lives *)

(** The owner, after a normal return of [o], of the object owned by [x] before;
    [None]: the object is destroyed. *)
Definition owner_after (k : cls) (o : op E) σ (x : wl) : option wl :=
  match o with
  | ODestroy x' => if decide (x = x') then None else Some x
  | OMove x' y =>
      if decide (x = y) then
        if can_steal (default_alloc y σ) y σ then Some x' else Some x
      else Some x
  | OMoveA x' a y =>
      if decide (x = y) then if can_steal a y σ then Some x' else Some x else Some x
  | OAssignC x' y =>
      if decide (x' = y) then Some x
      else if decide (x = x') then
        if engaged y σ && in_place k x' y σ then Some x else None
      else Some x
  | OAssignM x' y =>
      if decide (x' = y) then Some x
      else if decide (x = x') then None
      else if decide (x = y) then if equal_allocs x' y σ then Some x' else Some x
      else Some x
  | OSwap x' y => if decide (x = x') then Some y else if decide (x = y) then Some x' else Some x
  | _ => Some x
  end.

(** Does [o] leave the value of the object owned by [x] alone (if it keeps it
    alive)?  [cc], [ca]: categories with which copies pass their source. *)
Definition is_constl (c : cat) : bool := match c with ConstL => true | _ => false end.
Definition arg_keeps (g : carg E) (x : wl) : bool :=
  match g with GDeref c y => negb (bool_decide (x = y)) || is_constl c | _ => true end.

Definition keeps (F : cfg) (o : op E) σ (x : wl) : bool :=
  match o with
  | OValue _ _ g | OInPlace _ _ g | OIlist _ _ g
  | OValueA _ _ _ g | OInPlaceA _ _ _ g | OIlistA _ _ _ g => arg_keeps g x
  | OCopy _ y | OCopyA _ _ y => negb (bool_decide (x = y)) || is_constl (c_cc F)
  | OMove _ y => negb (bool_decide (x = y)) || can_steal (default_alloc y σ) y σ
  | OMoveA _ a y => negb (bool_decide (x = y)) || can_steal a y σ
  | OAssignC x' y =>
      bool_decide (x' = y) ||
      (negb (bool_decide (x = x')) &&
       (negb (bool_decide (x = y)) || in_place (c_cls F) x' y σ || is_constl (c_ca F)))
  | OAssignM x' y =>
      bool_decide (x' = y) || negb (bool_decide (x = y)) || equal_allocs x' y σ
  | OAssignV x' g => negb (bool_decide (x = x')) && arg_keeps g x
  | OMutate x' _ => negb (bool_decide (x = x'))
  | _ => true
  end.

(** ** Valueless objects *)

(** [D]: objects that may be valueless.  Effect of a normal return of [o]. *)
Definition taint (o : op E) (D : gset wl) : gset wl :=
  let set_as (x y : wl) (D : gset wl) := if decide (y ∈ D) then {[x]} ∪ D else D ∖ {[x]} in
  match o with
  | ODefault x | ODefaultA x _
  | OValue x _ _ | OInPlace x _ _ | OIlist x _ _
  | OValueA x _ _ _ | OInPlaceA x _ _ _ | OIlistA x _ _ _ => D ∖ {[x]}
  | OCopy x y | OCopyA x _ y => set_as x y D
  | OMove x y | OMoveA x _ y => {[y]} ∪ set_as x y D
  | ODestroy x => D ∖ {[x]}
  | OAssignC x y => set_as x y D
  | OAssignM x y => if decide (x = y) then D else {[y]} ∪ set_as x y D
  | OAssignV x _ => D ∖ {[x]}
  | OSwap x y =>
      let D' := D ∖ {[x; y]} in
      (if decide (x ∈ D) then {[y]} else ∅) ∪ (if decide (y ∈ D) then {[x]} else ∅) ∪ D'
  | OMutate _ _ | OGet _ | OValueless _ | OGetAlloc _ | OExtSet _ _ _ => D
  end.

(** Along a client program with the given outcomes; an exception changes nothing. *)
Fixpoint taint_run (c : client E) (outs : list (obs E + exn)) (D : gset wl) : gset wl :=
  match c, outs with
  | CDo o next, inl x :: outs' => taint_run (next (inl x)) outs' (taint o D)
  | CDo o next, inr e :: outs' => taint_run (next (inr e)) outs' D
  | _, _ => D
  end.

(** Operations that move from a wrapper object. *)
Definition is_move (o : op E) : bool :=
  match o with OMove _ _ | OMoveA _ _ _ | OAssignM _ _ => true | _ => false end.

Fixpoint client_all (P : op E -> Prop) (c : client E) : Prop :=
  match c with
  | CDone => True
  | CDo o next => P o /\ forall r, client_all P (next r)
  end.

End opspec.
