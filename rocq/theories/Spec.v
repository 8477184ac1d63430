(** * Specification: wrapper objects as plain values.

    An abstract machine, independent of the model of the headers: every live
    object is a pair of an optional (dynamic type, value) and an allocator.  There are no
    addresses, no heap and no pointers, hence no aliasing.  The step function is transcribed
    from the normative wording of /repo/DRAFT.md (sections X.Y.3-X.Y.7 for indirect,
    X.Z.3-X.Z.7 for polymorphic); paragraphs are cited. *)

From stdpp Require Import base gmap list.
From Verif Require Import Lang Client.

Inductive cls := Ind | Poly.

Section spec.
Context (E : Env).
Notation A := (eA E).
Notation V := (eV E).

Record spec := mkSpec {
  sv : gmap wl (option (ty * V) * A);   (* live wrapper objects *)
  se : gmap nat (ty * V);               (* the client's own objects *)
}.

(** Which class, and how the value type is invoked when a copy is made:
    [cc] by the copy constructors, [ca] by copy assignment.  DRAFT.md prescribes
    [ConstL] in both places ("with *other" for a const other). *)
Record cfg := mkCfg { c_cls : cls; c_cc : cat; c_ca : cat }.

Definition draft_indirect := mkCfg Ind ConstL ConstL.
Definition draft_polymorphic := mkCfg Poly ConstL ConstL.

Context (F : cfg).

Definition live (x : wl) (σ : spec) : bool := bool_decide (is_Some (sv σ !! x)).
Definition engaged (x : wl) (σ : spec) : bool :=
  match sv σ !! x with Some (Some _, _) => true | _ => false end.
Definition equal_allocs (x y : wl) (σ : spec) : bool :=
  match sv σ !! x, sv σ !! y with
  | Some (_, a), Some (_, b) => a_eqb E a b
  | _, _ => false
  end.

(** The client's obligations: objects are used only while alive, dereferenced
    only while engaged (X.Y.6 p1, X.Z.6), swapped only if the allocators propagate
    or are equal (X.Y.7 p1, X.Z.7 p1); value assignment exists for indirect only. *)
Definition arg_pre (g : carg E) (σ : spec) : bool :=
  match g with
  | GArgs _ => true
  | GExt _ n => bool_decide (is_Some (se σ !! n))
  | GDeref _ y => engaged y σ
  end.

Definition pre (o : op E) (σ : spec) : bool :=
  match o with
  | ODefault x | ODefaultA x _ => negb (live x σ)
  | OValue x _ g | OInPlace x _ g | OIlist x _ g
  | OValueA x _ _ g | OInPlaceA x _ _ g | OIlistA x _ _ g => negb (live x σ) && arg_pre g σ
  | OCopy x y | OCopyA x _ y | OMove x y | OMoveA x _ y => negb (live x σ) && live y σ
  | ODestroy x | OValueless x | OGetAlloc x => live x σ
  | OAssignC x y | OAssignM x y => live x σ && live y σ
  | OAssignV x g => match c_cls F with Ind => live x σ && arg_pre g σ | Poly => false end
  | OSwap x y => live x σ && live y σ && (pocs E || equal_allocs x y σ)
  | OMutate x _ | OGet x => engaged x σ
  | OExtSet _ _ _ => true
  end.

Definition put (x : wl) (o : option (ty * V)) (a : A) (σ : spec) : spec :=
  mkSpec (<[x := (o, a)]> (sv σ)) (se σ).
Definition drop_obj (x : wl) (σ : spec) : spec := mkSpec (delete x (sv σ)) (se σ).

(** The object an argument expression denotes, and giving it a new state. *)
Definition arg_obj (g : carg E) (σ : spec) : option (ty * V) :=
  match g with
  | GArgs _ => None
  | GExt _ n => se σ !! n
  | GDeref _ y => match sv σ !! y with Some (o, _) => o | None => None end
  end.

Definition arg_cat (g : carg E) : cat :=
  match g with GArgs _ => ConstL | GExt k _ => k | GDeref k _ => k end.

Definition set_arg (g : carg E) (v : V) (σ : spec) : spec :=
  match g with
  | GArgs _ | GExt ConstL _ | GDeref ConstL _ => σ
  | GExt _ n => mkSpec (sv σ) (alter (fun o => (o.1, v)) n (se σ))
  | GDeref _ y =>
      mkSpec (alter (fun o => ((fun p => (p.1, v)) <$> o.1, o.2)) y (sv σ)) (se σ)
  end.

(** Constructing an owned object of type [t] from [g] with allocator [a]
    (X.Y.1 p3): its value, the state afterwards, and the state if [t]'s
    constructor throws. *)
Definition make (t : ty) (a : A) (g : carg E) (σ : spec) : option (V * spec * spec) :=
  match g with
  | GArgs c => Some (t_make E t a c, σ, σ)
  | _ =>
      match arg_obj g σ with
      | None => None
      | Some (t', v) =>
          let '(v1, v2) := t_cons E (arg_cat g) t t' a v in
          Some (v1, set_arg g v2 σ, set_arg g (t_cons_fail E (arg_cat g) t t' v) σ)
      end
  end.

(** [**this = g] for an engaged [x]: state afterwards, state after a throw. *)
Definition assign_obj (x : wl) (g : carg E) (σ : spec) : option (spec * spec) :=
  match sv σ !! x with
  | Some (Some (t0, v0), a) =>
      match g with
      | GArgs c => Some (put x (Some (t0, t_asgn_args E t0 v0 c)) a σ,
                         put x (Some (t0, t_asgn_args_fail E t0 v0 c)) a σ)
      | _ =>
          if (match g with GDeref _ y => bool_decide (x = y) | _ => false end) then
            Some (put x (Some (t0, t_self E (arg_cat g) t0 v0)) a σ,
                  put x (Some (t0, t_self_fail E (arg_cat g) t0 v0)) a σ)
          else
            match arg_obj g σ with
            | None => None
            | Some (t', v) =>
                let '(d, v1) := t_asgn E (arg_cat g) t0 t' v0 v in
                let '(df, v2) := t_asgn_fail E (arg_cat g) t0 t' v0 v in
                Some (put x (Some (t0, d)) a (set_arg g v1 σ),
                      put x (Some (t0, df)) a (set_arg g v2 σ))
            end
      end
  | _ => None
  end.

(** Outcome of an operation: the state after a normal return, and the possible
    states after an exception ([[]]: the operation does not throw). *)
Record stepres := mkRes { r_ok : spec; r_obs : obs E; r_exn : list spec }.

Definition nothrow (σ : spec) : option stepres := Some (mkRes σ ObsUnit []).

(** A new object [x] with allocator [a] owning a [t] made from [g]
    (X.Y.3 p3-26, X.Z.3 p3-21).  On an exception: either nothing happened
    (allocation failed) or [t]'s constructor threw. *)
Definition construct (x : wl) (a : A) (t : ty) (g : carg E) (σ : spec) : option stepres :=
  match make t a g σ with
  | None => None
  | Some (v, σ1, σ2) => Some (mkRes (put x (Some (t, v)) a σ1) ObsUnit [σ; σ2])
  end.

(** indirect always owns a T. *)
Definition want (t : ty) : ty := match c_cls F with Ind => tT E | Poly => t end.

(** X.Y.3 p9, X.Z.3 p7 *)
Definition copy_construct (x : wl) (a : A) (y : wl) (σ : spec) : option stepres :=
  match sv σ !! y with
  | None => None
  | Some (None, _) => nothrow (put x None a σ)
  | Some (Some (t, _), _) => construct x a t (GDeref (c_cc F) y) σ
  end.

(** X.Y.3 p13, X.Z.3 p9 *)
Definition move_construct (x : wl) (a : A) (y : wl) (σ : spec) : option stepres :=
  match sv σ !! y with
  | None => None
  | Some (None, _) => nothrow (put x None a σ)
  | Some (Some (t, v), ay) =>
      if always_equal E || a_eqb E a ay
      then nothrow (put x (Some (t, v)) a (put y None ay σ))
      else construct x a t (GDeref RVal y) σ
  end.

(** X.Y.5 p2, X.Z.5 p2 *)
Definition copy_assign_spec (x y : wl) (σ : spec) : option stepres :=
  if bool_decide (x = y) then nothrow σ else
  match sv σ !! x, sv σ !! y with
  | Some (ox, ax), Some (oy, ay) =>
      let a := if pocca E then ay else ax in
      match oy with
      | None => nothrow (put x None a σ)
      | Some (t, _) =>
          let in_place :=
            match c_cls F, ox with
            | Ind, Some _ => t_assignable E && a_eqb E ax ay
            | _, _ => false
            end in
          if in_place then
            match assign_obj x (GDeref ConstL y) σ with
            | None => None
            | Some (σ1, σ2) =>
                match sv σ1 !! x with
                | None => None
                | Some (o, _) => Some (mkRes (put x o a σ1) ObsUnit [σ2])
                end
            end
          else construct x a t (GDeref (c_ca F) y) σ
      end
  | _, _ => None
  end.

(** X.Y.5 p6, X.Z.5 p6 *)
Definition move_assign_spec (x y : wl) (σ : spec) : option stepres :=
  if bool_decide (x = y) then nothrow σ else
  match sv σ !! x, sv σ !! y with
  | Some (ox, ax), Some (oy, ay) =>
      let a := if pocma E then ay else ax in
      match oy with
      | None => nothrow (put x None a σ)
      | Some (t, v) =>
          if a_eqb E ax ay
          then nothrow (put x (Some (t, v)) a (put y None ay σ))
          else construct x a t (GDeref RVal y) σ
      end
  | _, _ => None
  end.

(** A function declared noexcept (synopsis of X.Y and X.Z: move assignment is
    [noexcept(POCMA || is_always_equal)]) is never left by an exception. *)
Definition no_exn (nx : bool) (r : option stepres) : option stepres :=
  match r with
  | Some res => Some (if nx then mkRes (r_ok res) (r_obs res) [] else res)
  | None => None
  end.

(** X.Y.5 p11 *)
Definition value_assign_spec (x : wl) (g : carg E) (σ : spec) : option stepres :=
  match sv σ !! x with
  | None => None
  | Some (None, a) => construct x a (tT E) g σ
  | Some (Some _, _) =>
      match assign_obj x g σ with
      | None => None
      | Some (σ1, σ2) => Some (mkRes σ1 ObsUnit [σ2])
      end
  end.

(** X.Y.7 p2, X.Z.7 p2 *)
Definition swap_spec (x y : wl) (σ : spec) : option stepres :=
  match sv σ !! x, sv σ !! y with
  | Some (ox, ax), Some (oy, ay) =>
      if pocs E then nothrow (put y ox ax (put x oy ay σ))
      else nothrow (put y ox ay (put x oy ax σ))
  | _, _ => None
  end.

Definition step (o : op E) (σ : spec) : option stepres :=
  if negb (pre o σ) then None else
  match o with
  | ODefault x => construct x (a_default E) (tT E) (GArgs (c_empty E)) σ
  | ODefaultA x a => construct x a (tT E) (GArgs (c_empty E)) σ
  | OValue x t g | OInPlace x t g | OIlist x t g =>
      construct x (a_default E) (want t) g σ
  | OValueA x a t g | OInPlaceA x a t g | OIlistA x a t g =>
      construct x a (want t) g σ
  | OCopy x y =>
      match sv σ !! y with
      | Some (_, ay) => copy_construct x (a_soccc E ay) y σ
      | None => None
      end
  | OCopyA x a y => copy_construct x a y σ
  | OMove x y =>
      match sv σ !! y with
      | Some (_, ay) => move_construct x ay y σ
      | None => None
      end
  | OMoveA x a y => move_construct x a y σ
  | ODestroy x => nothrow (drop_obj x σ)
  | OAssignC x y => copy_assign_spec x y σ
  | OAssignM x y => no_exn (pocma E || always_equal E) (move_assign_spec x y σ)
  | OAssignV x g => value_assign_spec x g σ
  | OSwap x y => swap_spec x y σ
  | OMutate x f =>
      match sv σ !! x with
      | Some (Some (t, v), a) => nothrow (put x (Some (t, f v)) a σ)
      | _ => None
      end
  | OGet x =>
      match sv σ !! x with
      | Some (Some (t, v), _) => Some (mkRes σ (ObsVal t v) [])
      | _ => None
      end
  | OValueless x =>
      match sv σ !! x with
      | Some (o, _) => Some (mkRes σ (ObsBool (match o with None => true | _ => false end)) [])
      | None => None
      end
  | OGetAlloc x =>
      match sv σ !! x with
      | Some (_, a) => Some (mkRes σ (ObsAlloc a) [])
      | None => None
      end
  | OExtSet n t v => nothrow (mkSpec (sv σ) (<[n := (t, v)]> (se σ)))
  end.

(** Operations on which a noexcept function may be left by an exception, so that
    the program terminates: move assignment with POCMA between unequal
    allocators. *)
Definition may_terminate (o : op E) (σ : spec) : bool :=
  match o with
  | OAssignM x y =>
      negb (bool_decide (x = y)) && engaged y σ && pocma E && negb (equal_allocs x y σ)
  | _ => false
  end.

End spec.

Arguments mkSpec {E} _ _.
Arguments sv {E} _.
Arguments se {E} _.
Arguments live {E} _ _.
Arguments engaged {E} _ _.
Arguments equal_allocs {E} _ _ _.
Arguments arg_pre {E} _ _.
Arguments pre {E} _ _ _.
Arguments put {E} _ _ _ _.
Arguments drop_obj {E} _ _.
Arguments arg_obj {E} _ _.
Arguments arg_cat {E} _.
Arguments set_arg {E} _ _ _.
Arguments make {E} _ _ _ _.
Arguments assign_obj {E} _ _ _.
Arguments mkRes {E} _ _ _.
Arguments r_ok {E} _.
Arguments r_obs {E} _.
Arguments r_exn {E} _.
Arguments nothrow {E} _.
Arguments construct {E} _ _ _ _ _.
Arguments want {E} _ _.
Arguments copy_construct {E} _ _ _ _ _.
Arguments move_construct {E} _ _ _ _.
Arguments copy_assign_spec {E} _ _ _ _.
Arguments move_assign_spec {E} _ _ _.
Arguments no_exn {E} _ _.
Arguments value_assign_spec {E} _ _ _.
Arguments swap_spec {E} _ _ _.
Arguments step {E} _ _ _.
Arguments may_terminate {E} _ _.
