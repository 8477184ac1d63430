(** * Which constructor a call is meant to select, read off the constraints in DRAFT.md.

    Written by matching on the arguments; it uses nothing of overload resolution. *)
From stdpp Require Import base list.
From Verif Require Import Overload.

Section spec.
Context (X : traits).

Definition is_expr (a : arg) : bool := match a with Ex _ _ => true | Br _ => false end.

(** Construction in place of a [u]: from an initializer list if the first argument is one and [u] can be
    constructed that way, otherwise from the arguments as they are. *)
Definition in_place (lc : cat) (u : base) (r : list arg) : option kind :=
  let plain := if forallb is_expr r && constructible X u r then Some KInPlace else None in
  match r with
  | Ex (BList i) _ :: r' | Br i :: r' =>
      if forallb is_expr r' && constructible X u (Ex (BList i) lc :: r') then Some KList else plain
  | _ => plain
  end.

(** The object itself: rvalues move, everything else copies. *)
Definition by_category (c : cat) : kind := match c with R => KMove | _ => KCopy end.

(** One argument that is not a tag: the object itself; else a value, if [val] accepts it; else the object
    reached through the derived-to-base conversion or a conversion function, whose result is an rvalue. *)
Definition one (val : arg -> bool) (a : arg) : option kind :=
  match a with
  | Ex BSelf c => Some (by_category c)
  | _ => if val a then Some KValue else
         match a with
         | Ex (BDer _) c => Some (by_category c)
         | Ex b c => if to_self X b c then Some KMove else None
         | Br _ => None
         end
  end.

(** [place a r]: the meaning of the arguments [a :: r] if [a] is a tag that can be used here. *)
Definition rest (dflt : bool) (val : arg -> bool) (place : arg -> list arg -> option kind) (l : list arg) : option kind :=
  match l with
  | [] => if dflt then Some KDefault else None
  | a :: r => match place a r, r with
              | Some k, _ => Some k
              | None, [] => one val a
              | None, _ => None
              end
  end.

(** [allocator_arg] and something that converts to the allocator, or neither. *)
Definition accepts_A (a : arg) : bool := match a with Ex BAlloc _ => true | Ex b c => to_A X b c | Br _ => false end.
Definition split (f : bool -> list arg -> option kind) (l : list arg) : option (kind * bool) :=
  match l with
  | Ex BArg _ :: a :: r => if accepts_A a then option_map (fun k => (k, true)) (f true r) else None
  | _ => option_map (fun k => (k, false)) (f false l)
  end.

(** DRAFT.md 922-1062 *)
Definition has_A (al : bool) : bool := al || default_A X.
Definition value_indirect (al : bool) (a : arg) : bool :=
  has_A al &&
  match a with
  | Ex b c => bool_decide (b <> BTag) && constructible X (tv X) [a]
  | Br i => bool_decide (tv X <> BTag) && list_T X i && constructible X (tv X) [Ex (tv X) R]
  end.
Definition place_indirect (lc : cat) (al : bool) (a : arg) (r : list arg) : option kind :=
  match a with Ex BTag _ => if has_A al then in_place lc (tv X) r else None | _ => None end.
Definition intended_indirect : list arg -> option (kind * bool) :=
  split (fun al => rest (has_A al) (value_indirect al) (place_indirect L al)).

(** DRAFT.md 1421-1589 *)
Definition value_polymorphic (al : bool) (a : arg) : bool :=
  match a with
  | Ex (BTagT _ _) _ | Br _ => false
  | Ex b c => has_A al && derived X b && constructible X b [a] && copyable X b
  end.
Definition place_polymorphic (al : bool) (a : arg) (r : list arg) : option kind :=
  match a with
  | Ex (BTagT false u) _ => if has_A al && derived X u && copyable X u then in_place L u r else None
  | _ => None
  end.
Definition intended_polymorphic : list arg -> option (kind * bool) :=
  split (fun al => rest (has_A al) (value_polymorphic al) (place_polymorphic al)).

(** What the C++14 headers mean instead: [indirect] takes as a value only a T, no braces, and does not ask
    whether the allocator can be made (indirect_cxx14.h 125-155). *)
Definition value_indirect14 (a : arg) : bool :=
  match a with Ex b _ => bool_decide (b = tv X) && bool_decide (b <> BTag) | Br _ => false end.
Definition intended_indirect14 : list arg -> option (kind * bool) :=
  split (fun al => rest (has_A al) value_indirect14 (place_indirect R al)).

(** [polymorphic] takes qualified types after the tag, asks for a base, possibly inaccessible, and asks T for its default constructor
    (polymorphic_cxx14.h 199-315). *)
Definition value_polymorphic14 (a : arg) : bool :=
  match a with Ex b _ => base_of X b && copyable X b | Br _ => false end.
Definition place_polymorphic14 (al : bool) (a : arg) (r : list arg) : option kind :=
  match a with
  | Ex (BTagT _ u) _ => if has_A al && base_of X u && copyable X u then in_place R u r else None
  | _ => None
  end.
Definition intended_polymorphic14 : list arg -> option (kind * bool) :=
  split (fun al => rest (has_A al && constructible X (tv X) []) value_polymorphic14 (place_polymorphic14 al)).

(** Assignment, DRAFT.md 1147-1153: the object itself; else a value T can be constructed and assigned from;
    else the object reached through a conversion.  [polymorphic] takes no values. *)
Definition assigns_value (a : arg) : bool :=
  match a with Ex _ _ => constructible X (tv X) [a] && assignable X a | Br _ => false end.
Definition intended_assign (a : arg) : option kind := one assigns_value a.
Definition intended_assign_poly (a : arg) : option kind := one (fun _ => false) a.

(** What is true of any program: T is not the class itself; the tag types and
    [std::initializer_list] have no conversion functions. *)
Record sane : Prop := {
  sane_T : tv X <> BSelf;
  sane_arg : forall c, to_self X BArg c = false;
  sane_tag : forall c, to_self X BTag c = false;
  sane_tagT : forall q u c, to_self X (BTagT q u) c = false;
  sane_list : forall i c, to_self X (BList i) c = false;
}.
End spec.

(** What a call selects: nothing, no single best, or a constructor. *)
Inductive choice := Nothing | Clash | Chosen (k : kind) (al : bool).
Definition what (r : result) : choice :=
  match r with None_viable => Nothing | Ambiguous => Clash | Selects f => Chosen (f_kind f) (f_alloc f) end.
Definition meant (o : option (kind * bool)) : choice := match o with Some (k, al) => Chosen k al | None => Nothing end.
Definition meant1 (o : option kind) : choice := match o with Some k => Chosen k false | None => Nothing end.

(** ** Initialisation written with [=]

    [x = { l }] considers all constructors and is ill-formed if an explicit one is selected; [x = a] considers
    only those that are not explicit. *)
Definition copy_list (r : result) : choice := match r with Selects f => if f_explicit f then Nothing else what r | _ => what r end.
Definition implicit (fs : list fn) : list fn := List.filter (fun f => negb (f_explicit f)) fs.

(** ** What the owned object is constructed from

    The value; the arguments after the tag; the list, by name, and the arguments after it. *)
Definition list_by_name (l : list arg) : list arg :=
  match l with Ex (BList i) _ :: r | Br i :: r => Ex (BList i) L :: r | _ => l end.
Definition payload (k : kind) (al : bool) (l : list arg) : list arg :=
  let l := if al then drop 2 l else l in
  match k with KValue => l | KInPlace => tail l | KList => list_by_name (tail l) | _ => [] end.
(** The type named by the tag. *)
Definition tag_type (al : bool) (l : list arg) : option (bool * base) :=
  match (if al then drop 2 l else l) with Ex (BTagT q u) _ :: _ => Some (q, u) | _ => None end.
