(** * Which comparison operator an expression means, and comparisons of nested wrappers.

    The operators of [indirect] are friends that are found only by argument-dependent lookup, in
    overlapping forms; T and U may themselves be wrappers.  This file models which of them
    [x op y] calls, for operands of every type built from values, wrappers and classes derived
    from wrappers, and the value of the expression, where the bodies (Compare.v) contain further
    such expressions.

    Simplifications: the operators of the values (types that are not wrappers) take no wrappers,
    and are there for all pairs of them; constraints on the return type ([synth_three_way_result])
    are met.  All parameters are references to const, so the value category of the operands plays
    no part. *)

From stdpp Require Import base gmap list.
From Verif Require Import Lang Common Client Compare.

(** ** Types *)

(** The types of operands: values, [indirect<t, a>], and a class with public base [indirect<t, a>]
    that has no comparison operators of its own; allocator types are numbered. *)
Inductive cty :=
  | CVal (n : nat)
  | CInd (t : cty) (a : nat)
  | CDer (d : nat) (t : cty) (a : nat).
#[global] Instance cty_eq_dec : EqDecision cty.
Proof. solve_decision. Defined.

Fixpoint csize (s : cty) : nat := match s with CVal _ => 1 | CInd t _ => S (csize t) | CDer _ t _ => S (S (csize t)) end.

(** indirect.h 76-80 [is_indirect_v], indirect_cxx14.h 99-103 [is_indirect]: false for derived classes *)
Definition is_indirect (s : cty) : bool := match s with CInd _ _ => true | _ => false end.
(** The wrapper that the operand is or has as base. *)
Definition wrapped_type (s : cty) : option (cty * nat) :=
  match s with CVal _ => None | CInd t a | CDer _ t a => Some (t, a) end.

(** The specialisations whose friends argument-dependent lookup finds: the class itself, those
    associated with its template arguments, and its bases. *)
Fixpoint assoc (s : cty) : list (cty * nat) :=
  match s with CVal _ => [] | CInd t a => (t, a) :: assoc t | CDer _ t a => [(t, a)] end.

(** ** Overloads *)

(** Each operator is declared, in [indirect<T, A>], for two wrappers, for a wrapper and a value
    (indirect.h 377-425, indirect_cxx14.h 375-428), and in the C++14 header for a value and a wrapper
    (430-544).  In C++20 only [==] and [<=>] are declared. *)
Inductive form := FII | FIV | FVI.
#[global] Instance form_eq_dec : EqDecision form.
Proof. solve_decision. Defined.
Definition forms (g : gen) : list form := match g with Cxx20 => [FII; FIV] | Cxx14 => [FII; FIV; FVI] end.

(** Types of parameters: [const indirect<T, A>&]; [const indirect<U, AA>&], with U, AA deduced;
    [const U&] with U deduced and not an indirect. *)
Inductive par := PFix (t : cty) (a : nat) | PInd | PAny.
Definition pars (f : form) (t : cty) (a : nat) : par * par :=
  match f with FII => (PFix t a, PInd) | FIV => (PFix t a, PAny) | FVI => (PAny, PFix t a) end.

(** A candidate: a function, and whether its arguments are exchanged (C++20). *)
Record cand := mkCand { cd_form : form; cd_t : cty; cd_a : nat; cd_rev : bool }.
#[global] Instance cand_eq_dec : EqDecision cand.
Proof. solve_decision. Defined.

(** The parameters for the left and the right operand. *)
Definition cpars (c : cand) : par * par :=
  let p := pars (cd_form c) (cd_t c) (cd_a c) in if cd_rev c then (p.2, p.1) else p.

(** Conversion of an operand of type [s]: [Some false] is an exact match, [Some true] a conversion
    to the base class.  No value converts to a wrapper implicitly, nor one wrapper to another (the
    constructors are explicit, C44). *)
Definition convert (p : par) (s : cty) : option bool :=
  match p, s with
  | PFix t a, CInd t' a' => if decide ((t, a) = (t', a')) then Some false else None
  | PFix t a, CDer _ t' a' => if decide ((t, a) = (t', a')) then Some true else None
  | PFix _ _, CVal _ => None
  | PInd, CInd _ _ => Some false
  | PInd, CDer _ _ _ => Some true
  | PInd, CVal _ => None
  | PAny, _ => if is_indirect s then None else Some false
  end.
Definition ranks (c : cand) (s1 s2 : cty) : option (bool * bool) :=
  match convert (cpars c).1 s1, convert (cpars c).2 s2 with Some r1, Some r2 => Some (r1, r2) | _, _ => None end.

(** All candidates for operands of types [s1], [s2]. *)
Definition cands (g : gen) (s1 s2 : cty) : list cand :=
  '(t, a) ← assoc s1 ++ assoc s2 ; f ← forms g ; rev ← (match g with Cxx20 => [false; true] | Cxx14 => [false] end) ;
  [mkCand f t a rev].
Definition viables (g : gen) (s1 s2 : cty) : list (cand * (bool * bool)) :=
  omap (fun c => r ← ranks c s1 s2 ; Some (c, r)) (cands g s1 s2).

(** [temp.deduct.partial]: [p] can be deduced from [q] with its parameters made unique types; a
    parameter without template parameters is not used. *)
Definition deducible (p q : par) : bool :=
  match p, q with
  | PFix _ _, _ => true
  | PInd, (PFix _ _ | PInd) => true
  | PInd, PAny => false
  | PAny, _ => true
  end.
Definition at_least (c c' : cand) : bool := deducible (cpars c').1 (cpars c).1 && deducible (cpars c').2 (cpars c).2.

(** [over.match.best]: better conversions; else more specialised; else not exchanged. *)
Definition le_rank (r r' : bool * bool) : bool := implb r.1 r'.1 && implb r.2 r'.2.
Definition better (x y : cand * (bool * bool)) : bool :=
  if decide (x.2 = y.2) then
    match at_least x.1 y.1, at_least y.1 x.1 with
    | true, false => true
    | false, true => false
    | _, _ => negb (cd_rev x.1) && cd_rev y.1
    end
  else le_rank x.2 y.2.

Inductive choice := NoMatch | Ambiguous | Chosen (c : cand).
Definition best (l : list (cand * (bool * bool))) (x : cand * (bool * bool)) : bool :=
  forallb (fun y => bool_decide (y.1 = x.1) || better x y) l.
Definition select (g : gen) (s1 s2 : cty) : choice :=
  let l := viables g s1 s2 in
  match l with
  | [] => NoMatch
  | _ => match List.find (best l) l with Some x => Chosen x.1 | None => Ambiguous end
  end.

(** ** Expressions *)

(** A value; a valueless wrapper; a wrapper that owns something. *)
Inductive cval (B : Type) := VVal (b : B) | VNone | VSome (x : cval B).
Arguments VVal {B} _.
Arguments VNone {B}.
Arguments VSome {B} _.

Section eval.
Context {B : Type} (g : gen) (base : nat -> nat -> cmp B B).

(** What the wrapper [x] owns. *)
Definition owned (x : cval B) : operand (cval B) :=
  mkOperand (VOk (match x with VSome _ => false | _ => true end)) (match x with VSome y => VOk y | _ => VBad end).

(** [x < y] with operands exchanged is [y > x]. *)
Definition flip (r : rel) : rel := match r with RLt => RGt | RGt => RLt | RLe => RGe | RGe => RLe | r => r end.

Definition on_base (f : B -> B -> res bool) (x y : cval B) : res bool :=
  match x, y with VVal b, VVal c => f b c | _, _ => VBad end.

(** [x r y] for operands of types [s1], [s2], given the operators of smaller types. *)
Definition expr (ops : cty -> cty -> cmp (cval B) (cval B)) (r : rel) (s1 s2 : cty) (x y : cval B) : res bool :=
  match select g s1 s2 with
  | Chosen (mkCand FII t a rev) =>
      match wrapped_type (if rev then s1 else s2) with
      | Some (u, _) =>
          if rev then compare g (ops t u) (ops u t) (flip r) (owned y) (owned x)
          else compare g (ops t u) (ops u t) r (owned x) (owned y)
      | None => VBad
      end
  | Chosen (mkCand FIV t a false) => compare_val g (ops t s2) (ops s2 t) r (owned x) y
  | Chosen (mkCand FIV t a true) => val_compare g (ops t s1) (ops s1 t) r x (owned y)
  | Chosen (mkCand FVI t a _) => val_compare g (ops t s1) (ops s1 t) r x (owned y)
  | _ => VBad
  end.

(** [x <=> y] for two wrappers of the same type. *)
Definition three_way (ops : cty -> cty -> cmp (cval B) (cval B)) (t : cty) (x y : cval B) : res ordering :=
  Compare20.op_tw (ops t t) (ops t t) (owned x) (owned y).

(** The operators of a pair of types; [n] bounds the depth.  [three_way_comparable_with] needs a
    common reference type, which different wrappers do not have. *)
Fixpoint ops (n : nat) (s1 s2 : cty) : cmp (cval B) (cval B) :=
  match s1, s2 with
  | CVal i, CVal j =>
      let C := base i j in
      mkCmp _ _ (on_base (v_eq C)) (on_base (v_ne C)) (on_base (v_lt C)) (on_base (v_gt C)) (on_base (v_le C)) (on_base (v_ge C))
        ((fun f x y => match x, y with VVal b, VVal c => f b c | _, _ => VBad end) <$> v_tw C)
  | _, _ =>
      match n with
      | 0 => let bad := fun _ _ => VBad in mkCmp _ _ bad bad bad bad bad bad None
      | S n' =>
          let e r := expr (ops n') r s1 s2 in
          mkCmp _ _ (e REq) (e RNe) (e RLt) (e RGt) (e RLe) (e RGe)
            (match s1, g with
             | CInd t _, Cxx20 => if decide (s1 = s2) then Some (three_way (ops n') t) else None
             | _, _ => None
             end)
      end
  end.

(** The operator [r] of a pair of types. *)
Definition op_of (C : cmp (cval B) (cval B)) (r : rel) : cval B -> cval B -> res bool :=
  match r with REq => v_eq C | RNe => v_ne C | RLt => v_lt C | RGt => v_gt C | RLe => v_le C | RGe => v_ge C end.
(** The value of the expression [x r y]. *)
Definition eval (r : rel) (s1 s2 : cty) : cval B -> cval B -> res bool := op_of (ops (csize s1 + csize s2) s1 s2) r.
End eval.

(** ** Specification *)

(** Values of a type. *)
Fixpoint has {B} (s : cty) (x : cval B) : Prop :=
  match s, x with
  | CVal _, VVal _ => True
  | (CInd t _ | CDer _ t _), VNone => True
  | (CInd t _ | CDer _ t _), VSome y => has t y
  | _, _ => False
  end.
(** No class is derived from a wrapper. *)
Fixpoint plain (s : cty) : Prop := match s with CVal _ => True | CInd t _ => plain t | CDer _ _ _ => False end.
Fixpoint core (s : cty) : nat := match s with CVal i => i | CInd t _ | CDer _ t _ => core t end.

(** Equality: unwrap both sides as far as they are wrapped; valueless is only equal to valueless. *)
Fixpoint same_as {B} (f : B -> B -> res bool) (x y : cval B) : res bool :=
  match x, y with
  | VNone, VNone => VOk true
  | VNone, _ | _, VNone => VOk false
  | VVal b, VVal c => f b c
  | VSome x', VSome y' => same_as f x' y'
  | VSome x', VVal _ => same_as f x' y
  | VVal b, VSome y' => (fix right (y : cval B) := match y with VSome y' => right y' | VNone => VOk false | VVal c => f b c end) y'
  end.
(** Order: valueless before everything else. *)
Fixpoint order_of {B} (f : B -> B -> ordering) (x y : cval B) : ordering :=
  match x, y with
  | VNone, VNone => Equiv
  | VNone, _ => Less
  | _, VNone => Greater
  | VVal b, VVal c => f b c
  | VSome x', VSome y' => order_of f x' y'
  | VSome x', VVal _ => order_of f x' y
  | VVal b, VSome y' => (fix right (y : cval B) := match y with VSome y' => right y' | VNone => Greater | VVal c => f b c end) y'
  end.
Definition holds (r : rel) (o : ordering) : bool :=
  match r, o with
  | REq, Equiv | RNe, (Less | Greater | Unordered) | RLt, Less | RGt, Greater | RLe, (Less | Equiv) | RGe, (Greater | Equiv) => true
  | _, _ => false
  end.
(** The operators of the values are those of a total order. *)
Record ordered {B} (base : nat -> nat -> cmp B B) (ord : nat -> nat -> B -> B -> ordering) : Prop := {
  or_total : forall i j b c, ord i j b c <> Unordered;
  or_flip : forall i j b c, ord j i c b = match ord i j b c with Less => Greater | Greater => Less | o => o end;
  or_ops : forall i j b c, v_eq (base i j) b c = VOk (holds REq (ord i j b c)) /\ v_ne (base i j) b c = VOk (holds RNe (ord i j b c)) /\
    v_lt (base i j) b c = VOk (holds RLt (ord i j b c)) /\ v_gt (base i j) b c = VOk (holds RGt (ord i j b c)) /\
    v_le (base i j) b c = VOk (holds RLe (ord i j b c)) /\ v_ge (base i j) b c = VOk (holds RGe (ord i j b c));
  or_tw : forall i j f b c, v_tw (base i j) = Some f -> f b c = VOk (ord i j b c);
}.
