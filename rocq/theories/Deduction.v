(** * Class template argument deduction for [indirect].

    [indirect(args...)] without template arguments names the class that the best deduction guide
    gives: one of the two in the header, one made from a constructor, or the copy deduction
    candidate ([over.match.class.deduct]).

    Simplifications: value arguments have types that passing by value leaves alone (no arrays,
    functions or const); no initializer-list braces around the arguments.  A const rvalue binds
    like an lvalue. *)

From stdpp Require Import base gmap list.

(** Types of arguments: [std::allocator_arg_t], allocators, [indirect<t, a>], and other types. *)
Inductive gty := GTag | GAlloc (a : galloc) | GInd (t : gty) (a : galloc) | GOther (n : nat)
with galloc := ADefault (t : gty) | ARebound (n : nat) (t : gty).
(** [std::allocator<t>], and the [n]th other allocator template. *)

(** [typename allocator_traits<a>::template rebind_alloc<t>] *)
Definition rebind (a : galloc) (t : gty) : galloc := match a with ADefault _ => ADefault t | ARebound n _ => ARebound n t end.

Fixpoint gty_eqb (s t : gty) : bool :=
  match s, t with
  | GTag, GTag => true
  | GAlloc a, GAlloc b => galloc_eqb a b
  | GInd s a, GInd t b => gty_eqb s t && galloc_eqb a b
  | GOther m, GOther n => Nat.eqb m n
  | _, _ => false
  end
with galloc_eqb (a b : galloc) : bool :=
  match a, b with
  | ADefault s, ADefault t => gty_eqb s t
  | ARebound m s, ARebound n t => Nat.eqb m n && gty_eqb s t
  | _, _ => false
  end.

(** An argument: its type, and whether it is an lvalue (or const). *)
Definition garg : Type := gty * bool.

(** Parameters of guides: [allocator_arg_t]; [const A&] and [Alloc], both deduced;
    [indirect<T, A>] by value, by const reference and by rvalue reference; [Value]. *)
Inductive gpar := QTag | QConstA | QAlloc | QInd | QIndC | QIndR | QValue.
(** Where guides come from. *)
Inductive origin := Implicit | Written | CopyDeduction.
Record guide := mkG { g_from : origin; g_pars : list gpar }.

(** The guides.  T cannot be deduced in the guides made from the other constructors (default, value,
    in place, initializer list), which therefore never apply.
    - indirect.h 465-466, indirect_cxx14.h 574-575: [indirect(Value) -> indirect<Value>]
    - indirect.h 468-470, indirect_cxx14.h 577-579: [indirect(allocator_arg_t, Alloc, Value)
      -> indirect<Value, rebind_alloc<Value>>]
    - copy and move constructors, also allocator-extended: indirect.h 129-139, 185-220, indirect_cxx14.h 198-235. *)
Definition guides : list guide := [
  mkG Written [QValue];
  mkG Written [QTag; QAlloc; QValue];
  mkG CopyDeduction [QInd];
  mkG Implicit [QIndC];
  mkG Implicit [QTag; QConstA; QIndC];
  mkG Implicit [QIndR];
  mkG Implicit [QTag; QConstA; QIndR]
].

(** What one parameter deduces: the types T (or Value) and A (or Alloc); [None]: it does not match. *)
Definition deduce1 (p : gpar) (x : garg) : option (option gty * option galloc) :=
  match p, x with
  | QTag, (GTag, _) => Some (None, None)
  | (QConstA | QAlloc), (GAlloc a, _) => Some (None, Some a)
  | (QInd | QIndC), (GInd t a, _) => Some (Some t, Some a)
  | QIndR, (GInd t a, false) => Some (Some t, Some a)
  | QValue, (t, _) => Some (Some t, None)
  | _, _ => None
  end.
(** All parameters; deductions of the same template parameter must agree. *)
Fixpoint deduce (ps : list gpar) (l : list garg) : option (option gty * option galloc) :=
  match ps, l with
  | [], [] => Some (None, None)
  | p :: ps, x :: l =>
      match deduce1 p x, deduce ps l with
      | Some (t, a), Some (t', a') =>
          match t, t' with Some _, Some _ => None | _, _ =>
          match a, a' with
          | Some b, Some b' => if galloc_eqb b b' then Some (match t with None => t' | _ => t end, a) else None
          | _, _ => Some (match t with None => t' | _ => t end, match a with None => a' | _ => a end)
          end end
      | _, _ => None
      end
  | _, _ => None
  end.
(** The class the guide names. *)
Definition names (g : guide) (l : list garg) : option (gty * galloc) :=
  match deduce (g_pars g) l with
  | Some (Some t, Some a) => Some (t, match g_from g with Written => rebind a t | _ => a end)
  | Some (Some t, None) => Some (t, ADefault t)
  | _ => None
  end.

(** [over.match.best]: of two references, an rvalue is better bound to [&&]; else the more
    specialised guide; else the one written; else the copy deduction candidate. *)
Definition conv_better (p q : gpar) : bool := match p, q with QIndR, QIndC => true | _, _ => false end.
Definition special (p q : gpar) : bool := (* [q] is deducible from [p] *)
  match p, q with
  | QTag, QTag | (QConstA | QAlloc), (QConstA | QAlloc) | (QInd | QIndC | QIndR), (QInd | QIndC | QIndR) | _, QValue => true
  | _, _ => false
  end.
Fixpoint all2 (f : gpar -> gpar -> bool) (ps qs : list gpar) : bool :=
  match ps, qs with [], [] => true | p :: ps, q :: qs => f p q && all2 f ps qs | _, _ => false end.
Fixpoint some2 (f : gpar -> gpar -> bool) (ps qs : list gpar) : bool :=
  match ps, qs with p :: ps, q :: qs => f p q || some2 f ps qs | _, _ => false end.
Definition gbetter (g h : guide) : bool :=
  let ps := g_pars g in let qs := g_pars h in
  if some2 conv_better qs ps then false
  else if some2 conv_better ps qs then true
  else match all2 special ps qs, all2 special qs ps with
       | true, false => true
       | false, true => false
       | _, _ =>
           match g_from g, g_from h with
           | Written, (Implicit | CopyDeduction) => true
           | CopyDeduction, Implicit => true
           | _, _ => false
           end
       end.

Inductive deduced := DNone | DAmbiguous | DClass (t : gty) (a : galloc).
Definition same_guide (g h : guide) : bool :=
  all2 (fun p q => match p, q with
    | QTag, QTag | QConstA, QConstA | QAlloc, QAlloc | QInd, QInd | QIndC, QIndC | QIndR, QIndR | QValue, QValue => true | _, _ => false end)
    (g_pars g) (g_pars h).
Definition gviable (l : list garg) : list (guide * (gty * galloc)) :=
  omap (fun g => c ← names g l ; Some (g, c)) guides.
Definition gbest (vs : list (guide * (gty * galloc))) (v : guide * (gty * galloc)) : bool :=
  forallb (fun v' => same_guide v'.1 v.1 || gbetter v.1 v'.1) vs.
(** The class that [indirect(l...)] is. *)
Definition ctad (l : list garg) : deduced :=
  match gviable l with
  | [] => DNone
  | vs => match List.find (gbest vs) vs with Some (_, (t, a)) => DClass t a | None => DAmbiguous end
  end.
