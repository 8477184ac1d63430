(** * Which constructor or assignment operator a call selects.

    Overload resolution ([over.match], [temp.func.order]) for the overload sets of the four
    headers, over all argument lists.  The declarations are listed with their parameters,
    [explicit] and constraints ([requires] or [enable_if]).  The traits the constraints consult
    ([is_constructible], [derived_from], ...) are arbitrary functions.

    Simplifications.  No type other than the tag types themselves converts to a tag type.
    Conversion functions to the class itself return by value.  A braced list has at least two elements,
    all of one type, which is not a tag type (so it never initialises the class itself); braced lists
    do not occur where [const A&] is expected.  Mandates ([static_assert]) are not constraints.  No two
    templates of one overload set have equivalent parameters, so which is more constrained never matters. *)

From stdpp Require Import base list.

(** Argument types without references and cv-qualifiers. *)
Inductive base :=
  | BSelf                        (* indirect<T, A> or polymorphic<T, A> itself *)
  | BDer (n : nat)               (* a class derived from it *)
  | BArg                         (* allocator_arg_t *)
  | BAlloc                       (* A *)
  | BTag                         (* in_place_t *)
  | BTagT (cvref : bool) (u : base) (* in_place_type_t<u>; [cvref]: u is qualified or a reference *)
  | BList (i : base)             (* std::initializer_list<i> *)
  | BType (n : nat).
#[global] Instance base_eq_dec : EqDecision base.
Proof. solve_decision. Defined.

(** Value category and constness of an expression. *)
Inductive cat := L | CL | R | CR.
#[global] Instance cat_eq_dec : EqDecision cat.
Proof. solve_decision. Defined.

Inductive arg := Ex (b : base) (c : cat) | Br (i : base).
#[global] Instance arg_eq_dec : EqDecision arg.
Proof. solve_decision. Defined.

(** What the constraints and conversions consult. *)
Record traits := {
  tv : base;                                 (* T *)
  constructible : base -> list arg -> bool;  (* is_constructible<b, args...> *)
  assignable : arg -> bool;                  (* is_assignable<T&, arg> *)
  copyable : base -> bool;                   (* is_copy_constructible *)
  derived : base -> bool;                    (* derived_from<b, T> *)
  base_of : base -> bool;                    (* is_base_of<T, b> *)
  default_A : bool;                          (* is_default_constructible<A> *)
  to_A : base -> cat -> bool;                (* implicit conversion to const A& *)
  to_self : base -> cat -> bool;             (* conversion function to the class itself *)
  list_T : base -> bool;                     (* T can be initialised from a braced list *)
}.

(** Parameters. *)
Inductive param :=
  | PSelf                        (* const self& *)
  | PSelfR                       (* self&& *)
  | PArg                         (* allocator_arg_t *)
  | PAlloc                       (* const A& *)
  | PTag                         (* in_place_t *)
  | PTagT                        (* in_place_type_t<U> *)
  | PFwd (dflt : bool)           (* U&&; [dflt]: template <class U = T> *)
  | PList                        (* std::initializer_list<I> *)
  | PPack.                       (* Us&&... *)
#[global] Instance param_eq_dec : EqDecision param.
Proof. solve_decision. Defined.

Inductive kind := KDefault | KCopy | KMove | KValue | KInPlace | KList.
#[global] Instance kind_eq_dec : EqDecision kind.
Proof. solve_decision. Defined.

(** What template argument deduction found. *)
Record ded := mkD { d_tag : option (bool * base); d_list : option base; d_fwd : list arg }.

(** A declaration.  [f_alloc]: allocator-extended; [f_tm]: template. *)
Record fn := mkF { f_kind : kind; f_alloc : bool; f_ps : list param; f_tm : bool; f_explicit : bool; f_req : ded -> bool }.

Section engine.
Context (X : traits).

(** ** Conversions *)
Inductive rank := Exact | Derived | User.
Definition rank_lt (r r' : rank) : bool :=
  match r, r' with Exact, Derived | Exact, User | Derived, User => true | _, _ => false end.
(** How the parameter is bound: by value, or by lvalue or rvalue reference, to const or not. *)
Inductive bind := ByVal | LRef (cst : bool) | RRef (cst : bool).
Record ics := mkI { i_rank : rank; i_bind : bind }.

(** [over.ics.rank] 3.2.3, 3.2.6 *)
Definition bind_lt (b b' : bind) : bool :=
  match b, b' with
  | RRef _, LRef _ => true
  | LRef false, LRef true | RRef false, RRef true => true
  | _, _ => false
  end.
Definition ics_lt (i j : ics) : bool :=
  rank_lt (i_rank i) (i_rank j) ||
  (negb (rank_lt (i_rank j) (i_rank i)) && bind_lt (i_bind i) (i_bind j)).

(** [U&&] *)
Definition fwd_bind (c : cat) : bind :=
  match c with L => LRef false | CL => LRef true | R => RRef false | CR => RRef true end.

(** The class itself, by [const self&] ([false]) or [self&&] ([true]). *)
Definition self_ics (rv : bool) (b : base) (c : cat) : option ics :=
  let direct := fun r => if rv then match c with R => Some (mkI r (RRef false)) | _ => None end else Some (mkI r (LRef true)) in
  match b with
  | BSelf => direct Exact
  | BDer _ => direct Derived
  | _ => if to_self X b c then Some (mkI User (if rv then RRef false else LRef true)) else None
  end.

Definition conv (p : param) (a : arg) : option ics :=
  match p, a with
  | PSelf, Ex b c => self_ics false b c
  | PSelfR, Ex b c => self_ics true b c
  | PArg, Ex BArg _ => Some (mkI Exact ByVal)
  | PAlloc, Ex BAlloc _ => Some (mkI Exact (LRef true))
  | PAlloc, Ex b c => if to_A X b c then Some (mkI User (LRef true)) else None
  | PTag, Ex BTag _ => Some (mkI Exact ByVal)
  | PTagT, Ex (BTagT _ _) _ => Some (mkI Exact ByVal)
  | PFwd _, Ex _ c => Some (mkI Exact (fwd_bind c))
  | PFwd true, Br i => if list_T X i then Some (mkI User (RRef false)) else None
  | PPack, Ex _ c => Some (mkI Exact (fwd_bind c))
  | PList, Ex (BList _) _ => Some (mkI Exact ByVal)
  | PList, Br _ => Some (mkI Exact ByVal)
  | _, _ => None
  end.

Definition push (i : option ics) (r : option (list ics)) : option (list ics) :=
  match i, r with Some i, Some r => Some (i :: r) | _, _ => None end.
(** A conversion for each argument; a pack takes all the rest. *)
Fixpoint convs_pack (l : list arg) : option (list ics) :=
  match l with [] => Some [] | a :: l' => push (conv PPack a) (convs_pack l') end.
Fixpoint convs (ps : list param) (l : list arg) : option (list ics) :=
  match ps, l with
  | [], [] => Some []
  | PPack :: _, l => convs_pack l
  | p :: ps', a :: l' => push (conv p a) (convs ps' l')
  | _, _ => None
  end.

(** ** Deduction *)
Definition add_fwd (a : arg) (d : ded) : ded := mkD (d_tag d) (d_list d) (a :: d_fwd d).
Fixpoint deduce (ps : list param) (l : list arg) : ded :=
  match ps, l with
  | PPack :: _, l => mkD None None l
  | PTagT :: ps', Ex (BTagT q u) _ :: l' => let d := deduce ps' l' in mkD (Some (q, u)) (d_list d) (d_fwd d)
  | PList :: ps', Ex (BList i) _ :: l' => let d := deduce ps' l' in mkD (d_tag d) (Some i) (d_fwd d)
  | PList :: ps', Br i :: l' => let d := deduce ps' l' in mkD (d_tag d) (Some i) (d_fwd d)
  | PFwd _ :: ps', Br i :: l' => add_fwd (Ex (tv X) R) (deduce ps' l')
  | PFwd _ :: ps', a :: l' => add_fwd a (deduce ps' l')
  | _ :: ps', _ :: l' => deduce ps' l'
  | _, _ => mkD None None []
  end.

Definition viable (f : fn) (l : list arg) : option (list ics) :=
  match convs (f_ps f) l with Some is => if f_req f (deduce (f_ps f) l) then Some is else None | None => None end.

(** ** Better function *)
Fixpoint no_worse (is js : list ics) : bool :=
  match is, js with i :: is', j :: js' => negb (ics_lt j i) && no_worse is' js' | _, _ => true end.
Fixpoint some_better (is js : list ics) : bool :=
  match is, js with i :: is', j :: js' => ics_lt i j || some_better is' js' | _, _ => false end.

(** [temp.func.order]: parameter types of [q] can be deduced from those of [p], for the first
    [n] parameters, the number of arguments. *)
Definition deducible (p q : param) : bool :=
  match p, q with
  | PPack, PPack => true
  | PPack, _ => false
  | _, PPack | _, PFwd _ => true
  | _, _ => bool_decide (p = q)
  end.
Fixpoint at_least_as_special (n : nat) (ps qs : list param) : bool :=
  match n, ps, qs with
  | S n', p :: ps', q :: qs' =>
      deducible p q &&
      at_least_as_special n' (match p with PPack => ps | _ => ps' end) (match q with PPack => qs | _ => qs' end)
  | _, _, _ => true
  end.
Definition more_special (n : nat) (f g : fn) : bool :=
  at_least_as_special n (f_ps f) (f_ps g) && negb (at_least_as_special n (f_ps g) (f_ps f)).

(** [over.match.best] *)
Definition better (n : nat) (f : fn) (is : list ics) (g : fn) (js : list ics) : bool :=
  no_worse is js &&
  (some_better is js || (negb (f_tm f) && f_tm g) || (f_tm f && f_tm g && more_special n f g)).

Inductive result := None_viable | Ambiguous | Selects (f : fn).

Fixpoint viables (fs : list fn) (l : list arg) : list (fn * list ics) :=
  match fs with
  | [] => []
  | f :: fs' => match viable f l with Some is => [(f, is)] | None => [] end ++ viables fs' l
  end.

(** [x] is better than all of [l]; [pick] tries each candidate against the others. *)
Definition beats (n : nat) (x : fn * list ics) (l : list (fn * list ics)) : bool :=
  forallb (fun y => better n x.1 x.2 y.1 y.2) l.
Fixpoint pick (n : nat) (before : list (fn * list ics)) (l : list (fn * list ics)) : option fn :=
  match l with
  | [] => None
  | x :: l' => if beats n x (before ++ l') then Some x.1 else pick n (x :: before) l'
  end.
Definition select (fs : list fn) (l : list arg) : result :=
  match viables fs l with
  | [] => None_viable
  | vs => match pick (length l) [] vs with Some f => Selects f | None => Ambiguous end
  end.
End engine.

(** ** The declarations *)
Section decls.
Context (X : traits).
Definition both (f g : ded -> bool) (d : ded) : bool := f d && g d.
Local Infix "&." := both (at level 40, left associativity).
Definition none (d : ded) : bool := true.
Definition dfl_A (d : ded) : bool := default_A X.
Definition bas (a : arg) : option base := match a with Ex b _ => Some b | Br _ => None end.
(** remove_cvref<U> *)
Definition fst_bas (d : ded) : option base := match d_fwd d with a :: _ => bas a | [] => None end.
Definition not_self (d : ded) : bool := bool_decide (fst_bas d <> Some BSelf).
Definition not_tag (d : ded) : bool := bool_decide (fst_bas d <> Some BTag).
Definition is_T (d : ded) : bool := bool_decide (fst_bas d = Some (tv X)).
(** is_constructible<T, Us...>, is_constructible<T, std::initializer_list<I>(&), Us...> *)
Definition cons_T (d : ded) : bool := constructible X (tv X) (d_fwd d).
Definition cons_T_list (c : cat) (d : ded) : bool :=
  match d_list d with Some i => constructible X (tv X) (Ex (BList i) c :: d_fwd d) | None => false end.
(** the same for the U of in_place_type_t<U> *)
Definition cons_U (d : ded) : bool := match d_tag d with Some (_, u) => constructible X u (d_fwd d) | None => false end.
Definition cons_U_list (c : cat) (d : ded) : bool :=
  match d_tag d, d_list d with Some (_, u), Some i => constructible X u (Ex (BList i) c :: d_fwd d) | _, _ => false end.
Definition tag_ok (P : base -> bool) (d : ded) : bool := match d_tag d with Some (_, u) => P u | None => false end.
Definition unqualified (d : ded) : bool := match d_tag d with Some (q, _) => negb q | None => false end.
Definition fwd_ok (P : base -> bool) (d : ded) : bool := match fst_bas d with Some b => P b | None => false end.

(** indirect.h 96-97, 103-107, 112-115, 120-124, 129, 137, 145, 150-154, 159-163, 168-171, 176-180, 185, 197 *)
Definition ctors_ind20 : list fn := [
  mkF KDefault false [] false true dfl_A;
  mkF KValue false [PFwd true] true true (not_self &. not_tag &. cons_T &. dfl_A);
  mkF KInPlace false [PTag; PPack] true true (cons_T &. dfl_A);
  mkF KList false [PTag; PList; PPack] true true (cons_T_list L &. dfl_A);
  mkF KCopy false [PSelf] false false none;
  mkF KMove false [PSelfR] false false none;
  mkF KDefault true [PArg; PAlloc] false true none;
  mkF KValue true [PArg; PAlloc; PFwd true] true true (not_self &. not_tag &. cons_T);
  mkF KInPlace true [PArg; PAlloc; PTag; PFwd true] true true (not_self &. cons_T);
  mkF KInPlace true [PArg; PAlloc; PTag; PPack] true true cons_T;
  mkF KList true [PArg; PAlloc; PTag; PList; PPack] true true (cons_T_list L);
  mkF KCopy true [PArg; PAlloc; PSelf] false false none;
  mkF KMove true [PArg; PAlloc; PSelfR] false false none].

(** indirect_cxx14.h 116, 120-123, 125-137, 142-154, 157-160, 165-171, 175-181, 186-194, 198, 209, 215, 233 *)
Definition ctors_ind14 : list fn := [
  mkF KDefault true [PArg; PAlloc] false false none;
  mkF KDefault false [] true false dfl_A;
  mkF KValue true [PArg; PAlloc; PFwd false] true true (is_T &. not_tag);
  mkF KValue false [PFwd false] true true (is_T &. not_tag);
  mkF KInPlace true [PArg; PAlloc; PTag; PPack] true false cons_T;
  mkF KInPlace false [PTag; PPack] true true (cons_T &. dfl_A);
  mkF KList true [PArg; PAlloc; PTag; PList; PPack] true false (cons_T_list R);
  mkF KList false [PTag; PList; PPack] true false (cons_T_list R &. dfl_A);
  mkF KCopy true [PArg; PAlloc; PSelf] false false none;
  mkF KCopy false [PSelf] false false none;
  mkF KMove true [PArg; PAlloc; PSelfR] false false none;
  mkF KMove false [PSelfR] false false none].

(** polymorphic.h 156-157, 162-167, 170-175, 179-185, 189, 195, 203, 210-214, 219-224, 229-235, 240, 250 *)
Definition ctors_poly20 : list fn := [
  mkF KDefault false [] false true dfl_A;
  mkF KValue false [PFwd false] true true (not_self &. fwd_ok (copyable X) &. fwd_ok (derived X) &. dfl_A);
  mkF KInPlace false [PTagT; PPack] true true (unqualified &. cons_U &. tag_ok (copyable X) &. tag_ok (derived X) &. dfl_A);
  mkF KList false [PTagT; PList; PPack] true true (unqualified &. cons_U_list R &. tag_ok (copyable X) &. tag_ok (derived X) &. dfl_A);
  mkF KCopy false [PSelf] false false none;
  mkF KMove false [PSelfR] false false none;
  mkF KDefault true [PArg; PAlloc] false true none;
  mkF KValue true [PArg; PAlloc; PFwd false] true true (not_self &. fwd_ok (copyable X) &. fwd_ok (derived X));
  mkF KInPlace true [PArg; PAlloc; PTagT; PPack] true true (unqualified &. cons_U &. tag_ok (copyable X) &. tag_ok (derived X));
  mkF KList true [PArg; PAlloc; PTagT; PList; PPack] true true (unqualified &. cons_U_list R &. tag_ok (copyable X) &. tag_ok (derived X));
  mkF KCopy true [PArg; PAlloc; PSelf] false false none;
  mkF KMove true [PArg; PAlloc; PSelfR] false false none].

(** polymorphic_cxx14.h 199-202, 206-212, 216-224, 229-238, 243-255, 259-269, 273-289, 295-311, 317, 326, 332, 353 *)
Definition dfl_T (d : ded) : bool := constructible X (tv X) [].
Definition ctors_poly14 : list fn := [
  mkF KDefault true [PArg; PAlloc] true false dfl_T;
  mkF KDefault false [] true false (dfl_T &. dfl_A);
  mkF KInPlace true [PArg; PAlloc; PTagT; PPack] true false (cons_U &. tag_ok (copyable X) &. tag_ok (base_of X));
  mkF KList true [PArg; PAlloc; PTagT; PList; PPack] true false (cons_U_list R &. tag_ok (copyable X) &. tag_ok (base_of X));
  mkF KList false [PTagT; PList; PPack] true true (cons_U_list R &. tag_ok (copyable X) &. tag_ok (base_of X) &. dfl_A);
  mkF KInPlace false [PTagT; PPack] true true (cons_U &. tag_ok (copyable X) &. tag_ok (base_of X) &. dfl_A);
  mkF KValue true [PArg; PAlloc; PFwd false] true true (not_self &. fwd_ok (copyable X) &. fwd_ok (base_of X));
  mkF KValue false [PFwd false] true true (not_self &. fwd_ok (copyable X) &. fwd_ok (base_of X));
  mkF KCopy true [PArg; PAlloc; PSelf] false false none;
  mkF KCopy false [PSelf] false false none;
  mkF KMove true [PArg; PAlloc; PSelfR] false false none;
  mkF KMove false [PSelfR] false false none].

(** Assignment.  indirect.h 228, 260, 294-297 *)
Definition asg_T (d : ded) : bool := match d_fwd d with a :: _ => assignable X a | [] => false end.
Definition assigns_ind20 : list fn := [
  mkF KCopy false [PSelf] false false none;
  mkF KMove false [PSelfR] false false none;
  mkF KValue false [PFwd false] true false (not_self &. cons_T &. asg_T)].

(** indirect_cxx14.h 239, 270, 303-308: the condition is on std::remove_cv_t<U>, not on
    remove_cvref; for an lvalue argument U is a reference, and std::remove_cv_t<U> is U. *)
Definition remove_cv_not_self (d : ded) : bool :=
  match d_fwd d with
  | Ex BSelf R :: _ | Ex BSelf CR :: _ => false
  | _ => true
  end.
Definition assigns_ind14 : list fn := [
  mkF KCopy false [PSelf] false false none;
  mkF KMove false [PSelfR] false false none;
  mkF KValue false [PFwd false] true false (cons_T &. asg_T &. remove_cv_not_self)].

(** polymorphic.h 279, 305; polymorphic_cxx14.h 359, 384 *)
Definition assigns_poly : list fn := [
  mkF KCopy false [PSelf] false false none;
  mkF KMove false [PSelfR] false false none].
End decls.

(** ** What the constructors delegate to

    [std::allocator_arg] and [std::in_place_type<U>] are const lvalues, [std::allocator_arg_t{}], [A{}] and
    [in_place_t{}] prvalues; [std::forward] keeps the category; a named parameter is an lvalue. *)
(** indirect.h 129-139 *)
Definition delegates_ind20 (k : kind) (al : bool) (l : list arg) : option (list arg) :=
  match k, al with
  | KCopy, false => Some [Ex BArg CL; Ex BAlloc R; Ex BSelf CL]
  | KMove, false => Some [Ex BArg CL; Ex BAlloc L; Ex BSelf R]
  | _, _ => None
  end.
(** [ilist] by name, the rest forwarded *)
Definition relist (l : list arg) : list arg :=
  match l with Ex (BList i) _ :: r | Br i :: r => Ex (BList i) L :: r | _ => l end.
(** indirect_cxx14.h 123, 155, 172-173, 195-196, 209-213, 233-235 *)
Definition delegates_ind14 (k : kind) (al : bool) (l : list arg) : option (list arg) :=
  match k, al with
  | KDefault, false => Some [Ex BArg CL; Ex BAlloc R]
  | KValue, false => Some (Ex BArg CL :: Ex BAlloc R :: l)
  | KInPlace, false => Some (Ex BArg CL :: Ex BAlloc R :: Ex BTag R :: tail l)
  | KList, false => Some (Ex BArg CL :: Ex BAlloc R :: Ex BTag R :: relist (tail l))
  | KCopy, false => Some [Ex BArg CL; Ex BAlloc R; Ex BSelf CL]
  | KMove, false => Some [Ex BArg CL; Ex BAlloc L; Ex BSelf R]
  | _, _ => None
  end.
(** [in_place_type_t<U>] for the same U, with the category of the expression *)
Definition retag (c : cat) (l : list arg) : list arg := match l with Ex (BTagT q u) _ :: r => Ex (BTagT q u) c :: r | _ => l end.
(** polymorphic.h 158, 168, 176-177, 186-187, 189-193, 195-197 *)
Definition delegates_poly20 (k : kind) (al : bool) (l : list arg) : option (list arg) :=
  match k, al with
  | KDefault, false => Some [Ex BArg R; Ex BAlloc R]
  | KValue, false => Some (Ex BArg R :: Ex BAlloc R :: l)
  | KInPlace, false => Some (Ex BArg R :: Ex BAlloc R :: retag CL l)
  | KList, false => Some (Ex BArg R :: Ex BAlloc R :: match retag CL l with t :: r => t :: relist r | [] => [] end)
  | KCopy, false => Some [Ex BArg R; Ex BAlloc R; Ex BSelf CL]
  | KMove, false => Some [Ex BArg R; Ex BAlloc L; Ex BSelf R]
  | _, _ => None
  end.
(** polymorphic_cxx14.h 256-257, 270-271, 290-293, 312-315, 326-330, 353-355: the value constructors go
    through the in-place ones, with the type of the argument *)
Definition type_of (l : list arg) : list arg :=
  match l with Ex b _ :: _ => Ex (BTagT false b) R :: l | _ => l end.
Definition delegates_poly14 (k : kind) (al : bool) (l : list arg) : option (list arg) :=
  match k, al with
  | KValue, false => Some (Ex BArg R :: Ex BAlloc R :: type_of l)
  | KValue, true => Some (Ex BArg R :: Ex BAlloc CL :: type_of (tail (tail l)))
  | KInPlace, false => Some (Ex BArg CL :: Ex BAlloc R :: retag R l)
  | KList, false => Some (Ex BArg CL :: Ex BAlloc R :: match retag R l with t :: r => t :: relist r | [] => [] end)
  | KCopy, false => Some [Ex BArg CL; Ex BAlloc R; Ex BSelf CL]
  | KMove, false => Some [Ex BArg CL; Ex BAlloc R; Ex BSelf R]
  | _, _ => None
  end.
