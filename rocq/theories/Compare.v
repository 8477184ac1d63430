(** * Model of the comparison operators and hash of [indirect].

    One definition per operator.  The operators only read their operands, and T, U, A and AA may
    all differ, so each operand is given by its two observers [valueless_after_move()] and [operator*],
    each run on the store of its class (the model keeps objects of different classes in different
    stores).  The value types' operators take const references; they are functions of the
    values and may throw. *)

From stdpp Require Import base gmap list.
From Verif Require Import Lang Common Client.

(** Result of evaluating an expression. *)
Inductive res (X : Type) := VOk (x : X) | VExn (e : exn) | VBad.
Arguments VOk {X} _.
Arguments VExn {X} _.
Arguments VBad {X}.

Definition rbind {X Y} (m : res X) (k : X -> res Y) : res Y :=
  match m with VOk x => k x | VExn e => VExn e | VBad => VBad end.
Declare Scope res_scope.
Delimit Scope res_scope with res.
Notation "x <- m ; k" := (rbind m (fun x => k))
  (at level 100, m at next level, k at level 200, right associativity) : res_scope.
Local Open Scope res_scope.

(** C++ [!], [&&], [||]: the right operand is evaluated only if needed. *)
Definition rnot (m : res bool) : res bool := b <- m ; VOk (negb b).
Definition rand (m n : res bool) : res bool := b <- m ; if (b : bool) then n else VOk false.
Definition ror (m n : res bool) : res bool := b <- m ; if (b : bool) then VOk true else n.

(** Values of std::partial_ordering, of which weak and strong orderings are special cases. *)
Inductive ordering := Less | Equiv | Greater | Unordered.
#[global] Instance ordering_eq_dec : EqDecision ordering.
Proof. solve_decision. Defined.

(** An [indirect<T, A>] operand; [o_deref] is the value of [*o] and is undefined behaviour if valueless. *)
Record operand (V : Type) := mkOperand { o_valueless : res bool; o_deref : res V }.
Arguments mkOperand {V} _ _.
Arguments o_valueless {V} _.
Arguments o_deref {V} _.

Definition lift {E : Env} {X} (o : outcome E X) : res X :=
  match o with ORet x _ => VOk x | OThrow e _ => VExn e | OUB _ | OTerm => VBad end.

Definition operand_of {E : Env} (I : impl E) (s : store E) (w : wl) : operand (eV E) :=
  mkOperand (lift (run (i_valueless I w) s))
            (lift (run (l <- i_star I w ; o <- act (PReadObj (RBlk l)) ; Ret o.2)%prog s)).

(** The comparison operators a pair of types T, U offers, left operand a T;
    [v_tw] is [<=>] if [three_way_comparable_with<T, U>], which is symmetric in T and U. *)
Record cmp (V W : Type) := mkCmp {
  v_eq : V -> W -> res bool;
  v_ne : V -> W -> res bool;
  v_lt : V -> W -> res bool;
  v_gt : V -> W -> res bool;
  v_le : V -> W -> res bool;
  v_ge : V -> W -> res bool;
  v_tw : option (V -> W -> res ordering);
}.
Arguments v_eq {V W} _ _ _.
Arguments v_ne {V W} _ _ _.
Arguments v_lt {V W} _ _ _.
Arguments v_gt {V W} _ _ _.
Arguments v_le {V W} _ _ _.
Arguments v_ge {V W} _ _ _.
Arguments v_tw {V W} _.

(** Rewriting of comparison expressions by the compiler ([over.match.oper] p3): [a < b] is
    [(a <=> b) < 0], and so on. *)
Definition is_lt (o : ordering) : bool := match o with Less => true | _ => false end.
Definition is_gt (o : ordering) : bool := match o with Greater => true | _ => false end.
Definition is_le (o : ordering) : bool := match o with Less | Equiv => true | _ => false end.
Definition is_ge (o : ordering) : bool := match o with Greater | Equiv => true | _ => false end.

Module Compare20.
Section cmp.
Context {V W : Type} (C : cmp V W) (C' : cmp W V).
Implicit Types lhs : operand V.
Implicit Types rhs : operand W.

(** indirect.h 53-66 [synth_three_way] *)
Definition synth_three_way (t : V) (u : W) : res ordering :=
  match v_tw C with
  | Some f => f t u
  | None =>
      b <- v_lt C t u ;
      if (b : bool) then VOk Less else
      b' <- v_lt C' u t ;
      if (b' : bool) then VOk Greater else VOk Equiv
  end.

(** [bool <=> bool] *)
Definition bool_tw (a b : bool) : ordering :=
  match a, b with false, true => Less | true, false => Greater | _, _ => Equiv end.

(** indirect.h 377-387 [operator==(indirect<T, A>, indirect<U, AA>)] *)
Definition op_eq lhs rhs : res bool :=
  l <- o_valueless lhs ;
  if (l : bool) then o_valueless rhs else
  r <- o_valueless rhs ;
  if (r : bool) then VOk false else
  x <- o_deref lhs ; y <- o_deref rhs ; v_eq C x y.

(** indirect.h 389-398 [operator==(indirect<T, A>, U)] *)
Definition op_eq_val lhs (u : W) : res bool :=
  l <- o_valueless lhs ;
  if (l : bool) then VOk false else
  x <- o_deref lhs ; v_eq C x u.

(** indirect.h 400-408 [operator<=>(indirect<T, A>, indirect<U, AA>)] *)
Definition op_tw lhs rhs : res ordering :=
  c <- ror (o_valueless lhs) (o_valueless rhs) ;
  if (c : bool) then
    l <- o_valueless lhs ; r <- o_valueless rhs ; VOk (bool_tw (negb l) (negb r))
  else
    x <- o_deref lhs ; y <- o_deref rhs ; synth_three_way x y.

(** indirect.h 410-425 [operator<=>(indirect<T, A>, U)] *)
Definition op_tw_val lhs (u : W) : res ordering :=
  l <- o_valueless lhs ;
  if (l : bool) then VOk Less else
  x <- o_deref lhs ; synth_three_way x u.

(** The expressions of a client, by rewriting. *)
Definition op_ne lhs rhs := rnot (op_eq lhs rhs).
Definition op_lt lhs rhs := o <- op_tw lhs rhs ; VOk (is_lt o).
Definition op_gt lhs rhs := o <- op_tw lhs rhs ; VOk (is_gt o).
Definition op_le lhs rhs := o <- op_tw lhs rhs ; VOk (is_le o).
Definition op_ge lhs rhs := o <- op_tw lhs rhs ; VOk (is_ge o).

Definition op_ne_val lhs u := rnot (op_eq_val lhs u).
Definition op_lt_val lhs u := o <- op_tw_val lhs u ; VOk (is_lt o).
Definition op_gt_val lhs u := o <- op_tw_val lhs u ; VOk (is_gt o).
Definition op_le_val lhs u := o <- op_tw_val lhs u ; VOk (is_le o).
Definition op_ge_val lhs u := o <- op_tw_val lhs u ; VOk (is_ge o).

(** [u == x] is [x == u]; [u < x] is [0 < (x <=> u)]. *)
Definition val_op_eq u lhs := op_eq_val lhs u.
Definition val_op_ne u lhs := rnot (op_eq_val lhs u).
Definition val_op_lt u lhs := o <- op_tw_val lhs u ; VOk (is_gt o).
Definition val_op_gt u lhs := o <- op_tw_val lhs u ; VOk (is_lt o).
Definition val_op_le u lhs := o <- op_tw_val lhs u ; VOk (is_ge o).
Definition val_op_ge u lhs := o <- op_tw_val lhs u ; VOk (is_le o).

End cmp.

(** indirect.h 474-483 [std::hash<indirect<T, A>>]; std::size_t(-1) for 64 bits. *)
Definition size_max : N := N.ones 64.
Definition hash {V} (H : V -> res N) (key : operand V) : res N :=
  b <- o_valueless key ;
  if (b : bool) then VOk size_max else
  x <- o_deref key ; H x.
End Compare20.

Module Compare14.
Section cmp.
Context {V W : Type} (C : cmp V W) (C' : cmp W V).
Implicit Types lhs : operand V.
Implicit Types rhs : operand W.

(** indirect_cxx14.h 375-382 *)
Definition op_eq lhs rhs : res bool :=
  c <- ror (o_valueless lhs) (o_valueless rhs) ;
  if (c : bool) then rand (o_valueless lhs) (o_valueless rhs) else
  x <- o_deref lhs ; y <- o_deref rhs ; v_eq C x y.

(** indirect_cxx14.h 384-391 *)
Definition op_ne lhs rhs : res bool :=
  c <- ror (o_valueless lhs) (o_valueless rhs) ;
  if (c : bool) then rnot (rand (o_valueless lhs) (o_valueless rhs)) else
  x <- o_deref lhs ; y <- o_deref rhs ; v_ne C x y.

(** indirect_cxx14.h 393-400 *)
Definition op_lt lhs rhs : res bool :=
  l <- o_valueless lhs ;
  if (l : bool) then rnot (o_valueless rhs) else
  rand (rnot (o_valueless rhs)) (x <- o_deref lhs ; y <- o_deref rhs ; v_lt C x y).

(** indirect_cxx14.h 402-409 *)
Definition op_gt lhs rhs : res bool :=
  r <- o_valueless rhs ;
  if (r : bool) then rnot (o_valueless lhs) else
  rand (rnot (o_valueless lhs)) (x <- o_deref lhs ; y <- o_deref rhs ; v_gt C x y).

(** indirect_cxx14.h 411-418 *)
Definition op_le lhs rhs : res bool :=
  l <- o_valueless lhs ;
  if (l : bool) then VOk true else
  rand (rnot (o_valueless rhs)) (x <- o_deref lhs ; y <- o_deref rhs ; v_le C x y).

(** indirect_cxx14.h 420-428 *)
Definition op_ge lhs rhs : res bool :=
  r <- o_valueless rhs ;
  if (r : bool) then VOk true else
  rand (rnot (o_valueless lhs)) (x <- o_deref lhs ; y <- o_deref rhs ; v_ge C x y).

(** indirect_cxx14.h 430-438, 450-458, 470-477, 488-495, 506-514, 526-534: [x op u] *)
Definition op_eq_val lhs (u : W) : res bool :=
  l <- o_valueless lhs ; if (l : bool) then VOk false else x <- o_deref lhs ; v_eq C x u.
Definition op_ne_val lhs (u : W) : res bool :=
  l <- o_valueless lhs ; if (l : bool) then VOk true else x <- o_deref lhs ; v_ne C x u.
Definition op_lt_val lhs (u : W) : res bool :=
  l <- o_valueless lhs ; if (l : bool) then VOk true else x <- o_deref lhs ; v_lt C x u.
Definition op_gt_val lhs (u : W) : res bool :=
  l <- o_valueless lhs ; if (l : bool) then VOk false else x <- o_deref lhs ; v_gt C x u.
Definition op_le_val lhs (u : W) : res bool :=
  l <- o_valueless lhs ; if (l : bool) then VOk true else x <- o_deref lhs ; v_le C x u.
Definition op_ge_val lhs (u : W) : res bool :=
  l <- o_valueless lhs ; if (l : bool) then VOk false else x <- o_deref lhs ; v_ge C x u.

(** indirect_cxx14.h 440-448, 460-468, 479-486, 497-504, 516-524, 536-544: [u op x] *)
Definition val_op_eq (u : W) lhs : res bool :=
  r <- o_valueless lhs ; if (r : bool) then VOk false else x <- o_deref lhs ; v_eq C' u x.
Definition val_op_ne (u : W) lhs : res bool :=
  r <- o_valueless lhs ; if (r : bool) then VOk true else x <- o_deref lhs ; v_ne C' u x.
Definition val_op_lt (u : W) lhs : res bool :=
  r <- o_valueless lhs ; if (r : bool) then VOk false else x <- o_deref lhs ; v_lt C' u x.
Definition val_op_gt (u : W) lhs : res bool :=
  r <- o_valueless lhs ; if (r : bool) then VOk true else x <- o_deref lhs ; v_gt C' u x.
Definition val_op_le (u : W) lhs : res bool :=
  r <- o_valueless lhs ; if (r : bool) then VOk false else x <- o_deref lhs ; v_le C' u x.
Definition val_op_ge (u : W) lhs : res bool :=
  r <- o_valueless lhs ; if (r : bool) then VOk true else x <- o_deref lhs ; v_ge C' u x.

End cmp.

(** indirect_cxx14.h 584-592 *)
Definition hash {V} (H : V -> res N) (key : operand V) : res N :=
  b <- o_valueless key ;
  if (b : bool) then VOk (N.ones 64) else
  x <- o_deref key ; H x.
End Compare14.

(** The operators of either header. *)
Inductive gen := Cxx14 | Cxx20.
Inductive rel := REq | RNe | RLt | RGt | RLe | RGe.

(** The class template in question. *)
Definition gen_impl {E : Env} (g : gen) : impl E :=
  match g with Cxx14 => indirect14 (flatTP E) | Cxx20 => indirect20 (flatTP E) end.

Section either.
Context {V W : Type} (g : gen) (C : cmp V W) (C' : cmp W V).

(** [x r y] *)
Definition compare (r : rel) : operand V -> operand W -> res bool :=
  match g, r with
  | Cxx20, REq => Compare20.op_eq C | Cxx20, RNe => Compare20.op_ne C
  | Cxx20, RLt => Compare20.op_lt C C' | Cxx20, RGt => Compare20.op_gt C C'
  | Cxx20, RLe => Compare20.op_le C C' | Cxx20, RGe => Compare20.op_ge C C'
  | Cxx14, REq => Compare14.op_eq C | Cxx14, RNe => Compare14.op_ne C
  | Cxx14, RLt => Compare14.op_lt C | Cxx14, RGt => Compare14.op_gt C
  | Cxx14, RLe => Compare14.op_le C | Cxx14, RGe => Compare14.op_ge C
  end.

(** [x r u] *)
Definition compare_val (r : rel) : operand V -> W -> res bool :=
  match g, r with
  | Cxx20, REq => Compare20.op_eq_val C | Cxx20, RNe => Compare20.op_ne_val C
  | Cxx20, RLt => Compare20.op_lt_val C C' | Cxx20, RGt => Compare20.op_gt_val C C'
  | Cxx20, RLe => Compare20.op_le_val C C' | Cxx20, RGe => Compare20.op_ge_val C C'
  | Cxx14, REq => Compare14.op_eq_val C | Cxx14, RNe => Compare14.op_ne_val C
  | Cxx14, RLt => Compare14.op_lt_val C | Cxx14, RGt => Compare14.op_gt_val C
  | Cxx14, RLe => Compare14.op_le_val C | Cxx14, RGe => Compare14.op_ge_val C
  end.

(** [u r x] *)
Definition val_compare (r : rel) : W -> operand V -> res bool :=
  match g, r with
  | Cxx20, REq => Compare20.val_op_eq C | Cxx20, RNe => Compare20.val_op_ne C
  | Cxx20, RLt => Compare20.val_op_lt C C' | Cxx20, RGt => Compare20.val_op_gt C C'
  | Cxx20, RLe => Compare20.val_op_le C C' | Cxx20, RGe => Compare20.val_op_ge C C'
  | Cxx14, REq => Compare14.val_op_eq C' | Cxx14, RNe => Compare14.val_op_ne C'
  | Cxx14, RLt => Compare14.val_op_lt C' | Cxx14, RGt => Compare14.val_op_gt C'
  | Cxx14, RLe => Compare14.val_op_le C' | Cxx14, RGe => Compare14.val_op_ge C'
  end.
End either.

Definition hash_of {V} (g : gen) : (V -> res N) -> operand V -> res N :=
  match g with Cxx14 => Compare14.hash | Cxx20 => Compare20.hash end.
