(** * Assignment of values to wrappers, over value types with arbitrary special member functions.

    [indirect] has an assignment from values ([operator=(U&&)], indirect.h 294-305 and
    indirect_cxx14.h 303-315, modelled in Indirect20.v and Indirect14.v as [value_assign]): it
    assigns to the value the wrapper owns, or constructs one if the wrapper is valueless.  So
    the value type's author promises something about assignment from lvalues, rvalues and
    arguments too.  Nothing in /repo is modelled in this file. *)

From stdpp Require Import base gmap list.
From Verif Require Import Lang Common Client Spec Rep Headers Hist Tree Contract ContractUser.

(** What assignments to an object of value [d] may do to its value, and to the source's:
    - [v_copy t d x d']: assigning the lvalue [x];  [v_copyf]: if it throws;
    - [v_move t d x d' y]: assigning the rvalue [x], which becomes [y];  [v_movef]: if it throws;
    - [v_term t d x]: assigning the rvalue [x] may end the program ([std::terminate]: the move
      assignment of a member is [noexcept] but may throw);
    - [v_set t d c d']: assigning the arguments [c];  [v_setf]: if it throws.  The class may be
      assigned only arguments for which there is such a [d']. *)
Record Asg {E : Env} (K : Cls E) := mkAsg {
  v_copy : ty -> c_val K -> c_val K -> c_val K -> Prop;
  v_copyf : ty -> c_val K -> c_val K -> c_val K -> Prop;
  v_move : ty -> c_val K -> c_val K -> c_val K -> c_val K -> Prop;
  v_movef : ty -> c_val K -> c_val K -> c_val K -> c_val K -> Prop;
  v_term : ty -> c_val K -> c_val K -> Prop;
  v_set : ty -> c_val K -> eC E -> c_val K -> Prop;
  v_setf : ty -> c_val K -> eC E -> c_val K -> Prop;
}.
Arguments mkAsg {E} _ _ _ _ _ _ _ _.
Arguments v_copy {E K} _ _ _ _ _.
Arguments v_copyf {E K} _ _ _ _ _.
Arguments v_move {E K} _ _ _ _ _ _.
Arguments v_movef {E K} _ _ _ _ _ _.
Arguments v_term {E K} _ _ _ _.
Arguments v_set {E K} _ _ _ _ _.
Arguments v_setf {E K} _ _ _ _ _.

Section assignable.
Context {E : Env} (T : TP E) (K : Cls E) (V : Asg K).
Implicit Types s : store E.
Notation object := (object K).
Notation filled := (filled K).

(** Both objects are valid afterwards, and own separate memory; nothing else is touched. *)
Definition both (P : c_val K -> c_val K -> Prop) t l b B W o bo Bo Wo s s' : Prop :=
  exists d' b' B1 W1 y bo' B2 W2, P d' y /\ filled l b b' t d' B1 W1 /\ filled o bo bo' t y B2 W2 /\
    <[l := b']> B1 ##ₘ <[o := bo']> B2 /\ W1 ##ₘ W2 /\
    changed s s' (<[l := b]> B ∪ <[o := bo]> Bo) (W ∪ Wo) (<[l := b']> B1 ∪ <[o := bo']> B2) (W1 ∪ W2).
(** So is the target, if only it is modified. *)
Definition target (P : c_val K -> Prop) t l b B W s s' : Prop :=
  exists d' b' B' W', P d' /\ filled l b b' t d' B' W' /\ changed s s' (<[l := b]> B) W (<[l := b']> B') W'.

Record Assignable : Prop := {
  as_copy : forall t l b d B W c o bo x Bo Wo s,
    c <> RVal -> mem_ok s -> object s l b t d B W -> object s o bo t x Bo Wo ->
    <[l := b]> B ##ₘ <[o := bo]> Bo -> W ##ₘ Wo -> enclosed s l B W ->
    match run (tp_asgn T t l (ARef c (RBlk o))) s with
    | ORet _ s' => target (v_copy V t d x) t l b B W s s'
    | OThrow _ s' => target (v_copyf V t d x) t l b B W s s'
    | _ => False
    end;
  as_move : forall t l b d B W o bo x Bo Wo s,
    mem_ok s -> object s l b t d B W -> object s o bo t x Bo Wo ->
    <[l := b]> B ##ₘ <[o := bo]> Bo -> W ##ₘ Wo -> enclosed s l B W -> enclosed s o Bo Wo ->
    match run (tp_asgn T t l (ARef RVal (RBlk o))) s with
    | ORet _ s' => both (v_move V t d x) t l b B W o bo Bo Wo s s'
    | OThrow _ s' => both (v_movef V t d x) t l b B W o bo Bo Wo s s'
    | OTerm => v_term V t d x
    | OUB _ => False
    end;
  as_set : forall t l b d B W c s,
    (exists d', v_set V t d c d') -> mem_ok s -> object s l b t d B W -> enclosed s l B W ->
    match run (tp_asgn T t l (AArgs c)) s with
    | ORet _ s' => target (v_set V t d c) t l b B W s s'
    | OThrow _ s' => target (v_setf V t d c) t l b B W s s'
    | _ => False
    end;
}.
End assignable.

(** ** What value assignment to a wrapper promises, given the class's promises *)
Section promises.
Context {E : Env} (K : Cls E) (V : Asg K).
Notation A := (eA E).
Notation wv := (option (ty * c_val K) * A)%type.
Notation U := (tT E).

(** The wrapper keeps its allocator; its value is assigned to, or constructed. *)
Definition set_copied (k : wv) (x : c_val K) (k' : wv) : Prop :=
  match k.1 with
  | None => exists x', c_copy K U k.2 x x' /\ k' = (Some (U, x'), k.2)
  | Some (_, d) => exists d', v_copy V U d x d' /\ k' = (Some (U, d'), k.2)
  end.
(** If constructing one throws, the wrapper is still valueless. *)
Definition set_copy_failed (k : wv) (x : c_val K) (k' : wv) : Prop :=
  match k.1 with
  | None => k' = k
  | Some (_, d) => exists d', v_copyf V U d x d' /\ k' = (Some (U, d'), k.2)
  end.
Definition set_moved (k : wv) (x : c_val K) (k' : wv) (y : c_val K) : Prop :=
  match k.1 with
  | None => exists x', c_move K U k.2 x x' y /\ k' = (Some (U, x'), k.2)
  | Some (_, d) => exists d', v_move V U d x d' y /\ k' = (Some (U, d'), k.2)
  end.
Definition set_move_failed (k : wv) (x : c_val K) (k' : wv) (y : c_val K) : Prop :=
  match k.1 with
  | None => k' = k /\ (y = x \/ c_movef K U x y)
  | Some (_, d) => exists d', v_movef V U d x d' y /\ k' = (Some (U, d'), k.2)
  end.
Definition set_terminated (k : wv) (x : c_val K) : Prop :=
  match k.1 with None => False | Some (_, d) => v_term V U d x end.
Definition set_made (k : wv) (c : eC E) (k' : wv) : Prop :=
  match k.1 with
  | None => exists x', c_make K U k.2 c x' /\ k' = (Some (U, x'), k.2)
  | Some (_, d) => exists d', v_set V U d c d' /\ k' = (Some (U, d'), k.2)
  end.
Definition set_make_failed (k : wv) (c : eC E) (k' : wv) : Prop :=
  match k.1 with
  | None => k' = k
  | Some (_, d) => exists d', v_setf V U d c d' /\ k' = (Some (U, d'), k.2)
  end.
End promises.

(** ** Classes with wrapper members: memberwise assignment *)
Section node.
Context {E : Env} (Sh : Shape E) (K : Cls E).
Notation wv := (option (ty * c_val K) * eA E)%type.

(** Move assignment of a member: of its value or of the object itself (Contract.v). *)
Definition member_moved (d k d' k' : wv) : Prop :=
  moved K (a_eqb E d.2 k.2) (kept (pocma E) d.2 k.2) k d' k'.
Fixpoint moved_all (ds ks ds' ks' : list wv) : Prop :=
  match ds, ks, ds', ks' with
  | [], [], [], [] => True
  | d :: ds, k :: ks, d' :: ds', k' :: ks' => member_moved d k d' k' /\ moved_all ds ks ds' ks'
  | _, _, _, _ => False
  end.
(** Up to the member that threw: that member is as it was, and so are the later ones. *)
Fixpoint moved_upto (ds ks ds' ks' : list wv) : Prop :=
  match ds, ks, ds', ks' with
  | d :: ds, k :: ks, d' :: ds', k' :: ks' =>
      (a_eqb E d.2 k.2 = false /\ d' = d /\ move_broken K k k' /\ ds' = ds /\ ks' = ks) \/
      (member_moved d k d' k' /\ moved_upto ds ks ds' ks')
  | _, _, _, _ => False
  end.
(** A member's move assignment is [noexcept] if the allocator propagates, but constructs a new
    value if the allocators are unequal. *)
Fixpoint moves_end (ds ks : list wv) : Prop :=
  match ds, ks with
  | d :: ds, k :: ks => (pocma E = true /\ a_eqb E d.2 k.2 = false /\ k.1 <> None) \/ moves_end ds ks
  | _, _ => False
  end.

Definition node_asg : Asg (node_cls Sh K) :=
  mkAsg (node_cls Sh K)
    (c_asg (node_cls Sh K)) (c_asgf (node_cls Sh K))
    (fun t d x d' y => (d'.1, y.1) = t_asgn E RVal t t d.1 x.1 /\ moved_all d.2 x.2 d'.2 y.2)
    (fun t d x d' y => (d'.1, y.1) = t_asgn_fail E RVal t t d.1 x.1 /\ d'.2 = d.2 /\ y.2 = x.2 \/
                       (d'.1, y.1) = t_asgn E RVal t t d.1 x.1 /\ moved_upto d.2 x.2 d'.2 y.2)
    (fun t d x => moves_end d.2 x.2)
    (fun _ _ _ _ => False) (fun _ _ _ _ => False).
End node.

(** ** The other classes of ContractUser.v *)
Definition flat_asg (E : Env) : Asg (flat_cls E) :=
  mkAsg (flat_cls E)
    (fun t d x d' => exists c, c <> RVal /\ d' = (t_asgn E c t t d x).1)
    (fun t d x d' => exists c, c <> RVal /\ d' = (t_asgn_fail E c t t d x).1)
    (fun t d x d' y => (d', y) = t_asgn E RVal t t d x)
    (fun t d x d' y => (d', y) = t_asgn_fail E RVal t t d x)
    (fun _ _ _ => False)
    (fun t d c d' => d' = t_asgn_args E t d c)
    (fun t d c d' => d' = t_asgn_args_fail E t d c).
(** Assigning an lvalue does not modify it. *)
Definition assigns_const (E : Env) : Prop :=
  forall t d v, (t_asgn E NonConstL t t d v).2 = v /\ (t_asgn_fail E NonConstL t t d v).2 = v.

Section user.
Context {E : Env}.

Definition copy_only_asg (K : Cls E) (V : Asg K) : Asg (copy_only_cls K) :=
  mkAsg (copy_only_cls K) (v_copy V) (v_copyf V) (v_move V) (v_movef V) (v_term V) (v_set V) (v_setf V).

(** A class whose only assignment operator is [operator=(const C&)]: rvalues are copied. *)
Definition plain_asg (K : Cls E) : Asg K :=
  mkAsg K (c_asg K) (c_asgf K) (fun t d x d' y => c_asg K t d x d' /\ y = x) (fun t d x d' y => c_asgf K t d x d' /\ y = x)
    (fun _ _ _ => False) (fun _ _ _ _ => False) (fun _ _ _ _ => False).

(** A class with data and one wrapper, a constructor, and the special member functions the
    compiler generates:
<<
  zero(C c) : data(c), m(allocator_arg, a, in_place_type<t0>, c) {}
>> *)
Definition zeroTP (h0 : header) (t0 : ty) (T : TP E) : TP E :=
  mkTP E (tp_cons (handleTP h0 t0 T)) (tp_destroy (handleTP h0 t0 T)) (tp_asgn (nodeTP_step (handle_shape h0) T)).
Definition zero_cls (h0 : header) (t0 : ty) (K : Cls E) : Cls E :=
  let N := node_cls (handle_shape h0) K in
  mkCls (c_val N) (c_rep N) (c_copy N) (c_move N) (c_movef N) (c_asg N) (c_asgf N) (c_make (handle_cls h0 t0 K)).
Definition zero_asg (h0 : header) (t0 : ty) (K : Cls E) : Asg (zero_cls h0 t0 K) :=
  let V := node_asg (handle_shape h0) K in
  mkAsg (zero_cls h0 t0 K) (v_copy V) (v_copyf V) (v_move V) (v_movef V) (v_term V) (v_set V) (v_setf V).
End user.
