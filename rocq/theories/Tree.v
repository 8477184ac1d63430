(** * Recursive value types.

    The value types of [flatTP] are opaque: copying one is a single action.  Here the
    value type is a class [node] that itself has [indirect] or [polymorphic] members
    (README.md 53-82: composite and recursive types), with the special member functions
    the compiler generates.  Nothing in /repo is modelled in this file; it is the client
    class with which the class templates are instantiated. *)

From stdpp Require Import base gmap list.
From Verif Require Import Lang Common Client Spec Rep Headers Hist.

(** The classes: an object of type [t] in state [v] has data (the state [v]) followed by
    [n_kids t v] members, the [i]-th being a wrapper of header [k_hdr t i]; the number may
    depend on the state (optional members).  [k_args c]: the objects of the client that a
    constructor call with arguments [c] moves into the members. *)
Record Shape (E : Env) := mkShape {
  n_kids : ty -> eV E -> nat;
  k_hdr : ty -> nat -> header;
  k_args : eC E -> list wl;
}.
Arguments mkShape {E} _ _ _.
Arguments n_kids {E} _ _ _.
Arguments k_hdr {E} _ _ _.
Arguments k_args {E} _ _.

Definition hdr_impl {E : Env} (h : header) (T : TP E) : impl E :=
  match h with
  | HInd20 => indirect20 T
  | HInd14 => indirect14 T
  | HPoly20 => polymorphic20 T
  | HPoly14 => polymorphic14 T
  end.

Section members.
Context {E : Env}.
Local Open Scope prog_scope.

(** Construction of members [i], ..., [i + n - 1] in order; if one throws, those already
    constructed are destroyed in reverse order. *)
Fixpoint make_members (mk un : nat -> prog E unit) (i n : nat) : prog E unit :=
  match n with
  | 0 => Ret tt
  | S n' =>
      mk i ;;
      catch (make_members mk un (S i) n') (fun e => un i ;; Throw e)
  end.

(** Destruction in reverse order. *)
Fixpoint destroy_members (un : nat -> prog E unit) (i n : nat) : prog E unit :=
  match n with
  | 0 => Ret tt
  | S n' => destroy_members un (S i) n' ;; un i
  end.

(** Memberwise assignment. *)
Fixpoint assign_members (asg : nat -> prog E unit) (i n : nat) : prog E unit :=
  match n with
  | 0 => Ret tt
  | S n' => asg i ;; assign_members asg (S i) n'
  end.
End members.

Section node.
Context {E : Env} (Sh : Shape E).
Local Open Scope prog_scope.

(** Out of fuel, or not provided. *)
Definition stuck {X} : prog E X := Act (PUndef UBStuck) (fun _ => Throw 0).

(** Data, then members; undone if a member throws. *)
Definition node_cons (a : eA E) (t : ty) (l : loc) (x : arg E)
    (mk un : nat -> prog E unit) : prog E unit :=
  act_thr (PCons a t l x) ;;
  o <- act (PReadObj (RBlk l)) ;
  catch (make_members mk un 0 (n_kids Sh t o.2))
        (fun e => act (PDestroy a t l) ;; Throw e).

(** The special member functions of the classes, the member wrappers' operations running
    with value type operations [T]. *)
Definition nodeTP_step (T : TP E) : TP E :=
  mkTP E
    (fun a t l x =>
       let mem i := hdr_impl (k_hdr Sh t i) T in
       let un i := i_dtor (mem i) (WMem l i) in
       match x with
       | AArgs c =>
           node_cons a t l x
             (fun i => match k_args Sh c !! i with
                       | Some y => i_move (mem i) (WMem l i) y
                       | None => stuck end) un
       | ARef RVal (RBlk o) =>
           node_cons a t l x (fun i => i_move (mem i) (WMem l i) (WMem o i)) un
       | ARef _ (RBlk o) => (* the implicit copy constructor takes const node& *)
           node_cons a t l (ARef ConstL (RBlk o))
             (fun i => i_copy (mem i) (WMem l i) (WMem o i)) un
       | ARef _ (RExt _) => stuck (* objects of node type outside wrappers: not modelled *)
       end)
    (fun a t l =>
       o <- act (PReadObj (RBlk l)) ;
       act (PBeginDestroy a t l) ;;
       destroy_members (fun i => i_dtor (hdr_impl (k_hdr Sh t i) T) (WMem l i)) 0 (n_kids Sh t o.2) ;;
       act (PEndDestroy t l))
    (fun t l x =>
       match x with
       | ARef c (RBlk o) =>
           d <- act (PReadObj (RBlk l)) ;
           d' <- act (PReadObj (RBlk o)) ;
           if Nat.eqb (n_kids Sh t d.2) (n_kids Sh t d'.2) then
             let mem i := hdr_impl (k_hdr Sh t i) T in
             match c with
             | RVal =>
                 act_thr (PAsgn t l (ARef RVal (RBlk o))) ;;
                 assign_members (fun i => i_move_assign (mem i) (WMem l i) (WMem o i)) 0 (n_kids Sh t d.2)
             | _ =>
                 act_thr (PAsgn t l (ARef ConstL (RBlk o))) ;;
                 assign_members (fun i => i_copy_assign (mem i) (WMem l i) (WMem o i)) 0 (n_kids Sh t d.2)
             end
           else stuck (* assignment between states with different members: not modelled *)
       | _ => stuck
       end).

(** The recursion of the value type's operations through the wrappers, to depth [n]. *)
Fixpoint nodeTP (n : nat) : TP E :=
  match n with
  | 0 => mkTP E (fun _ _ _ _ => stuck) (fun _ _ _ => stuck) (fun _ _ _ => stuck)
  | S n' => nodeTP_step (nodeTP n')
  end.

Definition node_impl (n : nat) (h : header) : impl E := hdr_impl h (nodeTP n).
End node.

(** ** Specification: trees and the memory they occupy *)
Section trees.
Context {E : Env} (Sh : Shape E).
Notation A := (eA E).
Notation V := (eV E).

(** A node: type, data, members; a member is valueless or owns a tree, and has an
    allocator. *)
Inductive tree := TNode (t : ty) (v : V) (kids : list (option tree * A)).
Notation wst := (option tree * A)%type.

(** [wrap_heap h w k B W]: the wrapper object [w] of header [h] is in state [k], and the
    blocks [B] and wrapper objects [W] are exactly it and what it (transitively) owns, all
    distinct.  [mem_heap hs nm i ks B W]: the same for the wrappers [nm i], [nm (i+1)], ... *)
Inductive wrap_heap : header -> wl -> wst -> gmap loc (block E) -> gmap wl (wrapper E) -> Prop :=
  | wh_null h w a : wrap_heap h w (None, a) ∅ {[ w := mkW PNull a ]}
  | wh_node h w a l t v kids b B W :
      block_ok (header_cls h) l t v a b ->
      length kids = n_kids Sh t v ->
      mem_heap (k_hdr Sh t) (WMem l) 0 kids B W ->
      B !! l = None -> W !! w = None ->
      wrap_heap h w (Some (TNode t v kids), a) (<[l := b]> B) (<[w := mkW (PLoc l) a]> W)
with mem_heap : (nat -> header) -> (nat -> wl) -> nat -> list wst ->
                gmap loc (block E) -> gmap wl (wrapper E) -> Prop :=
  | mh_nil hs nm i : mem_heap hs nm i [] ∅ ∅
  | mh_cons hs nm i k ks B1 W1 B2 W2 :
      wrap_heap (hs i) (nm i) k B1 W1 -> mem_heap hs nm (S i) ks B2 W2 ->
      B1 ##ₘ B2 -> W1 ##ₘ W2 ->
      mem_heap hs nm i (k :: ks) (B1 ∪ B2) (W1 ∪ W2).

(** What a copy constructor makes of a tree: the same shape, each node's data copied (with
    the allocator of its owner's copy), each allocator selected for the copy. *)
Fixpoint copy_tree (a : A) (T : tree) : tree :=
  match T with
  | TNode t v kids =>
      TNode t (t_cons E ConstL t t a v).1
        (map (fun k => (match k.1 with
                        | Some T' => Some (copy_tree (a_soccc E k.2) T')
                        | None => None
                        end, a_soccc E k.2)) kids)
  end.
Definition copy_as (a : A) (k : wst) : wst := (copy_tree a <$> k.1, a).
Definition copy_w (k : wst) : wst := copy_as (a_soccc E k.2) k.

(** Copying does not change the number of members. *)
Record ShapeReq : Prop := {
  sr_copy : forall t a v, n_kids Sh t (t_cons E ConstL t t a v).1 = n_kids Sh t v;
  sr_move : forall t a v, n_kids Sh t (t_cons E RVal t t a v).1 = n_kids Sh t v /\
                          n_kids Sh t (t_cons E RVal t t a v).2 = n_kids Sh t v;
  sr_fail : forall t v, n_kids Sh t (t_cons_fail E RVal t t v) = n_kids Sh t v;
}.

(** The tree has at most [n] levels. *)
Fixpoint fits (n : nat) (T : option tree) : Prop :=
  match T with
  | None => True
  | Some (TNode t v kids) =>
      match n with 0 => False | S n' => Forall (fun k => fits n' k.1) kids end
  end.

(** Member wrappers exist only in allocated blocks. *)
Definition mem_ok (s : store E) : Prop :=
  forall l i, is_Some (wraps s !! WMem l i) -> is_Some (blocks s !! l).
Definition home (s : store E) (w : wl) : Prop :=
  match w with WVar _ => True | WMem l _ => is_Some (blocks s !! l) end.

End trees.

Arguments tree E : clear implicits.
