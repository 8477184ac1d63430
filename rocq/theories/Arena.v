(** * Memory resources: value types constructed with their owner's allocator.

    The class templates construct the owned object by [allocator_traits::construct] with the
    wrapper's allocator (indirect.h 447, indirect_cxx14.h construct_from, polymorphic.h 80 and
    polymorphic_cxx14.h 135: [cb_alloc_traits::construct]); an allocator such as
    [std::pmr::polymorphic_allocator] or [std::scoped_allocator_adaptor] then performs
    uses-allocator construction: it passes itself on to the constructor of the object.  Here the value
    type is a class that takes such an allocator and gives it to its members, which are wrappers.
    Nothing in /repo is modelled in this file; it is the class with which the class templates are
    instantiated. *)

From stdpp Require Import base gmap list.
From Verif Require Import Lang Common Client Spec Rep Headers Hist Tree Contract ContractClient.

(** Arguments for the members: a [t] constructed from [c] constructs its member [i] as a
    [(s_arg t c i).1] from [(s_arg t c i).2]. *)
Definition Passing (E : Env) : Type := ty -> eC E -> nat -> ty * eC E.

Section scoped.
Context {E : Env} (Sh : Shape E) (s_arg : Passing E).
Local Open Scope prog_scope.
Notation A := (eA E).
Notation V := (eV E).

(** The class
<<
  struct node { using allocator_type = A;
    node(C c, A a) : data(c), m0(allocator_arg, a, in_place_type<t0>, c0), ... {}
    node(const node& o, A a) : data(o.data), m0(allocator_arg, a, o.m0), ... {}
    node(node&& o, A a) : data(move(o.data)), m0(allocator_arg, a, move(o.m0)), ... {}
    node& operator=(const node&) = default; };
>> *)
Definition scopedTP_step (T : TP E) : TP E :=
  mkTP E
    (fun a t l x =>
       let mem i := hdr_impl (k_hdr Sh t i) T in
       let un i := i_dtor (mem i) (WMem l i) in
       match x with
       | AArgs c =>
           node_cons Sh a t l x
             (fun i => i_inplace_a (mem i) (WMem l i) a (s_arg t c i).1 (AArgs (s_arg t c i).2)) un
       | ARef RVal (RBlk o) =>
           node_cons Sh a t l x (fun i => i_move_a (mem i) (WMem l i) a (WMem o i)) un
       | ARef _ (RBlk o) =>
           node_cons Sh a t l (ARef ConstL (RBlk o)) (fun i => i_copy_a (mem i) (WMem l i) a (WMem o i)) un
       | ARef _ (RExt _) => stuck
       end)
    (tp_destroy (nodeTP_step Sh T))
    (tp_asgn (nodeTP_step Sh T)).

Section cls.
Context (K : Cls E).
Notation wv := (option (ty * c_val K) * A)%type.

(** Memberwise moves, complete or up to the member that threw. *)
Fixpoint moved_all (hs : nat -> header) (a : A) (i : nat) (ks ks' ys : list wv) : Prop :=
  match ks, ks', ys with
  | [], [], [] => True
  | k :: ks, k' :: ks', y :: ys => moved K (steals (E := E) (hs i) a k.2) a k k' y /\ moved_all hs a (S i) ks ks' ys
  | _, _, _ => False
  end.
Fixpoint moved_upto (hs : nat -> header) (a : A) (i : nat) (ks ys : list wv) : Prop :=
  match ks, ys with
  | k :: ks, y :: ys =>
      move_broken K k y /\ ys = ks \/
      (exists k', moved K (steals (E := E) (hs i) a k.2) a k k' y) /\ moved_upto hs a (S i) ks ys
  | _, _ => False
  end.
(** The members constructed for the arguments [c]. *)
Fixpoint made_all (hs : nat -> header) (t : ty) (a : A) (c : eC E) (i : nat) (ks : list wv) : Prop :=
  match ks with
  | [] => True
  | k :: ks => (exists v, c_make K (made (E := E) (hs i) (s_arg t c i).1) a (s_arg t c i).2 v /\
                          k = (Some (made (E := E) (hs i) (s_arg t c i).1, v), a)) /\ made_all hs t a c (S i) ks
  end.

Definition scoped_cls : Cls E :=
  mkCls (V * list wv)
    (c_rep (node_cls Sh K))
    (fun t a x x' => x'.1 = (t_cons E ConstL t t a x.1).1 /\ Forall2 (copied K a) x.2 x'.2)
    (fun t a x x' y => x'.1 = (t_cons E RVal t t a x.1).1 /\ y.1 = (t_cons E RVal t t a x.1).2 /\
                       moved_all (k_hdr Sh t) a 0 x.2 x'.2 y.2)
    (fun t x y => y.1 = t_cons_fail E RVal t t x.1 /\ y.2 = x.2 \/
                  exists a, y.1 = (t_cons E RVal t t a x.1).2 /\ moved_upto (k_hdr Sh t) a 0 x.2 y.2)
    (c_asg (node_cls Sh K))
    (c_asgf (node_cls Sh K))
    (fun t a c x => x.1 = t_make E t a c /\ length x.2 = n_kids Sh t x.1 /\ made_all (k_hdr Sh t) t a c 0 x.2).
End cls.

(** [n] levels of such classes. *)
Fixpoint scopedTP (T : TP E) (n : nat) : TP E :=
  match n with 0 => T | S n' => scopedTP_step (scopedTP T n') end.
Fixpoint scoped_tower (K : Cls E) (n : nat) : Cls E :=
  match n with 0 => K | S n' => scoped_cls (scoped_tower K n') end.
End scoped.

(** ** Specification: living in a resource

    [R x r]: all the memory an object of value [x] owns comes from the resource [r].  A class keeps to its
    resource if constructors allocate from the allocator they are given and nothing else
    allocates from another resource. *)
Record Keeps {E : Env} (K : Cls E) (R : c_val K -> nat -> Prop) : Prop := {
  ke_rep : forall t l v x B W r, c_rep K t l v x B W -> R x r -> forall l' b, B !! l' = Some b -> a_res E (b_a b) = r;
  ke_make : forall t a c x, c_make K t a c x -> R x (a_res E a);
  ke_copy : forall t a x x', c_copy K t a x x' -> R x' (a_res E a);
  ke_move : forall t a x x' y r, c_move K t a x x' y -> R x r -> R x' (a_res E a) /\ R y r;
  ke_movef : forall t x y r, c_movef K t x y -> R x r -> R y r;
  ke_asg : forall t d x d' r, c_asg K t d x d' -> R d r -> R x r -> R d' r;
  ke_asgf : forall t d x d' r, c_asgf K t d x d' -> R d r -> R x r -> R d' r;
}.

Section resource.
Context {E : Env} (K : Cls E) (R : c_val K -> nat -> Prop).
Notation wv := (option (ty * c_val K) * eA E)%type.
(** A wrapper all of whose memory is from its allocator's resource. *)
Definition at_home (k : wv) : Prop := match k.1 with Some (t, x) => R x (a_res E k.2) | None => True end.
(** ... and that resource is [r]. *)
Definition living_in (r : nat) (k : wv) : Prop := a_res E k.2 = r /\ at_home k.
End resource.

(** The members of the class above live where it does. *)
Definition scoped_res {E : Env} (K : Cls E) (R : c_val K -> nat -> Prop)
    (x : eV E * list (option (ty * c_val K) * eA E)) (r : nat) : Prop := Forall (living_in K R r) x.2.
Fixpoint tower_res {E : Env} (Sh : Shape E) (s_arg : Passing E) (K : Cls E) (R : c_val K -> nat -> Prop) (n : nat) :
    c_val (scoped_tower Sh s_arg K n) -> nat -> Prop :=
  match n with 0 => R | S n' => scoped_res (scoped_tower Sh s_arg K n') (tower_res Sh s_arg K R n') end.

(** The traits of [std::pmr::polymorphic_allocator]. *)
Record Pmr (E : Env) : Prop := {
  pm_pocca : pocca E = false; pm_pocma : pocma E = false; pm_pocs : pocs E = false; pm_ae : always_equal E = false;
  pm_eq : forall a b, a_eqb E a b = true <-> a_res E a = a_res E b;
}.
