(** * Value types written by users of the class templates.

    Classes for which the contract of Contract.v is proved in ContractUserProps.v: towers of
    classes with wrapper members, classes without a move constructor, and a class with a
    hand-written constructor and copy-and-swap assignment; and a class that breaks the
    contract.  Nothing in /repo is modelled in this file. *)

From stdpp Require Import base gmap list.
From Verif Require Import Lang Common Client Spec Rep Headers Hist Tree Contract.

Section user.
Context {E : Env}.
Local Open Scope prog_scope.
Notation A := (eA E).
Notation V := (eV E).

(** [n] levels of classes with wrapper members, over the value type [T]. *)
Fixpoint towerTP (Sh : Shape E) (T : TP E) (n : nat) : TP E :=
  match n with 0 => T | S n' => nodeTP_step Sh (towerTP Sh T n') end.
Fixpoint tower_cls (Sh : Shape E) (K : Cls E) (n : nat) : Cls E :=
  match n with 0 => K | S n' => node_cls Sh (tower_cls Sh K n') end.
(** The class without objects. *)
Definition no_cls : Cls E :=
  mkCls Empty_set (fun _ _ _ _ _ _ => False) (fun _ _ _ _ => False) (fun _ _ _ _ _ => False) (fun _ _ _ => False)
    (fun _ _ _ _ => False) (fun _ _ _ _ => False) (fun _ _ _ _ => False).

(** The class [T] without its move constructor: rvalues are copied. *)
Definition copy_onlyTP (T : TP E) : TP E :=
  mkTP E (fun a t l x => tp_cons T a t l (match x with ARef RVal r => ARef ConstL r | _ => x end))
    (tp_destroy T) (tp_asgn T).
Definition copy_only_cls (K : Cls E) : Cls E :=
  mkCls (c_val K) (c_rep K) (c_copy K) (fun t a x x' y => c_copy K t a x x' /\ y = x) (fun t x y => y = x)
    (c_asg K) (c_asgf K) (c_make K).

(** A class with data and one wrapper [m], of header [h0], owning a [t0]:
<<
  handle(C c) : data(c), m(allocator_arg, a, in_place_type<t0>, c) {}
  handle(const handle&) = default;
  handle(handle&&) = default;
  handle& operator=(const handle& o) {
    wrapper tmp(o.m);  swap(m, tmp);  data = o.data;  return *this; }
>>
    Assigning the data does not throw.  The local variable [tmp] is called [WMem l 1]. *)
Definition handle_shape (h0 : header) : Shape E := mkShape (E := E) (fun _ _ => 1) (fun _ _ => h0) (fun _ => []).
Definition handleTP (h0 : header) (t0 : ty) (T : TP E) : TP E :=
  let I := hdr_impl h0 T in
  mkTP E
    (fun a t l x =>
       match x with
       | AArgs c =>
           act_thr (PCons a t l (AArgs c)) ;;
           catch (i_inplace_a I (WMem l 0) a t0 (AArgs c)) (fun e => act (PDestroy a t l) ;; Throw e)
       | _ => tp_cons (nodeTP_step (handle_shape h0) T) a t l x
       end)
    (tp_destroy (nodeTP_step (handle_shape h0) T))
    (fun t l x =>
       match x with
       | ARef _ (RBlk o) =>
           d <- act (PReadObj (RBlk o)) ;
           i_copy I (WMem l 1) (WMem o 0) ;;
           i_swap I (WMem l 0) (WMem l 1) ;;
           act (PMutObj (RBlk l) (fun _ => d.2)) ;;
           i_dtor I (WMem l 1)
       | _ => stuck
       end).
(** Assignment gives the target a copy of the source, or leaves it as it was. *)
Definition handle_cls (h0 : header) (t0 : ty) (K : Cls E) : Cls E :=
  let N := node_cls (handle_shape h0) K in
  mkCls (c_val N) (c_rep N) (c_copy N) (c_move N) (c_movef N)
    (fun t d x d' => d'.1 = x.1 /\ Forall2 (fun k k' => copied K (a_soccc E k.2) k k') x.2 d'.2)
    (fun t d x d' => d' = d)
    (fun t a c x => x.1 = t_make E t a c /\ exists v, c_make K (made (E := E) h0 t0) a c v /\
                    x.2 = [(Some (made (E := E) h0 t0, v), a)]).

(** A class whose copy constructor moves (like [std::auto_ptr]). *)
Definition auto_ptrTP (T : TP E) : TP E :=
  mkTP E (fun a t l x => tp_cons T a t l (match x with ARef _ r => ARef RVal r | _ => x end)) (tp_destroy T) (tp_asgn T).
End user.
