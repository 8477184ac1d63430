(** * The abstract machine on which the class templates are modelled.

    Nothing in this file models a function of /repo; it gives meaning to the
    C++ constructs that the headers use (allocator_traits calls, object
    lifetimes, member accesses, exceptions).  Citations say which construct of
    which header each primitive stands for. *)

From stdpp Require Import base gmap list countable.

(** Address of a block returned by [allocator_traits::allocate(a, 1)].
    Simplification: fancy pointers are identified with addresses
    (indirect.h 446 [std::to_address]); only single-object blocks exist since the headers always
    allocate [1] (indirect.h 445, polymorphic.h 87, 99, 135). *)
Definition loc := nat.

(** Identity of a (dynamic) object type: T itself, or any U derived from T. *)
Definition ty := nat.

(** An exception object; only its identity matters. *)
Definition exn := nat.

(** Address of an [indirect]/[polymorphic] object: a client variable, or the
    [i]-th wrapper member of the object stored in block [l] (recursive types). *)
Inductive wl := WVar (n : nat) | WMem (l : loc) (i : nat).

#[global] Instance wl_eq_dec : EqDecision wl.
Proof. solve_decision. Defined.
#[global] Instance wl_countable : Countable wl.
Proof.
  apply (inj_countable'
           (fun w => match w with WVar n => inl n | WMem l i => inr (l, i) end)
           (fun x => match x with inl n => WVar n | inr (l, i) => WMem l i end)).
  by intros [].
Defined.

(** Value category and constness of an argument expression naming an object:
    [const T&], [T&], [T&&]. *)
Inductive cat := ConstL | NonConstL | RVal.
#[global] Instance cat_eq_dec : EqDecision cat.
Proof. solve_decision. Defined.

(** A reference to an object: the object living in block [l] (an owned object),
    or a client-owned object [n]. *)
Inductive oref := RBlk (l : loc) | RExt (n : nat).
#[global] Instance oref_eq_dec : EqDecision oref.
Proof. solve_decision. Defined.

(** What a block was allocated for: an object of type [t] (indirect.h 445) or
    a [direct_control_block<t>] (polymorphic.h 87, 99, 135). *)
Inductive bty := BObj (t : ty) | BCb (t : ty).
#[global] Instance bty_eq_dec : EqDecision bty.
Proof. solve_decision. Defined.

(** Reasons for undefined behaviour. *)
Inductive ub :=
  | UBNull        (** dereference of a null pointer *)
  | UBIndet       (** read of an indeterminate pointer *)
  | UBDangling    (** access to a block that is not allocated *)
  | UBBadObj      (** access to an object outside its lifetime *)
  | UBOverLive    (** construction over a live object *)
  | UBDoubleDestroy (** destruction of an object that is not alive *)
  | UBWrongAlloc  (** deallocation through an allocator of another resource *)
  | UBWrongType   (** construct/destroy/deallocate with the wrong type *)
  | UBLiveFree    (** deallocation of a block that still holds a live object *)
  | UBBadWrapper  (** access to a wrapper object outside its lifetime *)
  | UBUnreachable (** [unreachable()] executed *)
  | UBStuck.      (** fuel exhausted / operation not provided *)

(** Everything the class templates are parameterised by.
    [eA] is the type of allocator values, [eV] of (states of) owned objects,
    [eC] of argument packs.  All functions are arbitrary. *)
Record Env := mkEnv {
  eA : Type; eV : Type; eC : Type;
  (* allocator *)
  a_eqb : eA -> eA -> bool;           (* operator== *)
  a_res : eA -> nat;                  (* memory resource behind the allocator *)
  a_soccc : eA -> eA;                 (* select_on_container_copy_construction *)
  a_default : eA;                     (* A{} *)
  pocca : bool; pocma : bool; pocs : bool; always_equal : bool;
  (* value type *)
  tT : ty;                            (* the template argument T *)
  t_assignable : bool;                (* std::assignable_from<T&, T> *)
  c_empty : eC;                       (* the empty argument pack *)
  t_make : ty -> eA -> eC -> eV;      (* construction from an argument pack *)
  (* construction of a [t] from an object of type [t'] passed with category [c]:
     new value and what the source holds afterwards (ignored for [ConstL]) *)
  t_cons : cat -> ty -> ty -> eA -> eV -> eV * eV;
  t_cons_fail : cat -> ty -> ty -> eV -> eV;  (* source after a throw *)
  (* assignment from an argument pack; from another object; from itself *)
  t_asgn_args : ty -> eV -> eC -> eV;
  t_asgn_args_fail : ty -> eV -> eC -> eV;
  t_asgn : cat -> ty -> ty -> eV -> eV -> eV * eV;
  t_asgn_fail : cat -> ty -> ty -> eV -> eV -> eV * eV;
  t_self : cat -> ty -> eV -> eV;
  t_self_fail : cat -> ty -> eV -> eV;
}.

Section lang.
Context (E : Env).
Notation A := (eA E).
Notation V := (eV E).
Notation C := (eC E).

(** Constructor / assignment argument: a pack of values, or a reference. *)
Inductive arg := AArgs (c : C) | ARef (k : cat) (r : oref).

(** Header of a control block: vtable (the type [t]) and the member [p_]
    ([None] = not yet set).  polymorphic.h 52-60. *)
Inductive hdr := HNone | HCb (t : ty) (p : option loc).

(** State of the object storage in a block.  [ODying] = destructor running. *)
Inductive ost := ORaw | OLive (t : ty) (v : V) | ODying (t : ty).

Record block := mkB { b_a : A; b_ty : bty; b_hdr : hdr; b_obj : ost }.

(** The pointer member [p_] / [cb_] of a wrapper object. *)
Inductive ptr := PIndet | PNull | PLoc (l : loc).

Record wrapper := mkW { w_p : ptr; w_a : A }.

(** Calls of the allocator and of the value type, as logged. *)
Inductive event :=
  | EvAlloc (a : A) (b : bty) (l : loc)
  | EvAllocFail (a : A) (b : bty) (e : exn)
  | EvDealloc (a : A) (b : bty) (l : loc)
  | EvCons (a : A) (t : ty) (l : loc) (x : arg)
  | EvConsFail (a : A) (t : ty) (l : loc) (x : arg) (e : exn)
  | EvDestroy (a : A) (t : ty) (l : loc)
  | EvAsgn (t : ty) (l : loc) (x : arg)
  | EvAsgnFail (t : ty) (l : loc) (x : arg) (e : exn).

(** Answer of the environment to an operation that may throw. *)
Inductive resp := RespOk (hint : loc) | RespFail (e : exn).

Record store := mkS {
  blocks : gmap loc block;
  wraps : gmap wl wrapper;
  exts : gmap nat (ty * V);
  orc : list resp;
  trc : list event;      (* newest first *)
}.

(** Primitive actions, indexed by the type of their result. *)
Inductive prim : Type -> Type :=
  (* allocator_traits::allocate / deallocate *)
  | PAlloc (a : A) (b : bty) : prim (loc + exn)
  | PDealloc (a : A) (b : bty) (l : loc) : prim unit
  (* allocator_traits::construct / destroy on the object storage of a block *)
  | PCons (a : A) (t : ty) (l : loc) (x : arg) : prim (unit + exn)
  | PDestroy (a : A) (t : ty) (l : loc) : prim unit
  | PBeginDestroy (a : A) (t : ty) (l : loc) : prim unit
  | PEndDestroy (t : ty) (l : loc) : prim unit
  (* assignment to an owned object *)
  | PAsgn (t : ty) (l : loc) (x : arg) : prim (unit + exn)
  (* members of a wrapper object *)
  | PReadP (w : wl) : prim (option loc)
  | PWriteP (w : wl) (p : option loc) : prim unit
  | PReadA (w : wl) : prim A
  | PWriteA (w : wl) (a : A) : prim unit
  (* lifetime of a wrapper object *)
  | PNewW (w : wl) (p : ptr) (a : A) : prim unit
  | PDelW (w : wl) : prim unit
  (* control block *)
  | PCbInit (t : ty) (l : loc) : prim unit
  | PCbSetP (l : loc) (p : loc) : prim unit
  | PCbGetP (l : loc) : prim loc
  | PCbTy (l : loc) : prim ty
  (* objects through references *)
  | PReadObj (r : oref) : prim (ty * V)
  | PMutObj (r : oref) (f : V -> V) : prim unit
  | PExtSet (n : nat) (t : ty) (v : V) : prim unit
  (* abnormal ends *)
  | PUndef (u : ub) : prim unit
  | PTerminate : prim unit.

Inductive res (R : Type) := ROk (r : R) (s : store) | RUB (u : ub) | RTerm.
Global Arguments ROk {_} _ _.
Global Arguments RUB {_} _.
Global Arguments RTerm {_}.

Definition set_blocks (B : gmap loc block) (s : store) : store :=
  mkS B (wraps s) (exts s) (orc s) (trc s).
Definition set_wraps (W : gmap wl wrapper) (s : store) : store :=
  mkS (blocks s) W (exts s) (orc s) (trc s).
Definition set_exts (X : gmap nat (ty * V)) (s : store) : store :=
  mkS (blocks s) (wraps s) X (orc s) (trc s).
Definition set_orc (o : list resp) (s : store) : store :=
  mkS (blocks s) (wraps s) (exts s) o (trc s).
Definition log (e : event) (s : store) : store :=
  mkS (blocks s) (wraps s) (exts s) (orc s) (e :: trc s).

Definition set_obj (o : ost) (b : block) : block :=
  mkB (b_a b) (b_ty b) (b_hdr b) o.
Definition set_hdr (h : hdr) (b : block) : block :=
  mkB (b_a b) (b_ty b) h (b_obj b).

(** Next answer of the oracle; an exhausted oracle never throws. *)
Definition pop (s : store) : resp * store :=
  match orc s with
  | [] => (RespOk 0, s)
  | r :: o => (r, set_orc o s)
  end.

(** Address for a new block: the hint if it is free, otherwise some free one. *)
Definition choose (h : loc) (B : gmap loc block) : loc :=
  match B !! h with
  | None => h
  | Some _ => S (foldr Nat.max 0 (map_to_list B).*1)
  end.

(** The object a reference denotes, if it is within its lifetime. *)
Definition deref (r : oref) (s : store) : ub + (ty * V) :=
  match r with
  | RExt n => match exts s !! n with Some o => inr o | None => inl UBBadObj end
  | RBlk l =>
      match blocks s !! l with
      | None => inl UBDangling
      | Some b => match b_obj b with OLive t v => inr (t, v) | _ => inl UBBadObj end
      end
  end.

(** Overwrite the state of the object a reference denotes (type unchanged). *)
Definition upd_ref (r : oref) (v : V) (s : store) : store :=
  match r with
  | RExt n => set_exts (alter (fun o => (o.1, v)) n (exts s)) s
  | RBlk l =>
      set_blocks
        (alter (fun b => match b_obj b with
                         | OLive t _ => set_obj (OLive t v) b
                         | _ => b end) l (blocks s)) s
  end.

(** The source of a construction or assignment after the fact. *)
Definition upd_src (x : arg) (v : V) (s : store) : store :=
  match x with
  | AArgs _ => s
  | ARef ConstL _ => s
  | ARef _ r => upd_ref r v s
  end.

(** Does the storage of block [b] accept an object of type [t]? *)
Definition storage_for (t : ty) (b : block) : bool :=
  match b_ty b, b_hdr b with
  | BObj t', HNone => bool_decide (t = t')
  | BCb t', HCb t'' _ => bool_decide (t = t') && bool_decide (t = t'')
  | _, _ => false
  end.

(** New value and new source value for a construction. *)
Definition cons_vals (a : A) (t : ty) (x : arg) (s : store) : ub + (V * V * V) :=
  match x with
  | AArgs c => inr (t_make E t a c, t_make E t a c, t_make E t a c)
  | ARef k r =>
      match deref r s with
      | inl u => inl u
      | inr (t', v) =>
          let '(v1, v2) := t_cons E k t t' a v in
          inr (v1, v2, t_cons_fail E k t t' v)
      end
  end.

(** New target and source values for an assignment to the object in [l] holding
    [(t0, v0)]: on success, on failure. *)
Definition asgn_vals (l : loc) (t0 : ty) (v0 : V) (x : arg) (s : store)
  : ub + ((V * V) * (V * V)) :=
  match x with
  | AArgs c => inr ((t_asgn_args E t0 v0 c, v0), (t_asgn_args_fail E t0 v0 c, v0))
  | ARef k r =>
      if bool_decide (r = RBlk l) then
        inr ((t_self E k t0 v0, t_self E k t0 v0), (t_self_fail E k t0 v0, t_self_fail E k t0 v0))
      else
        match deref r s with
        | inl u => inl u
        | inr (t', v) => inr (t_asgn E k t0 t' v0 v, t_asgn_fail E k t0 t' v0 v)
        end
  end.

Definition exec {R} (p : prim R) (s : store) : res R :=
  match p with
  | PAlloc a b =>
      match pop s with
      | (RespFail e, s1) => ROk (inr e) (log (EvAllocFail a b e) s1)
      | (RespOk h, s1) =>
          let l := choose h (blocks s) in
          ROk (inl l)
              (log (EvAlloc a b l) (set_blocks (<[l := mkB a b HNone ORaw]> (blocks s)) s1))
      end
  | PDealloc a bt l =>
      match blocks s !! l with
      | None => RUB UBDangling
      | Some b =>
          if negb (bool_decide (bt = b_ty b)) then RUB UBWrongType else
          if negb (Nat.eqb (a_res E a) (a_res E (b_a b))) then RUB UBWrongAlloc else
          match b_obj b with
          | ORaw => ROk tt (log (EvDealloc a bt l) (set_blocks (delete l (blocks s)) s))
          | _ => RUB UBLiveFree
          end
      end
  | PCons a t l x =>
      match blocks s !! l with
      | None => RUB UBDangling
      | Some b =>
          if negb (storage_for t b) then RUB UBWrongType else
          match b_obj b with
          | ORaw =>
              match cons_vals a t x s with
              | inl u => RUB u
              | inr (v, v1, v2) =>
                  match pop s with
                  | (RespFail e, s1) =>
                      ROk (inr e) (log (EvConsFail a t l x e) (upd_src x v2 s1))
                  | (RespOk _, s1) =>
                      let s2 := upd_src x v1 s1 in
                      ROk (inl tt)
                          (log (EvCons a t l x)
                               (set_blocks (alter (set_obj (OLive t v)) l (blocks s2)) s2))
                  end
              end
          | _ => RUB UBOverLive
          end
      end
  | PDestroy a t l =>
      match blocks s !! l with
      | None => RUB UBDangling
      | Some b =>
          match b_obj b with
          | OLive t' _ =>
              if bool_decide (t = t')
              then ROk tt (log (EvDestroy a t l)
                               (set_blocks (<[l := set_obj ORaw b]> (blocks s)) s))
              else RUB UBWrongType
          | _ => RUB UBDoubleDestroy
          end
      end
  | PBeginDestroy a t l =>
      match blocks s !! l with
      | None => RUB UBDangling
      | Some b =>
          match b_obj b with
          | OLive t' _ =>
              if bool_decide (t = t')
              then ROk tt (log (EvDestroy a t l)
                               (set_blocks (<[l := set_obj (ODying t) b]> (blocks s)) s))
              else RUB UBWrongType
          | _ => RUB UBDoubleDestroy
          end
      end
  | PEndDestroy t l =>
      match blocks s !! l with
      | None => RUB UBDangling
      | Some b =>
          match b_obj b with
          | ODying t' =>
              if bool_decide (t = t')
              then ROk tt (set_blocks (<[l := set_obj ORaw b]> (blocks s)) s)
              else RUB UBWrongType
          | _ => RUB UBDoubleDestroy
          end
      end
  | PAsgn t l x =>
      match deref (RBlk l) s with
      | inl u => RUB u
      | inr (t0, v0) =>
          if negb (bool_decide (t = t0)) then RUB UBWrongType else
          match asgn_vals l t0 v0 x s with
          | inl u => RUB u
          | inr ((d, v), (df, vf)) =>
              match pop s with
              | (RespFail e, s1) =>
                  ROk (inr e) (log (EvAsgnFail t l x e) (upd_ref (RBlk l) df (upd_src x vf s1)))
              | (RespOk _, s1) =>
                  ROk (inl tt) (log (EvAsgn t l x) (upd_ref (RBlk l) d (upd_src x v s1)))
              end
          end
      end
  | PReadP w =>
      match wraps s !! w with
      | None => RUB UBBadWrapper
      | Some c => match w_p c with
                  | PIndet => RUB UBIndet
                  | PNull => ROk None s
                  | PLoc l => ROk (Some l) s
                  end
      end
  | PWriteP w p =>
      match wraps s !! w with
      | None => RUB UBBadWrapper
      | Some c =>
          ROk tt (set_wraps (<[w := mkW (match p with Some l => PLoc l | None => PNull end)
                                        (w_a c)]> (wraps s)) s)
      end
  | PReadA w =>
      match wraps s !! w with
      | None => RUB UBBadWrapper
      | Some c => ROk (w_a c) s
      end
  | PWriteA w a =>
      match wraps s !! w with
      | None => RUB UBBadWrapper
      | Some c => ROk tt (set_wraps (<[w := mkW (w_p c) a]> (wraps s)) s)
      end
  | PNewW w p a =>
      match wraps s !! w with
      | None => ROk tt (set_wraps (<[w := mkW p a]> (wraps s)) s)
      | Some _ => RUB UBBadWrapper
      end
  | PDelW w =>
      match wraps s !! w with
      | None => RUB UBBadWrapper
      | Some _ => ROk tt (set_wraps (delete w (wraps s)) s)
      end
  | PCbInit t l =>
      match blocks s !! l with
      | None => RUB UBDangling
      | Some b =>
          match b_hdr b, b_obj b with
          | HNone, ORaw =>
              if bool_decide (b_ty b = BCb t)
              then ROk tt (set_blocks (<[l := set_hdr (HCb t None) b]> (blocks s)) s)
              else RUB UBWrongType
          | _, _ => RUB UBOverLive
          end
      end
  | PCbSetP l p =>
      match blocks s !! l with
      | None => RUB UBDangling
      | Some b =>
          match b_hdr b with
          | HCb t _ => ROk tt (set_blocks (<[l := set_hdr (HCb t (Some p)) b]> (blocks s)) s)
          | HNone => RUB UBBadObj
          end
      end
  | PCbGetP l =>
      match blocks s !! l with
      | None => RUB UBDangling
      | Some b =>
          match b_hdr b with
          | HCb _ (Some p) => ROk p s
          | HCb _ None => RUB UBIndet
          | HNone => RUB UBBadObj
          end
      end
  | PCbTy l =>
      match blocks s !! l with
      | None => RUB UBDangling
      | Some b => match b_hdr b with HCb t _ => ROk t s | HNone => RUB UBBadObj end
      end
  | PReadObj r =>
      match deref r s with inl u => RUB u | inr o => ROk o s end
  | PMutObj r f =>
      match deref r s with inl u => RUB u | inr (_, v) => ROk tt (upd_ref r (f v) s) end
  | PExtSet n t v => ROk tt (set_exts (<[n := (t, v)]> (exts s)) s)
  | PUndef u => RUB u
  | PTerminate => RTerm
  end.

(** Programs. *)
Inductive prog (X : Type) : Type :=
  | Ret (x : X)
  | Throw (e : exn)
  | Act {R : Type} (p : prim R) (k : R -> prog X).
Global Arguments Ret {_} _.
Global Arguments Throw {_} _.
Global Arguments Act {_ _} _ _.

Fixpoint bind {X Y} (p : prog X) (f : X -> prog Y) : prog Y :=
  match p with
  | Ret x => f x
  | Throw e => Throw e
  | Act a k => Act a (fun r => bind (k r) f)
  end.

(** [try { p } catch (...) { h }] *)
Fixpoint catch {X} (p : prog X) (h : exn -> prog X) : prog X :=
  match p with
  | Ret x => Ret x
  | Throw e => h e
  | Act a k => Act a (fun r => catch (k r) h)
  end.

Definition act {R} (a : prim R) : prog R := Act a Ret.

(** A primitive that may throw. *)
Definition act_thr {R} (a : prim (R + exn)) : prog R :=
  Act a (fun r => match r with inl x => Ret x | inr e => Throw e end).

(** Function body of a function declared [noexcept(b)]. *)
Definition noexcept_if {X} (b : bool) (p : prog X) : prog X :=
  if b then catch p (fun e => Act PTerminate (fun _ => Throw e)) else p.

(** Result of running a program to its end. *)
Inductive outcome (X : Type) :=
  | ORet (x : X) (s : store)
  | OThrow (e : exn) (s : store)
  | OUB (u : ub)
  | OTerm.
Global Arguments ORet {_} _ _.
Global Arguments OThrow {_} _ _.
Global Arguments OUB {_} _.
Global Arguments OTerm {_}.

Fixpoint run {X} (p : prog X) (s : store) : outcome X :=
  match p with
  | Ret x => ORet x s
  | Throw e => OThrow e s
  | Act a k =>
      match exec a s with
      | ROk r s' => run (k r) s'
      | RUB u => OUB u
      | RTerm => OTerm
      end
  end.

(** The operations of the value type, as programs.  [tp_cons a t l x] is
    [construct(a, l, x)] for a [t]; [tp_destroy] is [destroy(a, l)]; [tp_asgn]
    is the assignment expression [*l = x]. *)
Record TP := mkTP {
  tp_cons : A -> ty -> loc -> arg -> prog unit;
  tp_destroy : A -> ty -> loc -> prog unit;
  tp_asgn : ty -> loc -> arg -> prog unit;
}.

(** Opaque value type: each operation is one indivisible action. *)
Definition flatTP : TP :=
  mkTP (fun a t l x => act_thr (PCons a t l x))
       (fun a t l => act (PDestroy a t l))
       (fun t l x => act_thr (PAsgn t l x)).

End lang.

Arguments AArgs {E} _.
Arguments ARef {E} _ _.
Arguments ORaw {E}.
Arguments OLive {E} _ _.
Arguments ODying {E} _.
Arguments mkB {E} _ _ _ _.
Arguments b_a {E} _.
Arguments b_ty {E} _.
Arguments b_hdr {E} _.
Arguments b_obj {E} _.
Arguments mkW {E} _ _.
Arguments w_p {E} _.
Arguments w_a {E} _.
Arguments mkS {E} _ _ _ _ _.
Arguments blocks {E} _.
Arguments wraps {E} _.
Arguments exts {E} _.
Arguments orc {E} _.
Arguments trc {E} _.
Arguments EvAlloc {E} _ _ _.
Arguments EvAllocFail {E} _ _ _.
Arguments EvDealloc {E} _ _ _.
Arguments EvCons {E} _ _ _ _.
Arguments EvConsFail {E} _ _ _ _ _.
Arguments EvDestroy {E} _ _ _.
Arguments EvAsgn {E} _ _ _.
Arguments EvAsgnFail {E} _ _ _ _.
Arguments PAlloc {E} _ _.
Arguments PDealloc {E} _ _ _.
Arguments PCons {E} _ _ _ _.
Arguments PDestroy {E} _ _ _.
Arguments PBeginDestroy {E} _ _ _.
Arguments PEndDestroy {E} _ _.
Arguments PAsgn {E} _ _ _.
Arguments PReadP {E} _.
Arguments PWriteP {E} _ _.
Arguments PReadA {E} _.
Arguments PWriteA {E} _ _.
Arguments PNewW {E} _ _ _.
Arguments PDelW {E} _.
Arguments PCbInit {E} _ _.
Arguments PCbSetP {E} _ _.
Arguments PCbGetP {E} _.
Arguments PCbTy {E} _.
Arguments PReadObj {E} _.
Arguments PMutObj {E} _ _.
Arguments PExtSet {E} _ _ _.
Arguments PUndef {E} _.
Arguments PTerminate {E}.
Arguments Ret {E X} _.
Arguments Throw {E X} _.
Arguments Act {E X R} _ _.
Arguments bind {E X Y} _ _.
Arguments catch {E X} _ _.
Arguments act {E R} _.
Arguments act_thr {E R} _.
Arguments noexcept_if {E X} _ _.
Arguments ROk {E R} _ _.
Arguments RUB {E R} _.
Arguments RTerm {E R}.
Arguments ORet {E X} _ _.
Arguments OThrow {E X} _ _.
Arguments OUB {E X} _.
Arguments OTerm {E X}.
Arguments exec {E R} _ _.
Arguments run {E X} _ _.
Arguments tp_cons {E} _ _ _ _ _.
Arguments tp_destroy {E} _ _ _ _.
Arguments tp_asgn {E} _ _ _ _.
Arguments set_blocks {E} _ _.
Arguments set_wraps {E} _ _.
Arguments set_exts {E} _ _.
Arguments set_orc {E} _ _.
Arguments log {E} _ _.
Arguments set_obj {E} _ _.
Arguments set_hdr {E} _ _.
Arguments pop {E} _.
Arguments choose {E} _ _.
Arguments deref {E} _ _.
Arguments upd_ref {E} _ _ _.
Arguments upd_src {E} _ _ _.
Arguments storage_for {E} _ _.
Arguments cons_vals {E} _ _ _ _.
Arguments asgn_vals {E} _ _ _ _ _.

Declare Scope prog_scope.
Delimit Scope prog_scope with prog.
Notation "x <- p ; q" := (bind p (fun x => q))
  (at level 100, p at next level, q at level 200, right associativity) : prog_scope.
Notation "p ;; q" := (bind p (fun _ => q))
  (at level 100, q at level 200, right associativity) : prog_scope.
