(** * Comparison and hashing of nested values.

    A class whose members are a value and [indirect] objects, with memberwise [==], [<=>] and
    hash: [friend bool operator==(const node&, const node&) = default] in C++20, written out in
    C++14.  The comparison of the members are the operators of [indirect] (Compare.v), which
    call back the class's own operators.  Objects are passed by reference: the operands of
    the class's operators are blocks.  [polymorphic] has no comparison operators. *)

From stdpp Require Import base gmap list.
From Verif Require Import Lang Common Client Spec Rep RunLemmas Headers Hist Compare CompareProps Tree TreeProps TreeAssign TreeSub TreePlace TreeObs.
Local Open Scope res_scope.

Section model.
Context {E : Env} (Sh : Shape E) (s : store E).
Notation V := (eV E).
(** The data's own operators. *)
Context (deq : V -> V -> res bool) (dtw : V -> V -> res ordering) (dhash : V -> res N) (mix : N -> N -> N).

(** The object a reference denotes. *)
Definition load (l : loc) : res (ty * V) := lift (run (act (PReadObj (RBlk l))) s).

(** An [indirect] operand; [*x] is a reference to the owned object. *)
Definition ref (n : nat) (h : header) (w : wl) : operand loc :=
  mkOperand (lift (run (i_valueless (node_impl Sh n h) w) s)) (lift (run (i_star (node_impl Sh n h) w) s)).

(** A class that has some operators only. *)
Definition only_eq (f : loc -> loc -> res bool) : cmp loc loc :=
  mkCmp _ _ f (fun x y => rnot (f x y)) (fun _ _ => VBad) (fun _ _ => VBad) (fun _ _ => VBad) (fun _ _ => VBad) None.
Definition only_tw (f : loc -> loc -> res ordering) : cmp loc loc :=
  mkCmp _ _ (fun _ _ => VBad) (fun _ _ => VBad) (fun _ _ => VBad) (fun _ _ => VBad) (fun _ _ => VBad) (fun _ _ => VBad) (Some f).

(** Memberwise [==]: the first difference decides. *)
Fixpoint all_eq (f : nat -> res bool) (i n : nat) : res bool :=
  match n with 0 => VOk true | S n' => rand (f i) (all_eq f (S i) n') end.
(** Memberwise [<=>]: the first result other than equal. *)
Fixpoint all_tw (f : nat -> res ordering) (i n : nat) : res ordering :=
  match n with
  | 0 => VOk Equiv
  | S n' => c <- f i ; match c with Equiv => all_tw f (S i) n' | _ => VOk c end
  end.
Fixpoint all_hash (f : nat -> res N) (i n : nat) (acc : N) : res N :=
  match n with 0 => VOk acc | S n' => x <- f i ; all_hash f (S i) n' (mix acc x) end.

(** indirect.h 377-387, indirect_cxx14.h 375-382; [m]: depth of the operands' values *)
Definition ind_eq (m : nat) (f : loc -> loc -> res bool) (h : header) (w w' : wl) : res bool :=
  match h with
  | HInd20 => Compare20.op_eq (only_eq f) (ref m h w) (ref m h w')
  | HInd14 => Compare14.op_eq (only_eq f) (ref m h w) (ref m h w')
  | HPoly20 | HPoly14 => VBad
  end.
(** In C++20 [x != y] is rewritten to [!(x == y)]; indirect_cxx14.h 384-391 *)
Definition ind_ne (m : nat) (f : loc -> loc -> res bool) (h : header) (w w' : wl) : res bool :=
  match h with
  | HInd20 => Compare20.op_ne (only_eq f) (ref m h w) (ref m h w')
  | HInd14 => Compare14.op_ne (only_eq f) (ref m h w) (ref m h w')
  | HPoly20 | HPoly14 => VBad
  end.
(** indirect.h 400-408 *)
Definition ind_tw (m : nat) (f : loc -> loc -> res ordering) (h : header) (w w' : wl) : res ordering :=
  match h with
  | HInd20 => Compare20.op_tw (only_tw f) (only_tw f) (ref m h w) (ref m h w')
  | _ => VBad
  end.
(** indirect.h 474-483, indirect_cxx14.h 584-592 *)
Definition ind_hash (m : nat) (f : loc -> res N) (h : header) (w : wl) : res N :=
  match h with
  | HInd20 => Compare20.hash f (ref m h w)
  | HInd14 => Compare14.hash f (ref m h w)
  | HPoly20 | HPoly14 => VBad
  end.

(** The class's operators, to depth [n]. *)
Fixpoint node_eq (n : nat) (l l' : loc) : res bool :=
  match n with
  | 0 => VBad
  | S n' =>
      o <- load l ; o' <- load l' ;
      rand (deq o.2 o'.2)
           (all_eq (fun i => ind_eq n' (node_eq n') (k_hdr Sh o.1 i) (WMem l i) (WMem l' i)) 0 (n_kids Sh o.1 o.2))
  end.
Fixpoint node_tw (n : nat) (l l' : loc) : res ordering :=
  match n with
  | 0 => VBad
  | S n' =>
      o <- load l ; o' <- load l' ;
      c <- dtw o.2 o'.2 ;
      match c with
      | Equiv => all_tw (fun i => ind_tw n' (node_tw n') (k_hdr Sh o.1 i) (WMem l i) (WMem l' i)) 0 (n_kids Sh o.1 o.2)
      | _ => VOk c
      end
  end.
Fixpoint node_hash (n : nat) (l : loc) : res N :=
  match n with
  | 0 => VBad
  | S n' =>
      o <- load l ; x <- dhash o.2 ;
      all_hash (fun i => ind_hash n' (node_hash n') (k_hdr Sh o.1 i) (WMem l i)) 0 (n_kids Sh o.1 o.2) x
  end.

(** [x == y], [x != y], [x <=> y], [std::hash<...>{}(x)] for [indirect] objects [x], [y]. *)
Definition deep_eq (n : nat) (h : header) (w w' : wl) : res bool := ind_eq n (node_eq n) h w w'.
Definition deep_ne (n : nat) (h : header) (w w' : wl) : res bool := ind_ne n (node_eq n) h w w'.
Definition deep_tw (n : nat) (h : header) (w w' : wl) : res ordering := ind_tw n (node_tw n) h w w'.
Definition deep_hash (n : nat) (h : header) (w : wl) : res N := ind_hash n (node_hash n) h w.
End model.

(** ** Specification: functions on trees, ignoring allocators *)
Section spec.
Context {E : Env}.
Notation A := (eA E).
Notation V := (eV E).
Notation wst := (option (tree E) * A)%type.
Context (d : V -> V -> bool) (c : V -> V -> ordering) (hv : V -> N) (mix : N -> N -> N).

Section lists.
Context (f : tree E -> tree E -> bool) (g : tree E -> tree E -> ordering) (q : tree E -> N).
Definition same_opt (o o' : option (tree E)) : bool :=
  match o, o' with Some T, Some T' => f T T' | None, None => true | _, _ => false end.
Fixpoint same_list (ks ks' : list wst) : bool :=
  match ks, ks' with
  | [], [] => true
  | k :: r, k' :: r' => same_opt k.1 k'.1 && same_list r r'
  | _, _ => false
  end.
Definition order_opt (o o' : option (tree E)) : ordering :=
  match o, o' with Some T, Some T' => g T T' | None, None => Equiv | None, Some _ => Less | Some _, None => Greater end.
Fixpoint order_list (ks ks' : list wst) : ordering :=
  match ks, ks' with
  | [], [] => Equiv
  | [], _ => Less
  | _, [] => Greater
  | k :: r, k' :: r' => match order_opt k.1 k'.1 with Equiv => order_list r r' | o => o end
  end.
Definition hash_opt (o : option (tree E)) : N := match o with Some T => q T | None => N.ones 64 end.
Definition hash_list (ks : list wst) (acc : N) : N := foldl (fun acc k => mix acc (hash_opt k.1)) acc ks.
End lists.

Fixpoint same (T T' : tree E) : bool :=
  match T, T' with TNode _ v ks, TNode _ v' ks' => d v v' && same_list same ks ks' end.
Fixpoint order (T T' : tree E) : ordering :=
  match T, T' with
  | TNode _ v ks, TNode _ v' ks' => match c v v' with Equiv => order_list order ks ks' | o => o end
  end.
Fixpoint hash_tree (T : tree E) : N := match T with TNode _ v ks => hash_list hash_tree ks (hv v) end.

Definition same_w (k k' : wst) : bool := same_opt same k.1 k'.1.
Definition order_w (k k' : wst) : ordering := order_opt order k.1 k'.1.
Definition hash_w (k : wst) : N := hash_opt hash_tree k.1.
End spec.
