(** * Client programs over any value type that keeps its contract.

    The variables of the client are wrapper objects of the four headers over a value type with
    arbitrary special member functions [T] and arbitrary further member functions [code], of
    which only their contracts are known (Contract.v).  The client's next step may depend on
    everything returned or thrown so far.  Nothing in /repo is modelled in this file. *)

From stdpp Require Import base gmap list.
From Verif Require Import Lang Common Client Spec Rep Headers Hist Tree Contract.

(** A member function of the class, called as [x->f(...)]: it may read, change and observe the
    value, may throw, and touches nothing but the object and what it owns.  [R t v r v']: called
    on a [t] of value [v] it may return or throw [r], leaving [v']. *)
Definition Method {E : Env} (K : Cls E) {X : Type} (f : loc -> prog E X)
    (R : ty -> c_val K -> X + exn -> c_val K -> Prop) : Prop :=
  forall t l b x B W (s : store E),
    mem_ok s -> object K s l b t x B W -> enclosed s l B W ->
    match run (f l) s with
    | ORet r s' => exists x' b' B' W', R t x (inl r) x' /\ filled K l b b' t x' B' W' /\
        changed s s' (<[l := b]> B) W (<[l := b']> B') W'
    | OThrow e s' => exists x' b' B' W', R t x (inr e) x' /\ filled K l b b' t x' B' W' /\
        changed s s' (<[l := b]> B) W (<[l := b']> B') W'
    | _ => False
    end.

Section client.
Context {E : Env} (T : TP E) (K : Cls E).
(** The member functions: their names, results, code and meaning. *)
Context (M X : Type) (code : M -> loc -> prog E X) (sem : M -> ty -> c_val K -> X + exn -> c_val K -> Prop).
(** The class of each variable. *)
Context (hs : nat -> header).
Local Open Scope prog_scope.
Notation A := (eA E).
Notation wv := (option (ty * c_val K) * A)%type.
Notation vars := (gmap nat wv).
Implicit Types m : vars.

Inductive gop :=
  | GMake (x : nat) (a : A) (t : ty) (c : eC E)   (* [W x(allocator_arg, a, in_place_type<t>, c...)] *)
  | GCopy (x y : nat)                              (* [W x(y)] *)
  | GCopyA (x : nat) (a : A) (y : nat)             (* [W x(allocator_arg, a, y)] *)
  | GMove (x y : nat)                              (* [W x(std::move(y))] *)
  | GMoveA (x : nat) (a : A) (y : nat)
  | GAssign (x y : nat)                            (* [x = y] *)
  | GMoveAssign (x y : nat)                        (* [x = std::move(y)] *)
  | GSwap (x y : nat)
  | GDestroy (x : nat)
  | GCall (x : nat) (f : M)                        (* [x->f()] *)
  | GValueless (x : nat)
  | GAlloc (x : nat).

Inductive gres := RUnit | RX (r : X) | RBool (b : bool) | RAlloc (a : A).

Definition impl_of (x : nat) : impl E := hdr_impl (hs x) T.
Definition void (p : prog E unit) : prog E gres := p ;; Ret RUnit.
Definition ginterp (o : gop) : prog E gres :=
  match o with
  | GMake x a t c => void (i_inplace_a (impl_of x) (WVar x) a t (AArgs c))
  | GCopy x y => void (i_copy (impl_of x) (WVar x) (WVar y))
  | GCopyA x a y => void (i_copy_a (impl_of x) (WVar x) a (WVar y))
  | GMove x y => void (i_move (impl_of x) (WVar x) (WVar y))
  | GMoveA x a y => void (i_move_a (impl_of x) (WVar x) a (WVar y))
  | GAssign x y => void (i_copy_assign (impl_of x) (WVar x) (WVar y))
  | GMoveAssign x y => void (i_move_assign (impl_of x) (WVar x) (WVar y))
  | GSwap x y => void (i_swap (impl_of x) (WVar x) (WVar y))
  | GDestroy x => void (i_dtor (impl_of x) (WVar x))
  | GCall x f => l <- i_star (impl_of x) (WVar x) ; r <- code f l ; Ret (RX r)
  | GValueless x => b <- i_valueless (impl_of x) (WVar x) ; Ret (RBool b)
  | GAlloc x => a <- i_alloc (impl_of x) (WVar x) ; Ret (RAlloc a)
  end.

Inductive gclient := GDone | GDo (o : gop) (next : gres + exn -> gclient).

(** The client as a program: it catches every exception, and returns everything it saw. *)
Fixpoint gprog (c : gclient) : prog E (list (gres + exn)) :=
  match c with
  | GDone => Ret []
  | GDo o next =>
      r <- catch (v <- ginterp o ; Ret (inl v)) (fun e => Ret (inr e)) ;
      rs <- gprog (next r) ;
      Ret (r :: rs)
  end.

(** ** Specification: variables are values *)

(** When the operations may be used. *)
Definition gpre m (o : gop) : Prop :=
  match o with
  | GMake x a t c => m !! x = None /\ exists v, c_make K (made (E := E) (hs x) t) a c v
  | GCopy x y | GCopyA x _ y | GMove x y => m !! x = None /\ hs x = hs y /\ is_Some (m !! y)
  | GMoveA x a y => m !! x = None /\ hs x = hs y /\
      exists k, m !! y = Some k /\ (steals (E := E) (hs x) a k.2 = true -> a_res E a = a_res E k.2)
  | GAssign x y | GMoveAssign x y => hs x = hs y /\ is_Some (m !! x) /\ is_Some (m !! y)
  | GSwap x y => hs x = hs y /\ exists k k', m !! x = Some k /\ m !! y = Some k' /\ (pocs E = false -> a_eqb E k.2 k'.2 = true)
  | GDestroy x | GValueless x | GAlloc x => is_Some (m !! x)
  | GCall x f => exists t v a, m !! x = Some (Some (t, v), a)
  end.

(** What they may do. *)
Definition gstep m (o : gop) (r : gres + exn) m' : Prop :=
  match o with
  | GMake x a t c =>
      match r with
      | inl r => r = RUnit /\ exists v, c_make K (made (E := E) (hs x) t) a c v /\
          m' = <[x := (Some (made (E := E) (hs x) t, v), a)]> m
      | inr _ => m' = m
      end
  | GCopy x y =>
      match r with
      | inl r => r = RUnit /\ exists k k', m !! y = Some k /\ copied K (a_soccc E k.2) k k' /\ m' = <[x := k']> m
      | inr _ => m' = m
      end
  | GCopyA x a y =>
      match r with
      | inl r => r = RUnit /\ exists k k', m !! y = Some k /\ copied K a k k' /\ m' = <[x := k']> m
      | inr _ => m' = m
      end
  | GMove x y =>
      r = inl RUnit /\ exists k k' ky, m !! y = Some k /\ moved K true k.2 k k' ky /\ m' = <[x := k']> (<[y := ky]> m)
  | GMoveA x a y =>
      exists k, m !! y = Some k /\
      match r with
      | inl r => r = RUnit /\ exists k' ky, moved K (steals (E := E) (hs x) a k.2) a k k' ky /\ m' = <[x := k']> (<[y := ky]> m)
      | inr _ => steals (E := E) (hs x) a k.2 = false /\ exists ky, move_broken K k ky /\ m' = <[y := ky]> m
      end
  | GAssign x y =>
      if decide (x = y) then r = inl RUnit /\ m' = m
      else exists kx ky, m !! x = Some kx /\ m !! y = Some ky /\
        match r with
        | inl r => r = RUnit /\ exists k', assigned K (hs x) kx ky k' /\ m' = <[x := k']> m
        | inr _ => exists k', assign_failed K (hs x) kx ky k' /\ m' = <[x := k']> m
        end
  | GMoveAssign x y =>
      if decide (x = y) then r = inl RUnit /\ m' = m
      else exists kx ky, m !! x = Some kx /\ m !! y = Some ky /\
        match r with
        | inl r => r = RUnit /\ exists k' ky', moved K (a_eqb E kx.2 ky.2) (kept (pocma E) kx.2 ky.2) ky k' ky' /\
            m' = <[x := k']> (<[y := ky']> m)
        | inr _ => a_eqb E kx.2 ky.2 = false /\ exists ky', move_broken K ky ky' /\ m' = <[y := ky']> m
        end
  | GSwap x y =>
      r = inl RUnit /\
      if decide (x = y) then m' = m
      else exists kx ky kx' ky', m !! x = Some kx /\ m !! y = Some ky /\ swapped K kx ky kx' ky' /\ m' = <[x := kx']> (<[y := ky']> m)
  | GDestroy x => r = inl RUnit /\ m' = delete x m
  | GCall x f =>
      exists t v a v' r', m !! x = Some (Some (t, v), a) /\ sem f t v r' v' /\
        r = match r' with inl q => inl (RX q) | inr e => inr e end /\ m' = <[x := (Some (t, v'), a)]> m
  | GValueless x => exists k, m !! x = Some k /\ r = inl (RBool (match k.1 with None => true | Some _ => false end)) /\ m' = m
  | GAlloc x => exists k, m !! x = Some k /\ r = inl (RAlloc k.2) /\ m' = m
  end.

(** The runs of a client according to the specification: [rs] is what it sees. *)
Fixpoint gexec (c : gclient) m (rs : list (gres + exn)) m' : Prop :=
  match c with
  | GDone => rs = [] /\ m' = m
  | GDo o next => exists r rs' m1, rs = r :: rs' /\ gstep m o r m1 /\ gexec (next r) m1 rs' m'
  end.
(** Wherever the specification may lead, the client uses its operations as it may. *)
Fixpoint gsafe (c : gclient) m : Prop :=
  match c with
  | GDone => True
  | GDo o next => gpre m o /\ forall r m', gstep m o r m' -> gsafe (next r) m'
  end.
(** The specification may lead to a move assignment that propagates an allocator unequal to
    the target's. *)
Fixpoint gterm (c : gclient) m : Prop :=
  match c with
  | GDone => False
  | GDo o next =>
      (match o with
       | GMoveAssign x y => x <> y /\ pocma E = true /\ exists kx ky, m !! x = Some kx /\ m !! y = Some ky /\
           a_eqb E kx.2 ky.2 = false /\ ky.1 <> None
       | _ => False
       end) \/
      exists r m', gstep m o r m' /\ gterm (next r) m'
  end.

(** Memory holds exactly the variables [m]: every block and every wrapper is part of exactly
    one of them. *)
Definition part (x : nat) (o : option wv) (B : gmap loc (block E)) (W : gmap wl (wrapper E)) : Prop :=
  match o with Some k => wrapped K (hs x) (WVar x) k B W | None => B = ∅ /\ W = ∅ end.
Record held_by (s : store E) m (FB : nat -> gmap loc (block E)) (FW : nat -> gmap wl (wrapper E)) : Prop := {
  hd_part : forall x, part x (m !! x) (FB x) (FW x);
  hd_b : forall x, FB x ⊆ blocks s;
  hd_w : forall x, FW x ⊆ wraps s;
  hd_db : forall x y, x <> y -> FB x ##ₘ FB y;
  hd_dw : forall x y, x <> y -> FW x ##ₘ FW y;
  hd_cb : forall l, is_Some (blocks s !! l) -> exists x, is_Some (FB x !! l);
  hd_cw : forall w, is_Some (wraps s !! w) -> exists x, is_Some (FW x !! w);
}.
Definition held (s : store E) m : Prop := exists FB FW, held_by s m FB FW.
End client.
Arguments GMake {E M} _ _ _ _.
Arguments GCopy {E M} _ _.
Arguments GCopyA {E M} _ _ _.
Arguments GMove {E M} _ _.
Arguments GMoveA {E M} _ _ _.
Arguments GAssign {E M} _ _.
Arguments GMoveAssign {E M} _ _.
Arguments GSwap {E M} _ _.
Arguments GDestroy {E M} _.
Arguments GCall {E M} _ _.
Arguments GValueless {E M} _.
Arguments GAlloc {E M} _.
Arguments RUnit {E X}.
Arguments RX {E X} _.
Arguments RBool {E X} _.
Arguments RAlloc {E X} _.
Arguments GDone {E M X}.
Arguments GDo {E M X} _ _.
