(** * Comparison and hashing of wrappers, over value types whose operators are arbitrary code.

    Compare.v models the operators of [indirect] over value types whose comparisons are functions
    of the values.  Here a value type's operators are programs: they may run any code, allocate,
    throw; the operators of [indirect] are programs that call them. *)

From stdpp Require Import base gmap list.
From Verif Require Import Lang Common Client Spec Rep Headers Hist Compare Tree TreeProps Contract ContractClient ContractTidy ContractUser Arena.

(** The operators a class offers: [a r b] for the six relations, [a <=> b] if it has it, and
    [std::hash].  Operands are references to objects. *)
Record Cmps (E : Env) := mkCmps {
  p_rel : rel -> loc -> loc -> prog E bool;
  p_tw : option (loc -> loc -> prog E ordering);
  p_hash : loc -> prog E N;
}.
Arguments mkCmps {E} _ _ _.
Arguments p_rel {E} _ _ _ _.
Arguments p_tw {E} _.
Arguments p_hash {E} _ _.

(** What the result of [<=>] says about a relation ([operator<(ordering, 0)] etc. of the
    standard library). *)
Definition holds (r : rel) (o : ordering) : bool :=
  match r, o with
  | REq, Equiv | RLt, Less | RGt, Greater => true
  | RNe, (Less | Greater | Unordered) => true
  | RLe, (Less | Equiv) | RGe, (Greater | Equiv) => true
  | _, _ => false
  end.
(** [b r' a] means [a r b]. *)
Definition reversed (r : rel) : rel :=
  match r with RLt => RGt | RGt => RLt | RLe => RGe | RGe => RLe | _ => r end.

Section ops.
Context {E : Env} (I : impl E) (C : Cmps E).
Local Open Scope prog_scope.
Implicit Types x y : wl.
Implicit Types q : loc.

Definition pnot (m : prog E bool) : prog E bool := b <- m ; Ret (negb b).
(** C++ [||] and [&&]. *)
Definition por (m n : prog E bool) : prog E bool := b <- m ; if (b : bool) then Ret true else n.
Definition pand (m n : prog E bool) : prog E bool := b <- m ; if (b : bool) then n else Ret false.

(** indirect.h 53-66 [synth_three_way] *)
Definition p_synth (l q : loc) : prog E ordering :=
  match p_tw C with
  | Some f => f l q
  | None =>
      b <- p_rel C RLt l q ;
      if (b : bool) then Ret Less else
      b' <- p_rel C RLt q l ;
      if (b' : bool) then Ret Greater else Ret Equiv
  end.

(** indirect.h 377-387 [operator==(indirect, indirect)] *)
Definition m20_eq x y : prog E bool :=
  l <- i_valueless I x ;
  if (l : bool) then i_valueless I y else
  r <- i_valueless I y ;
  if (r : bool) then Ret false else
  p <- i_star I x ; q <- i_star I y ; p_rel C REq p q.
(** indirect.h 389-398 [operator==(indirect, U)] *)
Definition m20_eq_val x q : prog E bool :=
  l <- i_valueless I x ;
  if (l : bool) then Ret false else
  p <- i_star I x ; p_rel C REq p q.
(** indirect.h 400-408 [operator<=>(indirect, indirect)] *)
Definition m20_tw x y : prog E ordering :=
  c <- por (i_valueless I x) (i_valueless I y) ;
  if (c : bool) then
    l <- i_valueless I x ; r <- i_valueless I y ; Ret (Compare20.bool_tw (negb l) (negb r))
  else
    p <- i_star I x ; q <- i_star I y ; p_synth p q.
(** indirect.h 410-425 [operator<=>(indirect, U)] *)
Definition m20_tw_val x q : prog E ordering :=
  l <- i_valueless I x ;
  if (l : bool) then Ret Less else
  p <- i_star I x ; p_synth p q.

(** What the compiler makes of [x r y], [x r u] and [u r x] ([over.match.oper] p3). *)
Definition m20 (r : rel) x y : prog E bool :=
  match r with
  | REq => m20_eq x y
  | RNe => pnot (m20_eq x y)
  | _ => o <- m20_tw x y ; Ret (holds r o)
  end.
Definition m20_val (r : rel) x q : prog E bool :=
  match r with
  | REq => m20_eq_val x q
  | RNe => pnot (m20_eq_val x q)
  | _ => o <- m20_tw_val x q ; Ret (holds r o)
  end.
Definition val_m20 (r : rel) q x : prog E bool := m20_val (reversed r) x q.

(** indirect_cxx14.h 375-428 *)
Definition m14 (r : rel) x y : prog E bool :=
  let vx := i_valueless I x in
  let vy := i_valueless I y in
  let inner := p <- i_star I x ; q <- i_star I y ; p_rel C r p q in
  match r with
  | REq => c <- por vx vy ; if (c : bool) then pand vx vy else inner
  | RNe => c <- por vx vy ; if (c : bool) then pnot (pand vx vy) else inner
  | RLt => l <- vx ; if (l : bool) then pnot vy else pand (pnot vy) inner
  | RGt => l <- vy ; if (l : bool) then pnot vx else pand (pnot vx) inner
  | RLe => l <- vx ; if (l : bool) then Ret true else pand (pnot vy) inner
  | RGe => l <- vy ; if (l : bool) then Ret true else pand (pnot vx) inner
  end.
(** indirect_cxx14.h 430-438, 450-458, 470-477, 488-495, 506-514, 526-534: [x r u] *)
Definition m14_val (r : rel) x q : prog E bool :=
  l <- i_valueless I x ;
  if (l : bool) then Ret (match r with REq | RGt | RGe => false | RNe | RLt | RLe => true end) else
  p <- i_star I x ; p_rel C r p q.
(** indirect_cxx14.h 440-448, 460-468, 479-486, 497-504, 516-524, 536-544: [u r x] *)
Definition val_m14 (r : rel) q x : prog E bool :=
  l <- i_valueless I x ;
  if (l : bool) then Ret (match r with REq | RLt | RLe => false | RNe | RGt | RGe => true end) else
  p <- i_star I x ; p_rel C r q p.

(** indirect.h 474-483, indirect_cxx14.h 584-592 [std::hash<indirect>] *)
Definition m_hash x : prog E N :=
  b <- i_valueless I x ;
  if (b : bool) then Ret (N.ones 64) else
  p <- i_star I x ; p_hash C p.

Definition w_rel (g : gen) := match g with Cxx20 => m20 | Cxx14 => m14 end.
Definition w_rel_val (g : gen) := match g with Cxx20 => m20_val | Cxx14 => m14_val end.
Definition val_w_rel (g : gen) := match g with Cxx20 => val_m20 | Cxx14 => val_m14 end.
End ops.

Definition gen_of (h : header) : gen := match h with HInd14 | HPoly14 => Cxx14 | _ => Cxx20 end.

(** ** Specification *)

(** What the operators of a class may return or throw, by the values of their operands. *)
Record CmpSpec (X : Type) := mkCmpSpec {
  c_rel : rel -> X -> X -> bool + exn -> Prop;
  c_tw : option (X -> X -> ordering + exn -> Prop);
  c_hash : X -> N + exn -> Prop;
}.
Arguments mkCmpSpec {X} _ _ _.
Arguments c_rel {X} _ _ _ _ _.
Arguments c_tw {X} _.
Arguments c_hash {X} _ _ _.

(** [u] applied to the result, if there is one. *)
Definition result_of {X Y} (u : X -> Y) (r : X + exn) : Y + exn := match r with inl x => inl (u x) | inr e => inr e end.

Section spec.
Context {X : Type} (S : CmpSpec X).
(** The order of two values of a type. *)
Definition ordered (x y : X) (r : ordering + exn) : Prop :=
  match c_tw S with
  | Some R => R x y r
  | None => exists r1, c_rel S RLt x y r1 /\
      match r1 with
      | inl true => r = inl Less
      | inl false => exists r2, c_rel S RLt y x r2 /\ r = result_of (fun b : bool => if b then Greater else Equiv) r2
      | inr e => r = inr e
      end
  end.
(** A relation between two values, as the operators of a wrapper of either header mean it. *)
Definition related (g : gen) (r : rel) (x y : X) (res : bool + exn) : Prop :=
  match g, r with
  | Cxx14, _ | Cxx20, REq => c_rel S r x y res
  | Cxx20, RNe => exists res', c_rel S REq x y res' /\ res = result_of negb res'
  | Cxx20, _ => exists o, ordered x y o /\ res = result_of (holds r) o
  end.
(** Valueless wrappers are equal to one another and before all others. *)
Definition vless (x y : option X) : ordering :=
  match x, y with None, Some _ => Less | Some _, None => Greater | _, _ => Equiv end.
Definition w_related (g : gen) (r : rel) (x y : option X) (res : bool + exn) : Prop :=
  match x, y with Some x, Some y => related g r x y res | _, _ => res = inl (holds r (vless x y)) end.
Definition w_ordered (x y : option X) (res : ordering + exn) : Prop :=
  match x, y with Some x, Some y => ordered x y res | _, _ => res = inl (vless x y) end.
(** [u r x]: in C++20 it is [x r' u], with the relation reversed. *)
Definition val_w_related (g : gen) (r : rel) (u : X) (x : option X) (res : bool + exn) : Prop :=
  match g with Cxx20 => w_related g (reversed r) x (Some u) res | Cxx14 => w_related g r (Some u) x res end.
Definition w_hashed (x : option X) (res : N + exn) : Prop :=
  match x with Some x => c_hash S x res | None => res = inl (N.ones 64) end.
End spec.

(** Code that leaves everything as it was and returns or throws what [R] allows; what storage it
    needs meanwhile, it uses properly ([tidy], ContractTidy.v). *)
Definition pure {E : Env} {X} (p : prog E X) (s : store E) (R : X + exn -> Prop) : Prop :=
  match run p s with
  | ORet r s' => R (inl r) /\ same s s'
  | OThrow e s' => R (inr e) /\ same s s'
  | _ => False
  end /\ tidy p s.
(** Functions of const references to one or two objects of the value type. *)
Definition Reads {E : Env} (K : Cls E) {X} (f : loc -> prog E X) (R : c_val K -> X + exn -> Prop) : Prop :=
  forall l b x B W (s : store E), mem_ok s -> object K s l b (tT E) x B W -> pure (f l) s (R x).
Definition Reads2 {E : Env} (K : Cls E) {X} (f : loc -> loc -> prog E X) (R : c_val K -> c_val K -> X + exn -> Prop) : Prop :=
  forall l b x B W l' b' y B' W' (s : store E), mem_ok s -> object K s l b (tT E) x B W -> object K s l' b' (tT E) y B' W' ->
    pure (f l l') s (R x y).
(** The operators [C] of a class mean [S]. *)
Record Compares {E : Env} (K : Cls E) (C : Cmps E) (S : CmpSpec (c_val K)) : Prop := {
  cm_rel : forall r, Reads2 K (p_rel C r) (c_rel S r);
  cm_tw : match p_tw C, c_tw S with Some f, Some R => Reads2 K f R | None, None => True | _, _ => False end;
  cm_hash : Reads K (p_hash C) (c_hash S);
}.

(** ** Classes with wrapper members

    Data, compared by functions, and [indirect] members of the header [h], compared in order;
    in C++20 [==] and [<=>] are defaulted, in C++14 [==] and [<] are written out and the others
    are defined by them. *)
Section node.
Context {E : Env} (Sh : Shape E) (T : TP E) (h : header).
Context (deq : eV E -> eV E -> bool) (dtw : eV E -> eV E -> ordering) (dhash : eV E -> N) (mix : N -> N -> N).
Context (C : Cmps E).
Local Open Scope prog_scope.
Let I := hdr_impl h T.

Fixpoint mem_eq (l q : loc) (i n : nat) : prog E bool :=
  match n with
  | 0 => Ret true
  | S n' => pand (w_rel I C (gen_of h) REq (WMem l i) (WMem q i)) (mem_eq l q (S i) n')
  end.
Fixpoint mem_tw (l q : loc) (i n : nat) : prog E ordering :=
  match n with
  | 0 => Ret Equiv
  | S n' => o <- m20_tw I C (WMem l i) (WMem q i) ; match o with Equiv => mem_tw l q (S i) n' | _ => Ret o end
  end.
Fixpoint mem_lt (l q : loc) (i n : nat) : prog E bool :=
  match n with
  | 0 => Ret false
  | S n' => b <- m14 I C RLt (WMem l i) (WMem q i) ; if (b : bool) then Ret true else
            b' <- m14 I C RLt (WMem q i) (WMem l i) ; if (b' : bool) then Ret false else mem_lt l q (S i) n'
  end.
Fixpoint mem_hash (l : loc) (i n : nat) (acc : N) : prog E N :=
  match n with
  | 0 => Ret acc
  | S n' => x <- m_hash I C (WMem l i) ; mem_hash l (S i) n' (mix acc x)
  end.

Definition n_eq (l q : loc) : prog E bool :=
  o <- act (PReadObj (RBlk l)) ; o' <- act (PReadObj (RBlk q)) ;
  if deq o.2 o'.2 then mem_eq l q 0 (n_kids Sh o.1 o.2) else Ret false.
Definition n_tw (l q : loc) : prog E ordering :=
  o <- act (PReadObj (RBlk l)) ; o' <- act (PReadObj (RBlk q)) ;
  match dtw o.2 o'.2 with Equiv => mem_tw l q 0 (n_kids Sh o.1 o.2) | c => Ret c end.
Definition n_lt (l q : loc) : prog E bool :=
  o <- act (PReadObj (RBlk l)) ; o' <- act (PReadObj (RBlk q)) ;
  match dtw o.2 o'.2 with Equiv => mem_lt l q 0 (n_kids Sh o.1 o.2) | c => Ret (holds RLt c) end.
Definition n_hash (l : loc) : prog E N :=
  o <- act (PReadObj (RBlk l)) ; mem_hash l 0 (n_kids Sh o.1 o.2) (dhash o.2).

Definition node_cmps : Cmps E :=
  match gen_of h with
  | Cxx20 =>
      mkCmps (fun r l q => match r with REq => n_eq l q | RNe => pnot (n_eq l q) | _ => o <- n_tw l q ; Ret (holds r o) end)
        (Some n_tw) n_hash
  | Cxx14 =>
      mkCmps (fun r l q => match r with
        | REq => n_eq l q | RNe => pnot (n_eq l q) | RLt => n_lt l q | RGt => n_lt q l
        | RLe => pnot (n_lt q l) | RGe => pnot (n_lt l q) end)
        None n_hash
  end.

(** Specification: the first difference decides. *)
Section spec.
Context {X : Type} (S : CmpSpec X).
Notation wv := (option (ty * X) * eA E)%type.
Definition value_of (k : wv) : option X := snd <$> k.1.
Fixpoint same_members (ks ks' : list wv) (res : bool + exn) : Prop :=
  match ks, ks' with
  | k :: ks, k' :: ks' => exists r, w_related S (gen_of h) REq (value_of k) (value_of k') r /\
      match r with inl true => same_members ks ks' res | _ => res = r end
  | _, _ => res = inl true
  end.
Fixpoint ordered_members (ks ks' : list wv) (res : ordering + exn) : Prop :=
  match ks, ks' with
  | k :: ks, k' :: ks' => exists r, w_ordered S (value_of k) (value_of k') r /\
      match r with inl Equiv => ordered_members ks ks' res | _ => res = r end
  | _, _ => res = inl Equiv
  end.
Fixpoint less_members (ks ks' : list wv) (res : bool + exn) : Prop :=
  match ks, ks' with
  | k :: ks, k' :: ks' => exists r, w_related S Cxx14 RLt (value_of k) (value_of k') r /\
      match r with
      | inl false => exists r', w_related S Cxx14 RLt (value_of k') (value_of k) r' /\
          match r' with inl false => less_members ks ks' res | inl true => res = inl false | _ => res = r' end
      | _ => res = r
      end
  | _, _ => res = inl false
  end.
Fixpoint hashed_members (ks : list wv) (acc : N) (res : N + exn) : Prop :=
  match ks with
  | k :: ks => exists r, w_hashed S (value_of k) r /\ match r with inl n => hashed_members ks (mix acc n) res | inr e => res = inr e end
  | [] => res = inl acc
  end.

Notation nv := (eV E * list wv)%type.
Definition same_nodes (x y : nv) (res : bool + exn) : Prop :=
  if deq x.1 y.1 then same_members x.2 y.2 res else res = inl false.
Definition ordered_nodes (x y : nv) (res : ordering + exn) : Prop :=
  match dtw x.1 y.1 with Equiv => ordered_members x.2 y.2 res | c => res = inl c end.
Definition less_nodes (x y : nv) (res : bool + exn) : Prop :=
  match dtw x.1 y.1 with Equiv => less_members x.2 y.2 res | c => res = inl (holds RLt c) end.
Definition not_that (P : bool + exn -> Prop) (res : bool + exn) : Prop := exists r, P r /\ res = result_of negb r.
Definition node_spec : CmpSpec nv :=
  match gen_of h with
  | Cxx20 =>
      mkCmpSpec (fun r x y res => match r with
        | REq => same_nodes x y res | RNe => not_that (same_nodes x y) res
        | _ => exists o, ordered_nodes x y o /\ res = result_of (holds r) o end)
        (Some ordered_nodes) (fun x => hashed_members x.2 (dhash x.1))
  | Cxx14 =>
      mkCmpSpec (fun r x y res => match r with
        | REq => same_nodes x y res | RNe => not_that (same_nodes x y) res
        | RLt => less_nodes x y res | RGt => less_nodes y x res
        | RLe => not_that (less_nodes y x) res | RGe => not_that (less_nodes x y) res end)
        None (fun x => hashed_members x.2 (dhash x.1))
  end.
End spec.
End node.

(** [n] levels of such classes over a value type. *)
Section tower.
Context {E : Env} (Sh : Shape E) (T : TP E) (h : header).
Context (deq : eV E -> eV E -> bool) (dtw : eV E -> eV E -> ordering) (dhash : eV E -> N) (mix : N -> N -> N).
Fixpoint tower_cmps (C : Cmps E) (n : nat) : Cmps E :=
  match n with 0 => C | S n' => node_cmps Sh (towerTP Sh T n') h deq dtw dhash mix (tower_cmps C n') end.
Fixpoint tower_spec (K : Cls E) (S : CmpSpec (c_val K)) (n : nat) : CmpSpec (c_val (tower_cls Sh K n)) :=
  match n with 0 => S | Datatypes.S n' => node_spec h deq dtw dhash mix (tower_spec K S n') end.
(** The same for the classes of Arena.v, which hand their allocator on to their members. *)
Context (s_arg : Passing E).
Fixpoint scoped_cmps (C : Cmps E) (n : nat) : Cmps E :=
  match n with 0 => C | S n' => node_cmps Sh (scopedTP Sh s_arg T n') h deq dtw dhash mix (scoped_cmps C n') end.
Fixpoint scoped_spec (K : Cls E) (S : CmpSpec (c_val K)) (n : nat) : CmpSpec (c_val (scoped_tower Sh s_arg K n)) :=
  match n with 0 => S | Datatypes.S n' => node_spec h deq dtw dhash mix (scoped_spec K S n') end.
End tower.

(** A type whose operators mean a strict weak or partial order [o], without exceptions. *)
Record Means {X : Type} (S : CmpSpec X) (o : X -> X -> ordering) : Prop := {
  me_rel : forall r x y res, c_rel S r x y res -> res = inl (holds r (o x y));
  me_tw : forall R x y res, c_tw S = Some R -> R x y res -> res = inl (o x y);
}.
(** Swapping the operands reverses the result. *)
Definition opposite (o : ordering) : ordering := match o with Less => Greater | Greater => Less | _ => o end.

(** The lexicographic order of trees. *)
Section lex.
Context {E : Env} (dtw : eV E -> eV E -> ordering) {X : Type} (o : X -> X -> ordering).
Notation wv := (option (ty * X) * eA E)%type.
Definition opt_order (x y : option X) : ordering :=
  match x, y with Some x, Some y => o x y | _, _ => vless x y end.
Fixpoint lex (ks ks' : list wv) : ordering :=
  match ks, ks' with
  | k :: ks, k' :: ks' => match opt_order (value_of k) (value_of k') with Equiv => lex ks ks' | c => c end
  | _, _ => Equiv
  end.
Definition node_order (x y : eV E * list wv) : ordering :=
  match dtw x.1 y.1 with Equiv => lex x.2 y.2 | c => c end.
End lex.
Fixpoint tower_order {E : Env} (Sh : Shape E) (dtw : eV E -> eV E -> ordering) (K : Cls E) (o : c_val K -> c_val K -> ordering) (n : nat) :
    c_val (tower_cls Sh K n) -> c_val (tower_cls Sh K n) -> ordering :=
  match n with 0 => o | S n' => node_order dtw (tower_order Sh dtw K o n') end.
Fixpoint scoped_order {E : Env} (Sh : Shape E) (s_arg : Passing E) (dtw : eV E -> eV E -> ordering) (K : Cls E)
    (o : c_val K -> c_val K -> ordering) (n : nat) :
    c_val (scoped_tower Sh s_arg K n) -> c_val (scoped_tower Sh s_arg K n) -> ordering :=
  match n with 0 => o | S n' => node_order dtw (scoped_order Sh s_arg dtw K o n') end.

(** Opaque value types whose operators are functions that may throw. *)
Section flat.
Context {E : Env} (fr : rel -> eV E -> eV E -> bool + exn) (ft : option (eV E -> eV E -> ordering + exn)) (fh : eV E -> N + exn).
Local Open Scope prog_scope.
Definition give {X} (r : X + exn) : prog E X := match r with inl x => Ret x | inr e => Throw e end.
Definition flat_cmps : Cmps E :=
  mkCmps (fun r l q => o <- act (PReadObj (RBlk l)) ; o' <- act (PReadObj (RBlk q)) ; give (fr r o.2 o'.2))
    ((fun f l q => o <- act (PReadObj (RBlk l)) ; o' <- act (PReadObj (RBlk q)) ; give (f o.2 o'.2)) <$> ft)
    (fun l => o <- act (PReadObj (RBlk l)) ; give (fh o.2)).
Definition flat_spec : CmpSpec (eV E) :=
  mkCmpSpec (fun r x y res => res = fr r x y) ((fun f x y res => res = f x y) <$> ft) (fun x res => res = fh x).
(** The same operators, as Compare.v has them. *)
Definition res_of {X} (r : X + exn) : res X := match r with inl x => VOk x | inr e => VExn e end.
Definition flat_cmp : cmp (eV E) (eV E) :=
  mkCmp _ _ (fun x y => res_of (fr REq x y)) (fun x y => res_of (fr RNe x y)) (fun x y => res_of (fr RLt x y))
    (fun x y => res_of (fr RGt x y)) (fun x y => res_of (fr RLe x y)) (fun x y => res_of (fr RGe x y))
    ((fun f x y => res_of (f x y)) <$> ft).
End flat.

(** ** Programs *)
Section client.
Context {E : Env} (T : TP E) (K : Cls E) (C : Cmps E) (S : CmpSpec (c_val K)).
Context (M X : Type) (code : M -> loc -> prog E X) (sem : M -> ty -> c_val K -> X + exn -> c_val K -> Prop).
Context (hs : nat -> header).
Local Open Scope prog_scope.
Notation A := (eA E).
Notation wv := (option (ty * c_val K) * A)%type.
Notation vars := (gmap nat wv).
Implicit Types m : vars.

Inductive cop :=
  | COp (o : gop (E := E) M)
  | CRel (r : rel) (x y : nat)      (* [x r y] *)
  | CRelVal (r : rel) (x y : nat)   (* [x r *y] *)
  | CValRel (r : rel) (y x : nat)   (* [*y r x] *)
  | CHash (x : nat).                (* [std::hash<...>{}(x)] *)
Inductive cres := CR (r : gres (E := E) X) | CN (n : N).

Definition bool_res (p : prog E bool) : prog E cres := b <- p ; Ret (CR (RBool b)).
Definition cinterp (o : cop) : prog E cres :=
  match o with
  | COp o => r <- ginterp T M X code hs o ; Ret (CR r)
  | CRel r x y => bool_res (w_rel (hdr_impl (hs x) T) C (gen_of (hs x)) r (WVar x) (WVar y))
  | CRelVal r x y => bool_res (q <- i_star (hdr_impl (hs y) T) (WVar y) ; w_rel_val (hdr_impl (hs x) T) C (gen_of (hs x)) r (WVar x) q)
  | CValRel r y x => bool_res (q <- i_star (hdr_impl (hs y) T) (WVar y) ; val_w_rel (hdr_impl (hs x) T) C (gen_of (hs x)) r q (WVar x))
  | CHash x => n <- m_hash (hdr_impl (hs x) T) C (WVar x) ; Ret (CN n)
  end.
Inductive cclient := CDone | CDo (o : cop) (next : cres + exn -> cclient).
Fixpoint cprog (c : cclient) : prog E (list (cres + exn)) :=
  match c with
  | CDone => Ret []
  | CDo o next =>
      r <- catch (v <- cinterp o ; Ret (inl v)) (fun e => Ret (inr e)) ;
      rs <- cprog (next r) ;
      Ret (r :: rs)
  end.

(** Comparison is for [indirect]; [*y] for a [y] that owns a T. *)
Definition cpre m (o : cop) : Prop :=
  match o with
  | COp o => gpre K M hs m o
  | CRel _ x y => header_cls (hs x) = Ind /\ hs y = hs x /\ is_Some (m !! x) /\ is_Some (m !! y)
  | CRelVal _ x y | CValRel _ y x => header_cls (hs x) = Ind /\ is_Some (m !! x) /\ exists v a, m !! y = Some (Some (tT E, v), a)
  | CHash x => header_cls (hs x) = Ind /\ is_Some (m !! x)
  end.
Definition cstep m (o : cop) (r : cres + exn) m' : Prop :=
  match o with
  | COp o => exists r', gstep K M X sem hs m o r' m' /\ r = result_of CR r'
  | CRel q x y => m' = m /\ exists kx ky b, m !! x = Some kx /\ m !! y = Some ky /\
      w_related S (gen_of (hs x)) q (value_of kx) (value_of ky) b /\ r = result_of (fun b => CR (RBool b)) b
  | CRelVal q x y => m' = m /\ exists kx v a b, m !! x = Some kx /\ m !! y = Some (Some (tT E, v), a) /\
      w_related S (gen_of (hs x)) q (value_of kx) (Some v) b /\ r = result_of (fun b => CR (RBool b)) b
  | CValRel q y x => m' = m /\ exists kx v a b, m !! x = Some kx /\ m !! y = Some (Some (tT E, v), a) /\
      val_w_related S (gen_of (hs x)) q v (value_of kx) b /\ r = result_of (fun b => CR (RBool b)) b
  | CHash x => m' = m /\ exists kx n, m !! x = Some kx /\ w_hashed S (value_of kx) n /\ r = result_of CN n
  end.
Definition cends m (o : cop) : Prop :=
  match o with
  | COp (GMoveAssign x y) => x <> y /\ pocma E = true /\ exists kx ky, m !! x = Some kx /\ m !! y = Some ky /\
      a_eqb E kx.2 ky.2 = false /\ ky.1 <> None
  | _ => False
  end.
Fixpoint cexec (c : cclient) m (rs : list (cres + exn)) m' : Prop :=
  match c with
  | CDone => rs = [] /\ m' = m
  | CDo o next => exists r rs' m1, rs = r :: rs' /\ cstep m o r m1 /\ cexec (next r) m1 rs' m'
  end.
Fixpoint csafe (c : cclient) m : Prop :=
  match c with
  | CDone => True
  | CDo o next => cpre m o /\ forall r m', cstep m o r m' -> csafe (next r) m'
  end.
Fixpoint cterm (c : cclient) m : Prop :=
  match c with
  | CDone => False
  | CDo o next => cends m o \/ exists r m', cstep m o r m' /\ cterm (next r) m'
  end.
End client.
Arguments COp {E M} _.
Arguments CRel {E M} _ _ _.
Arguments CRelVal {E M} _ _ _.
Arguments CValRel {E M} _ _ _.
Arguments CHash {E M} _.
Arguments CR {E X} _.
Arguments CN {E X} _.
Arguments CDone {E M X}.
Arguments CDo {E M X} _ _.
