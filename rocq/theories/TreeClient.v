(** * Client programs over nested values.

    A client has variables that are wrapper objects of any of the four classes, whose
    values are nodes with members that are again wrapper objects (Tree.v).  It can name
    any wrapper object inside its values by a place, and use it as operand.  Nothing in
    /repo is modelled in this file: the operations are those of the class templates. *)

From stdpp Require Import base gmap list.
From Verif Require Import Lang Common Client Spec Rep Headers Hist Tree TreeAssign TreeMove TreeMoveAssign.

(** The expression [x->m_i->m_j ...]: a variable, its class, and the members followed,
    each with its class. *)
Definition path := list (nat * header).
Record place := Pl { pl_var : nat; pl_hdr : header; pl_path : path }.

Fixpoint end_hdr (h : header) (p : path) : header :=
  match p with [] => h | (_, h') :: p' => end_hdr h' p' end.
Definition place_hdr (π : place) : header := end_hdr (pl_hdr π) (pl_path π).

(** Neither path is a prefix of the other. *)
Fixpoint apart (p q : path) : bool :=
  match p, q with
  | (i, _) :: p', (j, _) :: q' => negb (Nat.eqb i j) || apart p' q'
  | _, _ => false
  end.
(** The two places name different objects, neither inside the other. *)
Definition separate (π ρ : place) : bool :=
  negb (Nat.eqb (pl_var π) (pl_var ρ)) || apart (pl_path π) (pl_path ρ).

(** The first place names an object inside the value of the object that the second names. *)
Fixpoint below (p q : path) : bool :=
  match q, p with
  | [], [] => false
  | [], _ :: _ => true
  | (j, _) :: q', (i, _) :: p' => Nat.eqb i j && below p' q'
  | _ :: _, [] => false
  end.
Definition inside (π ρ : place) : bool := Nat.eqb (pl_var π) (pl_var ρ) && below (pl_path π) (pl_path ρ).

Global Instance header_dec : EqDecision header.
Proof. solve_decision. Defined.
Global Instance place_dec : EqDecision place.
Proof. solve_decision. Defined.

Section client.
Context {E : Env} (Sh : Shape E).
Local Open Scope prog_scope.
Notation A := (eA E).
Notation V := (eV E).
Notation wst := (option (tree E) * A)%type.

Inductive top :=
  | TMake (x : nat) (h : header) (a : A) (t : ty) (c : eC E)
      (* [h x(allocator_arg, a, in_place_type<t>, c...)], moving the variables [k_args c] into the members *)
  | TCopy (x : nat) (π : place)
  | TCopyA (x : nat) (a : A) (π : place)
  | TMove (x : nat) (π : place)
  | TMoveA (x : nat) (a : A) (π : place)
  | TDestroy (x : nat) (h : header)
  | TAssignC (π ρ : place)
  | TAssignM (π ρ : place)
  | TSwap (π ρ : place)
  | TMutate (π : place) (f : V -> V)
  | TGet (π : place)
  | TValueless (π : place)
  | TAlloc (π : place).

(** Evaluation of a place, member by member, through [operator->]. *)
Fixpoint locate (T : TP E) (w : wl) (h : header) (p : path) : prog E wl :=
  match p with
  | [] => Ret w
  | (i, h') :: p' => l <- i_star (hdr_impl h T) w ; locate T (WMem l i) h' p'
  end.
Definition find (n : nat) (π : place) : prog E wl :=
  locate (nodeTP Sh n) (WVar (pl_var π)) (pl_hdr π) (pl_path π).
Definition pimpl (n : nat) (π : place) : impl E := node_impl Sh n (place_hdr π).

Definition tinterp (n : nat) (o : top) : prog E (obs E) :=
  match o with
  | TMake x h a t c => interp (node_impl Sh n h) (OInPlaceA (WVar x) a t (GArgs c))
  | TCopy x π => y <- find n π ; interp (pimpl n π) (OCopy (WVar x) y)
  | TCopyA x a π => y <- find n π ; interp (pimpl n π) (OCopyA (WVar x) a y)
  | TMove x π => y <- find n π ; interp (pimpl n π) (OMove (WVar x) y)
  | TMoveA x a π => y <- find n π ; interp (pimpl n π) (OMoveA (WVar x) a y)
  | TDestroy x h => interp (node_impl Sh n h) (ODestroy (WVar x))
  | TAssignC π ρ => y <- find n π ; z <- find n ρ ; interp (pimpl n π) (OAssignC y z)
  | TAssignM π ρ => y <- find n π ; z <- find n ρ ; interp (pimpl n π) (OAssignM y z)
  | TSwap π ρ => y <- find n π ; z <- find n ρ ; interp (pimpl n π) (OSwap y z)
  | TMutate π f => y <- find n π ; interp (pimpl n π) (OMutate y f)
  | TGet π => y <- find n π ; interp (pimpl n π) (OGet y)
  | TValueless π => y <- find n π ; interp (pimpl n π) (OValueless y)
  | TAlloc π => y <- find n π ; interp (pimpl n π) (OGetAlloc y)
  end.

(** A client: what it does next may depend on what the operations so far returned or
    threw. *)
Inductive tclient := TDone | TDo (o : top) (next : obs E + exn -> tclient).

Fixpoint run_tclient (n : nat) (c : tclient) (s : store E) : hres E :=
  match c with
  | TDone => HOk [] s
  | TDo o next =>
      match run (tinterp n o) s with
      | ORet x s' => hcons (inl x) (run_tclient n (next (inl x)) s')
      | OThrow e s' => hcons (inr e) (run_tclient n (next (inr e)) s')
      | OUB u => HUB u
      | OTerm => HTerm
      end
  end.

(** It performs at most [m] operations. *)
Fixpoint at_most (m : nat) (c : tclient) : Prop :=
  match c with
  | TDone => True
  | TDo _ next => match m with 0 => False | S m' => forall r, at_most m' (next r) end
  end.

(** ** Specification: variables hold trees *)

Notation forest := (gmap nat (header * wst)).
Implicit Types F : forest.

Fixpoint at_path (k : wst) (p : path) : option wst :=
  match p with
  | [] => Some k
  | (i, h) :: p' =>
      match k.1 with
      | Some (TNode t v kids) =>
          if decide (k_hdr Sh t i = h)
          then match kids !! i with Some k' => at_path k' p' | None => None end
          else None
      | None => None
      end
  end.
Fixpoint put (k : wst) (p : path) (k' : wst) : wst :=
  match p with
  | [] => k'
  | (i, _) :: p' =>
      match k.1 with
      | Some (TNode t v kids) => (Some (TNode t v (alter (fun ki => put ki p' k') i kids)), k.2)
      | None => k
      end
  end.
Definition at_place F (π : place) : option wst :=
  match F !! pl_var π with
  | Some (h, k) => if decide (h = pl_hdr π) then at_path k (pl_path π) else None
  | None => None
  end.
Definition put_place F (π : place) (k' : wst) : forest :=
  alter (fun hk => (hk.1, put hk.2 (pl_path π) k')) (pl_var π) F.

(** The variables among the arguments of a constructor call, their states, and the
    variables after being moved from. *)
Definition args_of (F : forest) (ws : list wl) : list wst :=
  omap (fun w => match w with WVar y => snd <$> F !! y | _ => None end) ws.
Definition args_moved (F : forest) (ws : list wl) : forest :=
  foldr (fun w F' => match w with
                     | WVar y => alter (fun hk => (hk.1, emptied hk.2)) y F'
                     | _ => F'
                     end) F ws.

(** Results of the allocator-extended move constructor: the new object, the source. *)
Definition mova_x (a : A) (k : wst) : wst :=
  (match k.1 with
   | None => None
   | Some T => if a_eqb E a k.2 then Some T else Some (moved_to a T)
   end, a).
Definition mova_y (a : A) (k : wst) : wst :=
  (match k.1 with
   | None => None
   | Some T => if a_eqb E a k.2 then None else Some (moved_from a T)
   end, k.2).

(** What swap leaves in the first operand. *)
Definition swap_x (k k' : wst) : wst := (k'.1, if pocs E then k'.2 else k.2).

(** Preconditions. *)
Definition tpre F (o : top) : Prop :=
  match o with
  | TMake x h a t c =>
      F !! x = None /\ (header_cls h = Ind -> t = tT E) /\
      length (k_args Sh c) = n_kids Sh t (t_make E t a c) /\ NoDup (k_args Sh c) /\
      forall i w, k_args Sh c !! i = Some w -> exists y k, w = WVar y /\ F !! y = Some (k_hdr Sh t i, k)
  | TCopy x π | TCopyA x _ π | TMove x π => F !! x = None /\ is_Some (at_place F π)
  | TMoveA x a π =>
      F !! x = None /\ exists k, at_place F π = Some k /\
      (place_hdr π = HPoly14 -> pocca E = true -> k.1 = None \/ a_eqb E a k.2 = true) (* finding F3 *)
  | TDestroy x h => exists k, F !! x = Some (h, k)
  | TAssignC π ρ => (* one operand inside the other: only where a copy is made *)
      place_hdr π = place_hdr ρ /\ exists k k', at_place F π = Some k /\ at_place F ρ = Some k' /\
      (π = ρ \/ separate π ρ = true \/
       in_place (header_cls (place_hdr π)) k k' = false /\ (inside π ρ = true \/ pocca E = false))
  | TAssignM π ρ =>
      (π = ρ \/ separate π ρ = true) /\ place_hdr π = place_hdr ρ /\ is_Some (at_place F π) /\ is_Some (at_place F ρ)
  | TSwap π ρ =>
      (π = ρ \/ separate π ρ = true) /\ place_hdr π = place_hdr ρ /\
      exists k k', at_place F π = Some k /\ at_place F ρ = Some k' /\ (pocs E = true \/ a_eqb E k.2 k'.2 = true)
  | TMutate π _ | TGet π => exists T a, at_place F π = Some (Some T, a)
  | TValueless π | TAlloc π => is_Some (at_place F π)
  end.

(** Normal completion. *)
Definition tok F (o : top) : option (obs E * forest) :=
  match o with
  | TMake x h a t c =>
      Some (ObsUnit, <[x := (h, (Some (TNode t (t_make E t a c) (args_of F (k_args Sh c))), a))]>
                       (args_moved F (k_args Sh c)))
  | TCopy x π => k ← at_place F π ; Some (ObsUnit, <[x := (place_hdr π, copy_w k)]> F)
  | TCopyA x a π => k ← at_place F π ; Some (ObsUnit, <[x := (place_hdr π, copy_as a k)]> F)
  | TMove x π => k ← at_place F π ; Some (ObsUnit, <[x := (place_hdr π, k)]> (put_place F π (emptied k)))
  | TMoveA x a π =>
      k ← at_place F π ; Some (ObsUnit, <[x := (place_hdr π, mova_x a k)]> (put_place F π (mova_y a k)))
  | TDestroy x h => Some (ObsUnit, delete x F)
  | TAssignC π ρ =>
      k ← at_place F π ; k' ← at_place F ρ ;
      Some (ObsUnit, if decide (π = ρ) then F else put_place F π (asg_w Sh (header_cls (place_hdr π)) k k'))
  | TAssignM π ρ =>
      k ← at_place F π ; k' ← at_place F ρ ;
      Some (ObsUnit, if decide (π = ρ) then F else put_place (put_place F π (masg_x k k')) ρ (masg_y k k'))
  | TSwap π ρ =>
      k ← at_place F π ; k' ← at_place F ρ ;
      Some (ObsUnit, put_place (put_place F π (swap_x k k')) ρ (swap_x k' k))
  | TMutate π f =>
      match at_place F π with
      | Some (Some (TNode t v kids), a) => Some (ObsUnit, put_place F π (Some (TNode t (f v) kids), a))
      | _ => None
      end
  | TGet π =>
      match at_place F π with
      | Some (Some (TNode t v kids), a) => Some (ObsVal t v, F)
      | _ => None
      end
  | TValueless π => k ← at_place F π ; Some (ObsBool (match k.1 with None => true | Some _ => false end), F)
  | TAlloc π => k ← at_place F π ; Some (ObsAlloc k.2, F)
  end.

(** Exceptions: constructors have no effect, except that a throwing move may change the
    data of its source; a throwing copy assignment that assigns to the value in
    place may have assigned part of it. *)
Definition tthrow F (o : top) F' : Prop :=
  match o with
  | TMake _ _ _ _ _ | TCopy _ _ | TCopyA _ _ _ => F' = F
  | TMoveA x a π => exists T T' b, at_place F π = Some (Some T, b) /\ a_eqb E a b = false /\
      move_failed T T' /\ F' = put_place F π (Some T', b)
  | TAssignC π ρ => π <> ρ /\ exists k k' d, at_place F π = Some k /\ at_place F ρ = Some k' /\
      casg_failed Sh (header_cls (place_hdr π)) k k' d /\ F' = put_place F π d
  | TAssignM π ρ => exists k T T' b, at_place F π = Some k /\ at_place F ρ = Some (Some T, b) /\ a_eqb E k.2 b = false /\
      pocma E = false /\ move_failed T T' /\ F' = put_place F ρ (Some T', b)
  | _ => False
  end.

(** [noexcept] functions that may throw: move assignment with POCMA and different
    allocators (finding F2). *)
Definition tterm F (o : top) : Prop :=
  match o with
  | TAssignM π ρ => pocma E = true /\ exists k k', at_place F π = Some k /\ at_place F ρ = Some k' /\ a_eqb E k.2 k'.2 = false
  | _ => False
  end.

Definition tstep F (o : top) (r : obs E + exn) F' : Prop :=
  match r with inl x => tok F o = Some (x, F') | inr _ => tthrow F o F' end.

(** The client respects the preconditions, whatever the operations return or throw. *)
Fixpoint tsafe (c : tclient) F : Prop :=
  match c with
  | TDone => True
  | TDo o next => tpre F o /\ forall r F', tstep F o r F' -> tsafe (next r) F'
  end.

(** The results of a run are results of the specification. *)
Fixpoint tpath (c : tclient) F (outs : list (obs E + exn)) F' : Prop :=
  match c, outs with
  | TDone, [] => F' = F
  | TDo o next, r :: outs' => exists F1, tstep F o r F1 /\ tpath (next r) F1 outs' F'
  | _, _ => False
  end.
Fixpoint tends (c : tclient) F : Prop := (* may terminate *)
  match c with
  | TDone => False
  | TDo o next => tterm F o \/ exists r F1, tstep F o r F1 /\ tends (next r) F1
  end.

(** Memory holds exactly the variables and what they own, all distinct. *)
Inductive forest_heap : forest -> gmap loc (block E) -> gmap wl (wrapper E) -> Prop :=
  | fh_nil : forest_heap ∅ ∅ ∅
  | fh_cons x h k F B1 W1 B2 W2 :
      F !! x = None -> wrap_heap Sh h (WVar x) k B1 W1 -> forest_heap F B2 W2 ->
      B1 ##ₘ B2 -> W1 ##ₘ W2 ->
      forest_heap (<[x := (h, k)]> F) (B1 ∪ B2) (W1 ∪ W2).
Definition holds F (s : store E) : Prop := forest_heap F (blocks s) (wraps s).

Definition all_fit (n : nat) F : Prop := map_Forall (fun _ hk => fits n hk.2.1) F.

End client.
