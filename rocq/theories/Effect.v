(** * Exact effects of operations, with addresses and logs.

    A refinement of the value specification (Spec.v) that also fixes where objects
    live and which allocator / value type calls are made, in which order.  It is a
    relation: the address of a new block and the choice of which call throws are left
    open.  Written, like Spec.v, without reference to the class models. *)

From stdpp Require Import base gmap list.
From Verif Require Import Lang Common Client Spec Rep.

Section effect.
Context {E : Env} (k : cls).
Notation A := (eA E).
Notation V := (eV E).
Notation viewmap := (gmap wl (option (loc * ty * V) * A)).
Notation extmap := (gmap nat (ty * V)).

(** Result of an operation: returned value or exception, view and client
    objects afterwards, and the calls made (newest first). *)
Inductive vres :=
  | VRet (o : obs E) (ω : viewmap) (X : extmap) (evs : list (event E))
  | VThrow (e : exn) (ω : viewmap) (X : extmap) (evs : list (event E))
  | VTerm.

(** The reference an argument expression evaluates to. *)
Definition vref (g : carg E) (ω : viewmap) : option (arg E) :=
  match g with
  | GArgs c => Some (AArgs c)
  | GExt c n => Some (ARef c (RExt n))
  | GDeref c y => match ω !! y with
                  | Some (Some (l, _, _), _) => Some (ARef c (RBlk l))
                  | _ => None
                  end
  end.

(** New state for the object an argument expression denotes. *)
Definition vset (g : carg E) (v : V) (ω : viewmap) : viewmap :=
  match g with
  | GArgs _ | GExt _ _ | GDeref ConstL _ => ω
  | GDeref _ y => alter (fun o => ((fun p => (p.1, v)) <$> o.1, o.2)) y ω
  end.

Definition eset (g : carg E) (v : V) (X : extmap) : extmap :=
  match g with
  | GArgs _ | GDeref _ _ | GExt ConstL _ => X
  | GExt _ n => alter (fun o => (o.1, v)) n X
  end.

(** Values for a construction: the new object's, the source's on success, the
    source's on failure. *)
Definition vmake (t : ty) (a : A) (g : carg E) (ω : viewmap) (X : extmap) : option (V * V * V) :=
  match g with
  | GArgs c => Some (t_make E t a c, t_make E t a c, t_make E t a c)
  | _ => match arg_obj g (abs_spec ω X) with
         | None => None
         | Some (t', v) =>
             let '(v1, v2) := t_cons E (arg_cat g) t t' a v in
             Some (v1, v2, t_cons_fail E (arg_cat g) t t' v)
         end
  end.

Definition fresh_in (l : loc) (ω : viewmap) : Prop :=
  forall w t v a, ω !! w <> Some (Some (l, t, v), a).

(** Calls made when a wrapper holding [o] with allocator [a] gives up its object. *)
Definition reset_ev (o : option (loc * ty * V)) (a : A) : list (event E) :=
  match o with
  | Some (l, t, _) => [EvDealloc a (kbty k t) l; EvDestroy a t l]
  | None => []
  end.

(** Allocate with [a] and construct a [t] from [g]. *)
Inductive cres (a : A) (t : ty) (g : carg E) (ω : viewmap) (X : extmap)
  : list (event E) -> exn + (loc * V) -> viewmap -> extmap -> Prop :=
  | cres_nomem e :
      cres a t g ω X [EvAllocFail a (kbty k t) e] (inl e) ω X
  | cres_fail e l xa v v1 v2 :
      fresh_in l ω -> vref g ω = Some xa -> vmake t a g ω X = Some (v, v1, v2) ->
      cres a t g ω X
           [EvDealloc a (kbty k t) l; EvConsFail a t l xa e; EvAlloc a (kbty k t) l]
           (inl e) (vset g v2 ω) (eset g v2 X)
  | cres_ok l xa v v1 v2 :
      fresh_in l ω -> vref g ω = Some xa -> vmake t a g ω X = Some (v, v1, v2) ->
      cres a t g ω X [EvCons a t l xa; EvAlloc a (kbty k t) l]
           (inr (l, v)) (vset g v1 ω) (eset g v1 X).

(** [x] is given a newly constructed object and allocator [a]; whatever it
    held before is then destroyed and deallocated with its old allocator. *)
Definition vconstruct (x : wl) (a : A) (t : ty) (g : carg E) (ω : viewmap) (X : extmap)
    (r : vres) : Prop :=
  exists evs c ω1 X1,
    cres a t g ω X evs c ω1 X1 /\
    match c with
    | inl e => r = VThrow e ω1 X1 evs
    | inr (l, v) =>
        r = VRet ObsUnit (<[x := (Some (l, t, v), a)]> ω1) X1
                 (match ω !! x with Some (o, a0) => reset_ev o a0 | None => [] end ++ evs)
    end.

(** [*x = g] in place; [a'] is the allocator of [x] afterwards. *)
Definition vassign (x : wl) (a' : A) (g : carg E) (ω : viewmap) (X : extmap) (r : vres) : Prop :=
  exists l t0 v0 a xa d v1 df v2,
    ω !! x = Some (Some (l, t0, v0), a) /\
    vref g ω = Some xa /\
    (match g with
     | GArgs c => d = t_asgn_args E t0 v0 c /\ df = t_asgn_args_fail E t0 v0 c
     | _ =>
         if (match g with GDeref _ y => bool_decide (x = y) | _ => false end) then
           d = t_self E (arg_cat g) t0 v0 /\ df = t_self_fail E (arg_cat g) t0 v0
         else
           exists t' v, arg_obj g (abs_spec ω X) = Some (t', v) /\
             (d, v1) = t_asgn E (arg_cat g) t0 t' v0 v /\
             (df, v2) = t_asgn_fail E (arg_cat g) t0 t' v0 v
     end) /\
    (r = VRet ObsUnit (<[x := (Some (l, t0, d), a')]> (vset g v1 ω)) (eset g v1 X)
              [EvAsgn t0 l xa] \/
     exists e, r = VThrow e (<[x := (Some (l, t0, df), a)]> (vset g v2 ω)) (eset g v2 X)
                     [EvAsgnFail t0 l xa e]).

Definition vquiet (ω : viewmap) (X : extmap) (evs : list (event E)) (r : vres) : Prop :=
  r = VRet ObsUnit ω X evs.

Definition vcopy_construct (c : cat) (x : wl) (a : A) (y : wl) (ω : viewmap) (X : extmap)
    (r : vres) : Prop :=
  match ω !! y with
  | None => False
  | Some (None, _) => vquiet (<[x := (None, a)]> ω) X [] r
  | Some (Some (_, t, _), _) => vconstruct x a t (GDeref c y) ω X r
  end.

Definition vmove_construct (x : wl) (a : A) (y : wl) (ω : viewmap) (X : extmap) (r : vres)
    : Prop :=
  match ω !! y with
  | None => False
  | Some (None, _) => vquiet (<[x := (None, a)]> ω) X [] r
  | Some (Some o, ay) =>
      if always_equal E || a_eqb E a ay
      then vquiet (<[x := (Some o, a)]> (<[y := (None, ay)]> ω)) X [] r
      else vconstruct x a o.1.2 (GDeref RVal y) ω X r
  end.

Definition vcopy_assign (c : cat) (x y : wl) (ω : viewmap) (X : extmap) (r : vres) : Prop :=
  if bool_decide (x = y) then vquiet ω X [] r else
  match ω !! x, ω !! y with
  | Some (ox, ax), Some (oy, ay) =>
      let a := if pocca E then ay else ax in
      match oy with
      | None => vquiet (<[x := (None, a)]> ω) X (reset_ev ox ax) r
      | Some (_, t, _) =>
          if match k, ox with
             | Ind, Some _ => t_assignable E && a_eqb E ax ay
             | _, _ => false
             end
          then vassign x a (GDeref ConstL y) ω X r
          else vconstruct x a t (GDeref c y) ω X r
      end
  | _, _ => False
  end.

(** [nx]: the function is noexcept, an exception terminates the program. *)
Definition vnoexcept (nx : bool) (P : vres -> Prop) (r : vres) : Prop :=
  if nx then
    (exists o ω X evs, P (VRet o ω X evs) /\ r = VRet o ω X evs) \/
    (exists e ω X evs, P (VThrow e ω X evs) /\ r = VTerm)
  else P r.

Definition vmove_assign (x y : wl) (ω : viewmap) (X : extmap) (r : vres) : Prop :=
  if bool_decide (x = y) then vquiet ω X [] r else
  match ω !! x, ω !! y with
  | Some (ox, ax), Some (oy, ay) =>
      let a := if pocma E then ay else ax in
      match oy with
      | None => vquiet (<[x := (None, a)]> ω) X (reset_ev ox ax) r
      | Some o =>
          if a_eqb E ax ay
          then vquiet (<[x := (Some o, a)]> (<[y := (None, ay)]> ω)) X (reset_ev ox ay) r
          else vconstruct x a o.1.2 (GDeref RVal y) ω X r
      end
  | _, _ => False
  end.

Definition vvalue_assign (x : wl) (g : carg E) (ω : viewmap) (X : extmap) (r : vres) : Prop :=
  match ω !! x with
  | None => False
  | Some (None, a) => vconstruct x a (tT E) g ω X r
  | Some (Some _, a) => vassign x a g ω X r
  end.

Definition vswap (x y : wl) (ω : viewmap) (X : extmap) (r : vres) : Prop :=
  match ω !! x, ω !! y with
  | Some (ox, ax), Some (oy, ay) =>
      if pocs E then vquiet (<[y := (ox, ax)]> (<[x := (oy, ay)]> ω)) X [] r
      else vquiet (<[y := (ox, ay)]> (<[x := (oy, ax)]> ω)) X [] r
  | _, _ => False
  end.

Definition vwant (t : ty) : ty := match k with Ind => tT E | Poly => t end.

(** [cc], [ca]: value category with which copy construction and copy assignment
    pass the source object on. *)
Definition veff (cc ca : cat) (o : op E) (ω : viewmap) (X : extmap) (r : vres) : Prop :=
  match o with
  | ODefault x => vconstruct x (a_default E) (tT E) (GArgs (c_empty E)) ω X r
  | ODefaultA x a => vconstruct x a (tT E) (GArgs (c_empty E)) ω X r
  | OValue x t g | OInPlace x t g | OIlist x t g =>
      vconstruct x (a_default E) (vwant t) g ω X r
  | OValueA x a t g | OInPlaceA x a t g | OIlistA x a t g =>
      vconstruct x a (vwant t) g ω X r
  | OCopy x y =>
      match ω !! y with
      | Some (_, ay) => vcopy_construct cc x (a_soccc E ay) y ω X r
      | None => False
      end
  | OCopyA x a y => vcopy_construct cc x a y ω X r
  | OMove x y =>
      match ω !! y with
      | Some (_, ay) => vmove_construct x ay y ω X r
      | None => False
      end
  | OMoveA x a y => vmove_construct x a y ω X r
  | ODestroy x =>
      match ω !! x with
      | Some (o, a) => vquiet (delete x ω) X (reset_ev o a) r
      | None => False
      end
  | OAssignC x y => vcopy_assign ca x y ω X r
  | OAssignM x y => vnoexcept (pocma E || always_equal E) (vmove_assign x y ω X) r
  | OAssignV x g => vvalue_assign x g ω X r
  | OSwap x y => vswap x y ω X r
  | OMutate x f =>
      match ω !! x with
      | Some (Some (l, t, v), a) => vquiet (<[x := (Some (l, t, f v), a)]> ω) X [] r
      | _ => False
      end
  | OGet x =>
      match ω !! x with
      | Some (Some (l, t, v), a) => r = VRet (ObsVal t v) ω X []
      | _ => False
      end
  | OValueless x =>
      match ω !! x with
      | Some (o, a) => r = VRet (ObsBool (match o with None => true | _ => false end)) ω X []
      | None => False
      end
  | OGetAlloc x =>
      match ω !! x with
      | Some (_, a) => r = VRet (ObsAlloc a) ω X []
      | None => False
      end
  | OExtSet n t v => vquiet ω (<[n := (t, v)]> X) [] r
  end.

(** The calls in a log that could have thrown, oldest first, with the exception if they did. *)
Definition answer (e : event E) : option (option exn) :=
  match e with
  | EvAlloc _ _ _ | EvCons _ _ _ _ | EvAsgn _ _ _ => Some None
  | EvAllocFail _ _ x | EvConsFail _ _ _ _ x | EvAsgnFail _ _ _ x => Some (Some x)
  | EvDealloc _ _ _ | EvDestroy _ _ _ => None
  end.
Fixpoint answers (evs : list (event E)) : list (option exn) :=
  match evs with
  | [] => []
  | e :: evs' => answers evs' ++ match answer e with Some r => [r] | None => [] end
  end.

Lemma answers_app evs1 evs2 : answers (evs1 ++ evs2) = answers evs2 ++ answers evs1.
Proof.
  induction evs1 as [|e evs1 IH]; simpl; [by rewrite app_nil_r|]. rewrite IH. by rewrite app_assoc.
Qed.
Lemma answers_reset o a : answers (reset_ev o a) = [].
Proof. by destruct o as [[[]]|]. Qed.

(** The outcome of running a program agrees with a result. *)
Definition matches (s : store E) (r : vres) (out : outcome E (obs E)) : Prop :=
  match r with
  | VRet o ω X evs =>
      exists s', out = ORet o s' /\ Rep k (blocks s') (wraps s') ω /\ exts s' = X /\
                 trc s' = evs ++ trc s
  | VThrow e ω X evs =>
      exists s', out = OThrow e s' /\ Rep k (blocks s') (wraps s') ω /\ exts s' = X /\
                 trc s' = evs ++ trc s /\ RespFail e ∈ orc s
  | VTerm => out = OTerm /\ exists e, RespFail e ∈ orc s
  end.

End effect.

Arguments vres : clear implicits.
Arguments VRet {E} _ _ _ _.
Arguments VThrow {E} _ _ _ _.
Arguments VTerm {E}.
