(** * Threads.

    An interleaving semantics for client programs running concurrently on one store: the
    elementary accesses of the threads (the primitive actions of [Lang]) are interleaved
    arbitrarily.  Calls of allocate and deallocate are synchronised by the allocator
    ([allocator.requirements], [new.delete.dataraces]); nothing else synchronises. *)

From stdpp Require Import base gmap list.
From Verif Require Import Lang Client Spec SpecRun Rep Hist.

Section conc.
Context {E : Env}.
Implicit Types s : store E.
Local Open Scope prog_scope.

(** ** Accesses *)

(** Memory locations, at the granularity of whole objects: a wrapper object, a block with
    everything in it, an object of the client. *)
Inductive mloc := MWrap (w : wl) | MBlk (l : loc) | MExt (n : nat).

Definition mref (r : oref) : mloc := match r with RBlk l => MBlk l | RExt n => MExt n end.

(** The source of a construction is written if passed as rvalue; if passed as non-const
    lvalue, when the constructor then called modifies it. *)
Definition src_written (a : eA E) (t : ty) (x : arg E) s (m : mloc) : Prop :=
  match x with
  | ARef RVal r => m = mref r
  | ARef NonConstL r =>
      m = mref r /\ exists t' v, deref r s = inr (t', v) /\
        ((t_cons E NonConstL t t' a v).2 <> v \/ t_cons_fail E NonConstL t t' v <> v)
  | _ => False
  end.

Definition writes {R} (p : prim E R) s (m : mloc) : Prop :=
  match p with
  | PAlloc _ _ => False
  | PDealloc _ _ l => m = MBlk l
  | PCons a t l x => m = MBlk l \/ src_written a t x s m
  | PDestroy _ _ l | PBeginDestroy _ _ l | PEndDestroy _ l => m = MBlk l
  | PAsgn t l x =>
      m = MBlk l \/ match x with ARef NonConstL r | ARef RVal r => m = mref r | _ => False end
  | PReadP _ | PReadA _ => False
  | PWriteP w _ | PWriteA w _ | PNewW w _ _ | PDelW w => m = MWrap w
  | PCbInit _ l | PCbSetP l _ => m = MBlk l
  | PCbGetP _ | PCbTy _ | PReadObj _ => False
  | PMutObj r _ => m = mref r
  | PExtSet n _ _ => m = MExt n
  | PUndef _ | PTerminate => False
  end.

Definition reads {R} (p : prim E R) (m : mloc) : Prop :=
  match p with
  | PCons _ _ _ (ARef _ r) | PAsgn _ _ (ARef _ r) => m = mref r
  | PReadP w | PReadA w => m = MWrap w
  | PCbGetP l | PCbTy l => m = MBlk l
  | PReadObj r => m = mref r
  | _ => False
  end.

(** Two actions conflict if they access a common location and one of them writes it. *)
Definition conflict {R1 R2} (p : prim E R1) (q : prim E R2) s : Prop :=
  exists m, (writes p s m /\ (writes q s m \/ reads q m)) \/ (writes q s m /\ reads p m).

(** ** Threads *)

(** [try { p } catch (e) { ... }], the exception becoming a result. *)
Fixpoint attempt {X} (p : prog E X) : prog E (X + exn) :=
  match p with
  | Ret x => Ret (inl x)
  | Throw e => Ret (inr e)
  | Act a k => Act a (fun r => attempt (k r))
  end.

(** A client as one program; its result is what its operations returned or threw. *)
Fixpoint client_prog (I : impl E) (c : client E) : prog E (list (obs E + exn)) :=
  match c with
  | CDone => Ret []
  | CDo o next =>
      r <- attempt (interp I o) ;
      outs <- client_prog I (next r) ;
      Ret (r :: outs)
  end.

(** A configuration: the common store, and for each thread what remains of its program and
    the log of its calls.  [Z]: the threads' results. *)
Record config (Z : Type) := mkC {
  c_blocks : gmap loc (block E);
  c_wraps : gmap wl (wrapper E);
  c_exts : gmap nat (ty * eV E);
  c_threads : list (prog E Z * list (event E));
}.
Arguments mkC {Z} _ _ _ _.
Arguments c_blocks {Z} _.
Arguments c_wraps {Z} _.
Arguments c_exts {Z} _.
Arguments c_threads {Z} _.
Context {Z : Type}.

(** The store as seen by a thread with log [tr] to whose next question the environment
    answers [r]. *)
Definition seen (C : config Z) (r : resp) (tr : list (event E)) : store E :=
  mkS (c_blocks C) (c_wraps C) (c_exts C) [r] tr.

(** Thread [i] performs its next action. *)
Inductive cstep (C : config Z) : config Z -> Prop :=
  | cstep_thread i R (p : prim E R) k tr r v s' :
      c_threads C !! i = Some (Act p k, tr) ->
      exec p (seen C r tr) = ROk v s' ->
      cstep C (mkC (blocks s') (wraps s') (exts s')
                   (<[i := (k v, trc s')]> (c_threads C))).

(** All schedules and all answers of the environment. *)
Definition csteps := rtc cstep.

(** The next action of some thread is undefined. *)
Definition undefined (C : config Z) : Prop :=
  exists i R (p : prim E R) k tr r u,
    c_threads C !! i = Some (Act p k, tr) /\ exec p (seen C r tr) = RUB u.

(** A data race: two threads are about to perform conflicting actions. *)
Definition race (C : config Z) : Prop :=
  exists i j R1 (p : prim E R1) k1 tr1 R2 (q : prim E R2) k2 tr2,
    i <> j /\ c_threads C !! i = Some (Act p k1, tr1) /\ c_threads C !! j = Some (Act q k2, tr2) /\
    conflict p q (seen C (RespOk 0) []).

(** ** Who may do what *)

(** Which thread an object (by name) belongs to; [None]: it is shared. *)
Record owners := mkO { ow : wl -> option nat; ox : nat -> option nat }.
Context (O : owners) (i : nat).

Definition mine (w : wl) : bool := bool_decide (ow O w = Some i).
Definition mine_ext (n : nat) : bool := bool_decide (ox O n = Some i).

(** Thread [i] uses the object an argument names: as const lvalue, any it can see;
    otherwise one of its own. *)
Definition conf_arg (g : carg E) : bool :=
  match g with
  | GArgs _ | GExt ConstL _ | GDeref ConstL _ => true
  | GExt _ n => mine_ext n
  | GDeref _ y => mine y
  end.

(** The operation is const on everything but thread [i]'s own objects. *)
Definition confined (o : op E) : bool :=
  match o with
  | ODefault x | ODefaultA x _ => mine x
  | OValue x _ g | OInPlace x _ g | OIlist x _ g
  | OValueA x _ _ g | OInPlaceA x _ _ g | OIlistA x _ _ g => mine x && conf_arg g
  | OCopy x _ | OCopyA x _ _ | OAssignC x _ => mine x
  | OMove x y | OMoveA x _ y | OAssignM x y | OSwap x y => mine x && mine y
  | ODestroy x | OMutate x _ => mine x
  | OAssignV x g => mine x && conf_arg g
  | OGet _ | OValueless _ | OGetAlloc _ => true
  | OExtSet n _ _ => mine_ext n
  end.

(** What thread [i] can see of a store: the shared objects and its own. *)
Definition vis (o : option nat) : bool := bool_decide (o = None \/ o = Some i).

Definition locs_of (f : option nat -> bool) s : gset loc :=
  list_to_set (omap (fun p : wl * wrapper E =>
                       if f (ow O p.1) then match w_p p.2 with PLoc l => Some l | _ => None end else None)
                    (map_to_list (wraps s))).

Definition local s : store E :=
  mkS (filter (fun p : loc * block E => p.1 ∈ locs_of vis s) (blocks s))
      (filter (fun p : wl * wrapper E => vis (ow O p.1) = true) (wraps s))
      (filter (fun p : nat * (ty * eV E) => vis (ox O p.1) = true) (exts s)) [] [].

End conc.

Arguments config E Z : clear implicits.
Arguments mkC {E Z} _ _ _ _.
Arguments c_blocks {E Z} _.
Arguments c_wraps {E Z} _.
Arguments c_exts {E Z} _.
Arguments c_threads {E Z} _.

(** The configuration in which the threads run the clients [cs] from store [s]. *)
Definition start {E : Env} (h : header) (s : store E) (cs : list (client E)) : config E (list (obs E + exn)) :=
  mkC (blocks s) (wraps s) (exts s) ((fun c => (client_prog (header_impl h) c, [])) <$> cs).

(** The threads' clients, at store [s]: each is const on everything but its own thread's
    objects and never violates a precondition, in terms of the objects it can see. *)
Definition clients_ok {E : Env} (h : header) (O : owners) (s : store E) (cs : list (client E)) : Prop :=
  forall i c, cs !! i = Some c ->
    safe_with (header_cfg h) (fun o σ => adm h o σ && confined O i o) c (abs (local O i s)).

(** All threads have finished. *)
Definition all_done {E : Env} {Z} (C : config E Z) : Prop :=
  forall i p tr, c_threads C !! i = Some (p, tr) -> exists outs, p = Ret outs.

(** The store they leave. *)
Definition whole {E : Env} {Z} (C : config E Z) : store E := mkS (c_blocks C) (c_wraps C) (c_exts C) [] [].

(** A schedule: the threads to perform one action each, the environment always answering
    without an exception. *)
Fixpoint sched {E : Env} {Z} (is : list nat) (C : config E Z) : option (config E Z) :=
  match is with
  | [] => Some C
  | i :: is' =>
      match c_threads C !! i with
      | Some (Act p k, tr) =>
          match exec p (seen C (RespOk 0) tr) with
          | ROk v s' => sched is' (mkC (blocks s') (wraps s') (exts s') (<[i := (k v, trc s')]> (c_threads C)))
          | _ => None
          end
      | _ => None
      end
  end.
