(** * Threads whose variables own values of any class that keeps its contract.

    The contract of Contract.v says what the special member functions have done when they
    return.  If threads share wrappers, it matters what they write on the way: this file has
    what the class must promise besides, and the specification of the threads' programs.
    Nothing in /repo is modelled in this file. *)

From stdpp Require Import base gmap list.
From Verif Require Import Lang Common Client Spec Rep Headers Hist Tree TreeProps Conc ConcStatic Contract ContractClient ContractTidy.

(** Const means const: whatever blocks [rob] are shared, the special member functions write
    none of them but a target or an rvalue source that lies in [rob], and store no pointer to
    one.  ([safe_w], ConcStatic.v: every action the program may perform is allowed by
    [step_ok].)  A class with a [mutable] member that copying changes is not such a class. *)
Definition Polite {E : Env} (T : TP E) : Prop :=
  forall (rob : gset loc) (own : wl -> Prop), (forall l i, l ∉ rob -> own (WMem l i)) ->
    tp_confined rob own (fun _ => False) T.

(** An object owns what its members point to. *)
Definition Sealed {E : Env} (K : Cls E) : Prop :=
  forall t l v x B W, c_rep K t l v x B W ->
    (forall u l' a, W !! u = Some (mkW (PLoc l') a) -> is_Some (B !! l')) /\
    (forall l' b t' q, B !! l' = Some b -> b_hdr b = HCb t' (Some q) -> is_Some (B !! q)).

(** A class whose objects threads may share.  [Honest]: its special member functions keep its
    contract; [Tidy]: they create subobjects in storage they have, and free no storage under
    one. *)
Record Shareable {E : Env} (T : TP E) (K : Cls E) : Prop := {
  sh_honest : Honest T K;
  sh_tidy : Tidy T K;
  sh_polite : Polite T;
  sh_sealed : Sealed K;
}.

(** The class [T] with a [mutable] member that copying writes (with what it was). *)
Definition touchTP {E : Env} (T : TP E) : TP E :=
  mkTP E
    (fun a t l x =>
       match x with
       | ARef ConstL (RBlk q) | ARef NonConstL (RBlk q) =>
           bind (act (PMutObj (RBlk q) (fun v => v))) (fun _ => tp_cons T a t l x)
       | _ => tp_cons T a t l x
       end)
    (tp_destroy T) (tp_asgn T).

(** A member function that threads may call: tidy, writing only its own object and what that
    owns, and if it is const, nothing at all. *)
Record MethodT {E : Env} (K : Cls E) {X : Type} (const : bool) (f : loc -> prog E X)
    (R : ty -> c_val K -> X + exn -> c_val K -> Prop) : Prop := {
  mt_tidy : forall t l b x B W (s : store E),
    mem_ok s -> object K s l b t x B W -> enclosed s l B W -> tidy (f l) s;
  mt_polite : forall (rob : gset loc) (own : wl -> Prop) l, (forall l i, l ∉ rob -> own (WMem l i)) ->
    const = true \/ l ∉ rob -> safe_w rob own (fun _ => False) (f l) (fun _ => True);
  mt_const : const = true -> forall t l b x B W (s : store E),
    mem_ok s -> object K s l b t x B W -> enclosed s l B W ->
    match run (f l) s with ORet _ s' | OThrow _ s' => same s s' | _ => True end;
  mt_sem : const = true -> forall t v r v', R t v r v' -> v' = v;
}.

Section threads.
Context {E : Env} (T : TP E) (K : Cls E).
Context (M X : Type) (code : M -> loc -> prog E X) (sem : M -> ty -> c_val K -> X + exn -> c_val K -> Prop).
Context (const : M -> bool).
Context (hs : nat -> header).
(** Which thread a variable belongs to; [None]: it is shared. *)
Context (o : nat -> option nat).
Notation A := (eA E).
Notation wv := (option (ty * c_val K) * A)%type.
Notation vars := (gmap nat wv).
Implicit Types m : vars.

(** Thread [i] changes only its own variables; it may copy from shared ones, observe them, and
    call their const member functions. *)
Definition gconf (i : nat) (p : gop (E := E) M) : Prop :=
  let mine x := o x = Some i in
  let sees x := o x = None \/ o x = Some i in
  match p with
  | GMake x _ _ _ | GDestroy x => mine x
  | GCopy x y | GCopyA x _ y | GAssign x y => mine x /\ sees y
  | GMove x y | GMoveA x _ y | GMoveAssign x y | GSwap x y => mine x /\ mine y
  | GCall x f => mine x \/ o x = None /\ const f = true
  | GValueless x | GAlloc x => sees x
  end.

(** Wherever the specification may lead, thread [i] uses its operations as it may. *)
Fixpoint gok (i : nat) (c : gclient (E := E) M X) m : Prop :=
  match c with
  | GDone => True
  | GDo p next => gpre K M hs m p /\ gconf i p /\ forall r m', gstep K M X sem hs m p r m' -> gok i (next r) m'
  end.

(** What thread [i] can see of the variables [m]. *)
Definition view_of (i : nat) m : vars := filter (fun p : nat * wv => o p.1 = None \/ o p.1 = Some i) m.

(** The threads run the clients [cs] from store [s]. *)
Definition gstart (s : store E) (cs : list (gclient M X)) : config E (list (gres (E := E) X + exn)) :=
  mkC (blocks s) (wraps s) (exts s) ((fun c => (gprog T M X code hs c, [])) <$> cs).
Definition gclients_ok m (cs : list (gclient M X)) : Prop :=
  forall i c, cs !! i = Some c -> gok i c (view_of i m).
End threads.
