(** * Tidy programs: subobjects are created in allocated storage and gone when it is freed.

    The language of Lang.v lets a program create a member wrapper in a block that is not
    allocated, and free a block whose member wrappers still exist (for them nothing happens).
    C++ makes both undefined (basic.life, class.dtor).  [tidy] says that a run does neither.
    Nothing in /repo is modelled in this file. *)

From stdpp Require Import base gmap list.
From Verif Require Import Lang Common Client Spec Rep Headers Hist Tree TreeProps Contract.

Section tidy.
Context {E : Env}.
Implicit Types s : store E.

Definition tidy1 {R} (a : prim E R) s : Prop :=
  match a with
  | PNewW (WMem l _) _ _ => is_Some (blocks s !! l)
  | PDealloc _ _ l => forall i, wraps s !! WMem l i = None
  | _ => True
  end.

(** The run of [p] from [s]. *)
Fixpoint tidy {X} (p : prog E X) s : Prop :=
  match p with
  | Ret _ | Throw _ => True
  | Act a k => tidy1 a s /\ match exec a s with ROk r s' => tidy (k r) s' | _ => True end
  end.

(** The special member functions are tidy when used as the contract [Honest] allows. *)
Record Tidy (T : TP E) (K : Cls E) : Prop := {
  td_make : forall a t l b c s,
    (exists x, c_make K t a c x) -> mem_ok s -> storage s l b t -> tidy (tp_cons T a t l (AArgs c)) s;
  td_copy : forall a t l b c o bo x B W s,
    c <> RVal -> mem_ok s -> storage s l b t -> object K s o bo t x B W -> B !! l = None ->
    tidy (tp_cons T a t l (ARef c (RBlk o))) s;
  td_move : forall a t l b o bo x B W s,
    mem_ok s -> storage s l b t -> object K s o bo t x B W -> B !! l = None -> enclosed s o B W ->
    tidy (tp_cons T a t l (ARef RVal (RBlk o))) s;
  td_destroy : forall a t l b x B W s,
    object K s l b t x B W -> enclosed s l B W -> tidy (tp_destroy T a t l) s;
  td_asg : forall t l b d B W o bo x Bo Wo s,
    mem_ok s -> object K s l b t d B W -> object K s o bo t x Bo Wo ->
    <[l := b]> B ##ₘ <[o := bo]> Bo -> W ##ₘ Wo -> enclosed s l B W ->
    tidy (tp_asgn T t l (ARef ConstL (RBlk o))) s;
}.
End tidy.
