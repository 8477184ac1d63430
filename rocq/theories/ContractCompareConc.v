(** * Threads that compare and hash wrappers.

    The programs of ContractCompare.v, run by threads as those of ContractConc.v.  Nothing in
    /repo is modelled in this file: the operators of [indirect] (indirect.h 377-425, 474-483,
    indirect_cxx14.h 375-544, 584-592) are those of ContractCompare.v. *)

From stdpp Require Import base gmap list.
From Verif Require Import Lang Common Client Spec Rep Headers Hist Tree TreeProps Conc ConcStatic Contract ContractClient ContractTidy ContractUser ConcPar ContractConc
  Compare ContractCompare.

(** Const means const for the operators, too: whatever blocks [rob] are shared, they write none of
    them and store no pointer to one. *)
Record Quiet {E : Env} (C : Cmps E) : Prop := {
  qu_rel : forall (rob : gset loc) (own : wl -> Prop) r l q, (forall l i, l ∉ rob -> own (WMem l i)) ->
    safe_w rob own (fun _ => False) (p_rel C r l q) (fun _ => True);
  qu_tw : forall f (rob : gset loc) (own : wl -> Prop) l q, p_tw C = Some f -> (forall l i, l ∉ rob -> own (WMem l i)) ->
    safe_w rob own (fun _ => False) (f l q) (fun _ => True);
  qu_hash : forall (rob : gset loc) (own : wl -> Prop) l, (forall l i, l ∉ rob -> own (WMem l i)) ->
    safe_w rob own (fun _ => False) (p_hash C l) (fun _ => True);
}.

Section threads.
Context {E : Env} (T : TP E) (K : Cls E) (C : Cmps E) (S : CmpSpec (c_val K)).
Context (M X : Type) (code : M -> loc -> prog E X) (sem : M -> ty -> c_val K -> X + exn -> c_val K -> Prop).
Context (const : M -> bool).
Context (hs : nat -> header) (o : nat -> option nat).
Notation vars := (gmap nat (option (ty * c_val K) * eA E)).
Implicit Types m : vars.

(** Thread [i] may compare and hash whatever it sees ([cpre], of its view of the variables: its own
    and the shared ones). *)
Definition cconf (i : nat) (p : cop (E := E) M) : Prop := match p with COp p => gconf M const o i p | _ => True end.
Fixpoint cok (i : nat) (c : cclient (E := E) M X) m : Prop :=
  match c with
  | CDone => True
  | CDo p next => cpre K M hs m p /\ cconf i p /\ forall r m', cstep K S M X sem hs m p r m' -> cok i (next r) m'
  end.
Definition cstart (s : store E) (cs : list (cclient M X)) : config E (list (cres (E := E) X + exn)) :=
  mkC (blocks s) (wraps s) (exts s) ((fun c => (cprog T C M X code hs c, [])) <$> cs).
Definition cclients_ok m (cs : list (cclient M X)) : Prop :=
  forall i c, cs !! i = Some c -> cok i c (view_of K o i m).
End threads.

(** A type whose comparison writes a [mutable] member of its left operand (with what it was). *)
Definition touch_cmps {E : Env} (C : Cmps E) : Cmps E :=
  mkCmps (fun r l q => bind (act (PMutObj (RBlk l) (fun v => v))) (fun _ => p_rel C r l q)) (p_tw C) (p_hash C).
