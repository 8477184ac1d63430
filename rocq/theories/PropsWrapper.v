(** * exploration/wrapper.h (C41). *)

From stdpp Require Import base gmap list.
From Verif Require Import Wrapper WrapperProps.

(** Every history without assignments (other than self-assignments), whatever operations
    throw, is free of undefined behaviour, and in the end there are as many objects on
    the heap as wrappers, each wrapper owning one of its own. Missing from the claim:
    assignment, for which it is false. *)
Theorem C41_safe_partial {T : vtype} (h : list (wop * answer)) :
  Forall (fun p => no_assign p.1) h ->
  match wrun h (wempty (T := T)) with
  | WOk _ s =>
      size (heap s) = size (wr s) /\
      (forall x p, wr s !! x = Some p -> is_Some (heap s !! p)) /\
      (forall x y p, wr s !! x = Some p -> wr s !! y = Some p -> x = y) /\
      (wr s = ∅ -> heap s = ∅)
  | WIll => True
  | _ => False
  end.
Proof. exact (safe_without_assign h). Qed.

(** A copy owns a new object with a copy of the value and changes nothing else. *)
Theorem C41_copy {T : vtype} (s : wstate T) x y p v :
  wsound s -> wr s !! x = None -> wr s !! y = Some p -> heap s !! p = Some v ->
  exists s', wstep (WCopy x y) NewOk s = WOk None s' /\
    (exists q, wr s' !! x = Some q /\ q <> p /\ heap s' !! q = Some (vt_copy T v)) /\
    (forall z, z <> x -> wr s' !! z = wr s !! z) /\
    (forall q w, heap s !! q = Some w -> heap s' !! q = Some w).
Proof. exact (copy_spec s x y p v). Qed.

(** Without assignments wrappers are plain values: every operation of every such history, whatever throws, has
    the result that the same operation on values has (in particular == compares the values), and
    in the end the wrappers hold the values. *)
Theorem C41_values_partial {T : vtype} (h : list (wop * answer)) :
  Forall (fun p => no_assign p.1) h ->
  exists s : wstate T, wouts h wempty = Some ((vouts (T := T) h ∅).1, s) /\
    forall x, wval s x = (vouts (T := T) h ∅).2 !! x.
Proof. intros Hh. apply wrun_values; [apply wsound_empty|done|done]. Qed.

(** Construct two wrappers, assign one to the other, destroy both: undefined behaviour. *)
Theorem C41_refuted :
  forall T : vtype, exists h, wrun h (wempty (T := T)) = WUB /\
    h = [(WDefault 0, NewOk); (WDefault 1, NewOk); (WAssign 0 1, NewOk);
         (WDestroy 0, NewOk); (WDestroy 1, NewOk)].
Proof. exact double_delete. Qed.

(** It is not an accident of this history: from any sound state ... *)
Theorem C41_assignment_double_delete {T : vtype} (s : wstate T) x y p q :
  wsound s -> wr s !! x = Some p -> wr s !! y = Some q -> x <> y ->
  wrun [(WAssign x y, NewOk); (WDestroy x, NewOk); (WDestroy y, NewOk)] s = WUB.
Proof. exact (assign_then_destroy s x y p q). Qed.

(** ... and whatever the program does after the assignment, the object the left operand owned
    is never deleted. *)
Theorem C41_assignment_leaks {T : vtype} (s : wstate T) x y p q h b s' :
  wsound s -> wr s !! x = Some p -> wr s !! y = Some q -> x <> y ->
  wrun ((WAssign x y, NewOk) :: h) s = WOk b s' -> is_Some (heap s' !! p).
Proof. exact (assign_leaks s x y p q h b s'). Qed.

(** Exactly the histories without real assignments can end cleanly. *)
Theorem C41_clean_histories {T : vtype} (h : list (wop * answer)) b (s : wstate T) :
  wrun h wempty = WOk b s -> wr s = ∅ ->
  (heap s = ∅ <-> Forall (fun p => no_assign p.1) h).
Proof. exact (clean_histories h b s). Qed.

Definition numbers : vtype := mkVT nat 0 id Nat.eqb.

(** Three wrappers, one failed construction, a self-assignment, a comparison. *)
Example C41_safe_ex :
  let h := [(WDefault 0, NewOk); (WCopy 1 0, NewOk); (WCopy 2 0, NewFails 7); (WAssign 1 1, NewOk);
            (WCopy 2 1, NewOk); (WEq 0 2, NewOk); (WDestroy 1, NewOk)] in
  Forall (fun p => no_assign p.1) h /\
  exists b s, wrun h (wempty (T := numbers)) = WOk b s /\ size (wr s) = 2.
Proof. split; [repeat constructor|]. do 2 eexists. split; [reflexivity|]. by vm_compute. Qed.

Example C41_values_ex :
  let h := [(WDefault 0, NewOk); (WCopy 1 0, NewOk); (WCopy 2 0, NewFails 7); (WAssign 1 1, NewOk);
            (WCopy 2 1, NewOk); (WEq 0 2, NewOk); (WDestroy 1, NewOk); (WDestroy 1, NewOk)] in
  Forall (fun p => no_assign p.1) h /\
  (vouts (T := numbers) h ∅).1 = [inl None; inl None; inr 7; inl None; inl None; inl (Some true); inl None].
Proof. split; [repeat constructor|]. by vm_compute. Qed.

(** A sound state with two objects: the hypotheses of the theorems about assignment. *)
Example C41_sound_ex :
  exists s : wstate numbers, wsound s /\ wr s !! 0 = Some 0 /\ wr s !! 1 = Some 1 /\
    exists b s', wrun [(WAssign 0 1, NewOk); (WDestroy 0, NewOk)] s = WOk b s'.
Proof. exact sound_two. Qed.

Print Assumptions C41_safe_partial.
Print Assumptions C41_copy.
Print Assumptions C41_refuted.
Print Assumptions C41_assignment_double_delete.
Print Assumptions C41_assignment_leaks.
Print Assumptions C41_clean_histories.
Print Assumptions C41_values_partial.
