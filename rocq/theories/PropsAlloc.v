(** * The allocators supplied with the library (C40). *)

From Coq Require Import NArith.
From stdpp Require Import base gmap list.
From Verif Require Import Lang Common Client Spec SpecRun Rep RunLemmas Headers Hist OpSpec LogSpec LogProof
  OpProps ClientProps Ex Balance Tracking TrackingProps.

(** Unsigned subtraction of the counters counts the non-valueless objects that use them,
    for every modulus [M], in every reachable store of every header, provided no allocation
    through these counters failed and the two counters are used only together. *)
Theorem C40_counters {E f d} (h : header) (s : store (trackE E f d)) M c0 p q :
  reachable h s -> M <> 0%N -> c0 p = c0 q -> paired p q (trc s) ->
  (forall b e, EvAllocFail (E := trackE E f d) (p, q) b e ∉ trc s) ->
  exists D : gset wl,
    (forall x, x ∈ D <-> exists l t v, owns s x l t v (p, q)) /\
    usub M (replay M c0 (trc s) p) (replay M c0 (trc s) q) = (N.of_nat (size D) mod M)%N.
Proof. exact (tracked_no_failure h s M c0 p q). Qed.

(** Without the proviso: failed allocations have been counted too. *)
Theorem C40_failed_allocations {E f d} (h : header) (s : store (trackE E f d)) M c0 p q :
  reachable h s -> M <> 0%N -> c0 p = c0 q -> paired p q (trc s) ->
  exists D : gset wl,
    (forall x, x ∈ D <-> exists l t v, owns s x l t v (p, q)) /\
    usub M (replay M c0 (trc s) p) (replay M c0 (trc s) q) =
      (N.of_nat (size D + count (failed_alloc (p, q)) (trc s)) mod M)%N.
Proof. exact (tracked h s M c0 p q). Qed.

(** When no object is left, the counters agree again. *)
Theorem C40_all_destroyed {E f d} (h : header) (s : store (trackE E f d)) M c0 p q :
  reachable h s -> M <> 0%N -> c0 p = c0 q -> paired p q (trc s) ->
  (forall b e, EvAllocFail (E := trackE E f d) (p, q) b e ∉ trc s) -> wraps s = ∅ ->
  usub M (replay M c0 (trc s) p) (replay M c0 (trc s) q) = 0%N.
Proof. exact (tracked_end h s M c0 p q). Qed.

(** Equality of both allocators is an equivalence, [!=] is its negation, and rebinding (also
    there and back) preserves it. *)
Theorem C40_tracking_equality :
  (forall a, track_eqb a a = true) /\
  (forall a b, track_eqb a b = true -> track_eqb b a = true) /\
  (forall a b c, track_eqb a b = true -> track_eqb b c = true -> track_eqb a c = true) /\
  (forall a b, track_neb a b = negb (track_eqb a b)) /\
  (forall a b, track_eqb (track_rebind a) (track_rebind b) = track_eqb a b) /\
  (forall a, track_eqb (track_rebind (track_rebind a)) a = true).
Proof. exact track_equivalence. Qed.

Theorem C40_tagged_equality :
  (forall a, tag_eqb a a = true) /\
  (forall a b, tag_eqb a b = true -> tag_eqb b a = true) /\
  (forall a b c, tag_eqb a b = true -> tag_eqb b c = true -> tag_eqb a c = true) /\
  (forall a b, tag_neb a b = negb (tag_eqb a b)) /\
  (forall a b, tag_eqb (tag_rebind a) (tag_rebind b) = tag_eqb a b) /\
  (forall a, tag_eqb (tag_rebind (tag_rebind a)) a = true).
Proof. exact tag_equivalence. Qed.

(** Two objects use the counters (1, 2) after one was destroyed, a third uses (3, 4). With
    counters of two bits, one object fewer than the modulus and wrap-around. *)
Example C40_counters_ex h :
  exists s : store (trackE (exEnv (Fl false false false false true false)) fst (0, 0)),
    reachable h s /\ paired 1 2 (trc s) /\ (forall b e, EvAllocFail (E := trackE (exEnv (Fl false false false false true false)) fst (0, 0)) (1, 2) b e ∉ trc s) /\
    usub 4 (replay 4 (fun _ => 3%N) (trc s) 1) (replay 4 (fun _ => 3%N) (trc s) 2) = 2%N.
Proof. exact (track_demo_ok h). Qed.

(** One failed allocation, no object at all, and the counters differ. *)
Example C40_failed_ex h :
  exists s : store (trackE (exEnv (Fl false false false false true false)) fst (0, 0)),
    reachable h s /\ paired 1 2 (trc s) /\ wraps s = ∅ /\
    usub 4 (replay 4 (fun _ => 0%N) (trc s) 1) (replay 4 (fun _ => 0%N) (trc s) 2) = 1%N.
Proof. exact (track_fail_ok h). Qed.

Print Assumptions C40_counters.
Print Assumptions C40_failed_allocations.
Print Assumptions C40_all_destroyed.
Print Assumptions C40_tracking_equality.
Print Assumptions C40_tagged_equality.
