(** * Class template argument deduction for [indirect]: the theorems. *)

From stdpp Require Import base gmap list.
From Verif Require Import Deduction.

(** ** C50 *)

(** [indirect(x)]: a copy if [x] is an indirect, else an indirect that owns [x], with the default
    allocator; lvalues and rvalues alike. *)
Theorem C50_one x lvalue :
  ctad [(x, lvalue)] = match x with GInd t a => DClass t a | t => DClass t (ADefault t) end.
Proof. by destruct x, lvalue. Qed.
Print Assumptions C50_one.

Local Lemma galloc_eqb_refl a : galloc_eqb a a = true
with gty_eqb_refl t : gty_eqb t t = true.
Proof.
  - destruct a as [t|n t]; cbn; [apply gty_eqb_refl|]. rewrite Nat.eqb_refl. apply gty_eqb_refl.
  - destruct t as [|a|t a|n]; cbn; [done|apply galloc_eqb_refl| |apply Nat.eqb_refl].
    rewrite gty_eqb_refl. apply galloc_eqb_refl.
Qed.
Local Lemma galloc_eqb_eq a b : galloc_eqb a b = true -> a = b
with gty_eqb_eq s t : gty_eqb s t = true -> s = t.
Proof.
  - destruct a as [s|m s], b as [t|n t]; cbn; try done.
    + intros H. f_equal. by apply gty_eqb_eq.
    + intros [H1%Nat.eqb_eq H2]%andb_prop. f_equal; [done|by apply gty_eqb_eq].
  - destruct s as [|a|s a|m], t as [|b|t b|n]; cbn; try done.
    + intros H. f_equal. by apply galloc_eqb_eq.
    + intros [H1 H2]%andb_prop. f_equal; [by apply gty_eqb_eq|by apply galloc_eqb_eq].
    + intros H%Nat.eqb_eq. by f_equal.
Qed.

(** [indirect(allocator_arg, alloc, x)]: an indirect that owns [x], with the allocator rebound to
    its type. *)
Theorem C50_allocator a x l1 l2 l3 :
  (forall t b, x <> GInd t b) ->
  ctad [(GTag, l1); (GAlloc a, l2); (x, l3)] = DClass x (rebind a x).
Proof. intros H. destruct x as [|b|t b|n]; [by destruct a|by destruct a| |by destruct a]. by destruct (H t b). Qed.
Print Assumptions C50_allocator.

(** If [x] is an indirect with the same type of allocator, a copy. *)
Theorem C50_allocator_copy t a l1 l2 l3 :
  ctad [(GTag, l1); (GAlloc a, l2); (GInd t a, l3)] = DClass t a.
Proof.
  pose proof (galloc_eqb_refl a) as H. unfold ctad, gviable, names, guides. cbn -[galloc_eqb gbest].
  destruct l3; cbn -[galloc_eqb gbest]; rewrite !H; done.
Qed.
Print Assumptions C50_allocator_copy.

(** But not if the type of the allocator is another, even one that only differs in what it is
    bound to: then the copy becomes an indirect that owns an indirect. *)
Theorem C50_allocator_nests t a b l1 l2 l3 : a <> b ->
  ctad [(GTag, l1); (GAlloc b, l2); (GInd t a, l3)] = DClass (GInd t a) (rebind b (GInd t a)).
Proof.
  intros H. assert (Hf : galloc_eqb b a = false).
  { destruct (galloc_eqb b a) eqn:E; [|done]. apply galloc_eqb_eq in E. congruence. }
  unfold ctad, gviable, names, guides. destruct l3; cbn -[galloc_eqb gbest rebind]; rewrite !Hf; done.
Qed.
Print Assumptions C50_allocator_nests.

(** So an allocator-extended copy need not have the type of the original. *)
Theorem C50_allocator_copy_refuted : exists t a b l1 l2 l3,
  rebind b t = a /\ ctad [(GTag, l1); (GAlloc b, l2); (GInd t a, l3)] <> DClass t a.
Proof.
  exists (GOther 0), (ADefault (GOther 0)), (ADefault (GOther 1)), false, true, true. split; [done|].
  rewrite C50_allocator_nests; [|by intros [= ]]. by intros [= ].
Qed.
Print Assumptions C50_allocator_copy_refuted.

(** Nothing else can be deduced: no arguments, an allocator alone, or arguments to construct the
    value in place. *)
Theorem C50_other l :
  match l with
  | [_] | [(GTag, _); (GAlloc _, _); _] => True
  | _ => ctad l = DNone
  end.
Proof.
  destruct l as [|[x lx] [|[y ly] [|[z lz] [|[w lw] l]]]]; [done| | | |].
  - by destruct x.
  - by destruct x, y, lx, ly.
  - by destruct x, y, z, lx, lz.
  - by destruct x, y, z, lx, lz.
Qed.
Print Assumptions C50_other.

(** ** Examples *)
Notation int := (GOther 0).
Example C50_ex :
  map ctad [ [(int, true)]; [(GInd int (ADefault int), false)]; [(GTag, false); (GAlloc (ARebound 3 int), true); (GOther 1, false)];
             [(GTag, false); (GAlloc (ADefault GTag), true); (GInd int (ADefault int), true)] ] =
  [ DClass int (ADefault int); DClass int (ADefault int); DClass (GOther 1) (ARebound 3 (GOther 1));
    DClass (GInd int (ADefault int)) (ADefault (GInd int (ADefault int))) ].
Proof. by vm_compute. Qed.
