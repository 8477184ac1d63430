(** * Comparison and hashing of indirect: the theorems.

    [g] ranges over the C++14 and the C++20 header.  Operands may have different value types and
    allocators ([E1], [E2]); each may be in any reachable state, valueless or not. *)

From stdpp Require Import base gmap list.
From Verif Require Import Lang Common Client Spec SpecRun Rep Effect RunLemmas Refine Headers Hist
  OpProps ClientProps Compare CompareProps Ex.
Local Open Scope res_scope.

Definition gen_h (g : gen) : header := match g with Cxx14 => HInd14 | Cxx20 => HInd20 end.

(** The object [x] as an operand. *)
Definition at_ {E} (g : gen) (s : store E) (x : wl) : operand (eV E) := operand_of (gen_impl g) s x.

(** [x] is an object in a reachable state [s], with contents [o]. *)
Definition obj {E} (g : gen) (s : store E) (x : wl) (o : option (eV E)) : Prop :=
  AllocReq E /\ reachable (gen_h g) s /\ contains s x o.

(** Every object has contents. *)
Theorem contents_exist {E} g (s : store E) x : AllocReq E -> reachable (gen_h g) s ->
  is_Some (view s !! x) -> exists o, obj g s x o.
Proof.
  intros HA Hr [[[[[l t] v]|] a] Hx].
  - exists (Some v). split; [done|]. split; [done|]. by exists l, t, a.
  - exists None. split; [done|]. split; [done|]. by exists a.
Qed.

Local Lemma at_opd {E} g (s : store E) x o : obj g s x o -> at_ g s x = opd o.
Proof.
  intros (HA & Hr & Hc). unfold at_. erewrite operand_spec; [done| |done].
  apply (reachable_inv HA) in Hr. by destruct g.
Qed.

(** Comparing and hashing never change the store: the two observers do not. *)
Theorem observers_do_not_write {E} g (s : store E) x o : obj g s x o ->
  (exists b, run (i_valueless (gen_impl g) x) s = ORet b s) /\
  (o <> None -> exists l, run (i_star (gen_impl g) x) s = ORet l s).
Proof.
  intros (HA & Hr & Hc). apply (reachable_inv HA) in Hr.
  assert (HI : Inv Ind s) by (by destruct g). clear Hr. split.
  - eexists. exact (proj1 (observers s x o g HI Hc)).
  - destruct o as [v|]; [intros _|done]. by eapply star_run.
Qed.
Print Assumptions observers_do_not_write.

(** ** C29: equality *)

Theorem C29_meaning {E1 E2 : Env} g (C : cmp (eV E1) (eV E2)) C' (s1 : store E1) (s2 : store E2) x y o1 o2 :
  obj g s1 x o1 -> obj g s2 y o2 ->
  compare g C C' REq (at_ g s1 x) (at_ g s2 y) =
    match o1, o2 with
    | Some v, Some w => v_eq C v w
    | None, None => VOk true
    | _, _ => VOk false
    end.
Proof. intros H1%at_opd H2%at_opd. rewrite H1, H2, compare_opd. by destruct g, o1, o2. Qed.
Print Assumptions C29_meaning.

Theorem C29_reflexive {E : Env} g (C C' : cmp (eV E) (eV E)) (s : store E) x o :
  (forall v, v_eq C v v = VOk true) -> obj g s x o ->
  compare g C C' REq (at_ g s x) (at_ g s x) = VOk true.
Proof. intros Hv H%at_opd. rewrite H, compare_opd. destruct o; [|done]. destruct g; apply Hv. Qed.
Print Assumptions C29_reflexive.

Theorem C29_symmetric {E1 E2 : Env} g (C : cmp (eV E1) (eV E2)) C' (s1 : store E1) (s2 : store E2) x y o1 o2 :
  (forall v w, v_eq C v w = v_eq C' w v) -> obj g s1 x o1 -> obj g s2 y o2 ->
  compare g C C' REq (at_ g s1 x) (at_ g s2 y) = compare g C' C REq (at_ g s2 y) (at_ g s1 x).
Proof.
  intros Hv H1%at_opd H2%at_opd. rewrite H1, H2, !compare_opd.
  destruct o1, o2; simpl; try done. destruct g; apply Hv.
Qed.
Print Assumptions C29_symmetric.

Theorem C29_transitive {E1 E2 E3 : Env} g
    (C12 : cmp (eV E1) (eV E2)) C21 (C23 : cmp (eV E2) (eV E3)) C32 (C13 : cmp (eV E1) (eV E3)) C31
    (s1 : store E1) (s2 : store E2) (s3 : store E3) x y z o1 o2 o3 :
  (forall u v w, v_eq C12 u v = VOk true -> v_eq C23 v w = VOk true -> v_eq C13 u w = VOk true) ->
  obj g s1 x o1 -> obj g s2 y o2 -> obj g s3 z o3 ->
  compare g C12 C21 REq (at_ g s1 x) (at_ g s2 y) = VOk true ->
  compare g C23 C32 REq (at_ g s2 y) (at_ g s3 z) = VOk true ->
  compare g C13 C31 REq (at_ g s1 x) (at_ g s3 z) = VOk true.
Proof. intros Hv H1%at_opd H2%at_opd H3%at_opd. rewrite H1, H2, H3. by apply eq_trans_opd. Qed.
Print Assumptions C29_transitive.

(** [!=] is the negation of [==]: always in C++20, in C++14 if it is for the value type. *)
Theorem C29_negation {E1 E2 : Env} g (C : cmp (eV E1) (eV E2)) C' (s1 : store E1) (s2 : store E2) x y o1 o2 :
  g = Cxx20 \/ (forall v w, v_ne C v w = rnot (v_eq C v w)) -> obj g s1 x o1 -> obj g s2 y o2 ->
  compare g C C' RNe (at_ g s1 x) (at_ g s2 y) = rnot (compare g C C' REq (at_ g s1 x) (at_ g s2 y)).
Proof.
  intros Hv H1%at_opd H2%at_opd. rewrite H1, H2, !compare_opd.
  destruct o1, o2; simpl; try done. destruct Hv as [->|Hv]; [done|]. destruct g; [apply Hv|done].
Qed.
Print Assumptions C29_negation.

(** ** C30: ordering *)

(** [<=>] itself (C++20): valueless below everything. *)
Theorem C30_three_way {E1 E2 : Env} (C : cmp (eV E1) (eV E2)) C' (s1 : store E1) (s2 : store E2) x y o1 o2 :
  obj Cxx20 s1 x o1 -> obj Cxx20 s2 y o2 ->
  Compare20.op_tw C C' (at_ Cxx20 s1 x) (at_ Cxx20 s2 y) =
    match o1, o2 with
    | Some v, Some w =>
        match v_tw C with
        | Some three_way => three_way v w
        | None => b <- v_lt C v w ;
                  if (b : bool) then VOk Less else
                  b' <- v_lt C' w v ;
                  VOk (if (b' : bool) then Greater else Equiv)
        end
    | None, None => VOk Equiv
    | None, Some _ => VOk Less
    | Some _, None => VOk Greater
    end.
Proof.
  intros H1%at_opd H2%at_opd. rewrite H1, H2, tw_opd. destruct o1, o2; try done.
  unfold Compare20.synth_three_way. destruct (v_tw C); [done|].
  destruct (v_lt C _ _) as [[]| |]; simpl; try done. by destruct (v_lt C' _ _) as [[]| |].
Qed.
Print Assumptions C30_three_way.

(** The four relational operators, in both headers. *)
Theorem C30_relations {E1 E2 : Env} g r (C : cmp (eV E1) (eV E2)) C' (s1 : store E1) (s2 : store E2) x y o1 o2 :
  obj g s1 x o1 -> obj g s2 y o2 ->
  compare g C C' r (at_ g s1 x) (at_ g s2 y) =
    match o1, o2 with
    | Some v, Some w => value_rel g C C' r v w
    | None, None => VOk (match r with REq | RLe | RGe => true | RNe | RLt | RGt => false end)
    | None, Some _ => VOk (match r with RNe | RLt | RLe => true | REq | RGt | RGe => false end)
    | Some _, None => VOk (match r with RNe | RGt | RGe => true | REq | RLt | RLe => false end)
    end.
Proof. intros H1%at_opd H2%at_opd. rewrite H1, H2, compare_opd. by destruct o1, o2, r. Qed.
Print Assumptions C30_relations.

(** Antisymmetry: exchanging the operands reverses the result. *)
Theorem C30_reversed {E1 E2 : Env} (C : cmp (eV E1) (eV E2)) C' (s1 : store E1) (s2 : store E2) x y o1 o2 :
  symmetric_cmp C C' -> obj Cxx20 s1 x o1 -> obj Cxx20 s2 y o2 ->
  Compare20.op_tw C' C (at_ Cxx20 s2 y) (at_ Cxx20 s1 x) =
    (o <- Compare20.op_tw C C' (at_ Cxx20 s1 x) (at_ Cxx20 s2 y) ; VOk (flip_ord o)).
Proof.
  intros HS H1%at_opd H2%at_opd. rewrite H1, H2, !tw_opd. destruct o1, o2; try done. apply HS.
Qed.
Print Assumptions C30_reversed.

(** Transitivity, for every combination of results that determines the third. *)
Theorem C30_transitive {E1 E2 E3 : Env}
    (C12 : cmp (eV E1) (eV E2)) C21 (C23 : cmp (eV E2) (eV E3)) C32 (C13 : cmp (eV E1) (eV E3)) C31
    (s1 : store E1) (s2 : store E2) (s3 : store E3) x y z o1 o2 o3 a b c :
  (forall u v w a b c, Compare20.synth_three_way C12 C21 u v = VOk a ->
     Compare20.synth_three_way C23 C32 v w = VOk b -> comp a b = Some c ->
     Compare20.synth_three_way C13 C31 u w = VOk c) ->
  obj Cxx20 s1 x o1 -> obj Cxx20 s2 y o2 -> obj Cxx20 s3 z o3 ->
  Compare20.op_tw C12 C21 (at_ Cxx20 s1 x) (at_ Cxx20 s2 y) = VOk a ->
  Compare20.op_tw C23 C32 (at_ Cxx20 s2 y) (at_ Cxx20 s3 z) = VOk b -> comp a b = Some c ->
  Compare20.op_tw C13 C31 (at_ Cxx20 s1 x) (at_ Cxx20 s3 z) = VOk c.
Proof. intros Hv H1%at_opd H2%at_opd H3%at_opd. rewrite H1, H2, H3. by apply tw_comp_opd. Qed.
Print Assumptions C30_transitive.

(** Total if the value type's is; consistent with [==] if the value type's is. *)
Theorem C30_total {E1 E2 : Env} (C : cmp (eV E1) (eV E2)) C' (s1 : store E1) (s2 : store E2) x y o1 o2 :
  (forall v w, exists o, Compare20.synth_three_way C C' v w = VOk o /\ o <> Unordered) ->
  obj Cxx20 s1 x o1 -> obj Cxx20 s2 y o2 ->
  exists o, Compare20.op_tw C C' (at_ Cxx20 s1 x) (at_ Cxx20 s2 y) = VOk o /\ o <> Unordered.
Proof. intros Hv H1%at_opd H2%at_opd. rewrite H1, H2, tw_opd. destruct o1, o2; eauto. Qed.
Print Assumptions C30_total.

Theorem C30_consistent_with_equality {E1 E2 : Env} (C : cmp (eV E1) (eV E2)) C'
    (s1 : store E1) (s2 : store E2) x y o1 o2 :
  (forall v w, Compare20.synth_three_way C C' v w = VOk Equiv <-> v_eq C v w = VOk true) ->
  obj Cxx20 s1 x o1 -> obj Cxx20 s2 y o2 ->
  Compare20.op_tw C C' (at_ Cxx20 s1 x) (at_ Cxx20 s2 y) = VOk Equiv <->
  Compare20.op_eq C (at_ Cxx20 s1 x) (at_ Cxx20 s2 y) = VOk true.
Proof.
  intros Hv H1%at_opd H2%at_opd. rewrite H1, H2, tw_opd.
  pose proof (compare_opd C C' Cxx20 REq o1 o2) as Hc. simpl in Hc. rewrite Hc.
  destruct o1, o2; simpl; [apply Hv|done|done|done].
Qed.
Print Assumptions C30_consistent_with_equality.

(** Keys of ordered containers: [<] is a strict weak order on the objects if it is on the values. *)
Theorem C30_strict_weak_order {E : Env} g (C : cmp (eV E) (eV E)) (lt : eV E -> eV E -> bool) :
  (forall v w, value_rel g C C RLt v w = VOk (lt v w)) ->
  strict_weak (fun v w => lt v w = true) ->
  strict_weak_on (fun p : store E * wl => exists o, obj g p.1 p.2 o)
    (fun x y => compare g C C RLt (at_ g x.1 x.2) (at_ g y.1 y.2) = VOk true).
Proof.
  intros Hv HS. pose proof (strict_weak_opd C g lt Hv HS) as H. split.
  - intros x [o Ho%at_opd]. rewrite Ho. apply (sw_irrefl _ H).
  - intros x y z [o Ho%at_opd] [o' Ho'%at_opd] [o'' Ho''%at_opd].
    rewrite Ho, Ho', Ho''. apply (sw_trans _ H).
  - intros x y z [o Ho%at_opd] [o' Ho'%at_opd] [o'' Ho''%at_opd].
    rewrite Ho, Ho', Ho''. apply (sw_incomp _ H).
Qed.
Print Assumptions C30_strict_weak_order.

(** ** C31: comparison with plain values *)

Theorem C31_right {E : Env} {U} g r (C : cmp (eV E) U) C' (s : store E) x o u :
  obj g s x o ->
  compare_val g C C' r (at_ g s x) u =
    match o with
    | Some v => value_rel g C C' r v u
    | None => VOk (match r with RNe | RLt | RLe => true | REq | RGt | RGe => false end)
    end.
Proof. intros H%at_opd. rewrite H, compare_val_opd. by destruct o, r. Qed.
Print Assumptions C31_right.

(** With the operands exchanged the result is that of the mirrored relation, ... *)
Theorem C31_mirrored {E : Env} {U} g r (C : cmp (eV E) U) C' (s : store E) x o u :
  (forall v, own_rel C' r u v = own_rel C (mirror r) v u) ->
  obj g s x o -> val_compare g C C' r u (at_ g s x) = compare_val g C C' (mirror r) (at_ g s x) u.
Proof.
  intros Hv H%at_opd. rewrite H, compare_val_opd, val_compare_opd.
  destruct o; [|by destruct r]. destruct g; [apply Hv|done].
Qed.
Print Assumptions C31_mirrored.

(** ... which is that of the value type's [u r v]. *)
Theorem C31_left {E : Env} {U} g r (C : cmp (eV E) U) C' (s : store E) x o u :
  symmetric_cmp C C' -> obj g s x o ->
  val_compare g C C' r u (at_ g s x) =
    match o with
    | Some v => value_rel g C' C r u v
    | None => VOk (match r with RNe | RGt | RGe => true | REq | RLt | RLe => false end)
    end.
Proof.
  intros HS H%at_opd. rewrite H, val_compare_opd. destruct o as [v|]; [|by destruct r].
  destruct g; [done|]. rewrite (value_rel_mirror C C' (mirror r) v u HS). by destruct r.
Qed.
Print Assumptions C31_left.

(** ** C32: the headers agree *)

(** For value types whose operators fit together: any two objects with the same contents. *)
Theorem C32_agree_partial {E1 E2 : Env} r (C : cmp (eV E1) (eV E2)) C'
    (s1 s1' : store E1) (s2 s2' : store E2) x y o1 o2 :
  consistent C C' ->
  obj Cxx14 s1 x o1 -> obj Cxx14 s2 y o2 -> obj Cxx20 s1' x o1 -> obj Cxx20 s2' y o2 ->
  compare Cxx14 C C' r (at_ Cxx14 s1 x) (at_ Cxx14 s2 y) =
  compare Cxx20 C C' r (at_ Cxx20 s1' x) (at_ Cxx20 s2' y).
Proof.
  intros HC H1%at_opd H2%at_opd H3%at_opd H4%at_opd. rewrite H1, H2, H3, H4, !compare_opd.
  destruct o1, o2; try done. by apply value_rel_agree.
Qed.
Print Assumptions C32_agree_partial.

Theorem C32_agree_values_partial {E : Env} {U} r (C : cmp (eV E) U) C' (s s' : store E) x o u :
  consistent C C' -> consistent C' C -> symmetric_cmp C C' -> obj Cxx14 s x o -> obj Cxx20 s' x o ->
  compare_val Cxx14 C C' r (at_ Cxx14 s x) u = compare_val Cxx20 C C' r (at_ Cxx20 s' x) u /\
  val_compare Cxx14 C C' r u (at_ Cxx14 s x) = val_compare Cxx20 C C' r u (at_ Cxx20 s' x).
Proof.
  intros HC HC' HS H1 H2. split.
  - rewrite !(C31_right _ r C C' _ _ o) by done. destruct o; [by apply value_rel_agree|done].
  - rewrite !(C31_left _ r C C' _ _ o) by done. destruct o; [by apply value_rel_agree|done].
Qed.
Print Assumptions C32_agree_values_partial.

(** The condition is met by types with [<=>] whose other operators follow from it, and by types without whose
    operators all follow from a [<] under which incomparable values count as equivalent. *)
Theorem C32_without_three_way {V W} (C : cmp V W) (C' : cmp W V) :
  lt_consistent C C' -> lt_consistent C' C -> (forall v w, v_eq C v w = v_eq C' w v) ->
  consistent C C' /\ consistent C' C /\ symmetric_cmp C C'.
Proof.
  intros H1 H2 He. split; [by apply lt_consistent_consistent|].
  split; [by apply lt_consistent_consistent|by apply lt_consistent_symmetric].
Qed.
Print Assumptions C32_without_three_way.

(** Contents of the objects of the example store. *)
Local Lemma ex_contains g f :
  obj g (demo_store (gen_h g) f []) v0 (Some 5) /\ obj g (demo_store (gen_h g) f []) v1 (Some 6) /\
  obj g (demo_store (gen_h g) f []) v2 (Some 7) /\ obj g (demo_store (gen_h g) f []) v3 None.
Proof.
  unfold obj. pose proof (ex_alloc f). pose proof (demo_reachable (gen_h g) f []).
  split_and!; try done; simpl.
  - exists 0, 0, 1. by destruct g, f as [[] [] [] [] [] []]; vm_compute.
  - exists 1, 0, 2. by destruct g, f as [[] [] [] [] [] []]; vm_compute.
  - exists 2, 0, 1. by destruct g, f as [[] [] [] [] [] []]; vm_compute.
  - exists 2. by destruct g, f as [[] [] [] [] [] []]; vm_compute.
Qed.

(** A lawful partial order on numbers without [<=>]: numbers of different parity are incomparable ([parity_cmp]).
    For it the headers disagree: [x <= y] is false in C++14 and true in C++20. *)
Theorem C32_refuted :
  exists (E : Env) (C : cmp (eV E) (eV E)) (s s' : store E) x y v w,
    (forall u, v_le C u u = VOk true) /\
    (forall u v w, v_le C u v = VOk true -> v_le C v w = VOk true -> v_le C u w = VOk true) /\
    (forall u v, v_le C u v = VOk true -> v_le C v u = VOk true -> v_eq C u v = VOk true) /\
    (forall u v, v_lt C u v = (b <- v_le C u v ; c <- v_ne C u v ; VOk (b && c))) /\
    (forall u v, v_ge C u v = v_le C v u) /\ (forall u v, v_gt C u v = v_lt C v u) /\
    obj Cxx14 s x (Some v) /\ obj Cxx14 s y (Some w) /\ obj Cxx20 s' x (Some v) /\ obj Cxx20 s' y (Some w) /\
    compare Cxx14 C C RLe (at_ Cxx14 s x) (at_ Cxx14 s y) = VOk false /\
    compare Cxx20 C C RLe (at_ Cxx20 s' x) (at_ Cxx20 s' y) = VOk true.
Proof.
  set (f := Fl false false false false true false).
  destruct (ex_contains Cxx14 f) as (H1 & H2 & _). destruct (ex_contains Cxx20 f) as (H3 & H4 & _).
  exists (exEnv f), parity_cmp, (demo_store HInd14 f []), (demo_store HInd20 f []), v0, v1, 5, 6.
  split_and!; [..|exact H1|exact H2|exact H3|exact H4| |].
  - intros u. simpl. by rewrite Nat.eqb_refl, orb_true_r.
  - apply parity_trans.
  - apply parity_antisym.
  - apply parity_lt.
  - intros u v. simpl. by rewrite (Nat.eqb_sym u v).
  - done.
  - rewrite (C30_relations _ _ _ _ _ _ _ _ _ _ H1 H2). done.
  - rewrite (C30_relations _ _ _ _ _ _ _ _ _ _ H3 H4). done.
Qed.
Print Assumptions C32_refuted.

(** ** C33: hash *)

Theorem C33_meaning {E : Env} g (H : eV E -> res N) (s : store E) x o :
  obj g s x o ->
  hash_of g H (at_ g s x) = match o with Some v => H v | None => VOk (2 ^ 64 - 1)%N end.
Proof. intros Ho%at_opd. rewrite Ho, hash_opd. by destruct o. Qed.
Print Assumptions C33_meaning.

Theorem C33_consistent {E : Env} g (C C' : cmp (eV E) (eV E)) (H : eV E -> res N)
    (s1 s2 : store E) x y o1 o2 :
  (forall v w, v_eq C v w = VOk true -> H v = H w) -> obj g s1 x o1 -> obj g s2 y o2 ->
  compare g C C' REq (at_ g s1 x) (at_ g s2 y) = VOk true ->
  hash_of g H (at_ g s1 x) = hash_of g H (at_ g s2 y).
Proof.
  intros Hv H1 H2. rewrite (C29_meaning _ _ _ _ _ _ _ _ _ H1 H2).
  rewrite (C33_meaning _ _ _ _ _ H1), (C33_meaning _ _ _ _ _ H2).
  destruct o1, o2; try done. apply Hv.
Qed.
Print Assumptions C33_consistent.

(** ** A value type meeting all the conditions: numbers *)
Example nat_cmp_conditions tw :
  consistent (nat_cmp tw) (nat_cmp tw) /\ symmetric_cmp (nat_cmp tw) (nat_cmp tw) /\
  (forall v w, Compare20.synth_three_way (nat_cmp tw) (nat_cmp tw) v w = VOk (nat_tw v w)) /\
  (forall g v w, value_rel g (nat_cmp tw) (nat_cmp tw) RLt v w = VOk (Nat.ltb v w)) /\
  strict_weak (fun v w => Nat.ltb v w = true).
Proof. apply nat_cmp_ok. Qed.

Example C29_C33_case g f :
  obj g (demo_store (gen_h g) f []) v0 (Some 5) /\ obj g (demo_store (gen_h g) f []) v3 None /\
  compare g (nat_cmp true) (nat_cmp true) RLt (at_ g (demo_store (gen_h g) f []) v3)
     (at_ g (demo_store (gen_h g) f []) v0) = VOk true.
Proof.
  destruct (ex_contains g f) as (H1 & _ & _ & H2). split; [done|]. split; [done|].
  by rewrite (C30_relations _ _ _ _ _ _ _ _ _ _ H2 H1).
Qed.
