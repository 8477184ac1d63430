From Coq Require Import Arith.Cantor NArith Lia.
From stdpp Require Import base gmap list.
From Verif Require Import Lang Common Client Spec SpecRun Rep Effect RunLemmas Refine Headers Hist
  Ex LogSpec LogProof OpSpec OpProps ClientProps Balance Tracking.

Local Arguments Cantor.to_nat : simpl never.

(** ** Equality *)
Lemma track_eqb_eq a b : track_eqb a b = true <-> a = b.
Proof.
  unfold track_eqb. rewrite andb_true_iff, !Nat.eqb_eq. destruct a, b; simpl. split.
  - intros [-> ->]; done.
  - intros H. by injection H.
Qed.

Lemma track_equivalence :
  (forall a, track_eqb a a = true) /\
  (forall a b, track_eqb a b = true -> track_eqb b a = true) /\
  (forall a b c, track_eqb a b = true -> track_eqb b c = true -> track_eqb a c = true) /\
  (forall a b, track_neb a b = negb (track_eqb a b)) /\
  (forall a b, track_eqb (track_rebind a) (track_rebind b) = track_eqb a b) /\
  (forall a, track_eqb (track_rebind (track_rebind a)) a = true).
Proof.
  split_and!; try done.
  - intros. by apply track_eqb_eq.
  - intros a b. rewrite !track_eqb_eq. done.
  - intros a b c. rewrite !track_eqb_eq. congruence.
  - intros a. apply track_eqb_eq. by destruct a.
Qed.

Lemma tag_equivalence :
  (forall a, tag_eqb a a = true) /\
  (forall a b, tag_eqb a b = true -> tag_eqb b a = true) /\
  (forall a b c, tag_eqb a b = true -> tag_eqb b c = true -> tag_eqb a c = true) /\
  (forall a b, tag_neb a b = negb (tag_eqb a b)) /\
  (forall a b, tag_eqb (tag_rebind a) (tag_rebind b) = tag_eqb a b) /\
  (forall a, tag_eqb (tag_rebind (tag_rebind a)) a = true).
Proof.
  unfold tag_neb, tag_rebind, tag_eqb.
  split_and!; try done; intros *; rewrite ?Nat.eqb_eq; congruence.
Qed.

Section tracking.
Context {E : Env} {f : tracker -> eA E} {d : tracker}.
Notation E' := (trackE E f d).
Implicit Types s : store E'.

Lemma track_allocreq : AllocReq E'.
Proof.
  split; simpl.
  - intros a b H. by apply track_eqb_eq in H as ->.
  - done.
Qed.

(** Allocator calls that increment counter [p]. *)
Definition touches (p : nat) (e : event E') : bool :=
  match e with
  | EvAlloc a _ _ => Nat.eqb p a.1
  | EvAllocFail a _ _ => Nat.eqb p a.1
  | EvDealloc a _ _ => Nat.eqb p a.2
  | _ => false
  end.

Lemma bump_mod M p q c : M <> 0%N ->
  (bump M p c q mod M = (c q + if Nat.eqb q p then 1 else 0) mod M)%N.
Proof.
  intros HM. unfold bump. destruct (Nat.eqb q p).
  - by rewrite N.mod_mod.
  - by rewrite N.add_0_r.
Qed.

Lemma replay_mod M c0 tr p : M <> 0%N ->
  (replay M c0 tr p mod M = (c0 p + N.of_nat (count (touches p) tr)) mod M)%N.
Proof.
  intros HM. induction tr as [|e tr IH]; [simpl; by rewrite N.add_0_r|].
  rewrite count_cons.
  assert (Hb : forall q (c : counters), (c p mod M = (c0 p + N.of_nat (count (touches p) tr)) mod M)%N ->
    (bump M q c p mod M =
       (c0 p + N.of_nat ((if Nat.eqb p q then 1 else 0) + count (touches p) tr)) mod M)%N).
  { intros q c Hc. rewrite bump_mod by done. rewrite <- N.add_mod_idemp_l, Hc by done.
    rewrite N.add_mod_idemp_l by done. f_equal. destruct (Nat.eqb p q); lia. }
  destruct e; simpl; unfold track_allocate, track_deallocate; try (by apply Hb); exact IH.
Qed.

(** Allocations by [a] that failed. *)
Definition failed_alloc (a : tracker) (e : event E') : bool :=
  match e with EvAllocFail b _ _ => track_eqb b a | _ => false end.

(** The allocators that occur in a log. *)
Definition caller (e : event E') : option tracker :=
  match e with
  | EvAlloc a _ _ => Some a | EvAllocFail a _ _ => Some a | EvDealloc a _ _ => Some a
  | _ => None
  end.

(** Counters [p] and [q] are only used together, [p] for allocations and [q] for
    deallocations. *)
Definition paired (p q : nat) (tr : list (event E')) : Prop :=
  forall e a, e ∈ tr -> caller e = Some a -> (a.1 = p <-> a.2 = q) /\ a.1 <> q /\ a.2 <> p.

Lemma touches_count p q tr : paired p q tr ->
  count (touches p) tr = count (alloc_res (E := E') (Cantor.to_nat (p, q))) tr + count (failed_alloc (p, q)) tr /\
  count (touches q) tr = count (dealloc_res (E := E') (Cantor.to_nat (p, q))) tr.
Proof.
  assert (Hinj : forall a b : tracker, Nat.eqb (Cantor.to_nat a) (Cantor.to_nat b) = track_eqb a b).
  { intros a b. apply eq_true_iff_eq. rewrite Nat.eqb_eq, track_eqb_eq. split; [|congruence].
    intros H. rewrite <- (Cantor.cancel_of_to a), <- (Cantor.cancel_of_to b). by rewrite H. }
  induction tr as [|e tr IH]; intros Hp; [done|].
  destruct IH as [IH1 IH2]. { intros e' a He'. apply Hp. by right. }
  rewrite !count_cons.
  assert (He : forall a, caller e = Some a -> (a.1 = p <-> a.2 = q) /\ a.1 <> q /\ a.2 <> p).
  { intros a. apply Hp. by left. }
  destruct e as [a b l|a b x|a b l|a t l x|a t l x x'|a t l|t l x|t l x x']; simpl in *; try lia;
    destruct (He a eq_refl) as (Ha & Ha1 & Ha2); rewrite ?Hinj.
  - assert (Nat.eqb p a.1 = track_eqb a (p, q)) as ->.
    { apply eq_true_iff_eq. rewrite Nat.eqb_eq, track_eqb_eq. destruct a; simpl in *. split; [|congruence].
      intros ->. f_equal. by apply Ha. }
    assert (Nat.eqb q a.1 = false) as -> by (apply Nat.eqb_neq; done). lia.
  - assert (Nat.eqb p a.1 = track_eqb a (p, q)) as ->.
    { apply eq_true_iff_eq. rewrite Nat.eqb_eq, track_eqb_eq. destruct a; simpl in *. split; [|congruence].
      intros ->. f_equal. by apply Ha. }
    assert (Nat.eqb q a.1 = false) as -> by (apply Nat.eqb_neq; done). lia.
  - assert (Nat.eqb q a.2 = track_eqb a (p, q)) as ->.
    { apply eq_true_iff_eq. rewrite Nat.eqb_eq, track_eqb_eq. destruct a; simpl in *. split; [|congruence].
      intros ->. f_equal. by apply Ha. }
    assert (Nat.eqb p a.2 = false) as -> by (apply Nat.eqb_neq; done). lia.
Qed.

Lemma usub_mod M x y k : M <> 0%N ->
  (x mod M = (y + k) mod M)%N -> usub M x y = (k mod M)%N.
Proof.
  intros HM H. unfold usub. rewrite <- N.add_mod_idemp_l, H, N.add_mod_idemp_l by done.
  pose proof (N.mod_lt y M HM). pose proof (N.div_mod' y M).
  replace (y + k + (M - y mod M))%N with (k + (y / M + 1) * M)%N by nia.
  by rewrite N.mod_add.
Qed.

(** The set of objects that own something and hold allocator [a]. *)
Lemma tracked h s M c0 p q :
  reachable h s -> M <> 0%N -> c0 p = c0 q -> paired p q (trc s) ->
  exists D : gset wl,
    (forall x, x ∈ D <-> exists l t v, owns s x l t v (p, q)) /\
    usub M (replay M c0 (trc s) p) (replay M c0 (trc s) q) =
      (N.of_nat (size D + count (failed_alloc (p, q)) (trc s)) mod M)%N.
Proof.
  intros Hr HM Hc Hp. exists (engaged_res s (Cantor.to_nat (p, q))). split.
  - intros x. rewrite elem_engaged_res. split.
    + intros (l & t & v & a & Ho & Ha). simpl in Ha.
      assert (a = (p, q)) as ->.
      { rewrite <- (Cantor.cancel_of_to a), Ha. apply Cantor.cancel_of_to. }
      eauto.
    + intros (l & t & v & Ho). exists l, t, v, (p, q). done.
  - apply usub_mod; [done|]. rewrite replay_mod by done.
    pose proof (replay_mod M c0 (trc s) q HM) as Hq.
    rewrite <- (N.add_mod_idemp_l (replay M c0 (trc s) q)), Hq, N.add_mod_idemp_l by done.
    destruct (touches_count p q _ Hp) as [-> ->]. rewrite Hc.
    rewrite (res_balance track_allocreq h s (Cantor.to_nat (p, q)) Hr).
    f_equal. lia.
Qed.

Lemma tracked_no_failure h s M c0 p q :
  reachable h s -> M <> 0%N -> c0 p = c0 q -> paired p q (trc s) ->
  (forall b e, EvAllocFail (E := trackE E f d) (p, q) b e ∉ trc s) ->
  exists D : gset wl,
    (forall x, x ∈ D <-> exists l t v, owns s x l t v (p, q)) /\
    usub M (replay M c0 (trc s) p) (replay M c0 (trc s) q) = (N.of_nat (size D) mod M)%N.
Proof.
  intros Hr HM Hc Hp Hf. destruct (tracked h s M c0 p q Hr HM Hc Hp) as (D & HD & H).
  exists D. split; [done|]. rewrite H. f_equal. f_equal.
  assert (Hz : count (failed_alloc (p, q)) (trc s) = 0); [|lia].
  revert Hf. clear. induction (trc s) as [|e tr IH]; intros Hf; [done|].
  rewrite count_cons, IH.
  - destruct e as [a b l|a b x|a b l|a t l x|a t l x x'|a t l|t l x|t l x x']; simpl; try done.
    destruct (track_eqb a (p, q)) eqn:Ha; [|done]. apply track_eqb_eq in Ha as ->.
    exfalso. apply (Hf b x). by left.
  - intros b x Hin. apply (Hf b x). by right.
Qed.

Lemma tracked_end h s M c0 p q :
  reachable h s -> M <> 0%N -> c0 p = c0 q -> paired p q (trc s) ->
  (forall b e, EvAllocFail (E := trackE E f d) (p, q) b e ∉ trc s) -> wraps s = ∅ ->
  usub M (replay M c0 (trc s) p) (replay M c0 (trc s) q) = 0%N.
Proof.
  intros Hr HM Hc Hp Hf Hw. destruct (tracked_no_failure h s M c0 p q Hr HM Hc Hp Hf) as (D & HD & ->).
  assert (D = ∅) as ->.
  { apply elem_of_equiv_empty_L. intros x Hx. apply HD in Hx as (l & t & v & Ho).
    unfold owns, view in Ho. rewrite Hw in Ho. by rewrite lookup_fmap, lookup_empty in Ho. }
  rewrite size_empty. by apply N.mod_0_l.
Qed.

(** Decision procedures for the examples. *)
Definition pairedb (p q : nat) (tr : list (event E')) : bool :=
  forallb (fun e => match caller e with
                    | Some a => Bool.eqb (Nat.eqb a.1 p) (Nat.eqb a.2 q) && negb (Nat.eqb a.1 q)
                                && negb (Nat.eqb a.2 p)
                    | None => true end) tr.

Lemma pairedb_paired p q tr : pairedb p q tr = true -> paired p q tr.
Proof.
  unfold pairedb. intros H e a He Ha. rewrite forallb_forall in H.
  specialize (H e ltac:(by apply elem_of_list_In)). rewrite Ha in H.
  apply andb_true_iff in H as [H H3]. apply andb_true_iff in H as [H1 H2].
  apply negb_true_iff, Nat.eqb_neq in H2, H3. apply Bool.eqb_prop in H1.
  split; [|done]. rewrite <- !Nat.eqb_eq, H1. done.
Qed.

Lemma no_failures p q (tr : list (event E')) :
  forallb (fun e => negb (failed_alloc (p, q) e)) tr = true -> forall b e, EvAllocFail (E := trackE E f d) (p, q) b e ∉ tr.
Proof.
  rewrite forallb_forall. intros H b e Hin. apply elem_of_list_In in Hin. specialize (H _ Hin).
  apply negb_true_iff in H. simpl in H. by rewrite (proj2 (track_eqb_eq _ _) eq_refl) in H.
Qed.

End tracking.

Definition tfl := Fl false false false false true false.
Definition tE : Env := trackE (exEnv tfl) fst (0, 0).
Definition tmk (x : wl) (p q : nat) (n : nat) : op tE := OValueA (E := tE) x (p, q) 0 (GArgs (E := tE) n).

Definition track_script : list (op tE) :=
  [ tmk v0 1 2 5; tmk v1 1 2 6; tmk v2 3 4 7; OCopy v3 v0; OMove v4 v3; ODestroy v1 ].
Definition track_store h (sc : list (op tE)) (O : list resp) : store tE :=
  final (run_client (header_impl h) (script sc) (init ∅ O)).

Lemma track_demo_ok h :
  exists s : store tE,
    reachable h s /\ paired 1 2 (trc s) /\ (forall b e, EvAllocFail (E := tE) (1, 2) b e ∉ trc s) /\
    usub 4 (replay 4 (fun _ => 3%N) (trc s) 1) (replay 4 (fun _ => 3%N) (trc s) 2) = 2%N.
Proof.
  exists (track_store h track_script []). split_and!.
  - apply final_reachable; by destruct h; vm_compute.
  - apply pairedb_paired. by destruct h; vm_compute.
  - apply no_failures. by destruct h; vm_compute.
  - by destruct h; vm_compute.
Qed.

Lemma track_fail_ok h :
  exists s : store tE,
    reachable h s /\ paired 1 2 (trc s) /\ wraps s = ∅ /\
    usub 4 (replay 4 (fun _ => 0%N) (trc s) 1) (replay 4 (fun _ => 0%N) (trc s) 2) = 1%N.
Proof.
  exists (track_store h [tmk v0 1 2 5] [RespFail 0]). split_and!.
  - apply final_reachable; by destruct h; vm_compute.
  - apply pairedb_paired. by destruct h; vm_compute.
  - apply map_size_empty_iff. by destruct h; vm_compute.
  - by destruct h; vm_compute.
Qed.
