(** * Accounting per memory resource. *)

From stdpp Require Import base gmap list.
From Verif Require Import Lang Common Client Spec SpecRun Rep Effect RunLemmas Refine Headers Hist
  LogSpec LogProof OpSpec OpProps ClientProps.

Section balance.
Context {E : Env} (HA : AllocReq E).
Notation A := (eA E).
Notation V := (eV E).
Implicit Types s : store E.
Notation lstate := (gmap loc (A * bty * option ty)).

(** Successful allocations from, and deallocations to, resource [r]. *)
Definition alloc_res (r : nat) (e : event E) : bool :=
  match e with EvAlloc a _ _ => Nat.eqb (a_res E a) r | _ => false end.
Definition dealloc_res (r : nat) (e : event E) : bool :=
  match e with EvDealloc a _ _ => Nat.eqb (a_res E a) r | _ => false end.

Definition by_res (r : nat) (m : lstate) : lstate :=
  filter (fun p : loc * (A * bty * option ty) => a_res E p.2.1.1 = r) m.

Lemma by_res_insert r l a b o m :
  m !! l = None \/ (exists b' o', m !! l = Some (a, b', o')) ->
  size (by_res r (<[l := (a, b, o)]> m)) =
    match m !! l with
    | None => (if Nat.eqb (a_res E a) r then 1 else 0) + size (by_res r m)
    | Some _ => size (by_res r m)
    end.
Proof.
  intros Hl. unfold by_res. destruct (Nat.eqb_spec (a_res E a) r) as [Hr|Hr].
  - rewrite map_filter_insert_True by done. rewrite map_size_insert.
    destruct Hl as [Hl|(b' & o' & Hl)]; rewrite Hl.
    + rewrite (proj2 (map_filter_lookup_None _ _ _)) by (by left). simpl. lia.
    + erewrite (proj2 (map_filter_lookup_Some _ _ _ _)); [|split; [exact Hl|done]]. simpl. lia.
  - rewrite map_filter_insert_False by done. rewrite map_filter_delete, map_size_delete.
    destruct Hl as [Hl|(b' & o' & Hl)]; rewrite Hl.
    + rewrite (proj2 (map_filter_lookup_None _ _ _)) by (by left). simpl. lia.
    + rewrite (proj2 (map_filter_lookup_None _ _ _)); [simpl; lia|].
      right. intros x Hx. rewrite Hl in Hx. by simplify_eq.
Qed.

Lemma by_res_delete r l a b o m :
  m !! l = Some (a, b, o) ->
  size (by_res r m) = (if Nat.eqb (a_res E a) r then 1 else 0) + size (by_res r (delete l m)).
Proof.
  intros Hl. unfold by_res. rewrite map_filter_delete, map_size_delete.
  destruct (Nat.eqb_spec (a_res E a) r) as [Hr|Hr].
  - assert (Hin : filter (fun p : loc * (A * bty * option ty) => a_res E p.2.1.1 = r) m !! l = Some (a, b, o)).
    { apply map_filter_lookup_Some. done. }
    rewrite Hin.
    assert (size (filter (fun p : loc * (A * bty * option ty) => a_res E p.2.1.1 = r) m) <> 0).
    { intros H. apply map_size_empty_iff in H. rewrite H in Hin. by rewrite lookup_empty in Hin. }
    simpl. lia.
  - rewrite (proj2 (map_filter_lookup_None _ _ _)); [simpl; lia|].
    right. intros x Hx. rewrite Hl in Hx. by simplify_eq.
Qed.

Lemma check_total_res r tr m :
  check tr = Some m -> count (alloc_res r) tr = count (dealloc_res r) tr + size (by_res r m).
Proof.
  revert m. induction tr as [|e tr IH]; simpl; intros m Hm.
  { simplify_eq. unfold by_res. by rewrite map_filter_empty, map_size_empty. }
  destruct (check tr) as [m0|] eqn:H0; [|done]. specialize (IH m0 eq_refl).
  rewrite !count_cons. destruct e as [a b l|a b e|a b l|a t l x|a t l x e|a t l|t l x|t l x e]; simpl in *.
  - destruct (m0 !! l) eqn:Hl; simplify_eq. rewrite by_res_insert, Hl by auto. lia.
  - simplify_eq. lia.
  - destruct (m0 !! l) as [[[a' b'] [t|]]|] eqn:Hl; try done.
    destruct (_ && _) eqn:Hc; simplify_eq. apply andb_true_iff in Hc as [_ Hc%Nat.eqb_eq].
    rewrite (by_res_delete r l _ _ _ _ Hl) in IH. rewrite Hc. lia.
  - destruct (m0 !! l) as [[[a' b'] [t'|]]|] eqn:Hl; try done. destruct (_ && _); simplify_eq.
    rewrite by_res_insert, Hl by eauto. lia.
  - destruct (m0 !! l) as [[[a' b'] [t'|]]|] eqn:Hl; try done. destruct (_ && _); simplify_eq. lia.
  - destruct (m0 !! l) as [[[a' b'] [t'|]]|] eqn:Hl; try done. destruct (bool_decide _); simplify_eq.
    rewrite by_res_insert, Hl by eauto. lia.
  - destruct (m0 !! l) as [[[a' b'] [t'|]]|] eqn:Hl; try done. destruct (_ && _); simplify_eq. lia.
  - destruct (m0 !! l) as [[[a' b'] [t'|]]|] eqn:Hl; try done. destruct (_ && _); simplify_eq. lia.
Qed.

Lemma size_map_inj {K1 K2} `{Countable K1, Countable K2} (f : K1 -> K2) (D : gset K1) :
  (forall x y, x ∈ D -> y ∈ D -> f x = f y -> x = y) -> size (set_map f D : gset K2) = size D.
Proof.
  induction D as [|w D Hw IH] using set_ind_L; intros Hinj.
  { by rewrite set_map_empty. }
  rewrite set_map_union_L, set_map_singleton_L.
  rewrite !size_union, !size_singleton, IH.
  - done.
  - intros. apply Hinj; set_solver.
  - set_solver.
  - apply disjoint_singleton_l. intros Hin. apply elem_of_map in Hin as (w' & Ho & Hw').
    apply Hw. rewrite (Hinj w w'); [done|set_solver|set_solver|done].
Qed.

(** The objects that own something allocated from resource [r]. *)
Definition engaged_res s (r : nat) : gset wl :=
  dom (filter (fun p : wl * (option (loc * ty * V) * A) => is_Some p.2.1 /\ a_res E p.2.2 = r) (view s)).

Lemma elem_engaged_res s r x :
  x ∈ engaged_res s r <-> exists l t v a, owns s x l t v a /\ a_res E a = r.
Proof.
  unfold engaged_res, owns. rewrite elem_of_dom. split.
  - intros [[o a] H]. apply map_filter_lookup_Some in H as [H [[[[l t] v] Ho] Hr]]. simpl in *. subst.
    exists l, t, v, a. done.
  - intros (l & t & v & a & H & Hr). eexists. apply map_filter_lookup_Some. split; [done|]. simpl. eauto.
Qed.

Lemma res_count k s r : Inv k s -> size (by_res r (summary (blocks s))) = size (engaged_res s r).
Proof.
  intros HI.
  set (own := owned_loc s).
  assert (Hd : dom (by_res r (summary (blocks s))) = set_map own (engaged_res s r) :> gset loc).
  { apply set_eq. intros l. rewrite elem_of_dom, elem_of_map. unfold by_res. split.
    - intros [[[a b] o] Hb]. apply map_filter_lookup_Some in Hb as [Hb Hr]. simpl in Hr.
      rewrite summary_lookup in Hb. destruct (blocks s !! l) as [b0|] eqn:Hb0; [|done].
      simpl in Hb. unfold sum_block in Hb. simplify_eq.
      destruct (rep_all _ _ _ _ HI _ _ Hb0) as (w & t & v & a & Hw).
      destruct (rep_own _ _ _ _ HI _ _ _ _ _ Hw) as (b' & Hb' & Hres & _). rewrite Hb0 in Hb'. simplify_eq.
      exists w. split; [unfold own, owned_loc; by rewrite Hw|]. apply elem_engaged_res.
      exists l, t, v, a. done.
    - intros (w & -> & Hw). apply elem_engaged_res in Hw as (l & t & v & a & Hw & Hr). unfold owns in Hw.
      unfold own, owned_loc. rewrite Hw. simpl.
      destruct (rep_own _ _ _ _ HI _ _ _ _ _ Hw) as (b & Hb & Hres & _).
      eexists. apply map_filter_lookup_Some. rewrite summary_lookup, Hb. split; [done|]. simpl. congruence. }
  rewrite <- (size_dom (D := gset loc)), Hd. apply size_map_inj.
  intros w1 w2 H1 H2 Ho. apply elem_engaged_res in H1 as (l1 & t1 & v1 & a1 & H1 & _).
  apply elem_engaged_res in H2 as (l2 & t2 & v2 & a2 & H2 & _). unfold owns in *.
  unfold own, owned_loc in Ho. rewrite H1, H2 in Ho.
  simpl in Ho. subst l2. by eapply (rep_inj _ _ _ _ HI).
Qed.

Lemma res_balance h s r :
  reachable h s ->
  count (alloc_res r) (trc s) = count (dealloc_res r) (trc s) + size (engaged_res s r).
Proof.
  intros Hr. rewrite <- (res_count _ _ r (reachable_inv HA h s Hr)).
  apply check_total_res. exact (reachable_logged h s Hr).
Qed.

End balance.
