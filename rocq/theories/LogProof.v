(** * Every execution that is not undefined leaves a correct log. *)

From stdpp Require Import base gmap list.
From Verif Require Import Lang Common Client Spec SpecRun Rep LogSpec Effect RunLemmas Hist.

Section logproof.
Context {E : Env}.
Notation A := (eA E).
Notation V := (eV E).
Implicit Types s : store E.

Definition sum_block (b : block E) : A * bty * option ty :=
  (b_a b, b_ty b, match b_obj b with OLive t _ => Some t | _ => None end).
Definition summary (B : gmap loc (block E)) : gmap loc (A * bty * option ty) := sum_block <$> B.

(** The log is correct and leads exactly to the current heap. *)
Definition logged s : Prop := check (trc s) = Some (summary (blocks s)).

Lemma summary_lookup B l : summary B !! l = sum_block <$> B !! l.
Proof. apply lookup_fmap. Qed.

Lemma summary_upd_ref r v s : summary (blocks (upd_ref r v s)) = summary (blocks s).
Proof.
  destruct r as [l|n]; [|done]. simpl. apply map_eq. intros l'. rewrite !summary_lookup.
  destruct (decide (l = l')) as [<-|Hne]; [|by rewrite lookup_alter_ne].
  rewrite lookup_alter. destruct (blocks s !! l) as [b|]; [|done]. simpl. f_equal.
  unfold sum_block. by destruct b as [? ? ? []].
Qed.
Lemma summary_upd_src x v s : summary (blocks (upd_src x v s)) = summary (blocks s).
Proof. destruct x as [c|[] r]; try done; apply summary_upd_ref. Qed.

Lemma trc_upd_ref r v s : trc (upd_ref r v s) = trc s.
Proof. by destruct r. Qed.
Lemma trc_upd_src (x : arg E) v s : trc (upd_src x v s) = trc s.
Proof. by destruct x as [|[] []]. Qed.

Lemma deref_summary l s o :
  deref (RBlk l) s = inr o -> exists a b, summary (blocks s) !! l = Some (a, b, Some o.1).
Proof.
  simpl. rewrite summary_lookup. destruct (blocks s !! l) as [b|]; [|done].
  destruct (b_obj b) as [|t v|] eqn:Ho; intros; simplify_eq. simpl. unfold sum_block. rewrite Ho. eauto.
Qed.

Lemma deref_src_ok k r s o : deref r s = inr o -> src_ok (ARef k r) (summary (blocks s)) = true.
Proof.
  destruct r as [l|n]; [|done]. intros H. apply deref_summary in H as (a & b & H). simpl. by rewrite H.
Qed.

Lemma cons_vals_src_ok a t x s r :
  cons_vals a t x s = inr r -> src_ok x (summary (blocks s)) = true.
Proof.
  destruct x as [c|k rf]; [done|]. intros H. unfold cons_vals in H.
  destruct (deref rf s) as [u|o] eqn:Hd; [done|]. by eapply deref_src_ok.
Qed.

Lemma asgn_vals_src_ok l t0 v0 x s r o :
  deref (RBlk l) s = inr o ->
  asgn_vals l t0 v0 x s = inr r -> src_ok x (summary (blocks s)) = true.
Proof.
  intros Hl. destruct x as [c|k rf]; [done|]. intros H. unfold asgn_vals in H.
  case_bool_decide as Hr; [subst rf; by eapply deref_src_ok|].
  destruct (deref rf s) as [u|o'] eqn:Hd; [done|]. by eapply deref_src_ok.
Qed.

Lemma pop_trc s r s1 : pop s = (r, s1) -> blocks s1 = blocks s /\ trc s1 = trc s.
Proof. unfold pop. destruct (orc s); intros; simplify_eq; done. Qed.

Lemma storage_for_ty t (b : block E) : storage_for t b = true -> bty_obj (b_ty b) = t.
Proof.
  unfold storage_for. destruct (b_ty b) as [t'|t'], (b_hdr b) as [|t'' p]; try done.
  - intros H. by apply bool_decide_eq_true in H.
  - intros H. apply andb_true_iff in H as [H _]. by apply bool_decide_eq_true in H.
Qed.

Lemma summary_insert l b B : summary (<[l := b]> B) = <[l := sum_block b]> (summary B).
Proof. apply fmap_insert. Qed.
Lemma summary_insert_id l b b' B :
  B !! l = Some b -> sum_block b' = sum_block b -> summary (<[l := b']> B) = summary B.
Proof.
  intros Hl Hb. rewrite summary_insert, Hb. apply insert_id. by rewrite summary_lookup, Hl.
Qed.

Lemma exec_logged {R} (p : prim E R) s :
  logged s -> match exec p s with ROk _ s' => logged s' | _ => True end.
Proof.
  unfold logged. intros HL.
  destruct p as [a b|a bt l|a t l x|a t l|a t l|t l|t l x|w|w p|w|w a|w p a|w|t l|l p|l|l
                |r|r f|n t v|u|]; simpl.
  - (* allocate *)
    destruct (pop s) as [[h|e] s1] eqn:Hp; apply pop_trc in Hp as [Hb Ht]; simpl; rewrite Ht, HL.
    + rewrite summary_lookup, choose_fresh. simpl. by rewrite summary_insert.
    + simpl. by rewrite Hb.
  - (* deallocate *)
    destruct (blocks s !! l) as [b|] eqn:Hl; [|done].
    case_bool_decide as Hbt; [|done]. simpl. destruct (Nat.eqb _ _) eqn:Hr; [|done]. simpl.
    destruct (b_obj b) eqn:Ho; try done. simpl. rewrite HL, summary_lookup, Hl. simpl.
    rewrite Ho. rewrite bool_decide_true by done. rewrite Hr. simpl.
    unfold summary. by rewrite fmap_delete.
  - (* construct *)
    destruct (blocks s !! l) as [b|] eqn:Hl; [|done].
    destruct (storage_for t b) eqn:Hst; [|done]. simpl.
    destruct (b_obj b) eqn:Ho; try done.
    destruct (cons_vals a t x s) as [u|[[v v1] v2]] eqn:Hv; [done|].
    pose proof (cons_vals_src_ok _ _ _ _ _ Hv) as Hsrc.
    apply storage_for_ty in Hst.
    destruct (pop s) as [[h|e] s1] eqn:Hp; apply pop_trc in Hp as [Hb Ht]; simpl.
    + rewrite trc_upd_src, Ht, HL. rewrite summary_lookup, Hl. simpl.
      rewrite Ho. rewrite bool_decide_true by done.
      rewrite Hsrc. simpl. f_equal. rewrite <- Hb. symmetry.
      assert (Hs : summary (blocks (upd_src x v1 s1)) !! l = Some (b_a b, b_ty b, None)).
      { rewrite summary_upd_src, Hb, summary_lookup, Hl. simpl. unfold sum_block. by rewrite Ho. }
      rewrite summary_lookup in Hs.
      destruct (blocks (upd_src x v1 s1) !! l) as [b'|] eqn:Hb'; [|done].
      simpl in Hs. unfold sum_block in Hs. destruct b' as [a' bt' h' o']. simplify_eq/=.
      rewrite <- (summary_upd_src x v1 s1).
      apply map_eq. intros l'. rewrite summary_lookup.
      destruct (decide (l = l')) as [<-|Hne].
      * rewrite lookup_alter, lookup_insert, Hb'. done.
      * rewrite lookup_alter_ne, lookup_insert_ne by done. by rewrite summary_lookup.
    + rewrite trc_upd_src, Ht, HL. rewrite summary_lookup, Hl. simpl.
      rewrite Ho. rewrite bool_decide_true by done.
      rewrite Hsrc. simpl. by rewrite summary_upd_src, Hb.
  - (* destroy *)
    destruct (blocks s !! l) as [b|] eqn:Hl; [|done].
    destruct (b_obj b) eqn:Ho; try done. case_bool_decide; [|done]. simpl. rewrite HL.
    rewrite summary_lookup, Hl. simpl. rewrite Ho.
    rewrite bool_decide_true by done. f_equal. by rewrite summary_insert.
  - destruct (blocks s !! l) as [b|] eqn:Hl; [|done].
    destruct (b_obj b) eqn:Ho; try done. case_bool_decide; [|done]. simpl. rewrite HL.
    rewrite summary_lookup, Hl. simpl. rewrite Ho.
    rewrite bool_decide_true by done. f_equal. by rewrite summary_insert.
  - destruct (blocks s !! l) as [b|] eqn:Hl; [|done].
    destruct (b_obj b) eqn:Ho; try done. case_bool_decide; [|done]. simpl. rewrite HL. f_equal.
    symmetry. eapply summary_insert_id; [done|]. unfold sum_block. by rewrite Ho.
  - (* assign *)
    destruct (deref (RBlk l) s) as [u|[t0 v0]] eqn:Hd; [simpl in Hd; by rewrite Hd|].
    pose proof Hd as Hd'. simpl in Hd'. rewrite Hd'.
    case_bool_decide as Ht0; [|done]. simpl. subst t0.
    destruct (asgn_vals l t v0 x s) as [u|[[d v] [df vf]]] eqn:Hv; [done|].
    pose proof (asgn_vals_src_ok _ _ _ _ _ _ _ Hd Hv) as Hsrc.
    apply deref_summary in Hd as (a & b & Hs). simpl in Hs.
    destruct (pop s) as [[h|e] s1] eqn:Hp; apply pop_trc in Hp as [Hb Ht].
    + change (check (EvAsgn t l x :: trc (upd_src x v s1)) =
              Some (summary (blocks (upd_ref (RBlk l) d (upd_src x v s1))))).
      rewrite trc_upd_src, Ht, summary_upd_ref, summary_upd_src, Hb. simpl. rewrite HL, Hs.
      rewrite bool_decide_true by done. by rewrite Hsrc.
    + change (check (EvAsgnFail t l x e :: trc (upd_src x vf s1)) =
              Some (summary (blocks (upd_ref (RBlk l) df (upd_src x vf s1))))).
      rewrite trc_upd_src, Ht, summary_upd_ref, summary_upd_src, Hb. simpl. rewrite HL, Hs.
      rewrite bool_decide_true by done. by rewrite Hsrc.
  - destruct (wraps s !! w) as [c|]; [|done]. by destruct (w_p c).
  - by destruct (wraps s !! w).
  - by destruct (wraps s !! w).
  - by destruct (wraps s !! w).
  - by destruct (wraps s !! w).
  - by destruct (wraps s !! w).
  - destruct (blocks s !! l) as [b|] eqn:Hl; [|done]. destruct (b_hdr b), (b_obj b) eqn:Ho; try done.
    case_bool_decide; [|done]. simpl. rewrite HL. f_equal. symmetry.
    eapply summary_insert_id; [done|]. done.
  - destruct (blocks s !! l) as [b|] eqn:Hl; [|done]. destruct (b_hdr b); try done.
    simpl. rewrite HL. f_equal. symmetry. eapply summary_insert_id; [done|]. done.
  - destruct (blocks s !! l) as [b|] eqn:Hl; [|done]. by destruct (b_hdr b) as [|? []].
  - destruct (blocks s !! l) as [b|] eqn:Hl; [|done]. by destruct (b_hdr b).
  - by destruct (deref r s).
  - destruct (deref r s) as [|[]]; [done|]. by rewrite trc_upd_ref, summary_upd_ref.
  - done.
  - done.
  - done.
Qed.

Lemma run_logged {X} (p : prog E X) s :
  logged s ->
  match run p s with ORet _ s' | OThrow _ s' => logged s' | _ => True end.
Proof.
  revert s. induction p as [x|e|R a k IH]; intros s HL; simpl; [done|done|].
  pose proof (exec_logged a s HL) as H. destruct (exec a s); [by apply IH|done|done].
Qed.

Lemma client_logged I (c : client E) s :
  logged s -> match run_client I c s with HOk _ s' => logged s' | _ => True end.
Proof.
  revert s. induction c as [|o next IH]; intros s HL; simpl; [done|].
  pose proof (run_logged (interp I o) s HL) as H.
  destruct (run (interp I o) s) as [x s'|e s'|u|]; [| |done|done].
  - specialize (IH (inl x) s' H). by destruct (run_client _ _ _).
  - specialize (IH (inr e) s' H). by destruct (run_client _ _ _).
Qed.

Lemma init_logged X O : logged (init X O : store E).
Proof. unfold logged, init, summary. simpl. by rewrite fmap_empty. Qed.

(** ** Counting owned blocks *)

Definition engaged_wraps s : gset wl :=
  dom (filter (fun p : wl * (option (loc * ty * V) * A) => is_Some p.2.1) (view s)).

Lemma elem_engaged w s :
  w ∈ engaged_wraps s <-> exists l t v a, view s !! w = Some (Some (l, t, v), a).
Proof.
  unfold engaged_wraps. rewrite elem_of_dom. split.
  - intros [[o a] H]. apply map_filter_lookup_Some in H as [H [[[l t] v] Ho]]. simpl in Ho. subst. eauto.
  - intros (l & t & v & a & H). eexists. apply map_filter_lookup_Some. split; [done|]. simpl. eauto.
Qed.

Definition owned_loc s (w : wl) : loc :=
  match view s !! w with Some (Some o, _) => o.1.1 | _ => O end.

(** The owning wrapper determines the block and conversely. *)
Lemma blocks_count k s : Inv k s -> size (blocks s) = size (engaged_wraps s).
Proof.
  intros HI.
  set (own := owned_loc s).
  assert (Hd : dom (blocks s) = set_map own (engaged_wraps s) :> gset loc).
  { apply set_eq. intros l. rewrite elem_of_dom, elem_of_map. split.
    - intros [b Hb]. destruct (rep_all _ _ _ _ HI _ _ Hb) as (w & t & v & a & Hw).
      exists w. split; [unfold own, owned_loc; by rewrite Hw|]. apply elem_engaged. eauto.
    - intros (w & -> & Hw). apply elem_engaged in Hw as (l & t & v & a & Hw).
      unfold own, owned_loc. rewrite Hw. destruct (rep_own _ _ _ _ HI _ _ _ _ _ Hw) as (b & Hb & _). eauto. }
  rewrite <- (size_dom (D := gset loc)), Hd.
  assert (Hinj : forall w1 w2, w1 ∈ engaged_wraps s -> w2 ∈ engaged_wraps s -> own w1 = own w2 -> w1 = w2).
  { intros w1 w2 H1 H2 Ho. apply elem_engaged in H1 as (l1 & t1 & v1 & a1 & H1).
    apply elem_engaged in H2 as (l2 & t2 & v2 & a2 & H2). unfold own, owned_loc in Ho. rewrite H1, H2 in Ho.
    simpl in Ho. subst l2. by eapply (rep_inj _ _ _ _ HI). }
  clear Hd HI. revert Hinj. generalize (engaged_wraps s). intros D.
  induction D as [|w D Hw IH] using set_ind_L; intros Hinj.
  { by rewrite set_map_empty. }
  rewrite set_map_union_L, set_map_singleton_L.
  rewrite !size_union, !size_singleton, IH.
  - done.
  - intros. apply Hinj; set_solver.
  - set_solver.
  - apply disjoint_singleton_l. intros Hin. apply elem_of_map in Hin as (w' & Ho & Hw').
    apply Hw. rewrite (Hinj w w'); [done|set_solver|set_solver|done].
Qed.

End logproof.
