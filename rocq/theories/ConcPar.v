(** * Threads over wrappers that own wrappers.

    The invariant of ConcProps.v for programs whose blocks may contain wrapper objects
    ([WMem]): such an object belongs to whoever owns its block.  The threads run any programs
    [ps] that are tidy and, alone on the memory they can see, never do anything undefined. *)

From stdpp Require Import base gmap list relations functions.
From Verif Require Import Lang Common Client Spec Rep RunLemmas Headers Hist Draft Tree Conc ConcStatic ConcExec ConcProps ContractTidy.

Section single.
Context {E : Env}.
Implicit Types s : store E.

(** Which wrapper objects an action changes. *)
Lemma exec_wraps {R} (a : prim E R) s r s' w :
  exec a s = ROk r s' ->
  wraps s' !! w = wraps s !! w \/ is_Some (wraps s !! w) \/ match a with PNewW w0 _ _ => w = w0 | _ => False end.
Proof.
  intros H. destruct (wraps s !! w) as [c|] eqn:Hw; [by right; left; eexists|].
  destruct a; cbn in H.
  - destruct (pop_eq s) as (q & o & Hq & _). rewrite Hq in H. destruct q; simplify_eq/=; by left.
  - repeat (case_match; try done); simplify_eq/=; by left.
  - destruct (blocks s !! l) as [b0|]; [|done]. destruct (negb _); [done|].
    destruct (b_obj b0); try done. destruct (cons_vals a t x s) as [|[[v v1] v2]]; [done|].
    destruct (pop_eq s) as (q' & o & Hq & _). rewrite Hq in H. rewrite !upd_src_orc_c in H.
    destruct q' as [h|e]; simplify_eq/=; rewrite upd_src_wraps; by left.
  - repeat (case_match; try done); simplify_eq/=; by left.
  - repeat (case_match; try done); simplify_eq/=; by left.
  - repeat (case_match; try done); simplify_eq/=; by left.
  - destruct (match blocks s !! l with Some _ => _ | None => _ end) as [|[t0 v0]]; [done|].
    destruct (negb _); [done|]. destruct (asgn_vals l t0 v0 x s) as [|[[d v] [df vf]]]; [done|].
    destruct (pop_eq s) as (q' & o & Hq & _). rewrite Hq in H. rewrite !upd_src_orc_c in H.
    destruct q' as [h|e]; simplify_eq/=; rewrite upd_src_wraps; by left.
  - repeat (case_match; try done); simplify_eq/=; by left.
  - destruct (wraps s !! w0) eqn:H0; simplify_eq/=. left. rewrite lookup_insert_ne; congruence.
  - repeat (case_match; try done); simplify_eq/=; by left.
  - destruct (wraps s !! w0) eqn:H0; simplify_eq/=. left. rewrite lookup_insert_ne; congruence.
  - destruct (wraps s !! w0) eqn:H0; simplify_eq/=. destruct (decide (w = w0)); [by right; right|].
    left. by rewrite lookup_insert_ne.
  - destruct (wraps s !! w0) eqn:H0; simplify_eq/=. left. rewrite lookup_delete_ne; congruence.
  - repeat (case_match; try done); simplify_eq/=; by left.
  - repeat (case_match; try done); simplify_eq/=; by left.
  - repeat (case_match; try done); simplify_eq/=; by left.
  - repeat (case_match; try done); simplify_eq/=; by left.
  - repeat (case_match; try done); simplify_eq/=; by left.
  - destruct (deref r0 s) as [|[]]; simplify_eq. rewrite upd_ref_wraps. by left.
  - simplify_eq/=. by left.
  - done.
  - done.
Qed.

(** Blocks disappear only by being deallocated. *)
Lemma exec_blocks {R} (a : prim E R) s r s' l :
  exec a s = ROk r s' -> is_Some (blocks s !! l) ->
  is_Some (blocks s' !! l) \/ match a with PDealloc _ _ l0 => l = l0 | _ => False end.
Proof.
  intros H [b Hb].
  assert (Hins : forall l1 b1, is_Some (<[l1 := b1]> (blocks s) !! l)).
  { intros l1 b1. destruct (decide (l1 = l)) as [->|]; [rewrite lookup_insert; by eexists|]. rewrite lookup_insert_ne, Hb by done. by eexists. }
  assert (Hsrc : forall (x : arg E) v, is_Some (blocks (upd_src x v s) !! l)).
  { intros x v. destruct (upd_src_ref x v s) as [->|[r' ->]]; [by eexists|apply upd_ref_dom; by eexists]. }
  assert (Halt : forall f l1 (B : gmap loc (block E)), is_Some (B !! l) -> is_Some (alter f l1 B !! l)).
  { intros f l1 B HB. destruct (decide (l1 = l)) as [->|]; [by rewrite lookup_alter, fmap_is_Some|by rewrite lookup_alter_ne]. }
  destruct a; cbn in H.
  - destruct (pop_eq s) as (q & o & Hq & _). rewrite Hq in H. destruct q; simplify_eq/=; left; [apply Hins|by eexists].
  - repeat (case_match; try done); simplify_eq/=. destruct (decide (l = l0)); [by right|left]. rewrite lookup_delete_ne, Hb by done. by eexists.
  - destruct (blocks s !! l0) as [b0|]; [|done]. destruct (negb _); [done|].
    destruct (b_obj b0); try done. destruct (cons_vals a t x s) as [|[[v v1] v2]]; [done|].
    destruct (pop_eq s) as (q' & o & Hq & _). rewrite Hq in H. rewrite !upd_src_orc_c in H.
    destruct q' as [h|e]; simplify_eq/=; left; [by apply Halt|by apply Hsrc].
  - repeat (case_match; try done); simplify_eq/=; left; apply Hins.
  - repeat (case_match; try done); simplify_eq/=; left; apply Hins.
  - repeat (case_match; try done); simplify_eq/=; left; apply Hins.
  - destruct (match blocks s !! l0 with Some _ => _ | None => _ end) as [|[t0 v0]]; [done|].
    destruct (negb _); [done|]. destruct (asgn_vals l0 t0 v0 x s) as [|[[d v] [df vf]]]; [done|].
    destruct (pop_eq s) as (q' & o & Hq & _). rewrite Hq in H. rewrite !upd_src_orc_c in H.
    destruct q' as [h|e]; simplify_eq/=; left; by apply Halt.
  - repeat (case_match; try done); simplify_eq/=; left; by eexists.
  - repeat (case_match; try done); simplify_eq/=; left; by eexists.
  - repeat (case_match; try done); simplify_eq/=; left; by eexists.
  - repeat (case_match; try done); simplify_eq/=; left; by eexists.
  - repeat (case_match; try done); simplify_eq/=; left; by eexists.
  - repeat (case_match; try done); simplify_eq/=; left; by eexists.
  - repeat (case_match; try done); simplify_eq/=; left; apply Hins.
  - repeat (case_match; try done); simplify_eq/=; left; apply Hins.
  - repeat (case_match; try done); simplify_eq/=; left; by eexists.
  - repeat (case_match; try done); simplify_eq/=; left; by eexists.
  - repeat (case_match; try done); simplify_eq/=; left; by eexists.
  - destruct (deref r0 s) as [|[]]; simplify_eq. left. apply upd_ref_dom. by eexists.
  - simplify_eq/=. left. by eexists.
  - done.
  - done.
Qed.

Lemma exec_mem_ok {R} (a : prim E R) s r s' : mem_ok s -> tidy1 a s -> exec a s = ROk r s' -> mem_ok s'.
Proof.
  intros HM Ht Hx l i Hi.
  assert (Hl : is_Some (blocks s !! l)).
  { destruct (exec_wraps a s r s' (WMem l i) Hx) as [Heq|[Hs|Hn]].
    - rewrite Heq in Hi. by apply (HM l i).
    - by apply (HM l i).
    - destruct a; try done. subst. done. }
  destruct (exec_blocks a s r s' l Hx Hl) as [?|Hd]; [done|]. destruct a; try done. subst. cbn in Ht, Hx.
  specialize (Ht i). repeat (case_match; try done); simplify_eq/=. rewrite Ht in Hi. by destruct Hi.
Qed.

Lemma exec_no_new {R} (a : prim E R) s r s' l i :
  mem_ok s -> tidy1 a s -> exec a s = ROk r s' -> blocks s !! l = None -> wraps s' !! WMem l i = None.
Proof.
  intros HM Ht Hx Hl. assert (Hn : wraps s !! WMem l i = None).
  { destruct (wraps s !! WMem l i) eqn:Hw; [|done]. destruct (HM l i) as [? ?]; [by eexists|congruence]. }
  destruct (exec_wraps a s r s' (WMem l i) Hx) as [Heq|[Hs|Hw]].
  - congruence.
  - rewrite Hn in Hs. by destruct Hs.
  - destruct a; try done. subst. destruct Ht as [? ?]. congruence.
Qed.

(** A member that is accessed lies in an allocated block. *)
Lemma access_mem {R} (a : prim E R) s s1 l i :
  mem_ok s -> tidy1 a s -> (forall u o, exec a (set_orc o s) <> RUB u) ->
  writes a s1 (MWrap (WMem l i)) \/ reads a (MWrap (WMem l i)) -> is_Some (blocks s !! l).
Proof.
  intros HM Ht Hu Ha. specialize (fun u => Hu u []).
  assert (Hr : forall r, MWrap (WMem l i) <> mref r) by (by intros []).
  assert (Hs : forall w, MWrap (WMem l i) = MWrap w -> (wraps s !! w = None -> False) -> is_Some (blocks s !! l)).
  { intros w [= <-] Hw. apply (HM l i). destruct (wraps s !! WMem l i); [by eexists|]. by destruct Hw. }
  destruct a; cbn in Ha, Hu.
  all: try (by destruct Ha as [?|?]).
  - destruct Ha as [[?|Ha]|Ha]; [done|destruct x as [|[] r]; try done; [by destruct Ha as [?%Hr _]|by apply Hr in Ha]|destruct x as [|[] r]; try done; by apply Hr in Ha].
  - destruct Ha as [[?|Ha]|Ha]; [done|destruct x as [|[] r]; try done; by apply Hr in Ha|destruct x as [|[] r]; try done; by apply Hr in Ha].
  - destruct Ha as [?|Ha]; [done|]. apply (Hs _ Ha). intros Hw. rewrite Hw in Hu. by edestruct Hu.
  - destruct Ha as [Ha|?]; [|done]. apply (Hs _ Ha). intros Hw. rewrite Hw in Hu. by edestruct Hu.
  - destruct Ha as [?|Ha]; [done|]. apply (Hs _ Ha). intros Hw. rewrite Hw in Hu. by edestruct Hu.
  - destruct Ha as [Ha|?]; [|done]. apply (Hs _ Ha). intros Hw. rewrite Hw in Hu. by edestruct Hu.
  - destruct Ha as [Ha|?]; [|done]. by simplify_eq.
  - destruct Ha as [Ha|?]; [|done]. apply (Hs _ Ha). intros Hw. rewrite Hw in Hu. by edestruct Hu.
  - destruct Ha as [?|Ha]; [done|]. by apply Hr in Ha.
  - destruct Ha as [Ha|?]; [|done]. by apply Hr in Ha.
Qed.

Lemma mon_not_ub' rob own ownx {X R} (a : prim E R) (k : R -> prog E X) s :
  mon rob own ownx (Act a k) s -> forall o u, exec a (set_orc o s) <> RUB u.
Proof. intros [_ H] o u Hx. specialize (H o). by rewrite Hx in H. Qed.
End single.

Section threads.
Context {E : Env} (HC : CopyReq E) {Z : Type}.
(** Who owns which variable ([None]: it is shared), the blocks of the shared variables, the
    threads' programs, the memory each can see, all memory. *)
Context (o : nat -> option nat) (rob : gset loc) (ps : list (prog E Z)) (L0 : nat -> store E) (S0 : store E).
Implicit Types s : store E.
Implicit Types C : config E Z.

Definition own_of (i : nat) (w : wl) : Prop := match w with WVar n => o n = Some i | WMem l _ => l ∉ rob end.
Notation nox := (fun _ : nat => False).
Notation mon i := (mon rob (own_of i) nox).
Notation fenced i := (fenced rob (own_of i)).

Record thread_inv C (L : store E) (i : nat) (p : prog E Z) (tr : list (event E)) : Prop := {
  ti_mon : mon i p L;
  ti_tidy : forall q, tidy p (set_orc q L);
  ti_fence : fenced i L;
  ti_trc : trc L = tr;
  ti_b : blocks L ⊆ c_blocks C;
  ti_w : wraps L ⊆ c_wraps C;
  ti_x : exts L = exts S0;
  ti_mem : mem_ok L;
  ti_own : forall n, o n = Some i -> wraps L !! WVar n = c_wraps C !! WVar n;
  ti_sub : forall l j, is_Some (blocks L !! l) -> wraps L !! WMem l j = c_wraps C !! WMem l j;
  ti_vis : forall n, is_Some (wraps L !! WVar n) -> o n = None \/ o n = Some i;
  ti_hist : exists p0 u, ps !! i = Some p0 /\
    forall rest, run p0 (set_orc (u ++ rest) (L0 i)) = run p (set_orc rest L);
}.

Record conf_inv C (L : nat -> store E) : Prop := {
  ci_thread : forall i p tr, c_threads C !! i = Some (p, tr) -> thread_inv C (L i) i p tr;
  ci_len : length (c_threads C) = length ps;
  ci_sep : forall i j l, i < length ps -> j < length ps -> i <> j ->
    is_Some (blocks (L i) !! l) -> is_Some (blocks (L j) !! l) -> l ∈ rob;
  ci_mem : forall l k, is_Some (c_wraps C !! WMem l k) -> is_Some (c_blocks C !! l);
  ci_w : forall n, o n = None -> c_wraps C !! WVar n = wraps S0 !! WVar n;
  ci_wm : forall l k, l ∈ rob -> c_wraps C !! WMem l k = wraps S0 !! WMem l k;
  ci_x : c_exts C = exts S0;
  ci_b : forall l, l ∈ rob -> c_blocks C !! l = blocks S0 !! l;
  ci_cov : (forall n i, o n = Some i -> i < length ps) ->
    forall l, is_Some (c_blocks C !! l) -> l ∈ rob \/ exists i, i < length ps /\ is_Some (blocks (L i) !! l);
}.

Lemma thread_step C L i R (a : prim E R) k tr r :
  c_exts C = exts S0 -> thread_inv C L i (Act a k) tr ->
  match exec a (seen C r tr) with
  | ROk v S' =>
      exists o s', exec a (set_orc o L) = ROk v s' /\ trc s' = trc S' /\
        patched L s' (seen C r tr) S' /\
        (forall l, blocks L !! l = None -> is_Some (blocks s' !! l) -> c_blocks C !! l = None)
  | RUB _ => False
  | RTerm => True
  end.
Proof.
  intros HX HT. apply (exec_frame a L (seen C r tr) r).
  - split; cbn; [apply HT|apply HT|]. rewrite (ti_x _ _ _ _ _ HT), HX. done.
  - done.
  - simpl. symmetry. apply HT.
  - eapply mon_not_ub', HT.
  - pose proof (ti_mon _ _ _ _ _ HT) as [Hok _]. pose proof (ti_tidy _ _ _ _ _ HT []) as [Ht _].
    destruct a as [| | | | | | | | | | |[n|l j] q a0| | | | | | | | | |]; try done; symmetry.
    + apply (ti_own _ _ _ _ _ HT). apply Hok.
    + by apply (ti_sub _ _ _ _ _ HT).
Qed.

Lemma step_inv C C' L : conf_inv C L -> cstep C C' -> exists L', conf_inv C' L'.
Proof.
  intros HG Hst. destruct Hst as [i R a k tr r v S' Hi Hx].
  pose proof (ci_thread _ _ HG _ _ _ Hi) as HT.
  pose proof (thread_step _ _ _ _ _ _ _ r (ci_x _ _ HG) HT) as Hf. rewrite Hx in Hf.
  destruct Hf as (q & s' & Hx' & Htr & [Pb Pw Px] & Hnew).
  pose proof (ti_mon _ _ _ _ _ HT) as [Hok Hmon]. specialize (Hmon q). rewrite Hx' in Hmon.
  pose proof (ti_tidy _ _ _ _ _ HT q) as [Htd _].
  assert (HM0 : mem_ok (set_orc q (L i))) by exact (ti_mem _ _ _ _ _ HT).
  assert (HM' := exec_mem_ok _ _ _ _ HM0 Htd Hx').
  assert (Hnn := fun l j => exec_no_new _ _ _ _ l j HM0 Htd Hx').
  assert (Hfe : fenced i (set_orc q (L i))) by apply (fenced_orc _ _ q), HT.
  pose proof (exec_untouched HC _ _ _ a _ _ _ (fe_dom _ _ _ Hfe) Hok Hx') as [Ub Uw Ux].
  pose proof (exec_fenced HC _ _ _ a _ _ _ Hfe Hok Hx') as [Hfe' _].
  simpl in Pb, Pw, Px, Ub, Uw, Ux, Hnn.
  assert (Sb : forall l, l ∈ rob -> blocks S' !! l = c_blocks C !! l).
  { intros l Hl. eapply patch_same; [apply HT|exact Pb|by apply Ub]. }
  assert (Sw : forall w, ~ own_of i w -> wraps S' !! w = c_wraps C !! w).
  { intros w Hw. eapply patch_same; [apply HT|exact Pw|by apply Uw]. }
  assert (Exs : exts s' = exts S0).
  { rewrite <- (ti_x _ _ _ _ _ HT). apply map_eq. intros n. by apply Ux; intros []. }
  assert (ExS : exts S' = exts S0).
  { rewrite <- (ci_x _ _ HG). apply map_eq. intros n. eapply (patch_same (exts (L i)) (exts s')); [|exact Px|by apply Ux; intros []].
    by rewrite (ti_x _ _ _ _ _ HT), (ci_x _ _ HG). }
  assert (Hno : forall l j, blocks (L i) !! l = None -> wraps (L i) !! WMem l j = None).
  { intros l j Hl. destruct (wraps (L i) !! WMem l j) eqn:Hw; [|done].
    destruct (ti_mem _ _ _ _ _ HT l j) as [? ?]; [by eexists|congruence]. }
  assert (Sm : forall l j, blocks (L i) !! l = None -> wraps S' !! WMem l j = c_wraps C !! WMem l j).
  { intros l j Hl. by rewrite (Pw (WMem l j)), (Hno l j Hl), (Hnn l j Hl). }
  assert (Hlen : i < length ps). { rewrite <- (ci_len _ _ HG). by eapply lookup_lt_Some. }
  assert (Hagree : forall w, wraps (L i) !! w = c_wraps C !! w -> wraps s' !! w = wraps S' !! w).
  { intros w Hw. rewrite (Pw w). destruct (wraps (L i) !! w), (wraps s' !! w); done. }
  assert (Hoth : forall j l m, i <> j -> j < length ps -> is_Some (blocks (L j) !! l) -> wraps S' !! WMem l m = c_wraps C !! WMem l m).
  { intros j l m Hij Hj Hl. destruct (decide (l ∈ rob)) as [Hr|Hr]; [apply Sw; by intros Hn|].
    apply Sm. destruct (blocks (L i) !! l) eqn:Hb; [|done]. destruct Hr. eapply (ci_sep _ _ HG i j); eauto. }
  exists (<[i := s']> L). split; cbn [c_threads c_blocks c_wraps c_exts].
  - intros j p tr' Hj. destruct (decide (i = j)) as [<-|Hne].
    + rewrite list_lookup_insert in Hj by (rewrite (ci_len _ _ HG); done). simplify_eq.
      rewrite fn_lookup_insert. split; cbn [c_threads c_blocks c_wraps c_exts].
      * done.
      * intros q'. destruct (exec_orc a q (L i) v s' Hx') as [o1 Ho1].
        pose proof (ti_tidy _ _ _ _ _ HT (o1 ++ q')) as [_ Hn]. by rewrite Ho1 in Hn.
      * done.
      * done.
      * by eapply patch_sub.
      * by eapply patch_sub.
      * done.
      * done.
      * intros n Hn. apply Hagree. by apply HT.
      * intros l j Hl. apply Hagree. destruct (blocks (L i) !! l) eqn:Hb; [apply HT; by eexists|].
        rewrite (Hno l j Hb). symmetry. destruct (c_wraps C !! WMem l j) eqn:HwC; [|done].
        destruct (ci_mem _ _ HG l j) as [? HbC]; [by eexists|]. by rewrite (Hnew l Hb Hl) in HbC.
      * intros n Hn. destruct (decide (o n = Some i)) as [Ho|Ho]; [by right|].
        rewrite Uw in Hn by done. by apply (ti_vis _ _ _ _ _ HT).
      * destruct (ti_hist _ _ _ _ _ HT) as (c & u & Hc & Hu).
        destruct (exec_orc a q (L i) v s' Hx') as [o1 Ho1].
        exists c, (u ++ o1). split; [done|]. intros rest. rewrite <- app_assoc, Hu. simpl. by rewrite Ho1.
    + rewrite list_lookup_insert_ne in Hj by done. rewrite fn_lookup_insert_ne by done.
      pose proof (ci_thread _ _ HG _ _ _ Hj) as HTj.
      assert (Hlj : j < length ps). { rewrite <- (ci_len _ _ HG). by eapply lookup_lt_Some. }
      split; cbn [c_threads c_blocks c_wraps c_exts]; try apply HTj.
      * apply map_subseteq_spec. intros l b Hb.
        pose proof (lookup_weaken _ _ _ _ Hb (ti_b _ _ _ _ _ HTj)) as HbC.
        destruct (decide (l ∈ rob)) as [Hl|Hl]; [by rewrite Sb|].
        destruct (blocks (L i) !! l) as [b1|] eqn:Hb1.
        { destruct Hl. eapply (ci_sep _ _ HG i j); eauto. }
        destruct (blocks s' !! l) as [b2|] eqn:Hb2.
        { rewrite Hnew in HbC by eauto. done. }
        by rewrite (Pb l), Hb1, Hb2.
      * apply map_subseteq_spec. intros w c Hw.
        pose proof (lookup_weaken _ _ _ _ Hw (ti_w _ _ _ _ _ HTj)) as HwC. rewrite <- HwC.
        destruct w as [n|l m]; [|apply (Hoth j); [done|done|]; apply (ti_mem _ _ _ _ _ HTj l m); by eexists].
        apply Sw. intros Ho. cbn in Ho. destruct (ti_vis _ _ _ _ _ HTj n (mk_is_Some _ _ Hw)); congruence.
      * intros n Hn. rewrite Sw; [by apply HTj|]. cbn. congruence.
      * intros l m Hl. rewrite (Hoth j); [by apply HTj|done|done|done].
  - by rewrite insert_length, (ci_len _ _ HG).
  - assert (Hsep : forall j l, j < length ps -> i <> j -> is_Some (blocks s' !! l) ->
        is_Some (blocks (L j) !! l) -> l ∈ rob).
    { intros j l Hj Hij H1 [b2 H2]. destruct (blocks (L i) !! l) as [b1|] eqn:Hb1.
      - by eapply (ci_sep _ _ HG i j); eauto.
      - destruct (lookup_lt_is_Some_2 (c_threads C) j) as [[p tr'] Hp];
          [by rewrite (ci_len _ _ HG)|].
        pose proof (lookup_weaken _ _ _ _ H2 (ti_b _ _ _ _ _ (ci_thread _ _ HG _ _ _ Hp))) as HbC.
        by rewrite Hnew in HbC. }
    intros j1 j2 l Hj1 Hj2 Hne H1 H2.
    destruct (decide (i = j1)) as [<-|N1].
    + rewrite fn_lookup_insert in H1. rewrite fn_lookup_insert_ne in H2 by done. by eapply Hsep.
    + rewrite fn_lookup_insert_ne in H1 by done. destruct (decide (i = j2)) as [<-|N2].
      * rewrite fn_lookup_insert in H2. eapply (Hsep j1); done.
      * rewrite fn_lookup_insert_ne in H2 by done. by eapply (ci_sep _ _ HG j1 j2).
  - intros l m Hm. destruct (blocks s' !! l) as [b|] eqn:Hb.
    { exists b. exact (lookup_weaken _ _ _ _ Hb (patch_sub _ _ _ _ Pb)). }
    destruct (blocks (L i) !! l) as [b0|] eqn:Hb0.
    + exfalso. rewrite <- Hagree in Hm by (apply HT; by eexists). destruct (HM' l m Hm) as [? ?]. congruence.
    + rewrite (Sm l m Hb0) in Hm. rewrite (Pb l), Hb0, Hb. by apply (ci_mem _ _ HG l m).
  - intros n Hn. rewrite Sw; [by apply HG|]. cbn. congruence.
  - intros l m Hl. rewrite Sw; [by apply HG|]. by intros Hn.
  - done.
  - intros l Hl. rewrite Sb; [by apply HG|done].
  - intros Hcov l Hl. destruct (blocks s' !! l) as [b|] eqn:Hb.
    + right. exists i. split; [done|]. rewrite fn_lookup_insert, Hb. eauto.
    + rewrite (Pb l), Hb in Hl. destruct (blocks (L i) !! l) eqn:Hb1; [by destruct Hl|].
      destruct (ci_cov _ _ HG Hcov l Hl) as [?|(j & Hj & Hlj)]; [by left|right].
      exists j. split; [done|]. rewrite fn_lookup_insert_ne; [done|]. intros <-. rewrite Hb1 in Hlj. by destruct Hlj.
Qed.

Lemma steps_inv C C' L : conf_inv C L -> csteps C C' -> exists L', conf_inv C' L'.
Proof.
  intros HG Hs. revert L HG. induction Hs as [C|C C1 C2 H1 _ IH]; intros L HG; [eauto|].
  destruct (step_inv _ _ _ HG H1) as [L1 H2]. by eapply IH.
Qed.

Lemma inv_no_undefined C L : conf_inv C L -> ~ undefined C.
Proof.
  intros HG (i & R & p & k & tr & r & u & Hi & Hx).
  pose proof (thread_step _ _ _ _ _ _ _ r (ci_x _ _ HG) (ci_thread _ _ HG _ _ _ Hi)) as Hf. by rewrite Hx in Hf.
Qed.

Lemma inv_no_half_race C L i j R1 (p : prim E R1) k1 tr1 R2 (q : prim E R2) k2 tr2 s m :
  conf_inv C L -> i <> j ->
  c_threads C !! i = Some (Act p k1, tr1) -> c_threads C !! j = Some (Act q k2, tr2) ->
  writes p s m -> writes q s m \/ reads q m -> False.
Proof.
  intros HG Hij Hi Hj Hw Ha.
  pose proof (ci_thread _ _ HG _ _ _ Hi) as HTi. pose proof (ci_thread _ _ HG _ _ _ Hj) as HTj.
  pose proof (ti_mon _ _ _ _ _ HTi) as [Hoki _]. pose proof (ti_mon _ _ _ _ _ HTj) as [Hokj _].
  pose proof (ti_tidy _ _ _ _ _ HTi []) as [Hti _]. pose proof (ti_tidy _ _ _ _ _ HTj []) as [Htj _].
  pose proof (fun u o => mon_not_ub' _ _ _ _ _ _ (ti_mon _ _ _ _ _ HTi) o u) as Hui.
  pose proof (fun u o => mon_not_ub' _ _ _ _ _ _ (ti_mon _ _ _ _ _ HTj) o u) as Huj.
  assert (Hli : i < length ps) by (rewrite <- (ci_len _ _ HG); by eapply lookup_lt_Some).
  assert (Hlj : j < length ps) by (rewrite <- (ci_len _ _ HG); by eapply lookup_lt_Some).
  pose proof (step_writes HC _ _ _ p s m Hoki Hw) as H1.
  pose proof (access_dom q (L j) s m Huj Ha) as H2.
  pose proof (access_dom p (L i) s m Hui (or_introl Hw)) as H3.
  destruct m as [[n|l m]|l|n]; cbn in H1.
  - destruct H2 as [H2|H2].
    + destruct (ti_vis _ _ _ _ _ HTj n H2); congruence.
    + pose proof (step_writes HC _ _ _ q s _ Hokj H2) as H4. cbn in H4. congruence.
  - apply H1. apply (ci_sep _ _ HG i j l); [done|done|done| |].
    + eapply (access_mem p (L i) s l m); [apply HTi|destruct p; done|exact Hui|by left].
    + eapply (access_mem q (L j) s l m); [apply HTj|destruct q; done|exact Huj|done].
  - apply H1. by eapply (ci_sep _ _ HG i j).
  - done.
Qed.

Lemma inv_no_race C L : conf_inv C L -> ~ race C.
Proof.
  intros HG (i & j & R1 & p & k1 & tr1 & R2 & q & k2 & tr2 & Hij & Hi & Hj & m & [[H1 H2]|[H1 H2]]).
  - by eapply (inv_no_half_race C L i j).
  - eapply (inv_no_half_race C L j i); eauto.
Qed.

Lemma inv_result C L i z tr :
  conf_inv C L -> c_threads C !! i = Some (Ret z, tr) ->
  exists p u, ps !! i = Some p /\ run p (set_orc u (L0 i)) = ORet z (set_orc [] (L i)).
Proof.
  intros HG Hi. pose proof (ci_thread _ _ HG _ _ _ Hi) as HT.
  destruct (ti_hist _ _ _ _ _ HT) as (p & u & Hp & Hu). exists p, u. split; [done|].
  specialize (Hu []). by rewrite app_nil_r in Hu.
Qed.
End threads.
