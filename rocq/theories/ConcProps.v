(** * Threads do not disturb each other. *)

From stdpp Require Import base gmap list relations functions.
From Verif Require Import Lang Common Client Spec SpecRun Rep RunLemmas Headers Hist Draft
  Conc ConcStatic ConcExec.

Section single.
Context {E : Env} (HC : CopyReq E).
Implicit Types s : store E.
Context (rob : gset loc) (own : wl -> Prop) (ownx : nat -> Prop).
Notation step_ok := (step_ok rob own ownx).
Notation res_ok := (res_ok rob own).
Notation safe_w := (safe_w rob own ownx).

(** No own wrapper and no own control block points into [rob], which is allocated. *)
Record fenced s : Prop := {
  fe_dom : forall l, l ∈ rob -> is_Some (blocks s !! l);
  fe_wrap : forall w a l, own w -> wraps s !! w = Some (mkW (PLoc l) a) -> l ∉ rob;
  fe_hdr : forall l b t q, l ∉ rob -> blocks s !! l = Some b -> b_hdr b = HCb t (Some q) -> q ∉ rob;
}.

Lemma fenced_orc o s : fenced (set_orc o s) <-> fenced s.
Proof. split; intros [H1 H2 H3]; by split. Qed.

(** What an allowed action leaves alone. *)
Record untouched s s' : Prop := {
  un_b : forall l, l ∈ rob -> blocks s' !! l = blocks s !! l;
  un_w : forall w, ~ own w -> wraps s' !! w = wraps s !! w;
  un_x : forall n, ~ ownx n -> exts s' !! n = exts s !! n;
}.

Lemma untouched_refl s s' :
  blocks s' = blocks s -> wraps s' = wraps s -> exts s' = exts s -> untouched s s'.
Proof. intros H1 H2 H3. split; intros; by rewrite ?H1, ?H2, ?H3. Qed.

(** Headers survive. *)
Definition same_hdr s s' : Prop :=
  forall l b', blocks s' !! l = Some b' -> exists b, blocks s !! l = Some b /\ b_hdr b' = b_hdr b.

Lemma upd_ref_hdr r v s : same_hdr s (upd_ref r v s).
Proof.
  destruct r as [l|n]; simpl; intros l' b' Hb'; simpl in Hb'; [|eauto].
  destruct (decide (l = l')) as [->|Hne].
  - rewrite lookup_alter in Hb'. destruct (blocks s !! l') as [b|] eqn:Hb; [|done]. simplify_eq/=.
    eexists. split; [done|]. by destruct (b_obj b).
  - rewrite lookup_alter_ne in Hb' by done. eauto.
Qed.

Lemma upd_src_hdr x v s : same_hdr s (upd_src x v s).
Proof. destruct (upd_src_ref x v s) as [->|[r ->]]; [intros l b ?; eauto|apply upd_ref_hdr]. Qed.

Lemma upd_ref_untouched r v s : ref_ok rob ownx r -> untouched s (upd_ref r v s).
Proof.
  destruct r as [l|n]; simpl; intros Hr; split; simpl; intros *; try done.
  - intros Hl. rewrite lookup_alter_ne; [done|]. by intros ->.
  - intros Hl. rewrite lookup_alter_ne; [done|]. by intros ->.
Qed.

Lemma untouched_trans s1 s2 s3 : untouched s1 s2 -> untouched s2 s3 -> untouched s1 s3.
Proof.
  intros [A1 A2 A3] [B1 B2 B3]. split; intros.
  - by rewrite B1, A1.
  - by rewrite B2, A2.
  - by rewrite B3, A3.
Qed.

Lemma upd_ref_same r t v s : deref r s = inr (t, v) -> untouched s (upd_ref r v s).
Proof.
  destruct r as [l|n]; simpl; intros Hd; split; simpl; try done.
  - intros l' _. destruct (decide (l = l')) as [->|Hne]; [|by rewrite lookup_alter_ne].
    rewrite lookup_alter. destruct (blocks s !! l') as [[? ? ? []]|]; by simplify_eq/=.
  - intros n' _. destruct (decide (n = n')) as [->|Hne]; [|by rewrite lookup_alter_ne].
    rewrite lookup_alter. destruct (exts s !! n') as [[]|]; by simplify_eq/=.
Qed.

(** The source of a construction. *)
Lemma upd_src_untouched a t x s v v1 v2 :
  cons_arg_ok rob ownx x -> cons_vals a t x s = inr (v, v1, v2) ->
  untouched s (upd_src x v1 s) /\ untouched s (upd_src x v2 s).
Proof.
  intros Hx Hc. destruct x as [c|k r]; simpl in *; [split; by apply untouched_refl|].
  destruct (deref r s) as [|[t' v']] eqn:Hd; [done|].
  destruct (t_cons E k t t' a v') as [w1 w2] eqn:Ht. simplify_eq.
  destruct k; simpl in *.
  - split; by apply untouched_refl.
  - rewrite (cr_cons _ HC) in Ht. simplify_eq. rewrite (cr_fail _ HC). split; by eapply upd_ref_same.
  - split; by apply upd_ref_untouched.
Qed.

Lemma set_blocks_untouched s B : (forall l, l ∈ rob -> B !! l = blocks s !! l) -> untouched s (set_blocks B s).
Proof. intros H. by split. Qed.

Lemma exec_untouched {R} (a : prim E R) s r s' :
  (forall l, l ∈ rob -> is_Some (blocks s !! l)) ->
  step_ok a -> exec a s = ROk r s' -> untouched s s'.
Proof.
  intros Hdom Hok H. destruct a; simpl in *.
  - destruct (pop_eq s) as (q & o & Hq & _). rewrite Hq in H. destruct q as [h|e]; simplify_eq.
    + split; simpl; try done. intros l Hl. rewrite lookup_insert_ne; [done|].
      intros <-. destruct (Hdom _ Hl) as [b0 Hb0]. by rewrite choose_fresh in Hb0.
    + by apply untouched_refl.
  - repeat (case_match; try done). simplify_eq. split; simpl; try done.
    intros l' Hl'. rewrite lookup_delete_ne; [done|]. by intros ->.
  - destruct Hok as [Hl Hx]. destruct (blocks s !! l) as [b|] eqn:Hb; [|done].
    destruct (negb _); [done|]. destruct (b_obj b); try done.
    destruct (cons_vals a t x s) as [|[[v v1] v2]] eqn:Hc; [done|].
    destruct (upd_src_untouched _ _ _ _ _ _ _ Hx Hc) as [U1 U2].
    destruct (pop_eq s) as (q & o & Hq & _). rewrite Hq in H. rewrite !upd_src_orc_c in H.
    destruct q as [h|e]; simplify_eq/=.
    + eapply untouched_trans; [exact U1|]. split; simpl; try done.
      intros l' Hl'. rewrite lookup_alter_ne; [done|]. by intros ->.
    + eapply untouched_trans; [exact U2|]. by apply untouched_refl.
  - repeat (case_match; try done). simplify_eq. split; simpl; try done.
    intros l' Hl'. rewrite lookup_insert_ne; [done|]. by intros ->.
  - repeat (case_match; try done). simplify_eq. split; simpl; try done.
    intros l' Hl'. rewrite lookup_insert_ne; [done|]. by intros ->.
  - repeat (case_match; try done). simplify_eq. split; simpl; try done.
    intros l' Hl'. rewrite lookup_insert_ne; [done|]. by intros ->.
  - destruct Hok as [Hl Hx].
    assert (Hs : forall v, untouched s (upd_src x v s)).
    { intros v. destruct x as [c|[] r0]; simpl in *; try (by apply untouched_refl); by apply upd_ref_untouched. }
    destruct (match blocks s !! l with Some _ => _ | None => _ end) as [|[t0 v0]]; [done|].
    destruct (negb _); [done|].
    destruct (asgn_vals l t0 v0 x s) as [|[[d v] [df vf]]] eqn:Hc; [done|].
    destruct (pop_eq s) as (q & o & Hq & _). rewrite Hq in H. rewrite !upd_src_orc_c in H.
    destruct q as [h|e]; simplify_eq/=.
    + eapply untouched_trans; [exact (Hs v)|]. split; simpl; try done.
      intros l' Hl'. rewrite lookup_alter_ne; [done|]. by intros ->.
    + eapply untouched_trans; [exact (Hs vf)|]. split; simpl; try done.
      intros l' Hl'. rewrite lookup_alter_ne; [done|]. by intros ->.
  - repeat (case_match; try done); simplify_eq; by apply untouched_refl.
  - repeat (case_match; try done); simplify_eq; (split; simpl; try done);
      intros w' Hw'; (rewrite lookup_insert_ne; [done|]); intros ->; tauto.
  - repeat (case_match; try done); simplify_eq; by apply untouched_refl.
  - repeat (case_match; try done); simplify_eq; (split; simpl; try done);
      intros w' Hw'; (rewrite lookup_insert_ne; [done|]); intros ->; tauto.
  - repeat (case_match; try done); simplify_eq; (split; simpl; try done);
      intros w' Hw'; (rewrite lookup_insert_ne; [done|]); intros ->; tauto.
  - repeat (case_match; try done); simplify_eq; (split; simpl; try done);
      intros w' Hw'; (rewrite lookup_delete_ne; [done|]); intros ->; tauto.
  - repeat (case_match; try done). simplify_eq. split; simpl; try done.
    intros l' Hl'. rewrite lookup_insert_ne; [done|]. by intros ->.
  - destruct Hok as [Hok _]. repeat (case_match; try done). simplify_eq. split; simpl; try done.
    intros l' Hl'. rewrite lookup_insert_ne; [done|]. by intros ->.
  - repeat (case_match; try done); simplify_eq; by apply untouched_refl.
  - repeat (case_match; try done); simplify_eq; by apply untouched_refl.
  - repeat (case_match; try done); simplify_eq; by apply untouched_refl.
  - destruct (deref r0 s) as [|[t0 v0]]; [done|]. simplify_eq. by apply upd_ref_untouched.
  - simplify_eq. split; simpl; try done. intros n' Hn'. rewrite lookup_insert_ne; [done|]. by intros ->.
  - done.
  - done.
Qed.

Lemma fenced_step s s' :
  fenced s -> untouched s s' ->
  (forall w a l, own w -> wraps s' !! w = Some (mkW (PLoc l) a) ->
     (exists a', wraps s !! w = Some (mkW (PLoc l) a')) \/ l ∉ rob) ->
  (forall l b t q, l ∉ rob -> blocks s' !! l = Some b -> b_hdr b = HCb t (Some q) ->
     (exists b', blocks s !! l = Some b' /\ b_hdr b' = HCb t (Some q)) \/ q ∉ rob) ->
  fenced s'.
Proof.
  intros [H1 H2 H3] [U1 U2 U3] Hw Hb. split.
  - intros l Hl. rewrite U1 by done. auto.
  - intros w a l Ho Hl. destruct (Hw _ _ _ Ho Hl) as [[a' ?]|?]; eauto.
  - intros l b t q Hl Hlb Hh. destruct (Hb _ _ _ _ Hl Hlb Hh) as [(b' & ? & ?)|?]; eauto.
Qed.

Lemma exec_fenced {R} (a : prim E R) s r s' :
  fenced s -> step_ok a -> exec a s = ROk r s' -> fenced s' /\ res_ok a r.
Proof.
  intros Hf Hok H. pose proof (exec_untouched a s r s' (fe_dom _ Hf) Hok H) as Hu.
  assert (Hres : res_ok a r).
  { destruct a; simpl in *; try done.
    - destruct (pop_eq s) as (q & o & Hq & _). rewrite Hq in H. destruct q as [h|e]; simplify_eq; [|done].
      intros l [= <-] Hin. destruct (fe_dom _ Hf _ Hin) as [b0 Hb0]. by rewrite choose_fresh in Hb0.
    - intros Hw l ->. destruct (wraps s !! w) as [[[| |l0] a]|] eqn:Hl; simplify_eq/=.
      exact (fe_wrap _ Hf _ _ _ Hw Hl).
    - intros Hl. destruct (blocks s !! l) as [b|] eqn:Hb; [|done].
      destruct (b_hdr b) as [|t [q|]] eqn:Hh; simplify_eq. by eapply fe_hdr. }
  split; [|done]. eapply fenced_step; [done|done| |].
  - intros w a' l Hw Hl. destruct a; simpl in *.
    + destruct (pop_eq s) as (q & o & Hq & _). rewrite Hq in H. destruct q; simplify_eq/=; eauto.
    + repeat (case_match; try done); simplify_eq/=; eauto.
    + destruct (blocks s !! l0) as [b0|] eqn:Hb0; [|done]. destruct (negb _); [done|].
      destruct (b_obj b0); try done. destruct (cons_vals a t x s) as [|[[v v1] v2]]; [done|].
      destruct (pop_eq s) as (q' & o & Hq & _). rewrite Hq in H. rewrite !upd_src_orc_c in H.
      destruct q' as [h|e]; simplify_eq/=; rewrite upd_src_wraps in Hl; eauto.
    + repeat (case_match; try done); simplify_eq/=; eauto.
    + repeat (case_match; try done); simplify_eq/=; eauto.
    + repeat (case_match; try done); simplify_eq/=; eauto.
    + destruct (match blocks s !! l0 with Some _ => _ | None => _ end) as [|[t0 v0]]; [done|].
      destruct (negb _); [done|]. destruct (asgn_vals l0 t0 v0 x s) as [|[[d v] [df vf]]]; [done|].
      destruct (pop_eq s) as (q' & o & Hq & _). rewrite Hq in H. rewrite !upd_src_orc_c in H.
      destruct q' as [h|e]; simplify_eq/=; rewrite upd_src_wraps in Hl; eauto.
    + repeat (case_match; try done); simplify_eq/=; eauto.
    + destruct Hok as [Ho Hq]. destruct (wraps s !! w0) as [c|] eqn:Hw0; simplify_eq/=.
      destruct (decide (w0 = w)) as [->|Hne]; [|rewrite lookup_insert_ne in Hl by done; eauto].
      rewrite lookup_insert in Hl. destruct p; simplify_eq/=. right. auto.
    + repeat (case_match; try done); simplify_eq/=; eauto.
    + destruct (wraps s !! w0) as [[p a0]|] eqn:Hw0; simplify_eq/=.
      destruct (decide (w0 = w)) as [->|Hne]; [|rewrite lookup_insert_ne in Hl by done; eauto].
      rewrite lookup_insert in Hl. simplify_eq/=. eauto.
    + destruct Hok as [Ho Hq]. destruct (wraps s !! w0) as [c|] eqn:Hw0; simplify_eq/=.
      destruct (decide (w0 = w)) as [->|Hne]; [|rewrite lookup_insert_ne in Hl by done; eauto].
      rewrite lookup_insert in Hl. simplify_eq/=. right. auto.
    + destruct (wraps s !! w0) as [[p a0]|] eqn:Hw0; simplify_eq/=.
      apply lookup_delete_Some in Hl as [_ Hl]. eauto.
    + repeat (case_match; try done); simplify_eq/=; eauto.
    + repeat (case_match; try done); simplify_eq/=; eauto.
    + repeat (case_match; try done); simplify_eq/=; eauto.
    + repeat (case_match; try done); simplify_eq/=; eauto.
    + repeat (case_match; try done); simplify_eq/=; eauto.
    + destruct (deref r0 s) as [|[]]; simplify_eq. rewrite upd_ref_wraps in Hl. eauto.
    + simplify_eq/=. eauto.
    + done.
    + done.
  - intros l b t q Hl Hb Hh. destruct a; simpl in *.
    + destruct (pop_eq s) as (q' & o & Hq & _). rewrite Hq in H. destruct q'; simplify_eq/=; [|eauto].
      destruct (decide (choose hint (blocks s) = l)) as [<-|Hne].
      * rewrite lookup_insert in Hb. simplify_eq/=.
      * rewrite lookup_insert_ne in Hb by done. eauto.
    + repeat (case_match; try done). simplify_eq/=. apply lookup_delete_Some in Hb as [_ Hb]. eauto.
    + destruct (blocks s !! l0) as [b0|] eqn:Hb0; [|done]. destruct (negb _); [done|].
      destruct (b_obj b0); try done. destruct (cons_vals a t0 x s) as [|[[v v1] v2]]; [done|].
      destruct (pop_eq s) as (q' & o & Hq & _). rewrite Hq in H. rewrite !upd_src_orc_c in H.
      destruct q' as [h|e]; simplify_eq/=.
      * destruct (decide (l0 = l)) as [->|Hne].
        -- rewrite lookup_alter in Hb. destruct (blocks (upd_src x v1 s) !! l) as [b1|] eqn:Hb1; [|done].
           simplify_eq/=. destruct (upd_src_hdr x v1 s _ _ Hb1) as (b2 & H2 & H3).
           left. exists b2. split; [done|]. congruence.
        -- rewrite lookup_alter_ne in Hb by done. destruct (upd_src_hdr x v1 s _ _ Hb) as (b2 & H2 & H3).
           left. exists b2. split; [done|]. congruence.
      * destruct (upd_src_hdr x v2 s _ _ Hb) as (b2 & H2 & H3). left. exists b2. split; [done|]. congruence.
    + destruct (blocks s !! l0) as [b0|] eqn:Hb0; [|done]. repeat (case_match; try done). simplify_eq/=.
      destruct (decide (l0 = l)) as [->|Hne]; [|rewrite lookup_insert_ne in Hb by done; eauto].
      rewrite lookup_insert in Hb. simplify_eq/=. eauto.
    + destruct (blocks s !! l0) as [b0|] eqn:Hb0; [|done]. repeat (case_match; try done). simplify_eq/=.
      destruct (decide (l0 = l)) as [->|Hne]; [|rewrite lookup_insert_ne in Hb by done; eauto].
      rewrite lookup_insert in Hb. simplify_eq/=. eauto.
    + destruct (blocks s !! l0) as [b0|] eqn:Hb0; [|done]. repeat (case_match; try done). simplify_eq/=.
      destruct (decide (l0 = l)) as [->|Hne]; [|rewrite lookup_insert_ne in Hb by done; eauto].
      rewrite lookup_insert in Hb. simplify_eq/=. eauto.
    + destruct (match blocks s !! l0 with Some _ => _ | None => _ end) as [|[t9 v0]]; [done|].
      destruct (negb _); [done|]. destruct (asgn_vals l0 t9 v0 x s) as [|[[d v] [df vf]]]; [done|].
      destruct (pop_eq s) as (q' & o & Hq & _). rewrite Hq in H. rewrite !upd_src_orc_c in H.
      assert (Hg : forall d v, blocks (upd_ref (RBlk l0) d (upd_src x v s)) !! l = Some b ->
        exists b', blocks s !! l = Some b' /\ b_hdr b' = HCb t (Some q)).
      { intros d' v' Hb'. destruct (upd_ref_hdr _ _ _ _ _ Hb') as (b1 & H1 & E1).
        destruct (upd_src_hdr _ _ _ _ _ H1) as (b2 & H2 & E2). exists b2. split; [done|]. congruence. }
      destruct q' as [h|e]; simplify_eq/=; left; [exact (Hg d v Hb)|exact (Hg df vf Hb)].
    + repeat (case_match; try done); simplify_eq/=; eauto.
    + repeat (case_match; try done); simplify_eq/=; eauto.
    + repeat (case_match; try done); simplify_eq/=; eauto.
    + repeat (case_match; try done); simplify_eq/=; eauto.
    + repeat (case_match; try done); simplify_eq/=; eauto.
    + repeat (case_match; try done); simplify_eq/=; eauto.
    + destruct (blocks s !! l0) as [b0|] eqn:Hb0; [|done]. repeat (case_match; try done). simplify_eq/=.
      destruct (decide (l0 = l)) as [->|Hne]; [|rewrite lookup_insert_ne in Hb by done; eauto].
      rewrite lookup_insert in Hb. simplify_eq/=.
    + destruct Hok as [Hok1 Hok2]. destruct (blocks s !! l0) as [b0|] eqn:Hb0; [|done].
      destruct (b_hdr b0) eqn:Hh0; [done|]. simplify_eq/=.
      destruct (decide (l0 = l)) as [->|Hne]; [|rewrite lookup_insert_ne in Hb by done; eauto].
      rewrite lookup_insert in Hb. simplify_eq/=. by right.
    + repeat (case_match; try done); simplify_eq/=; eauto.
    + repeat (case_match; try done); simplify_eq/=; eauto.
    + repeat (case_match; try done); simplify_eq/=; eauto.
    + destruct (deref r0 s) as [|[]]; simplify_eq.
      destruct (upd_ref_hdr _ _ _ _ _ Hb) as (b2 & H2 & H3). left. exists b2. split; [done|]. congruence.
    + simplify_eq/=. eauto.
    + done.
    + done.
Qed.

Lemma run_fenced {X} (p : prog E X) Q s :
  fenced s -> safe_w p Q ->
  match run p s with ORet _ s' | OThrow _ s' => fenced s' | _ => True end.
Proof.
  revert s. induction p as [x|e|R a k IH]; intros s Hf Hp; simpl in *; [done|done|].
  destruct Hp as [H1 H2]. destruct (exec a s) as [r s'| |] eqn:Hx; [|done|done].
  destruct (exec_fenced a s r s' Hf H1 Hx) as [Hf' Hr]. apply IH; [done|]. by apply H2.
Qed.

(** Whatever the environment answers at each step, the program never does anything
    undefined, and every action it performs is allowed. *)
Fixpoint mon {X} (p : prog E X) s : Prop :=
  match p with
  | Ret _ | Throw _ => True
  | Act a k =>
      step_ok a /\
      forall o, match exec a (set_orc o s) with
                | ROk r s' => mon (k r) s'
                | RUB _ => False
                | RTerm => True
                end
  end.

Lemma mon_orc {X} (p : prog E X) o s : mon (X := X) p (set_orc o s) <-> mon p s.
Proof. destruct p; simpl; done. Qed.

Lemma mon_safe {X} (p : prog E X) Q s :
  fenced s -> safe_w p Q -> (forall o u, run p (set_orc o s) <> OUB u) -> mon p s.
Proof.
  revert s. induction p as [x|e|R a k IH]; intros s Hf Hp Hu; simpl in *; [done|done|].
  destruct Hp as [H1 H2]. split; [done|]. intros o.
  destruct (exec a (set_orc o s)) as [r s'|u|] eqn:Hx; [|by eapply (Hu o u); rewrite Hx|done].
  destruct (exec_fenced a _ r s' (proj2 (fenced_orc o s) Hf) H1 Hx) as [Hf' Hr].
  apply IH; [done|by apply H2|].
  intros o' u Hru. destruct (exec_orc a o s r s' Hx) as [o1 Ho1]. apply (Hu (o1 ++ o') u).
  by rewrite Ho1.
Qed.

Lemma mon_bind {X Y} (p : prog E X) (f : X -> prog E Y) s :
  mon p s -> (forall o x s', run p (set_orc o s) = ORet x s' -> mon (f x) s') -> mon (bind p f) s.
Proof.
  revert s. induction p as [x|e|R a k IH]; intros s Hm Hf; simpl in *.
  - rewrite <- mon_orc. by apply (Hf (orc s)).
  - done.
  - destruct Hm as [H1 H2]. split; [done|]. intros o. specialize (H2 o).
    destruct (exec a (set_orc o s)) as [r s'|u|] eqn:Hx; [|done|done]. apply IH; [done|].
    intros o' x s'' Hr. destruct (exec_orc a o s r s' Hx) as [o1 Ho1]. apply (Hf (o1 ++ o') x s'').
    by rewrite Ho1.
Qed.

Lemma run_attempt {X} (p : prog E X) s :
  run (attempt p) s =
  match run p s with
  | ORet x s' => ORet (inl x) s'
  | OThrow e s' => ORet (inr e) s'
  | OUB u => OUB u
  | OTerm => OTerm
  end.
Proof.
  revert s. induction p as [x|e|R a k IH]; intros s; simpl; [done|done|].
  by destruct (exec a s).
Qed.

Lemma run_client_prog I (c : client E) s :
  run (client_prog I c) s =
  match run_client I c s with
  | HOk outs s' => ORet outs s'
  | HUB u => OUB u
  | HTerm => OTerm
  end.
Proof.
  revert s. induction c as [|o next IH]; intros s; [done|].
  cbn [client_prog run_client]. rewrite run_bind, run_attempt.
  destruct (run (interp I o) s) as [x s'|e s'|u|]; try done.
  - rewrite run_bind, IH. by destruct (run_client I (next (inl x)) s').
  - rewrite run_bind, IH. by destruct (run_client I (next (inr e)) s').
Qed.

(** Clients. *)
Lemma mon_client (HA : AllocReq E) h (conf : op E -> bool) (c : client E) s :
  (forall o, conf o = true -> confined_ok own ownx o) ->
  Inv (header_cls h) s -> fenced s ->
  safe_with (header_cfg h) (fun o σ => adm h o σ && conf o) c (abs s) ->
  mon (client_prog (header_impl h) c) s.
Proof.
  intros Hconf. revert s. induction c as [|o next IH]; intros s HI Hf Hs; [done|].
  cbn [client_prog]. destruct Hs as (Hpre & Hadm & Hnext).
  apply andb_true_iff in Hadm as [Hadm Hco]. apply Hconf in Hco.
  pose proof (safe_interp rob own ownx h o Hco) as Hsafe.
  assert (Hop : forall q, exists res, step (header_cfg h) o (abs s) = Some res /\
    match run (interp (header_impl h) o) (set_orc q s) with
    | ORet x s' => Inv (header_cls h) s' /\ x = r_obs res /\ abs s' = r_ok res
    | OThrow e s' => Inv (header_cls h) s' /\ abs s' ∈ r_exn res
    | OUB _ => False
    | OTerm => True
    end).
  { intros q. destruct (op_correct HA _ _ _ (set_orc q s) o (header_implements HA h) HI Hpre Hadm)
      as (res & H1 & H2). exists res. split; [done|].
    destruct (run _ _); naive_solver. }
  apply mon_bind.
  - eapply mon_safe; [done|by apply safe_attempt|].
    intros q u. rewrite run_attempt. destruct (Hop q) as (res & _ & H).
    by destruct (run (interp (header_impl h) o) (set_orc q s)).
  - intros q x s' Hx. rewrite run_attempt in Hx. destruct (Hop q) as (res & Hst & H).
    destruct (Hnext res Hst) as [Hn1 Hn2].
    pose proof (run_fenced _ _ _ (proj2 (fenced_orc q s) Hf) Hsafe) as Hf'.
    assert (mon (client_prog (header_impl h) (next x)) s') as Hm.
    { destruct (run (interp (header_impl h) o) (set_orc q s)) as [y s1|e s1|u|]; simplify_eq.
      - destruct H as (HI' & -> & Ha). apply IH; [done|done|]. by rewrite Ha.
      - destruct H as (HI' & Ha). apply IH; [done|done|]. by apply Hn2. }
    apply mon_bind; [done|]. done.
Qed.

(** ** Accesses *)
Lemma step_writes {R} (a : prim E R) s m :
  step_ok a -> writes a s m ->
  match m with MWrap w => own w | MBlk l => l ∉ rob | MExt n => ownx n end.
Proof.
  assert (Href : forall r, ref_ok rob ownx r ->
    match mref r with MWrap w => own w | MBlk l => l ∉ rob | MExt n => ownx n end).
  { by intros []. }
  destruct a; simpl; try (by intros ? ->); try (by intros [? ?] ->); try done.
  - intros [Hl Hx] [->|Hs]; [done|]. destruct x as [c|[] r]; simpl in *; [done|done| |by subst; apply Href].
    destruct Hs as (-> & t' & v & _ & Hs). rewrite (cr_cons _ HC), (cr_fail _ HC) in Hs. by destruct Hs.
  - intros [Hl Hx] [->|Hs]; [done|]. destruct x as [c|[] r]; simpl in *; try done; subst; by apply Href.
  - intros ? ->. by apply Href.
Qed.

(** What a defined action accesses exists, unless it creates it. *)
Lemma access_dom {R} (a : prim E R) s s1 m :
  (forall u o, exec a (set_orc o s) <> RUB u) -> writes a s1 m \/ reads a m ->
  match m with
  | MWrap w => is_Some (wraps s !! w) \/ writes a s1 m
  | MBlk l => is_Some (blocks s !! l)
  | MExt n => is_Some (exts s !! n) \/ writes a s1 m
  end.
Proof.
  intros Hu Ha.
  assert (Href : forall r, (forall u, deref r s <> inl u) ->
    match mref r with
    | MWrap w => False
    | MBlk l => is_Some (blocks s !! l)
    | MExt n => is_Some (exts s !! n) end).
  { intros [l|n] Hr; simpl in *; [destruct (blocks s !! l)|destruct (exts s !! n)]; eauto; by edestruct Hr. }
  destruct a; simpl in *; try (by destruct Ha).
  - destruct Ha as [->|[]]. specialize (fun u => Hu u []). simpl in Hu.
    destruct (blocks s !! l); [eauto|by edestruct Hu].
  - pose proof (fun u => Hu u []) as Hu'. simpl in Hu'. rewrite cons_vals_orc in Hu'.
    destruct (blocks s !! l) as [b|] eqn:Hl; [|by edestruct Hu'].
    assert (Hx : forall k r, x = ARef k r -> forall u, deref r s <> inl u).
    { intros k r -> u Hd. simpl in Hu'. rewrite Hd in Hu'.
      destruct (negb _); [by edestruct Hu'|]. destruct (b_obj b); by edestruct Hu'. }
    assert (m = MBlk l \/ exists k r, x = ARef k r /\ m = mref r) as [->|(k & r & -> & ->)].
    { destruct Ha as [[->|Hs]|Hs]; [by left| |]; destruct x as [c|k r]; try done; right; exists k, r; split; try done.
      simpl in Hs. destruct k; [done|by destruct Hs|done]. }
    + eauto.
    + specialize (Href r (Hx k r eq_refl)). destruct (mref r); [done|done|by left].
  - destruct Ha as [->|[]]. specialize (fun u => Hu u []). simpl in Hu.
    destruct (blocks s !! l); [eauto|by edestruct Hu].
  - destruct Ha as [->|[]]. specialize (fun u => Hu u []). simpl in Hu.
    destruct (blocks s !! l); [eauto|by edestruct Hu].
  - destruct Ha as [->|[]]. specialize (fun u => Hu u []). simpl in Hu.
    destruct (blocks s !! l); [eauto|by edestruct Hu].
  - pose proof (fun u => Hu u []) as Hu'. simpl in Hu'. 
    destruct (blocks s !! l) as [b|] eqn:Hl; [|by edestruct Hu'].
    destruct (b_obj b) as [|t0 v0|] eqn:Hob; try (by edestruct Hu').
    rewrite asgn_vals_orc in Hu'.
    assert (m = MBlk l \/ exists k r, x = ARef k r /\ m = mref r) as [->|(k & r & -> & ->)].
    { destruct Ha as [[->|Hs]|Hs]; [by left| |]; destruct x as [c|k r]; try done; right; exists k, r; split; try done.
      by destruct k. }
    + eauto.
    + destruct (negb _); [by edestruct Hu'|]. simpl in Hu'.
      destruct (bool_decide (r = RBlk l)) eqn:Hr.
      * apply bool_decide_eq_true in Hr as ->. simpl. eauto.
      * assert (Hx : forall u, deref r s <> inl u). { intros u Hd. rewrite Hd in Hu'. by edestruct Hu'. }
        specialize (Href r Hx). destruct (mref r); [done|done|by left].
  - destruct Ha as [[]| ->]. specialize (fun u => Hu u []). simpl in Hu.
    destruct (wraps s !! w); [eauto|by edestruct Hu].
  - destruct Ha as [->|[]]. eauto.
  - destruct Ha as [[]| ->]. specialize (fun u => Hu u []). simpl in Hu.
    destruct (wraps s !! w); [eauto|by edestruct Hu].
  - destruct Ha as [->|[]]. eauto.
  - destruct Ha as [->|[]]. eauto.
  - destruct Ha as [->|[]]. eauto.
  - destruct Ha as [->|[]]. specialize (fun u => Hu u []). simpl in Hu.
    destruct (blocks s !! l); [eauto|by edestruct Hu].
  - destruct Ha as [->|[]]. specialize (fun u => Hu u []). simpl in Hu.
    destruct (blocks s !! l); [eauto|by edestruct Hu].
  - destruct Ha as [[]| ->]. specialize (fun u => Hu u []). simpl in Hu.
    destruct (blocks s !! l); [eauto|by edestruct Hu].
  - destruct Ha as [[]| ->]. specialize (fun u => Hu u []). simpl in Hu.
    destruct (blocks s !! l); [eauto|by edestruct Hu].
  - destruct Ha as [[]| ->]. specialize (fun u => Hu u []). simpl in Hu. rewrite deref_orc in Hu.
    assert (Hx : forall u, deref r s <> inl u). { intros u Hd. rewrite Hd in Hu. by edestruct Hu. }
    specialize (Href r Hx). destruct (mref r); [done|done|by left].
  - destruct Ha as [->|[]]. specialize (fun u => Hu u []). simpl in Hu. rewrite deref_orc in Hu.
    assert (Hx : forall u, deref r s <> inl u). { intros u Hd. rewrite Hd in Hu. by edestruct Hu. }
    specialize (Href r Hx). destruct (mref r); [done|done|by left].
  - destruct Ha as [->|[]]. eauto.
Qed.

End single.

(** ** All threads *)
Section threads.
Context {E : Env} (HA : AllocReq E) (HC : CopyReq E) (h : header) (O : owners).
Implicit Types s : store E.
Implicit Types C : config E (list (obs E + exn)).

Definition shared (o : option nat) : bool := bool_decide (o = None).
Definition own_of (i : nat) (w : wl) : Prop := ow O w = Some i.
Definition ownx_of (i : nat) (n : nat) : Prop := ox O n = Some i.

Lemma elem_of_locs f s l :
  l ∈ locs_of O f s <->
  exists w c, wraps s !! w = Some c /\ f (ow O w) = true /\ w_p c = PLoc l.
Proof.
  unfold locs_of. rewrite elem_of_list_to_set, elem_of_list_omap. split.
  - intros ([w c] & Hin & Hc). apply elem_of_map_to_list in Hin. exists w, c. simpl in Hc.
    destruct (f (ow O w)) eqn:Hf; [|done]. destruct (w_p c) eqn:Hp; simplify_eq. done.
  - intros (w & c & Hw & Hf & Hp). exists (w, c). split; [by apply elem_of_map_to_list|].
    simpl. by rewrite Hf, Hp.
Qed.

Lemma confined_confined_ok i (o : op E) :
  confined O i o = true -> confined_ok (own_of i) (ownx_of i) o.
Proof.
  assert (Hg : forall g : carg E, conf_arg O i g = true -> conf_arg_ok (own_of i) (ownx_of i) g).
  { intros [|[]|[]]; simpl; unfold mine, mine_ext, own_of, ownx_of; try done;
      intros H; by apply bool_decide_eq_true in H. }
  destruct o; simpl; rewrite ?andb_true_iff; unfold mine, mine_ext; rewrite ?bool_decide_eq_true; try done;
    intros [H1 H2]; (split; [done|by apply Hg]).
Qed.

(** *** What a thread can see is a store like any other. *)
Lemma local_inv k i s : Inv k s -> Inv k (local O i s).
Proof.
  intros HI. unfold Inv in HI. set (ω := view s) in *.
  assert (HR : Rep k (blocks (local O i s)) (wraps (local O i s))
                 (filter (fun p : wl * _ => vis i (ow O p.1) = true) ω)).
  { split.
    - apply map_eq. intros w. unfold local. cbn [wraps]. rewrite lookup_fmap.
      rewrite (rep_wraps _ _ _ _ HI). rewrite !map_filter_lookup, lookup_fmap.
      destruct (ω !! w) as [o|]; simpl; [|done]. by case_option_guard.
    - intros w l t v a Hw. apply map_filter_lookup_Some in Hw as [Hw Hv].
      destruct (rep_own _ _ _ _ HI _ _ _ _ _ Hw) as (b & Hb & Hok). exists b. split; [|done].
      apply map_filter_lookup_Some. split; [done|]. apply elem_of_locs.
      exists w, (to_wrapper (Some (l, t, v), a)). split_and!; [by eapply rep_lookup|done|done].
    - intros l b Hb. apply map_filter_lookup_Some in Hb as [Hb Hl].
      apply elem_of_locs in Hl as (w & c & Hw & Hv & Hp).
      destruct (rep_lookup_inv _ _ _ _ _ _ HI Hw) as (o & a & Ho & ->).
      destruct o as [[[l' t] v]|]; simplify_eq/=. exists w, t, v, a.
      by apply map_filter_lookup_Some.
    - intros w1 w2 l t1 v1 a1 t2 v2 a2 H1 H2.
      apply map_filter_lookup_Some in H1 as [H1 _]. apply map_filter_lookup_Some in H2 as [H2 _].
      by eapply rep_inj. }
  by apply rep_inv in HR as [? _].
Qed.

Context (s0 : store E) (HI0 : Inv (header_cls h) s0).
Notation rob := (locs_of O shared s0).

Lemma vis_shared i o : shared o = true -> vis i o = true.
Proof. unfold shared, vis. rewrite !bool_decide_eq_true. auto. Qed.
Lemma vis_own i : vis i (Some i) = true.
Proof. unfold vis. apply bool_decide_eq_true. auto. Qed.
Lemma vis_inv i o : vis i o = true -> o = None \/ o = Some i.
Proof. unfold vis. by rewrite bool_decide_eq_true. Qed.

Lemma local_fenced i : fenced rob (own_of i) (local O i s0).
Proof.
  assert (Hown : forall w c l, wraps s0 !! w = Some c -> w_p c = PLoc l -> l ∈ rob -> ow O w = None).
  { intros w c l Hw Hp Hl. apply elem_of_locs in Hl as (w' & c' & Hw' & Hs & Hp').
    destruct (rep_lookup_inv _ _ _ _ _ _ HI0 Hw) as (o & a & Ho & ->).
    destruct (rep_lookup_inv _ _ _ _ _ _ HI0 Hw') as (o' & a' & Ho' & ->).
    destruct o as [[[l1 t1] v1]|], o' as [[[l2 t2] v2]|]; simplify_eq/=.
    rewrite (rep_inj _ _ _ _ HI0 _ _ _ _ _ _ _ _ _ Ho Ho'). by apply bool_decide_eq_true in Hs. }
  split.
  - intros l Hl. apply elem_of_locs in Hl as (w & c & Hw & Hs & Hp).
    destruct (rep_lookup_inv _ _ _ _ _ _ HI0 Hw) as (o & a & Ho & ->).
    destruct o as [[[l1 t1] v1]|]; simplify_eq/=.
    destruct (rep_own _ _ _ _ HI0 _ _ _ _ _ Ho) as (b & Hb & _). exists b.
    apply map_filter_lookup_Some. split; [done|]. apply elem_of_locs.
    eexists w, _. split_and!; [done|by apply vis_shared|done].
  - intros w a l Ho Hw Hl. apply map_filter_lookup_Some in Hw as [Hw _].
    unfold own_of in Ho. by rewrite (Hown _ _ _ Hw eq_refl Hl) in Ho.
  - intros l b t q Hl Hb Hh. apply map_filter_lookup_Some in Hb as [Hb _].
    destruct (rep_all _ _ _ _ HI0 _ _ Hb) as (w & t' & v & a & Hw).
    destruct (rep_own _ _ _ _ HI0 _ _ _ _ _ Hw) as (b' & Hb' & _ & _ & _ & Hh' & _).
    rewrite Hb in Hb'. simplify_eq. rewrite Hh in Hh'. destruct (header_cls h); simplify_eq/=. done.
Qed.

(** *** The invariant *)
Context (cs : list (client E)).

Record thread_inv C (L : store E) (i : nat) (p : prog E (list (obs E + exn))) (tr : list (event E)) : Prop := {
  ti_mon : mon rob (own_of i) (ownx_of i) p L;
  ti_fence : fenced rob (own_of i) L;
  ti_trc : trc L = tr;
  ti_b : blocks L ⊆ c_blocks C;
  ti_w : wraps L ⊆ c_wraps C;
  ti_x : exts L ⊆ c_exts C;
  ti_own : forall w, own_of i w -> wraps L !! w = c_wraps C !! w;
  ti_ownx : forall n, ownx_of i n -> exts L !! n = c_exts C !! n;
  ti_vis : forall w, is_Some (wraps L !! w) -> vis i (ow O w) = true;
  ti_visx : forall n, is_Some (exts L !! n) -> vis i (ox O n) = true;
  ti_hist : exists c u, cs !! i = Some c /\ forall rest,
      run (client_prog (header_impl h) c) (set_orc (u ++ rest) (local O i s0)) = run p (set_orc rest L);
}.

Record conf_inv C (L : nat -> store E) : Prop := {
  ci_thread : forall i p tr, c_threads C !! i = Some (p, tr) -> thread_inv C (L i) i p tr;
  ci_len : length (c_threads C) = length cs;
  ci_sep : forall i j l, i < length cs -> j < length cs -> i <> j ->
    is_Some (blocks (L i) !! l) -> is_Some (blocks (L j) !! l) -> l ∈ rob;
  ci_w : forall w, ow O w = None -> c_wraps C !! w = wraps s0 !! w;
  ci_x : forall n, ox O n = None -> c_exts C !! n = exts s0 !! n;
  ci_b : forall l, l ∈ rob -> c_blocks C !! l = blocks s0 !! l;
  ci_cov : (forall w i, is_Some (wraps s0 !! w) -> ow O w = Some i -> i < length cs) ->
    forall l, is_Some (c_blocks C !! l) ->
    l ∈ rob \/ exists i, i < length cs /\ is_Some (blocks (L i) !! l);
}.

Lemma patch_same {K} `{Countable K} {X} (m m' M M' : gmap K X) k :
  m ⊆ M -> patch m m' M M' -> m' !! k = m !! k -> M' !! k = M !! k.
Proof.
  intros Hs Hp Hk. rewrite (Hp k), Hk. destruct (m !! k) as [x|] eqn:Hm; [|done].
  symmetry. exact (lookup_weaken _ _ _ _ Hm Hs).
Qed.

Lemma start_inv :
  clients_ok h O s0 cs ->
  conf_inv (start h s0 cs) (fun i => local O i s0).
Proof.
  intros Hsafe. split; simpl.
  - intros i p tr Hi. apply list_lookup_fmap_Some in Hi as (c & Hc & [= -> ->]).
    split; try done.
    + eapply (mon_client HC _ _ _ HA h (confined O i)); [by apply confined_confined_ok|by apply local_inv|
        apply local_fenced|by apply Hsafe].
    + apply local_fenced.
    + apply map_filter_subseteq.
    + apply map_filter_subseteq.
    + apply map_filter_subseteq.
    + intros w Hw. simpl. rewrite map_filter_lookup. destruct (wraps s0 !! w); [|done]. simpl.
      rewrite option_guard_True; [done|]. simpl. rewrite Hw. apply vis_own.
    + intros w Hw. simpl. rewrite map_filter_lookup. destruct (exts s0 !! w); [|done]. simpl.
      rewrite option_guard_True; [done|]. simpl. rewrite Hw. apply vis_own.
    + intros w [c' Hw]. by apply map_filter_lookup_Some in Hw as [_ Hw].
    + intros w [c' Hw]. by apply map_filter_lookup_Some in Hw as [_ Hw].
    + exists c, []. split; [done|]. done.
  - by rewrite fmap_length.
  - intros i j l _ _ Hij [b1 H1] [b2 H2].
    apply map_filter_lookup_Some in H1 as [_ H1]. apply map_filter_lookup_Some in H2 as [_ H2].
    apply elem_of_locs in H1 as (w1 & c1 & Hw1 & Hv1 & Hp1).
    apply elem_of_locs in H2 as (w2 & c2 & Hw2 & Hv2 & Hp2).
    assert (w1 = w2) as <-.
    { destruct (rep_lookup_inv _ _ _ _ _ _ HI0 Hw1) as (o & a & Ho & ->).
      destruct (rep_lookup_inv _ _ _ _ _ _ HI0 Hw2) as (o' & a' & Ho' & ->).
      destruct o as [[[l1 t1] v1]|], o' as [[[l2 t2] v2]|]; simplify_eq/=.
      by apply (rep_inj _ _ _ _ HI0 _ _ _ _ _ _ _ _ _ Ho Ho'). }
    apply elem_of_locs. exists w1, c1. split_and!; [done| |done].
    unfold shared. apply bool_decide_eq_true.
    apply vis_inv in Hv1, Hv2. destruct Hv1 as [|Hv1]; [done|]. destruct Hv2 as [|Hv2]; [done|]. congruence.
  - done.
  - done.
  - done.
  - intros Hcov l [b Hb]. destruct (rep_all _ _ _ _ HI0 _ _ Hb) as (w & t & v & a & Hw).
    pose proof (rep_lookup _ _ _ _ _ _ _ HI0 Hw) as Hwr.
    destruct (ow O w) as [i|] eqn:Ho; [right|left].
    + exists i. split; [by eapply Hcov|]. exists b. apply map_filter_lookup_Some. split; [done|].
      apply elem_of_locs. eexists w, _. split_and!; [done|rewrite Ho; apply vis_own|done].
    + apply elem_of_locs. eexists w, _. split_and!; [done|by rewrite Ho|done].
Qed.

Lemma mon_not_ub {X R} i (a : prim E R) (k : R -> prog E X) s :
  mon rob (own_of i) (ownx_of i) (Act a k) s -> forall o u, exec a (set_orc o s) <> RUB u.
Proof. intros [_ H] o u Hx. specialize (H o). by rewrite Hx in H. Qed.

(** What one step of thread [i] does to its part and to the whole. *)
Lemma thread_step C L i R (a : prim E R) k tr r :
  thread_inv C L i (Act a k) tr ->
  match exec a (seen C r tr) with
  | ROk v S' =>
      exists o s', exec a (set_orc o L) = ROk v s' /\ trc s' = trc S' /\
        patched L s' (seen C r tr) S' /\
        (forall l, blocks L !! l = None -> is_Some (blocks s' !! l) -> c_blocks C !! l = None)
  | RUB _ => False
  | RTerm => True
  end.
Proof.
  intros HT. apply (exec_frame a L (seen C r tr) r).
  - split; apply HT.
  - done.
  - simpl. symmetry. apply HT.
  - eapply mon_not_ub, HT.
  - pose proof (ti_mon _ _ _ _ _ HT) as [Hok _]. destruct a; try done. simpl in Hok.
    symmetry. apply (ti_own _ _ _ _ _ HT). apply Hok.
Qed.

Lemma step_inv C C' L : conf_inv C L -> cstep C C' -> exists L', conf_inv C' L'.
Proof.
  intros HG Hst. destruct Hst as [i R a k tr r v S' Hi Hx].
  pose proof (ci_thread _ _ HG _ _ _ Hi) as HT.
  pose proof (thread_step _ _ _ _ _ _ _ r HT) as Hf. rewrite Hx in Hf.
  destruct Hf as (o & s' & Hx' & Htr & [Pb Pw Px] & Hnew).
  pose proof (ti_mon _ _ _ _ _ HT) as [Hok Hmon]. specialize (Hmon o). rewrite Hx' in Hmon.
  assert (Hfe : fenced rob (own_of i) (set_orc o (L i))) by apply (fenced_orc _ _ o), HT.
  pose proof (exec_untouched HC _ _ _ a _ _ _ (fe_dom _ _ _ Hfe) Hok Hx') as [Ub Uw Ux].
  pose proof (exec_fenced HC _ _ _ a _ _ _ Hfe Hok Hx') as [Hfe' _].
  simpl in Pb, Pw, Px, Ub, Uw, Ux.
  assert (Sb : forall l, l ∈ rob -> blocks S' !! l = c_blocks C !! l).
  { intros l Hl. eapply patch_same; [apply HT|exact Pb|by apply Ub]. }
  assert (Sw : forall w, ~ own_of i w -> wraps S' !! w = c_wraps C !! w).
  { intros w Hw. eapply patch_same; [apply HT|exact Pw|by apply Uw]. }
  assert (Sx : forall n, ~ ownx_of i n -> exts S' !! n = c_exts C !! n).
  { intros n Hn. eapply patch_same; [apply HT|exact Px|by apply Ux]. }
  assert (Hlen : i < length cs). { rewrite <- (ci_len _ _ HG). by eapply lookup_lt_Some. }
  exists (<[i := s']> L). split; cbn [c_threads c_blocks c_wraps c_exts].
  - intros j p tr' Hj. destruct (decide (i = j)) as [<-|Hne].
    + rewrite list_lookup_insert in Hj by (rewrite (ci_len _ _ HG); done). simplify_eq.
      rewrite fn_lookup_insert. split; cbn [c_threads c_blocks c_wraps c_exts].
      * done.
      * done.
      * done.
      * by eapply patch_sub.
      * by eapply patch_sub.
      * by eapply patch_sub.
      * intros w Hw. pose proof (ti_own _ _ _ _ _ HT w Hw) as Hsame.
        rewrite (Pw w). destruct (wraps (L i) !! w), (wraps s' !! w); done.
      * intros w Hw. pose proof (ti_ownx _ _ _ _ _ HT w Hw) as Hsame.
        rewrite (Px w). destruct (exts (L i) !! w), (exts s' !! w); done.
      * intros w Hw. destruct (decide (ow O w = Some i)) as [Ho|Ho]; [rewrite Ho; apply vis_own|].
        rewrite Uw in Hw by done. by apply (ti_vis _ _ _ _ _ HT).
      * intros w Hw. destruct (decide (ox O w = Some i)) as [Ho|Ho]; [rewrite Ho; apply vis_own|].
        rewrite Ux in Hw by done. by apply (ti_visx _ _ _ _ _ HT).
      * destruct (ti_hist _ _ _ _ _ HT) as (c & u & Hc & Hu).
        destruct (exec_orc a o (L i) v s' Hx') as [o1 Ho1].
        exists c, (u ++ o1). split; [done|]. intros rest. rewrite <- app_assoc, Hu. simpl. by rewrite Ho1.
    + rewrite list_lookup_insert_ne in Hj by done. rewrite fn_lookup_insert_ne by done.
      pose proof (ci_thread _ _ HG _ _ _ Hj) as HTj.
      assert (Hlj : j < length cs). { rewrite <- (ci_len _ _ HG). by eapply lookup_lt_Some. }
      split; cbn [c_threads c_blocks c_wraps c_exts]; try apply HTj.
      * apply map_subseteq_spec. intros l b Hb.
        pose proof (lookup_weaken _ _ _ _ Hb (ti_b _ _ _ _ _ HTj)) as HbC.
        destruct (decide (l ∈ rob)) as [Hl|Hl]; [by rewrite Sb|].
        destruct (blocks (L i) !! l) as [b1|] eqn:Hb1.
        { destruct Hl. eapply (ci_sep _ _ HG i j); eauto. }
        destruct (blocks s' !! l) as [b2|] eqn:Hb2.
        { rewrite Hnew in HbC by eauto. done. }
        by rewrite (Pb l), Hb1, Hb2.
      * apply map_subseteq_spec. intros w c Hw. rewrite Sw; [by eapply lookup_weaken, HTj|].
        intros Ho. pose proof (ti_vis _ _ _ _ _ HTj w (mk_is_Some _ _ Hw)) as Hv.
        apply vis_inv in Hv. unfold own_of in Ho. destruct Hv; congruence.
      * apply map_subseteq_spec. intros w c Hw. rewrite Sx; [by eapply lookup_weaken, HTj|].
        intros Ho. pose proof (ti_visx _ _ _ _ _ HTj w (mk_is_Some _ _ Hw)) as Hv.
        apply vis_inv in Hv. unfold ownx_of in Ho. destruct Hv; congruence.
      * intros w Hw. rewrite Sw; [by apply HTj|]. unfold own_of in *. congruence.
      * intros w Hw. rewrite Sx; [by apply HTj|]. unfold ownx_of in *. congruence.
  - by rewrite insert_length, (ci_len _ _ HG).
  - assert (Hsep : forall j l, j < length cs -> i <> j -> is_Some (blocks s' !! l) ->
        is_Some (blocks (L j) !! l) -> l ∈ rob).
    { intros j l Hj Hij H1 [b2 H2]. destruct (blocks (L i) !! l) as [b1|] eqn:Hb1.
      - by eapply (ci_sep _ _ HG i j); eauto.
      - destruct (lookup_lt_is_Some_2 (c_threads C) j) as [[p tr'] Hp];
          [by rewrite (ci_len _ _ HG)|].
        pose proof (lookup_weaken _ _ _ _ H2 (ti_b _ _ _ _ _ (ci_thread _ _ HG _ _ _ Hp))) as HbC.
        by rewrite Hnew in HbC. }
    intros j1 j2 l Hj1 Hj2 Hne H1 H2.
    destruct (decide (i = j1)) as [<-|N1].
    + rewrite fn_lookup_insert in H1. rewrite fn_lookup_insert_ne in H2 by done. by eapply Hsep.
    + rewrite fn_lookup_insert_ne in H1 by done. destruct (decide (i = j2)) as [<-|N2].
      * rewrite fn_lookup_insert in H2. eapply (Hsep j1); done.
      * rewrite fn_lookup_insert_ne in H2 by done. by eapply (ci_sep _ _ HG j1 j2).
  - intros w Hw. rewrite Sw; [by apply HG|]. unfold own_of. congruence.
  - intros w Hw. rewrite Sx; [by apply HG|]. unfold ownx_of. congruence.
  - intros l Hl. rewrite Sb; [by apply HG|done].
  - intros Hcov l Hl. destruct (blocks s' !! l) as [b|] eqn:Hb.
    + right. exists i. split; [done|]. rewrite fn_lookup_insert, Hb. eauto.
    + rewrite (Pb l), Hb in Hl. destruct (blocks (L i) !! l) eqn:Hb1; [by destruct Hl|].
      destruct (ci_cov _ _ HG Hcov l Hl) as [?|(j & Hj & Hlj)]; [by left|right].
      exists j. split; [done|]. rewrite fn_lookup_insert_ne; [done|]. intros <-. rewrite Hb1 in Hlj. by destruct Hlj.
Qed.

Lemma steps_inv C C' L : conf_inv C L -> csteps C C' -> exists L', conf_inv C' L'.
Proof.
  intros HG Hs. revert L HG. induction Hs as [C|C C1 C2 H1 _ IH]; intros L HG; [eauto|].
  destruct (step_inv _ _ _ HG H1) as [L1 H2]. by eapply IH.
Qed.

Lemma inv_no_undefined C L : conf_inv C L -> ~ undefined C.
Proof.
  intros HG (i & R & p & k & tr & r & u & Hi & Hx).
  pose proof (thread_step _ _ _ _ _ _ _ r (ci_thread _ _ HG _ _ _ Hi)) as Hf. by rewrite Hx in Hf.
Qed.

Lemma inv_no_half_race C L i j R1 (p : prim E R1) k1 tr1 R2 (q : prim E R2) k2 tr2 s m :
  conf_inv C L -> i <> j ->
  c_threads C !! i = Some (Act p k1, tr1) -> c_threads C !! j = Some (Act q k2, tr2) ->
  writes p s m -> writes q s m \/ reads q m -> False.
Proof.
  intros HG Hij Hi Hj Hw Ha.
  pose proof (ci_thread _ _ HG _ _ _ Hi) as HTi. pose proof (ci_thread _ _ HG _ _ _ Hj) as HTj.
  pose proof (ti_mon _ _ _ _ _ HTi) as [Hoki _]. pose proof (ti_mon _ _ _ _ _ HTj) as [Hokj _].
  pose proof (step_writes HC _ _ _ p s m Hoki Hw) as H1.
  pose proof (access_dom q (L j) s m (fun u o => mon_not_ub _ _ _ _ (ti_mon _ _ _ _ _ HTj) o u) Ha) as H2.
  pose proof (access_dom p (L i) s m (fun u o => mon_not_ub _ _ _ _ (ti_mon _ _ _ _ _ HTi) o u)
                (or_introl Hw)) as H3.
  destruct m as [w|l|n].
  - destruct H2 as [H2|H2].
    + apply (ti_vis _ _ _ _ _ HTj) in H2. apply vis_inv in H2. unfold own_of in H1. destruct H2; congruence.
    + pose proof (step_writes HC _ _ _ q s _ Hokj H2) as H4. simpl in H4. unfold own_of in *. congruence.
  - apply H1. eapply (ci_sep _ _ HG i j); [| |done|done|done];
      rewrite <- (ci_len _ _ HG); by eapply lookup_lt_Some.
  - destruct H2 as [H2|H2].
    + apply (ti_visx _ _ _ _ _ HTj) in H2. apply vis_inv in H2. unfold ownx_of in H1. destruct H2; congruence.
    + pose proof (step_writes HC _ _ _ q s _ Hokj H2) as H4. simpl in H4. unfold ownx_of in *. congruence.
Qed.

Lemma inv_no_race C L : conf_inv C L -> ~ race C.
Proof.
  intros HG (i & j & R1 & p & k1 & tr1 & R2 & q & k2 & tr2 & Hij & Hi & Hj & m & [[H1 H2]|[H1 H2]]).
  - by eapply (inv_no_half_race C L i j).
  - eapply (inv_no_half_race C L j i); eauto.
Qed.

(** A finished thread has seen what it would have seen alone. *)
Lemma inv_result C L i outs tr :
  conf_inv C L -> c_threads C !! i = Some (Ret outs, tr) ->
  exists c u, cs !! i = Some c /\ trc (L i) = tr /\
    run_client (header_impl h) c (set_orc u (local O i s0)) = HOk outs (set_orc [] (L i)).
Proof.
  intros HG Hi. pose proof (ci_thread _ _ HG _ _ _ Hi) as HT.
  destruct (ti_hist _ _ _ _ _ HT) as (c & u & Hc & Hu). exists c, u. split; [done|].
  split; [apply HT|]. specialize (Hu []). rewrite app_nil_r, run_client_prog in Hu. simpl in Hu.
  destruct (run_client _ c _); simplify_eq. done.
Qed.

(** *** Joining the threads *)
Lemma safe_with_mono F (adm1 adm2 : op E -> spec E -> bool) c σ :
  (forall o σ, adm1 o σ = true -> adm2 o σ = true) ->
  safe_with F adm1 c σ -> safe_with F adm2 c σ.
Proof.
  intros Ha. revert σ. induction c as [|o next IH]; intros σ; [done|].
  intros (H1 & H2 & H3). split_and!; [done|by apply Ha|]. intros res Hres.
  destruct (H3 res Hres) as [H4 H5]. split; [by apply IH|]. intros e σ' Hin. apply IH. by apply H5.
Qed.

Lemma join_inv C L :
  clients_ok h O s0 cs ->
  (forall w i, ow O w = Some i -> i < length cs) ->
  conf_inv C L ->
  all_done C ->
  Inv (header_cls h) (whole C) /\
  (forall i, i < length cs -> Inv (header_cls h) (L i)) /\
  forall w, view (whole C) !! w = match ow O w with None => view s0 !! w | Some i => view (L i) !! w end.
Proof.
  intros Hsafe Hcov HG Hfin. set (k := header_cls h) in *.
  assert (Hth : forall i, i < length cs -> exists outs tr, thread_inv C (L i) i (Ret outs) tr /\ Inv k (L i)).
  { intros i Hi. destruct (lookup_lt_is_Some_2 (c_threads C) i) as [[p tr] Hp]; [by rewrite (ci_len _ _ HG)|].
    destruct (Hfin _ _ _ Hp) as [outs ->]. exists outs, tr.
    split; [by apply (ci_thread _ _ HG)|].
    destruct (inv_result _ _ _ _ _ HG Hp) as (c & u & Hc & _ & Hrun).
    pose proof (client_correct HA _ _ _ c (set_orc u (local O i s0)) (header_implements HA h)
                  (local_inv k i s0 HI0)) as H.
    rewrite Hrun in H. apply H. eapply safe_with_mono; [|exact (Hsafe i c Hc)].
    intros o σ. by intros [? _]%andb_true_iff. }
  set (ω := fun w => match ow O w with None => view s0 !! w | Some i => view (L i) !! w end).
  assert (Hw : forall w, c_wraps C !! w = to_wrapper <$> ω w).
  { intros w. unfold ω. destruct (ow O w) as [i|] eqn:Ho.
    - destruct (Hth i (Hcov _ _ Ho)) as (outs & tr & HT & HI).
      rewrite <- (ti_own _ _ _ _ _ HT w Ho), (rep_wraps _ _ _ _ HI). apply lookup_fmap.
    - rewrite (ci_w _ _ HG w Ho), (rep_wraps _ _ _ _ HI0). apply lookup_fmap. }
  assert (Hb : forall w l t v a, ω w = Some (Some (l, t, v), a) ->
    exists b, c_blocks C !! l = Some b /\ block_ok k l t v a b /\
      match ow O w with None => l ∈ rob | Some i => l ∉ rob /\ is_Some (blocks (L i) !! l) end).
  { intros w l t v a. unfold ω. destruct (ow O w) as [i|] eqn:Ho; intros Hv.
    - destruct (Hth i (Hcov _ _ Ho)) as (outs & tr & HT & HI).
      destruct (rep_own _ _ _ _ HI _ _ _ _ _ Hv) as (b & Hb & Hok). exists b.
      split_and!; [by eapply lookup_weaken, HT|done| |eauto].
      eapply (fe_wrap _ _ _ (ti_fence _ _ _ _ _ HT) w a l Ho). exact (rep_lookup _ _ _ _ _ _ _ HI Hv).
    - destruct (rep_own _ _ _ _ HI0 _ _ _ _ _ Hv) as (b & Hb & Hok). exists b.
      assert (Hl : l ∈ rob).
      { apply elem_of_locs. eexists w, _. split_and!; [exact (rep_lookup _ _ _ _ _ _ _ HI0 Hv)|by rewrite Ho|done]. }
      rewrite (ci_b _ _ HG l Hl). done. }
  assert (Hview : forall w, view (whole C) !! w = ω w).
  { intros w. unfold view, whole. cbn [blocks wraps]. rewrite lookup_fmap, Hw.
    destruct (ω w) as [[[[[l t] v]|] a]|] eqn:Hv; simpl; [|done|done].
    destruct (Hb _ _ _ _ _ Hv) as (b & Hbl & (_ & Hobj & _) & _). unfold view_obj. simpl.
    by rewrite Hbl, Hobj. }
  split_and!.
  - split; simpl.
    + apply map_eq. intros w. by rewrite lookup_fmap, Hview, Hw.
    + intros w l t v a Hv. rewrite Hview in Hv. destruct (Hb _ _ _ _ _ Hv) as (b & H1 & H2 & _). eauto.
    + intros l b Hl. destruct (ci_cov _ _ HG (fun w i _ => Hcov w i) l (mk_is_Some _ _ Hl))
        as [Hr|(i & Hi & [b' Hli])].
      * apply elem_of_locs in Hr as (w & c & Hwr & Hs & Hp). apply bool_decide_eq_true in Hs.
        destruct (rep_lookup_inv _ _ _ _ _ _ HI0 Hwr) as (o & a & Ho & ->).
        destruct o as [[[l' t] v]|]; simplify_eq/=. exists w, t, v, a. rewrite Hview. unfold ω.
        by rewrite Hs.
      * destruct (Hth i Hi) as (outs & tr & HT & HI).
        destruct (rep_all _ _ _ _ HI _ _ Hli) as (w & t & v & a & Hv). exists w, t, v, a.
        rewrite Hview. unfold ω.
        pose proof (rep_lookup _ _ _ _ _ _ _ HI Hv) as HwL.
        pose proof (ti_vis _ _ _ _ _ HT w (mk_is_Some _ _ HwL)) as Hvis.
        apply vis_inv in Hvis as [Ho|Ho]; rewrite Ho; [|done].
        pose proof (lookup_weaken _ _ _ _ HwL (ti_w _ _ _ _ _ HT)) as HwC.
        rewrite (ci_w _ _ HG w Ho) in HwC.
        destruct (rep_lookup_inv _ _ _ _ _ _ HI0 HwC) as (o & a' & Hv0 & Heq).
        destruct o as [[[l' t'] v']|]; unfold to_wrapper in Heq; simplify_eq/=.
        assert (Hl' : l' ∈ rob).
        { apply elem_of_locs. eexists w, _. split_and!; [exact HwC|by rewrite Ho|done]. }
        destruct (rep_own _ _ _ _ HI0 _ _ _ _ _ Hv0) as (b0 & Hb0 & (_ & Hob & _)).
        destruct (rep_own _ _ _ _ HI _ _ _ _ _ Hv) as (b1 & Hb1 & (_ & Hob' & _)).
        pose proof (lookup_weaken _ _ _ _ Hb1 (ti_b _ _ _ _ _ HT)) as HbC.
        rewrite (ci_b _ _ HG _ Hl'), Hb0 in HbC. simplify_eq. rewrite Hob in Hob'. by simplify_eq.
    + intros w1 w2 l t1 v1 a1 t2 v2 a2 H1 H2. rewrite Hview in H1, H2.
      destruct (Hb _ _ _ _ _ H1) as (_ & _ & _ & Q1). destruct (Hb _ _ _ _ _ H2) as (_ & _ & _ & Q2).
      unfold ω in H1, H2. destruct (ow O w1) as [i|] eqn:O1, (ow O w2) as [j|] eqn:O2.
      * destruct (decide (i = j)) as [->|Hij].
        -- destruct (Hth j (Hcov _ _ O1)) as (outs & tr & HT & HI). exact (rep_inj _ _ _ _ HI _ _ _ _ _ _ _ _ _ H1 H2).
        -- destruct Q1 as [Q1 S1], Q2 as [_ S2]. destruct Q1.
           apply (ci_sep _ _ HG i j l (Hcov _ _ O1) (Hcov _ _ O2) Hij S1 S2).
      * by destruct Q1.
      * by destruct Q2.
      * exact (rep_inj _ _ _ _ HI0 _ _ _ _ _ _ _ _ _ H1 H2).
  - intros i Hi. by destruct (Hth i Hi) as (? & ? & ? & ?).
  - exact Hview.
Qed.

End threads.

Lemma sched_steps {E : Env} {Z} is (C C' : config E Z) : sched is C = Some C' -> csteps C C'.
Proof.
  revert C. induction is as [|i is IH]; intros C; simpl; [intros [= ->]; constructor|].
  destruct (c_threads C !! i) as [[[x|e|R p k] tr]|] eqn:Hi; try done.
  destruct (exec p (seen C (RespOk 0) tr)) as [v s'| |] eqn:Hx; try done. intros Hs.
  eapply rtc_l; [by eapply cstep_thread|by apply IH].
Qed.

(** If two threads are about to construct from the same object as non-const lvalue, with a
    constructor that modifies it, that is a race. *)
Definition next_src {E : Env} {Z} (C : config E Z) (i : nat) : option (oref * eV E * eV E) :=
  match c_threads C !! i with
  | Some (Act (PCons a t l (ARef NonConstL r)) _, _) =>
      match deref r (seen C (RespOk 0) []) with
      | inr (t', v) => Some (r, v, (t_cons E NonConstL t t' a v).2)
      | _ => None
      end
  | _ => None
  end.

Lemma next_src_race {E : Env} {Z} (C : config E Z) i j r v v1 v2 :
  i <> j -> next_src C i = Some (r, v, v1) -> next_src C j = Some (r, v, v2) -> v1 <> v -> race C.
Proof.
  unfold next_src. intros Hij Hi Hj Hv.
  destruct (c_threads C !! i) as [[[x|e|R1 p k1] tr1]|] eqn:Hi'; try done. destruct p; try done.
  destruct x as [|[] r1]; try done.
  destruct (c_threads C !! j) as [[[x|e|R2 q k2] tr2]|] eqn:Hj'; try done. destruct q; try done.
  destruct x as [|[] r2]; try done.
  destruct (deref r1 (seen C (RespOk 0) [])) as [|[t1 w1]] eqn:H1; try done.
  destruct (deref r2 (seen C (RespOk 0) [])) as [|[t2 w2]] eqn:H2; try done. simplify_eq.
  eexists i, j, _, _, _, _, _, _, _, _. split; [done|]. split; [exact Hi'|]. split; [exact Hj'|].
  exists (mref r). left. split; [|right; done]. right. split; [done|]. exists t1, v. split; [done|]. by left.
Qed.
