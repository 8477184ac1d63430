(** * Single actions: dependence on the environment's answers, on other threads' memory. *)

From stdpp Require Import base gmap list.
From Verif Require Import Lang Common Client Spec Rep RunLemmas Draft Hist Conc ConcStatic.

Section exec.
Context {E : Env}.
Implicit Types s : store E.

(** ** Answers *)

Lemma deref_orc r o s : deref r (set_orc o s) = deref r s.
Proof. by destruct r. Qed.

Lemma cons_vals_orc a t x o s : cons_vals a t x (set_orc o s) = cons_vals a t x s.
Proof. destruct x as [c|k r]; simpl; [done|]. by rewrite deref_orc. Qed.

Lemma asgn_vals_orc l t v x o s : asgn_vals l t v x (set_orc o s) = asgn_vals l t v x s.
Proof. destruct x as [c|k r]; simpl; [done|]. by rewrite deref_orc. Qed.

Lemma upd_ref_orc r v o s : upd_ref r v (set_orc o s) = set_orc o (upd_ref r v s).
Proof. by destruct r. Qed.

Lemma upd_src_orc_c (x : arg E) v o s : upd_src x v (set_orc o s) = set_orc o (upd_src x v s).
Proof. destruct x as [c|[] r]; simpl; try done; apply upd_ref_orc. Qed.

Lemma set_orc_twice o1 o2 s : set_orc o1 (set_orc o2 s) = set_orc o1 s.
Proof. done. Qed.

Lemma pop_set r o s : pop (set_orc (r :: o) s) = (r, set_orc o s).
Proof. done. Qed.

(** The answers actually used by an action. *)
Lemma exec_orc {R} (a : prim E R) o s r s' :
  exec a (set_orc o s) = ROk r s' ->
  exists o1, forall rest, exec a (set_orc (o1 ++ rest) s) = ROk r (set_orc rest s').
Proof.
  intros H.
  assert (Hp : exists q, (pop (set_orc o s)).1 = q /\ pop (set_orc o s) = (q, set_orc (tail o) s)).
  { destruct o as [|q o]; simpl; eexists; done. }
  destruct Hp as (q & _ & Hq).
  destruct a; simpl in H |- *; rewrite ?Hq in H.
  - (* alloc *) destruct q as [h|e]; simplify_eq/=; [exists [RespOk h]|exists [RespFail e]]; done.
  - exists []. intros. simpl. repeat (case_match; try done); by simplify_eq/=.
  - destruct (blocks s !! l) as [b|] eqn:Hb; [|done]. destruct (negb _) eqn:Hn; [done|].
    destruct (b_obj b) eqn:Ho; try done. rewrite cons_vals_orc in H.
    destruct (cons_vals a t x s) as [|[[v v1] v2]] eqn:Hc; [done|].
    exists [q]. intros rest. rewrite cons_vals_orc, Hc. rewrite <- app_comm_cons, pop_set.
    destruct q as [h|e]; rewrite !upd_src_orc_c in *; simplify_eq/=; done.
  - exists []. intros. simpl. repeat (case_match; try done); by simplify_eq/=.
  - exists []. intros. simpl. repeat (case_match; try done); by simplify_eq/=.
  - exists []. intros. simpl. repeat (case_match; try done); by simplify_eq/=.
  - change (match blocks s !! l with
            | Some b => match b_obj b with OLive t v => inr (t, v) | _ => inl UBBadObj end
            | None => inl UBDangling
            end) with (deref (RBlk l) s) in *.
    destruct (deref (RBlk l) s) as [|[t0 v0]] eqn:Hd; [done|]. destruct (negb _); [done|].
    rewrite asgn_vals_orc in H. destruct (asgn_vals l t0 v0 x s) as [|[[d v] [df vf]]] eqn:Hc; [done|].
    exists [q]. intros rest. rewrite asgn_vals_orc, Hc. rewrite <- app_comm_cons, pop_set.
    destruct q as [h|e]; rewrite !upd_src_orc_c in *; simplify_eq/=; done.
  - exists []. intros. simpl. repeat (case_match; try done); by simplify_eq/=.
  - exists []. intros. simpl. repeat (case_match; try done); by simplify_eq/=.
  - exists []. intros. simpl. repeat (case_match; try done); by simplify_eq/=.
  - exists []. intros. simpl. repeat (case_match; try done); by simplify_eq/=.
  - exists []. intros. simpl. repeat (case_match; try done); by simplify_eq/=.
  - exists []. intros. simpl. repeat (case_match; try done); by simplify_eq/=.
  - exists []. intros. simpl. repeat (case_match; try done); by simplify_eq/=.
  - exists []. intros. simpl. repeat (case_match; try done); by simplify_eq/=.
  - exists []. intros. simpl. repeat (case_match; try done); by simplify_eq/=.
  - exists []. intros. simpl. repeat (case_match; try done); by simplify_eq/=.
  - rewrite deref_orc in H. destruct (deref r0 s) eqn:Hd; [done|]. exists []. intros. simpl.
    rewrite deref_orc, Hd. by simplify_eq/=.
  - rewrite deref_orc in H. destruct (deref r0 s) as [|[]] eqn:Hd; [done|]. exists []. intros. simpl.
    rewrite deref_orc, Hd. rewrite upd_ref_orc in *. by simplify_eq/=.
  - exists []. intros. simpl. by simplify_eq/=.
  - done.
  - done.
Qed.

(** ** Memory of others *)

(** [m], [m']: a thread's memory before and after an action; [M], [M']: all memory. *)
Definition patch {K} `{Countable K} {X} (m m' M M' : gmap K X) : Prop :=
  forall k, M' !! k = match m !! k, m' !! k with None, None => M !! k | _, x => x end.

Lemma patch_id {K} `{Countable K} {X} (m M : gmap K X) : m ⊆ M -> patch m m M M.
Proof.
  intros Hs k. destruct (m !! k) eqn:Hk; [|done]. by eapply lookup_weaken.
Qed.

Lemma patch_upd {K} `{Countable K} {X} (m m' M M' : gmap K X) k :
  m ⊆ M -> M' !! k = m' !! k -> (is_Some (m !! k) \/ is_Some (m' !! k)) ->
  (forall j, j <> k -> m' !! j = m !! j) -> (forall j, j <> k -> M' !! j = M !! j) ->
  patch m m' M M'.
Proof.
  intros Hs Hk Hi H1 H2 j. destruct (decide (j = k)) as [->|Hne].
  - rewrite Hk. destruct (m !! k), (m' !! k); try done. by destruct Hi as [[]|[]].
  - rewrite H1, H2 by done. by apply patch_id.
Qed.

Lemma patch_insert {K} `{Countable K} {X} (m M : gmap K X) k v :
  m ⊆ M -> patch m (<[k := v]> m) M (<[k := v]> M).
Proof.
  intros Hs. apply (patch_upd _ _ _ _ k); [done|by rewrite !lookup_insert|rewrite lookup_insert; eauto| |];
    intros j Hj; by rewrite lookup_insert_ne.
Qed.

Lemma patch_delete {K} `{Countable K} {X} (m M : gmap K X) k :
  m ⊆ M -> is_Some (m !! k) -> patch m (delete k m) M (delete k M).
Proof.
  intros Hs Hk. apply (patch_upd _ _ _ _ k); [done|by rewrite !lookup_delete|by left| |];
    intros j Hj; by rewrite lookup_delete_ne.
Qed.

Lemma patch_alter {K} `{Countable K} {X} (f : X -> X) (m M : gmap K X) k :
  m ⊆ M -> is_Some (m !! k) -> patch m (alter f k m) M (alter f k M).
Proof.
  intros Hs [v Hk]. apply (patch_upd _ _ _ _ k); [done| |by left; eauto| |].
  - rewrite !lookup_alter, Hk. by rewrite (lookup_weaken _ _ _ _ Hk Hs).
  - intros j Hj. by rewrite lookup_alter_ne.
  - intros j Hj. by rewrite lookup_alter_ne.
Qed.

Lemma patch_sub {K} `{Countable K} {X} (m m' M M' : gmap K X) :
  patch m m' M M' -> m' ⊆ M'.
Proof.
  intros Hp. apply map_subseteq_spec. intros k x Hk. rewrite (Hp k), Hk. by destruct (m !! k).
Qed.

Lemma patch_trans {K} `{Countable K} {X} (m1 m2 m3 M1 M2 M3 : gmap K X) :
  patch m1 m2 M1 M2 -> patch m2 m3 M2 M3 -> (forall k, m2 !! k = None <-> m1 !! k = None) ->
  patch m1 m3 M1 M3.
Proof.
  intros H1 H2 Hd k. specialize (H1 k). specialize (H2 k). specialize (Hd k). rewrite H2, H1.
  destruct (m1 !! k), (m2 !! k), (m3 !! k); naive_solver.
Qed.

(** The memory [s] of a thread is part of the memory [S]. *)
Record inside s (S : store E) : Prop := {
  in_b : blocks s ⊆ blocks S; in_w : wraps s ⊆ wraps S; in_x : exts s ⊆ exts S;
}.

Record patched s s' (S S' : store E) : Prop := {
  pa_b : patch (blocks s) (blocks s') (blocks S) (blocks S');
  pa_w : patch (wraps s) (wraps s') (wraps S) (wraps S');
  pa_x : patch (exts s) (exts s') (exts S) (exts S');
}.

Lemma deref_in s S r o : inside s S -> deref r s = inr o -> deref r S = inr o.
Proof.
  intros [Hb _ Hx] H. destruct r as [l|n]; simpl in *.
  - destruct (blocks s !! l) as [b|] eqn:Hl; [|done]. by rewrite (lookup_weaken _ _ _ _ Hl Hb).
  - destruct (exts s !! n) eqn:Hn; [|done]. by rewrite (lookup_weaken _ _ _ _ Hn Hx).
Qed.

Lemma cons_vals_in s S a t x v : inside s S -> cons_vals a t x s = inr v -> cons_vals a t x S = inr v.
Proof.
  intros Hi. destruct x as [c|k r]; simpl; [done|]. destruct (deref r s) as [|o] eqn:Hd; [done|].
  by rewrite (deref_in _ _ _ _ Hi Hd).
Qed.

Lemma asgn_vals_in s S l t v0 x v :
  inside s S -> asgn_vals l t v0 x s = inr v -> asgn_vals l t v0 x S = inr v.
Proof.
  intros Hi. destruct x as [c|k r]; simpl; [done|]. destruct (bool_decide _); [done|].
  destruct (deref r s) as [|o] eqn:Hd; [done|]. by rewrite (deref_in _ _ _ _ Hi Hd).
Qed.

Lemma patched_id s S : inside s S -> patched s s S S.
Proof. intros [H1 H2 H3]. split; by apply patch_id. Qed.

Lemma patched_in s s' S S' : patched s s' S S' -> inside s' S'.
Proof. intros [H1 H2 H3]. split; by eapply patch_sub. Qed.

Lemma upd_ref_patched s S r v o :
  inside s S -> deref r s = inr o -> patched s (upd_ref r v s) S (upd_ref r v S).
Proof.
  intros Hi Hd. pose proof Hi as [H1 H2 H3]. destruct r as [l|n]; simpl in *.
  - destruct (blocks s !! l) eqn:Hl; [|done]. split; simpl; [by apply patch_alter|by apply patch_id|by apply patch_id].
  - destruct (exts s !! n) eqn:Hn; [|done]. split; simpl; [by apply patch_id|by apply patch_id|by apply patch_alter].
Qed.

Lemma upd_src_patched s S x v a t w :
  inside s S -> cons_vals a t x s = inr w -> patched s (upd_src x v s) S (upd_src x v S).
Proof.
  intros Hi Hc. destruct x as [c|k r]; simpl in *; [by apply patched_id|].
  destruct (deref r s) as [|o] eqn:Hd; [done|].
  destruct k; [by apply patched_id|by eapply upd_ref_patched|by eapply upd_ref_patched].
Qed.

Lemma upd_ref_dom r v s l : is_Some (blocks s !! l) -> is_Some (blocks (upd_ref r v s) !! l).
Proof.
  destruct r as [l'|n]; simpl; [|done]. intros [b Hb]. destruct (decide (l' = l)) as [->|Hne].
  - rewrite lookup_alter, Hb. eauto.
  - rewrite lookup_alter_ne, Hb by done. eauto.
Qed.
Lemma upd_src_domx (x : arg E) v s n : exts (upd_src x v s) !! n = None <-> exts s !! n = None.
Proof.
  destruct x as [c|[] [l|n']]; simpl; try done; apply lookup_alter_None.
Qed.
Lemma upd_ref_wraps r v s : wraps (upd_ref r v s) = wraps s.
Proof. by destruct r. Qed.
Lemma upd_ref_trc r v s : trc (upd_ref r v s) = trc s.
Proof. by destruct r. Qed.
Lemma upd_ref_orc' r v s : orc (upd_ref r v s) = orc s.
Proof. by destruct r. Qed.

Lemma upd_src_ref (x : arg E) v s : upd_src x v s = s \/ exists r, upd_src x v s = upd_ref r v s.
Proof. destruct x as [c|[] r]; simpl; eauto. Qed.

Lemma patched_trans s1 s2 s3 S1 S2 S3 :
  patched s1 s2 S1 S2 -> patched s2 s3 S2 S3 ->
  (forall l, blocks s2 !! l = None <-> blocks s1 !! l = None) ->
  wraps s2 = wraps s1 ->
  (forall l, exts s2 !! l = None <-> exts s1 !! l = None) ->
  patched s1 s3 S1 S3.
Proof.
  intros [A1 A2 A3] [B1 B2 B3] H1 H2 H3. split; [by eapply patch_trans| |by eapply patch_trans].
  eapply patch_trans; [done|done|]. by rewrite H2.
Qed.

(** An action that is defined in a thread's own memory does the same in all memory. *)
Lemma exec_frame {R} (a : prim E R) s S r :
  inside s S -> orc S = [r] -> trc S = trc s ->
  (forall o u, exec a (set_orc o s) <> RUB u) ->
  (match a with PNewW w _ _ => wraps S !! w = wraps s !! w | _ => True end) ->
  match exec a S with
  | ROk v S' =>
      exists o s', exec a (set_orc o s) = ROk v s' /\ trc s' = trc S' /\ patched s s' S S' /\
        (forall l, blocks s !! l = None -> is_Some (blocks s' !! l) -> blocks S !! l = None)
  | RUB _ => False
  | RTerm => True
  end.
Proof.
  intros Hi Hor Htr Hub Hnew. pose proof Hi as [Hb Hw Hx].
  assert (Hsame : forall (v : R),
    (forall l : loc, blocks s !! l = None -> is_Some (blocks s !! l) -> blocks S !! l = None) /\
    patched s s S S).
  { intros v. split; [intros l H1 [? H2]; congruence|by apply patched_id]. }
  assert (HpS : pop S = (r, set_orc [] S)). { unfold pop. by rewrite Hor. }
  destruct a.
  - (* alloc *) simpl. rewrite HpS. destruct r as [h|e].
    + exists [RespOk (choose h (blocks S))].
      assert (Hf : blocks S !! choose h (blocks S) = None) by apply choose_fresh.
      assert (Hf' : blocks s !! choose h (blocks S) = None) by (by eapply lookup_weaken_None).
      rewrite pop_set. simpl. assert (choose (choose h (blocks S)) (blocks s) = choose h (blocks S)) as ->.
      { unfold choose at 1. by rewrite Hf'. }
      eexists. split; [reflexivity|]. simpl.
      split; [by rewrite Htr|]. split.
      * split; simpl; [by apply patch_insert|by apply patch_id|by apply patch_id].
      * intros l Hl. destruct (decide (l = choose h (blocks S))) as [->|Hne]; [done|].
        rewrite lookup_insert_ne by done. rewrite Hl. by intros [? ?].
    + exists [RespFail e]. eexists. split; [reflexivity|]. simpl.
      split; [by rewrite Htr|]. split; [|intros l H1 [? H2]; congruence].
      split; by apply patch_id.
  - (* dealloc *) specialize (Hub []). simpl in *.
    destruct (blocks s !! l) as [blk|] eqn:Hl; [|by edestruct Hub].
    rewrite (lookup_weaken _ _ _ _ Hl Hb).
    destruct (negb (bool_decide _)); [by edestruct Hub|]. destruct (negb _); [by edestruct Hub|].
    destruct (b_obj blk); try (by edestruct Hub). exists []. eexists. split; [reflexivity|]. simpl.
    split; [by rewrite Htr|]. split.
    + split; simpl; [apply patch_delete; eauto|by apply patch_id|by apply patch_id].
    + intros l' H1 [? H2]. apply lookup_delete_Some in H2 as [? ?]. congruence.
  - (* cons *) pose proof (Hub []) as Hub'. simpl in *.
    destruct (blocks s !! l) as [blk|] eqn:Hl; [|by edestruct Hub'].
    rewrite (lookup_weaken _ _ _ _ Hl Hb).
    destruct (negb (storage_for t blk)); [by edestruct Hub'|].
    destruct (b_obj blk); try (by edestruct Hub').
    rewrite cons_vals_orc in Hub'.
    destruct (cons_vals a t x s) as [|[[v v1] v2]] eqn:Hc; [by edestruct Hub'|].
    rewrite (cons_vals_in _ _ _ _ _ _ Hi Hc). rewrite HpS.
    assert (HcS := cons_vals_in _ _ _ _ _ _ Hi Hc).
    destruct r as [h|e]; [exists [RespOk h]|exists [RespFail e]];
      (eexists; split; [rewrite cons_vals_orc, Hc; reflexivity|]); rewrite !upd_src_orc_c; simpl.
    + pose proof (upd_src_patched s S x v1 a t _ Hi Hc) as Hp.
      split; [by rewrite !upd_src_trc, Htr|]. split.
      * assert (Hp2 : patched (upd_src x v1 s)
           (set_blocks (alter (set_obj (OLive t v)) l (blocks (upd_src x v1 s))) (upd_src x v1 s))
           (upd_src x v1 S)
           (set_blocks (alter (set_obj (OLive t v)) l (blocks (upd_src x v1 S))) (upd_src x v1 S))).
        { apply patched_in in Hp as Hi'. destruct Hi' as [H1 H2 H3].
          split; simpl; [|by apply patch_id|by apply patch_id]. apply patch_alter; [done|].
          destruct (upd_src_ref x v1 s) as [->|[r ->]]; [eauto|apply upd_ref_dom; eauto]. }
        destruct (patched_trans _ _ _ _ _ _ Hp Hp2) as [A1 A2 A3].
        -- intros l'. apply upd_src_dom.
        -- apply upd_src_wraps.
        -- intros l'. apply upd_src_domx.
        -- split; [exact A1|exact A2|exact A3].
      * intros l' H1 [b' H2]. destruct (decide (l = l')) as [->|Hne]; [congruence|].
        rewrite lookup_alter_ne in H2 by done. apply (upd_src_dom x v1) in H1. congruence.
    + pose proof (upd_src_patched s S x v2 a t _ Hi Hc) as Hp.
      split; [by rewrite !upd_src_trc, Htr|]. split.
      * destruct Hp as [A1 A2 A3]. split; [exact A1|exact A2|exact A3].
      * intros l' H1 [b' H2]. apply (upd_src_dom x v2) in H1. congruence.
  - (* destroy *) specialize (Hub []). simpl in *.
    destruct (blocks s !! l) as [blk|] eqn:Hl; [|by edestruct Hub].
    rewrite (lookup_weaken _ _ _ _ Hl Hb).
    destruct (b_obj blk); try (by edestruct Hub). destruct (bool_decide _); try (by edestruct Hub).
    exists []. eexists. split; [reflexivity|]. simpl.
    split; [by rewrite Htr|]. split.
    + split; simpl; [by apply patch_insert|by apply patch_id|by apply patch_id].
    + intros l' H1 [? H2]. rewrite lookup_insert_ne in H2 by congruence. congruence.
  - specialize (Hub []). simpl in *.
    destruct (blocks s !! l) as [blk|] eqn:Hl; [|by edestruct Hub].
    rewrite (lookup_weaken _ _ _ _ Hl Hb).
    destruct (b_obj blk); try (by edestruct Hub). destruct (bool_decide _); try (by edestruct Hub).
    exists []. eexists. split; [reflexivity|]. simpl.
    split; [by rewrite Htr|]. split.
    + split; simpl; [by apply patch_insert|by apply patch_id|by apply patch_id].
    + intros l' H1 [? H2]. rewrite lookup_insert_ne in H2 by congruence. congruence.
  - specialize (Hub []). simpl in *.
    destruct (blocks s !! l) as [blk|] eqn:Hl; [|by edestruct Hub].
    rewrite (lookup_weaken _ _ _ _ Hl Hb).
    destruct (b_obj blk); try (by edestruct Hub). destruct (bool_decide _); try (by edestruct Hub).
    exists []. eexists. split; [reflexivity|]. simpl.
    split; [done|]. split.
    + split; simpl; [by apply patch_insert|by apply patch_id|by apply patch_id].
    + intros l' H1 [? H2]. rewrite lookup_insert_ne in H2 by congruence. congruence.
  - (* asgn *) pose proof (Hub []) as Hub'. unfold exec in *.
    rewrite (deref_orc (RBlk l)) in Hub'.
    destruct (deref (RBlk l) s) as [|[t0 v0]] eqn:Hd; [by edestruct Hub'|].
    rewrite (deref_in _ _ _ _ Hi Hd).
    destruct (negb (bool_decide (t = t0))) eqn:Ht; [by edestruct Hub'|].
    rewrite asgn_vals_orc in Hub'.
    destruct (asgn_vals l t0 v0 x s) as [|[[d v] [df vf]]] eqn:Hc; [by edestruct Hub'|].
    rewrite (asgn_vals_in _ _ _ _ _ _ _ Hi Hc). rewrite HpS.
    assert (Hsrc : forall w, patched s (upd_src x w s) S (upd_src x w S)).
    { intros w. destruct x as [c|k r0]; simpl in *; [by apply patched_id|].
      destruct (bool_decide (r0 = RBlk l)) eqn:Hr.
      - apply bool_decide_eq_true in Hr as ->. destruct k; [by apply patched_id| |]; by eapply (upd_ref_patched _ _ (RBlk l)).
      - destruct (deref r0 s) as [|o0] eqn:Hd0; [done|].
        destruct k; [by apply patched_id| |]; by eapply upd_ref_patched. }
    assert (Htgt : forall w w', patched s (upd_ref (RBlk l) w (upd_src x w' s)) S (upd_ref (RBlk l) w (upd_src x w' S))).
    { intros w w'. destruct (deref (RBlk l) (upd_src x w' s)) as [u|o0] eqn:Hd0.
      - exfalso. destruct x as [c|[] r0]; simpl in Hd0, Hd; try (by rewrite Hd in Hd0);
          (destruct r0 as [l0|n0]; simpl in Hd0; [|by rewrite Hd in Hd0];
           destruct (decide (l0 = l)) as [->|Hne];
           [rewrite lookup_alter in Hd0|rewrite lookup_alter_ne in Hd0 by done; by rewrite Hd in Hd0];
           destruct (blocks s !! l) as [[? ? ? []]|]; by simplify_eq/=).
      - eapply patched_trans; [apply Hsrc|by eapply upd_ref_patched; [eapply patched_in, Hsrc|]| | |].
        + intros l'. apply upd_src_dom.
        + apply upd_src_wraps.
        + intros l'. apply upd_src_domx. }
    assert (Hdom : forall w w' l', blocks s !! l' = None ->
      is_Some (blocks (upd_ref (RBlk l) w (upd_src x w' s)) !! l') -> blocks S !! l' = None).
    { intros w w' l' H1 [b' H2]. simpl in H2. apply (upd_src_dom x w') in H1.
      destruct (decide (l = l')) as [->|Hne]; [rewrite lookup_alter, H1 in H2|rewrite lookup_alter_ne in H2 by done];
        by simplify_eq/=; congruence. }
    destruct r as [h|e]; [exists [RespOk h]|exists [RespFail e]];
      (eexists; split; [rewrite (deref_orc (RBlk l)), Hd, Ht, asgn_vals_orc, Hc; reflexivity|]);
      rewrite !upd_src_orc_c; cbn [fst snd].
    + rewrite !upd_ref_orc. split; [simpl; by rewrite !upd_src_trc, Htr|]. split.
      * destruct (Htgt d v) as [A1 A2 A3]. split; [exact A1|exact A2|exact A3].
      * apply Hdom.
    + rewrite !upd_ref_orc. split; [simpl; by rewrite !upd_src_trc, Htr|]. split.
      * destruct (Htgt df vf) as [A1 A2 A3]. split; [exact A1|exact A2|exact A3].
      * apply Hdom.
  - (* readp *) specialize (Hub []). simpl in *.
    destruct (wraps s !! w) as [c|] eqn:Hl; [|by edestruct Hub]. rewrite (lookup_weaken _ _ _ _ Hl Hw).
    destruct (w_p c); try (by edestruct Hub).
    + exists []. eexists. split; [reflexivity|]. split; [done|]. split; [|intros ? H1 [? H2]; simpl in *; congruence].
      split; by apply patch_id.
    + exists []. eexists. split; [reflexivity|]. split; [done|]. split; [|intros ? H1 [? H2]; simpl in *; congruence].
      split; by apply patch_id.
  - specialize (Hub []). simpl in *.
    destruct (wraps s !! w) as [c|] eqn:Hl; [|by edestruct Hub]. rewrite (lookup_weaken _ _ _ _ Hl Hw).
    exists []. eexists. split; [reflexivity|]. split; [done|]. split; [|intros ? H1 [? H2]; simpl in *; congruence].
    split; simpl; [by apply patch_id|by apply patch_insert|by apply patch_id].
  - specialize (Hub []). simpl in *.
    destruct (wraps s !! w) as [c|] eqn:Hl; [|by edestruct Hub]. rewrite (lookup_weaken _ _ _ _ Hl Hw).
    exists []. eexists. split; [reflexivity|]. split; [done|]. split; [|intros ? H1 [? H2]; simpl in *; congruence].
    split; by apply patch_id.
  - specialize (Hub []). simpl in *.
    destruct (wraps s !! w) as [c|] eqn:Hl; [|by edestruct Hub]. rewrite (lookup_weaken _ _ _ _ Hl Hw).
    exists []. eexists. split; [reflexivity|]. split; [done|]. split; [|intros ? H1 [? H2]; simpl in *; congruence].
    split; simpl; [by apply patch_id|by apply patch_insert|by apply patch_id].
  - (* new *) specialize (Hub []). simpl in *. rewrite Hnew.
    destruct (wraps s !! w) as [c|] eqn:Hl; [by edestruct Hub|].
    exists []. eexists. split; [reflexivity|]. split; [done|]. split; [|intros ? H1 [? H2]; simpl in *; congruence].
    split; simpl; [by apply patch_id|by apply patch_insert|by apply patch_id].
  - specialize (Hub []). simpl in *.
    destruct (wraps s !! w) as [c|] eqn:Hl; [|by edestruct Hub]. rewrite (lookup_weaken _ _ _ _ Hl Hw).
    exists []. eexists. split; [reflexivity|]. split; [done|]. split; [|intros ? H1 [? H2]; simpl in *; congruence].
    split; simpl; [by apply patch_id|apply patch_delete; eauto|by apply patch_id].
  - specialize (Hub []). simpl in *.
    destruct (blocks s !! l) as [blk|] eqn:Hl; [|by edestruct Hub].
    rewrite (lookup_weaken _ _ _ _ Hl Hb).
    destruct (b_hdr blk); try (by edestruct Hub). destruct (b_obj blk); try (by edestruct Hub).
    destruct (bool_decide _); try (by edestruct Hub).
    exists []. eexists. split; [reflexivity|]. simpl.
    split; [done|]. split.
    + split; simpl; [by apply patch_insert|by apply patch_id|by apply patch_id].
    + intros l' H1 [? H2]. rewrite lookup_insert_ne in H2 by congruence. congruence.
  - specialize (Hub []). simpl in *.
    destruct (blocks s !! l) as [blk|] eqn:Hl; [|by edestruct Hub].
    rewrite (lookup_weaken _ _ _ _ Hl Hb).
    destruct (b_hdr blk); try (by edestruct Hub).
    exists []. eexists. split; [reflexivity|]. simpl.
    split; [done|]. split.
    + split; simpl; [by apply patch_insert|by apply patch_id|by apply patch_id].
    + intros l' H1 [? H2]. rewrite lookup_insert_ne in H2 by congruence. congruence.
  - specialize (Hub []). simpl in *.
    destruct (blocks s !! l) as [blk|] eqn:Hl; [|by edestruct Hub].
    rewrite (lookup_weaken _ _ _ _ Hl Hb).
    destruct (b_hdr blk) as [|t [q|]]; try (by edestruct Hub).
    exists []. eexists. split; [reflexivity|]. split; [done|]. split; [|intros ? H1 [? H2]; simpl in *; congruence].
    split; by apply patch_id.
  - specialize (Hub []). simpl in *.
    destruct (blocks s !! l) as [blk|] eqn:Hl; [|by edestruct Hub].
    rewrite (lookup_weaken _ _ _ _ Hl Hb).
    destruct (b_hdr blk) as [|t [q|]]; try (by edestruct Hub).
    + exists []. eexists. split; [reflexivity|]. split; [done|]. split; [|intros ? H1 [? H2]; simpl in *; congruence].
      split; by apply patch_id.
    + exists []. eexists. split; [reflexivity|]. split; [done|]. split; [|intros ? H1 [? H2]; simpl in *; congruence].
      split; by apply patch_id.
  - specialize (Hub []). simpl in *. rewrite deref_orc in Hub.
    destruct (deref r0 s) as [|o0] eqn:Hd; [by edestruct Hub|]. rewrite (deref_in _ _ _ _ Hi Hd).
    exists []. eexists. split; [rewrite deref_orc, Hd; reflexivity|]. split; [done|].
    split; [|intros ? H1 [? H2]; simpl in *; congruence]. split; by apply patch_id.
  - specialize (Hub []). simpl in *. rewrite deref_orc in Hub.
    destruct (deref r0 s) as [|[t0 v0]] eqn:Hd; [by edestruct Hub|]. rewrite (deref_in _ _ _ _ Hi Hd).
    exists []. eexists. split; [rewrite deref_orc, Hd; reflexivity|]. rewrite upd_ref_orc.
    split; [simpl; by rewrite !upd_ref_trc|].
    pose proof (upd_ref_patched s S r0 (f v0) _ Hi Hd) as [A1 A2 A3].
    split; [split; [exact A1|exact A2|exact A3]|]. intros l H1 [b H2]. simpl in H2.
    destruct r0 as [l0|n0]; simpl in *; [|congruence].
    destruct (decide (l0 = l)) as [->|Hne]; [rewrite lookup_alter, H1 in H2|rewrite lookup_alter_ne in H2 by done];
      by simplify_eq/=; congruence.
  - simpl. exists []. eexists. split; [reflexivity|]. split; [done|]. split; [|intros ? H1 [? H2]; simpl in *; congruence].
    split; simpl; [by apply patch_id|by apply patch_id|by apply patch_insert].
  - simpl in *. by edestruct (Hub []).
  - done.
Qed.

End exec.
