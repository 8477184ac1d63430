(** * Threads over values of any class that keeps its contract: all threads together. *)

From stdpp Require Import base gmap list relations functions.
From Verif Require Import Lang Common Client Spec Rep RunLemmas Headers Hist Draft Tree TreeProps Conc ConcStatic ConcExec ConcProps.
From Verif Require Import Contract ContractProps ContractOps ContractClient ContractClientProps ContractTidy ContractTidyProps ConcPar ContractConc ContractConcProps.

Lemma fin_choice {Y} (d : Y) (P : nat -> Y -> Prop) n :
  (forall i, i < n -> exists y, P i y) -> exists f, forall i, i < n -> P i (f i).
Proof.
  induction n as [|n IH]; intros H; [exists (fun _ => d); lia|].
  destruct IH as [f Hf]; [intros; apply H; lia|]. destruct (H n) as [y Hy]; [lia|].
  exists (fun i => if decide (i = n) then y else f i). intros i Hi. case_decide; [by subst|]. apply Hf. lia.
Qed.

(** Variables from several sources. *)
Lemma join_vars {Y} (o : nat -> option nat) (m : gmap nat Y) (ms : nat -> gmap nat Y) n :
  exists m' : gmap nat Y, forall x, m' !! x = match o x with None => m !! x | Some i => if decide (i < n) then ms i !! x else None end.
Proof.
  induction n as [|n [m1 IH]].
  - exists (filter (fun p : nat * Y => o p.1 = None) m). intros x. rewrite map_filter_lookup.
    destruct (o x) as [i|] eqn:Ho; destruct (m !! x); cbn; try done.
    all: by rewrite Ho.
  - exists (filter (fun p : nat * Y => o p.1 = Some n) (ms n) ∪ filter (fun p : nat * Y => o p.1 <> Some n) m1).
    intros x. destruct (decide (o x = Some n)) as [Hx|Hx].
    + rewrite lookup_union_l.
      * rewrite map_filter_lookup, Hx. rewrite decide_True by lia. destruct (ms n !! x); cbn; [|done]. by rewrite option_guard_True.
      * rewrite map_filter_lookup. destruct (m1 !! x); cbn; [|done]. rewrite option_guard_False; [done|]. by intros Hn.
    + rewrite lookup_union_r.
      * rewrite map_filter_lookup. transitivity (m1 !! x).
        { destruct (m1 !! x); cbn; [|done]. by rewrite option_guard_True. }
        rewrite IH. destruct (o x) as [i|] eqn:Ho; [|done]. assert (i <> n) by congruence.
        destruct (decide (i < n)), (decide (i < S n)); try done; lia.
      * rewrite map_filter_lookup. destruct (ms n !! x); cbn; [|done]. by rewrite option_guard_False.
Qed.

Section sealed.
Context {E : Env} (T : TP E) (K : Cls E) (HO : Honest T K) (HL : Sealed K).

Lemma wrapped_sealed h w k B W : wrapped K h w k B W ->
  (forall u l' a, W !! u = Some (mkW (PLoc l') a) -> is_Some (B !! l')) /\
  (forall l' b t' q, B !! l' = Some b -> b_hdr b = HCb t' (Some q) -> is_Some (B !! q)).
Proof.
  destruct k as [[[t x]|] a]; cbn.
  - intros (l & b & v & B1 & W1 & -> & -> & HW & (H1 & H2 & H3 & H4 & H5) & Hrep).
    destruct (HL _ _ _ _ _ _ Hrep) as [S1 S2]. split.
    + intros u l' a' Hu. destruct (decide (l = l')) as [->|Hne]; [rewrite lookup_insert; by eexists|]. rewrite lookup_insert_ne by done.
      destruct (decide (u = w)) as [->|Hw]; [rewrite lookup_insert in Hu; by simplify_eq|]. rewrite lookup_insert_ne in Hu by done. by eapply S1.
    + intros l' b' t' q Hb Hq. destruct (decide (l = q)) as [->|Hne]; [rewrite lookup_insert; by eexists|]. rewrite lookup_insert_ne by done.
      destruct (decide (l = l')) as [->|Hl].
      * rewrite lookup_insert in Hb. simplify_eq. rewrite H4 in Hq. destruct (header_cls h); cbn in Hq; by simplify_eq.
      * rewrite lookup_insert_ne in Hb by done. by eapply S2.
  - intros [-> ->]. split.
    + intros u l' a' Hu. apply lookup_singleton_Some in Hu as [_ ?]. by simplify_eq.
    + intros l' b t' q Hb. by rewrite lookup_empty in Hb.
Qed.
End sealed.

Section join.
Context {E : Env} (T : TP E) (K : Cls E) (HO : Honest T K) (HL : Sealed K).
Context (hs : nat -> header) (o : nat -> option nat).
Notation A := (eA E).
Notation bmap := (gmap loc (block E)).
Notation wmap := (gmap wl (wrapper E)).
Notation wv := (option (ty * c_val K) * A)%type.
Notation vars := (gmap nat wv).
Notation held_by := (held_by K hs).
Notation part := (part K hs).
Notation view_of := (view_of K o).

Context (s : store E) (m : vars) (FB : nat -> bmap) (FW : nat -> wmap) (Hh : held_by s m FB FW).

Definition vis_of (i x : nat) : bool := bool_decide (o x = None \/ o x = Some i).
Definition in_b (f : nat -> bool) (l : loc) : bool :=
  existsb (fun x => f x && bool_decide (is_Some (FB x !! l))) (elements (dom m)).
Definition in_w (f : nat -> bool) (w : wl) : bool :=
  existsb (fun x => f x && bool_decide (is_Some (FW x !! w))) (elements (dom m)).
Definition shared_blocks : gset loc := filter (fun l => in_b (fun x => bool_decide (o x = None)) l = true) (dom (blocks s)).
Definition seen_by (i : nat) : store E :=
  mkS (filter (fun p : loc * block E => in_b (vis_of i) p.1 = true) (blocks s))
      (filter (fun p : wl * wrapper E => in_w (vis_of i) p.1 = true) (wraps s)) (exts s) [] [].
Definition FBv (i x : nat) : bmap := if vis_of i x then FB x else ∅.
Definition FWv (i x : nat) : wmap := if vis_of i x then FW x else ∅.

Lemma in_b_spec f l : in_b f l = true <-> exists x, f x = true /\ is_Some (FB x !! l).
Proof.
  unfold in_b. rewrite existsb_exists. split.
  - intros (x & _ & Hx). apply andb_true_iff in Hx as [H1 H2]. apply bool_decide_eq_true in H2. eauto.
  - intros (x & H1 & H2). exists x. split.
    + apply elem_of_list_In, elem_of_elements, elem_of_dom. destruct (m !! x) eqn:Hx; [by eexists|].
      destruct (held_none T K HO hs _ _ _ _ _ Hh Hx) as (_ & Hb & _). rewrite Hb, lookup_empty in H2. by destruct H2.
    + rewrite H1. by apply bool_decide_eq_true.
Qed.
Lemma in_w_spec f w : in_w f w = true <-> exists x, f x = true /\ is_Some (FW x !! w).
Proof.
  unfold in_w. rewrite existsb_exists. split.
  - intros (x & _ & Hx). apply andb_true_iff in Hx as [H1 H2]. apply bool_decide_eq_true in H2. eauto.
  - intros (x & H1 & H2). exists x. split.
    + apply elem_of_list_In, elem_of_elements, elem_of_dom. destruct (m !! x) eqn:Hx; [by eexists|].
      destruct (held_none T K HO hs _ _ _ _ _ Hh Hx) as (_ & _ & Hb). rewrite Hb, lookup_empty in H2. by destruct H2.
    + rewrite H1. by apply bool_decide_eq_true.
Qed.
Lemma shared_spec l : l ∈ shared_blocks <-> exists x, o x = None /\ is_Some (FB x !! l).
Proof.
  unfold shared_blocks. rewrite elem_of_filter, in_b_spec. split.
  - intros [(x & H1 & H2) _]. apply bool_decide_eq_true in H1. eauto.
  - intros (x & H1 & H2). split; [exists x; by rewrite bool_decide_eq_true|]. apply elem_of_dom.
    destruct H2 as [b Hb]. exists b. eapply lookup_weaken; [done|apply Hh].
Qed.
Lemma vis_spec i x : vis_of i x = true <-> o x = None \/ o x = Some i.
Proof. apply bool_decide_eq_true. Qed.
Lemma same_frame x y l : is_Some (FB x !! l) -> is_Some (FB y !! l) -> x = y.
Proof.
  intros [b Hb] [b' Hb']. destruct (decide (x = y)) as [|Hne]; [done|].
  destruct (dis_at _ _ l (hd_db _ _ _ _ _ _ Hh x y Hne)); congruence.
Qed.

Lemma seen_blocks i l b : blocks (seen_by i) !! l = Some b <-> blocks s !! l = Some b /\ exists x, vis_of i x = true /\ is_Some (FB x !! l).
Proof. cbn. rewrite map_filter_lookup_Some. cbn. by rewrite in_b_spec. Qed.
Lemma seen_wraps i w k : wraps (seen_by i) !! w = Some k <-> wraps s !! w = Some k /\ exists x, vis_of i x = true /\ is_Some (FW x !! w).
Proof. cbn. rewrite map_filter_lookup_Some. cbn. by rewrite in_w_spec. Qed.

Lemma frame_dom x u : is_Some (FW x !! u) -> u = WVar x \/ exists l i, u = WMem l i /\ is_Some (FB x !! l).
Proof. apply (part_dom T K HO hs _ _ _ _ (hd_part _ _ _ _ _ _ Hh x)). Qed.

Lemma seen_held i : held_by (seen_by i) (view_of i m) (FBv i) (FWv i).
Proof.
  unfold FBv, FWv. split.
  - intros x. unfold ContractConc.view_of. rewrite map_filter_lookup. assert (HPx := hd_part _ _ _ _ _ _ Hh x).
    destruct (vis_of i x) eqn:Hv.
    + apply vis_spec in Hv. destruct (m !! x) as [k|]; cbn; [|done]. rewrite option_guard_True by done. done.
    + destruct (m !! x) as [k|]; cbn; [|done]. rewrite option_guard_False; [done|]. cbn. intros Hn. apply vis_spec in Hn. congruence.
  - intros x. destruct (vis_of i x) eqn:Hv; [|apply map_empty_subseteq]. apply map_subseteq_spec. intros l b Hb. apply seen_blocks.
    split; [eapply lookup_weaken; [done|apply Hh]|]. exists x. split; [done|by eexists].
  - intros x. destruct (vis_of i x) eqn:Hv; [|apply map_empty_subseteq]. apply map_subseteq_spec. intros l b Hb. apply seen_wraps.
    split; [eapply lookup_weaken; [done|apply Hh]|]. exists x. split; [done|by eexists].
  - intros x y Hne. destruct (vis_of i x), (vis_of i y); try apply map_disjoint_empty_l; try apply map_disjoint_empty_r. by apply Hh.
  - intros x y Hne. destruct (vis_of i x), (vis_of i y); try apply map_disjoint_empty_l; try apply map_disjoint_empty_r. by apply Hh.
  - intros l [b Hb]. apply seen_blocks in Hb as (_ & x & Hv & Hx). exists x. by rewrite Hv.
  - intros w [b Hb]. apply seen_wraps in Hb as (_ & x & Hv & Hx). exists x. by rewrite Hv.
Qed.

Lemma seen_fenced i : fenced shared_blocks (own_of o shared_blocks i) (seen_by i).
Proof.
  assert (Hsl : forall x, (forall u l' a, FW x !! u = Some (mkW (PLoc l') a) -> is_Some (FB x !! l')) /\
    (forall l' b t' q, FB x !! l' = Some b -> b_hdr b = HCb t' (Some q) -> is_Some (FB x !! q))).
  { intros x. assert (HPx := hd_part _ _ _ _ _ _ Hh x). destruct (m !! x) as [k|]; [by eapply (wrapped_sealed K HL)|].
    destruct HPx as [-> ->]. split; intros *; by rewrite lookup_empty. }
  split.
  - intros l Hl. apply shared_spec in Hl as (x & Hx & [b Hb]). exists b. apply seen_blocks.
    split; [eapply lookup_weaken; [done|apply Hh]|]. exists x. split; [apply vis_spec; by left|by eexists].
  - intros w a l Hw Hl Hr. apply seen_wraps in Hl as (Hl & x & Hv & Hx). apply shared_spec in Hr as (y & Hy & Hyl).
    assert (HxW : FW x !! w = Some (mkW (PLoc l) a)).
    { destruct Hx as [k Hk]. pose proof (lookup_weaken _ _ _ _ Hk (hd_w _ _ _ _ _ _ Hh x)). congruence. }
    pose proof (proj1 (Hsl x) _ _ _ HxW) as Hxl. pose proof (same_frame _ _ _ Hxl Hyl). subst y.
    destruct (frame_dom _ _ Hx) as [->|(l' & j & -> & Hl')]; cbn in Hw; [congruence|].
    apply Hw, shared_spec. eauto.
  - intros l b t q Hl Hb Hq Hr. apply seen_blocks in Hb as (Hb & x & Hv & Hx). apply shared_spec in Hr as (y & Hy & Hyl).
    assert (HxB : FB x !! l = Some b).
    { destruct Hx as [k Hk]. pose proof (lookup_weaken _ _ _ _ Hk (hd_b _ _ _ _ _ _ Hh x)). congruence. }
    pose proof (proj2 (Hsl x) _ _ _ _ HxB Hq) as Hxl. pose proof (same_frame _ _ _ Hxl Hyl). subst y.
    apply Hl, shared_spec. eauto.
Qed.

(** Threads that run any programs [ps] which keep to their variables and to a specification [ex]. *)
Context {Z : Type} (ps : list (prog E Z)) (ex : nat -> Z -> vars -> Prop).
Context (Hmon : forall i p rob s FB FW, ps !! i = Some p -> held_by s (view_of i m) FB FW -> fenced rob (own_of o rob i) s ->
  mon rob (own_of o rob i) (fun _ => False) p s).
Context (Htidy : forall i p s FB FW, ps !! i = Some p -> held_by s (view_of i m) FB FW -> tidy p s).
Context (Hsince : forall i p s FB FW, ps !! i = Some p -> held_by s (view_of i m) FB FW ->
  match run p s with
  | ORet z s' => exists m', ex i z m' /\ exists FB' FW', held_by s' m' FB' FW' /\
      forall x, o x <> Some i -> FB' x = FB x /\ FW' x = FW x /\ m' !! x = view_of i m !! x
  | OTerm => True
  | _ => False
  end).
Definition start_of : config E Z := mkC (blocks s) (wraps s) (exts s) ((fun p => (p, [])) <$> ps).
Notation conf_inv := (conf_inv o shared_blocks ps seen_by s).

Lemma any_inv : conf_inv start_of seen_by.
Proof.
  split.
  - intros i p tr Hi. cbn in Hi. rewrite list_lookup_fmap in Hi. destruct (ps !! i) as [c|] eqn:Hc; [|done]. cbn in Hi. simplify_eq.
    pose proof (seen_held i) as Hs.
    split.
    + by eapply Hmon; [exact Hc|exact Hs|apply seen_fenced].
    + intros q. by eapply Htidy; [exact Hc|by apply held_by_orc].
    + apply seen_fenced.
    + done.
    + apply map_filter_subseteq.
    + apply map_filter_subseteq.
    + done.
    + by eapply (held_mem_ok T K HO hs).
    + intros n Hn. change (wraps (seen_by i) !! WVar n = wraps s !! WVar n).
      destruct (wraps s !! WVar n) as [k|] eqn:Hw.
      * apply seen_wraps. split; [done|]. destruct (hd_cw _ _ _ _ _ _ Hh (WVar n)) as [x Hx]; [by eexists|].
        destruct (frame_dom _ _ Hx) as [Heq|(? & ? & ? & _)]; [|done]. simplify_eq. exists x. split; [apply vis_spec; by right|done].
      * destruct (wraps (seen_by i) !! WVar n) eqn:Hq; [|done]. apply seen_wraps in Hq as [? _]. congruence.
    + intros l j [b Hb]. change (wraps (seen_by i) !! WMem l j = wraps s !! WMem l j). apply seen_blocks in Hb as (_ & x & Hv & Hx).
      destruct (wraps s !! WMem l j) as [k|] eqn:Hw.
      * apply seen_wraps. split; [done|]. destruct (held_mem T K HO hs _ _ _ _ l j Hh) as (y & Hy & Hyl); [by eexists|].
        rewrite <- (same_frame _ _ _ Hx Hyl) in Hy. eauto.
      * destruct (wraps (seen_by i) !! WMem l j) eqn:Hq; [|done]. apply seen_wraps in Hq as [? _]. congruence.
    + intros n [k Hk]. apply seen_wraps in Hk as (_ & x & Hv & Hx).
      destruct (frame_dom _ _ Hx) as [Heq|(? & ? & ? & _)]; [|done]. simplify_eq. by apply vis_spec.
    + exists p, []. by split.
  - cbn. by rewrite fmap_length.
  - intros i j l _ _ Hij [b Hb] [b' Hb']. apply seen_blocks in Hb as (_ & x & Hv & Hx). apply seen_blocks in Hb' as (_ & y & Hv' & Hy).
    pose proof (same_frame _ _ _ Hx Hy). subst y. apply shared_spec. exists x. split; [|done].
    apply vis_spec in Hv as [|Hv]; [done|]. apply vis_spec in Hv' as [|Hv']; [done|]. congruence.
  - intros l k Hk. by eapply (held_mem_ok T K HO hs _ _ _ _ Hh).
  - done.
  - done.
  - done.
  - done.
  - intros Ho l [b Hb]. destruct (hd_cb _ _ _ _ _ _ Hh l) as [x Hx]; [by eexists|].
    destruct (o x) as [i|] eqn:Hox; [right|left; apply shared_spec; eauto].
    exists i. split; [by eapply Ho|]. exists b. apply seen_blocks. split; [done|]. exists x. split; [apply vis_spec; by right|done].
Qed.

(** A thread that is done. *)
Lemma any_done C L i z tr : conf_inv C L -> c_threads C !! i = Some (Ret z, tr) ->
  exists m', ex i z m' /\
    exists FB' FW', held_by (L i) m' FB' FW' /\
      forall x, o x <> Some i -> FB' x = FBv i x /\ FW' x = FWv i x /\ m' !! x = view_of i m !! x.
Proof.
  intros HG Hi. destruct (inv_result _ _ _ _ _ _ _ _ _ _ HG Hi) as (p & u & Hp & Hr).
  assert (G := Hsince i p (set_orc u (seen_by i)) (FBv i) (FWv i) Hp (held_by_orc K hs u _ _ _ _ (seen_held i))).
  rewrite Hr in G. destruct G as (m' & Hex & FB' & FW' & Hh' & Hz). exists m'. split; [done|].
  exists FB', FW'. split; [|done]. destruct Hh' as [H1 H2 H3 H4 H5 H6 H7]. by split.
Qed.

Lemma any_join C L : conf_inv C L -> all_done C -> (forall x i, o x = Some i -> i < length ps) ->
  exists (m' : vars) (ms : nat -> vars),
    held K hs (whole C) m' /\
    (forall x, m' !! x = match o x with None => m !! x | Some i => ms i !! x end) /\
    forall i, i < length ps -> exists rs tr, c_threads C !! i = Some (Ret rs, tr) /\ ex i rs (ms i).
Proof.
  intros HG Hd Ho.
  assert (Hlen : length (c_threads C) = length ps) by apply (ci_len _ _ _ _ _ _ _ HG).
  destruct (fin_choice (∅ : vars, (fun _ => ∅) : nat -> bmap, (fun _ => ∅) : nat -> wmap)
    (fun i (y : vars * (nat -> bmap) * (nat -> wmap)) =>
      (exists rs tr, c_threads C !! i = Some (Ret rs, tr) /\ ex i rs y.1.1) /\
      held_by (L i) y.1.1 y.1.2 y.2 /\
      forall x, o x <> Some i -> y.1.2 x = FBv i x /\ y.2 x = FWv i x) (length ps)) as [f Hf].
  { intros i Hi. destruct (lookup_lt_is_Some_2 (c_threads C) i) as [[p tr] Hp]; [lia|].
    destruct (Hd _ _ _ Hp) as [rs ->]. destruct (any_done _ _ _ _ _ HG Hp) as (m' & Hex & FB' & FW' & Hh' & Hz).
    exists (m', FB', FW'). cbn. split; [eauto 6|]. split; [done|]. intros x Hx. by destruct (Hz x Hx) as (? & ? & _). }
  destruct (join_vars o m (fun i => (f i).1.1) (length ps)) as [m' Hm'].
  exists m', (fun i => (f i).1.1).
  split; [|split].
  2:{ intros x. rewrite Hm'. destruct (o x) as [i|] eqn:Hx; [|done]. by rewrite decide_True by eauto. }
  2:{ intros i Hi. by destruct (Hf i Hi) as [? _]. }
  set (FB1 := fun x => match o x with None => FB x | Some i => (f i).1.2 x end).
  set (FW1 := fun x => match o x with None => FW x | Some i => (f i).2 x end).
  assert (Hth : forall i, i < length ps -> held_by (L i) (f i).1.1 (f i).1.2 (f i).2 /\
    (forall x, o x = None -> (f i).1.2 x = FB x /\ (f i).2 x = FW x) /\
    (forall x j, o x = Some j -> j <> i -> (f i).1.2 x = ∅ /\ (f i).2 x = ∅) /\
    blocks (L i) ⊆ c_blocks C /\ wraps (L i) ⊆ c_wraps C /\
    (forall n, o n = Some i -> wraps (L i) !! WVar n = c_wraps C !! WVar n) /\
    (forall l j, is_Some (blocks (L i) !! l) -> wraps (L i) !! WMem l j = c_wraps C !! WMem l j)).
  { intros i Hi. destruct (Hf i Hi) as ((rs & tr & H1 & H2) & H4 & H5). pose proof (ci_thread _ _ _ _ _ _ _ HG _ _ _ H1) as HTi.
    split; [done|]. split; [|split; [|split; [apply HTi|split; [apply HTi|split; [apply HTi|apply HTi]]]]].
    - intros x Hx. destruct (H5 x) as [-> ->]; [congruence|]. unfold FBv, FWv. by rewrite (proj2 (vis_spec i x)) by auto.
    - intros x j Hx Hj. destruct (H5 x) as [-> ->]; [congruence|]. unfold FBv, FWv.
      destruct (vis_of i x) eqn:Hv; [|done]. apply vis_spec in Hv as [Hv|Hv]; congruence. }
  assert (Hpart : forall x, part x (m' !! x) (FB1 x) (FW1 x)).
  { intros x. rewrite Hm'. unfold FB1, FW1. destruct (o x) as [i|] eqn:Hx; [|apply Hh].
    rewrite decide_True by eauto. apply (Hth i); eauto. }
  assert (Hdb : forall x y, x <> y -> FB1 x ##ₘ FB1 y).
  { intros x y Hne. unfold FB1. destruct (o x) as [i|] eqn:Hx, (o y) as [j|] eqn:Hy; [| | |by apply Hh].
    - destruct (decide (i = j)) as [<-|Hij]; [apply (Hth i); eauto|].
      destruct (Hth i) as (Hi & Hi1 & _); [eauto|]. destruct (Hth j) as (Hj & _); [eauto|].
      apply map_disjoint_spec. intros l b1 b2 Hb1 Hb2.
      pose proof (lookup_weaken _ _ _ _ Hb1 (hd_b _ _ _ _ _ _ Hi x)) as Q1.
      pose proof (lookup_weaken _ _ _ _ Hb2 (hd_b _ _ _ _ _ _ Hj y)) as Q2.
      assert (Hr : l ∈ shared_blocks).
      { eapply (ci_sep _ _ _ _ _ _ _ HG i j); [eauto|eauto|done|by eexists|by eexists]. }
      apply shared_spec in Hr as (z & Hz & [b3 Hb3]). rewrite <- (proj1 (Hi1 z Hz)) in Hb3.
      assert (Hxz : x <> z) by congruence.
      destruct (dis_at _ _ l (hd_db _ _ _ _ _ _ Hi x z Hxz)); congruence.
    - destruct (Hth i) as (Hi & Hi1 & _); [eauto|]. rewrite <- (proj1 (Hi1 y Hy)). by apply Hi.
    - destruct (Hth j) as (Hj & Hj1 & _); [eauto|]. rewrite <- (proj1 (Hj1 x Hx)). by apply Hj. }
  assert (Hdom : forall x u, is_Some (FW1 x !! u) -> u = WVar x \/ exists l i, u = WMem l i /\ is_Some (FB1 x !! l)).
  { intros x. apply (part_dom T K HO hs _ _ _ _ (Hpart x)). }
  assert (Hfb : forall i x l, i < length ps -> is_Some ((f i).1.2 x !! l) -> is_Some (FB1 x !! l)).
  { intros i x l Hi Hx. destruct (Hth i Hi) as (_ & Hi1 & Hi2 & _). unfold FB1. destruct (o x) as [j|] eqn:Hox.
    - destruct (decide (j = i)) as [->|Hj]; [done|]. rewrite (proj1 (Hi2 _ _ Hox Hj)), lookup_empty in Hx. by destruct Hx.
    - by rewrite <- (proj1 (Hi1 _ Hox)). }
  assert (Hfw : forall i x l, i < length ps -> is_Some ((f i).2 x !! l) -> is_Some (FW1 x !! l)).
  { intros i x l Hi Hx. destruct (Hth i Hi) as (_ & Hi1 & Hi2 & _). unfold FW1. destruct (o x) as [j|] eqn:Hox.
    - destruct (decide (j = i)) as [->|Hj]; [done|]. rewrite (proj2 (Hi2 _ _ Hox Hj)), lookup_empty in Hx. by destruct Hx.
    - by rewrite <- (proj2 (Hi1 _ Hox)). }
  assert (Hcv : forall l, is_Some (c_blocks C !! l) -> l ∈ shared_blocks \/ exists i, i < length ps /\ is_Some (blocks (L i) !! l)).
  { intros l Hl. by apply (ci_cov _ _ _ _ _ _ _ HG). }
  exists FB1, FW1. split; [exact Hpart| | |exact Hdb| | |].
  - intros x. unfold FB1. cbn. destruct (o x) as [i|] eqn:Hx.
    + destruct (Hth i) as (Hi & _ & _ & Hb & _); [eauto|]. etrans; [apply Hi|done].
    + apply map_subseteq_spec. intros l b Hb. rewrite (ci_b _ _ _ _ _ _ _ HG); [eapply lookup_weaken; [done|apply Hh]|].
      apply shared_spec. eauto.
  - intros x. unfold FW1. cbn. destruct (o x) as [i|] eqn:Hx.
    + destruct (Hth i) as (Hi & _ & _ & _ & Hw & _); [eauto|]. etrans; [apply Hi|done].
    + apply map_subseteq_spec. intros w k Hk. pose proof (lookup_weaken _ _ _ _ Hk (hd_w _ _ _ _ _ _ Hh x)) as Hks.
      destruct (frame_dom x w) as [->|(l & j & -> & Hl)]; [by eexists| |].
      * by rewrite (ci_w _ _ _ _ _ _ _ HG).
      * rewrite (ci_wm _ _ _ _ _ _ _ HG); [done|]. apply shared_spec. eauto.
  - intros x y Hne. apply map_disjoint_spec. intros w k1 k2 H1 H2.
    destruct (Hdom x w) as [->|(l & j & -> & [b Hb])]; [by eexists| |];
      destruct (Hdom y _ (mk_is_Some _ _ H2)) as [Heq|(l' & j' & Heq & [b' Hb'])]; simplify_eq.
    destruct (dis_at _ _ l' (Hdb x y Hne)); congruence.
  - cbn. intros l Hl. destruct (Hcv l Hl) as [Hr|(i & Hi & Hl')].
    + apply shared_spec in Hr as (x & Hx & Hb). exists x. unfold FB1. by rewrite Hx.
    + destruct (Hth i Hi) as (Hhi & _). destruct (hd_cb _ _ _ _ _ _ Hhi l Hl') as [x Hx]. exists x. by eapply Hfb.
  - cbn. intros [n|l k] Hw.
    + destruct (o n) as [i|] eqn:Hn.
      * destruct (Hth i) as (Hhi & _ & _ & _ & _ & Hown & _); [eauto|]. rewrite <- (Hown n Hn) in Hw.
        destruct (hd_cw _ _ _ _ _ _ Hhi _ Hw) as [x Hx]. exists x. apply (Hfw i); [eauto|done].
      * rewrite (ci_w _ _ _ _ _ _ _ HG n Hn) in Hw. destruct (hd_cw _ _ _ _ _ _ Hh _ Hw) as [x Hx].
        destruct (frame_dom _ _ Hx) as [Heq|(? & ? & ? & _)]; [|done]. simplify_eq. exists x. unfold FW1. by rewrite Hn.
    + destruct (Hcv l (ci_mem _ _ _ _ _ _ _ HG _ _ Hw)) as [Hr|(i & Hi & Hl')].
      * rewrite (ci_wm _ _ _ _ _ _ _ HG _ _ Hr) in Hw. destruct (held_mem T K HO hs _ _ _ _ _ _ Hh Hw) as (x & Hx & Hxl).
        apply shared_spec in Hr as (y & Hy & Hyl). rewrite (same_frame _ _ _ Hyl Hxl) in Hy. exists x. unfold FW1. by rewrite Hy.
      * destruct (Hth i Hi) as (Hhi & _ & _ & _ & _ & _ & Hsub). rewrite <- (Hsub l k Hl') in Hw.
        destruct (hd_cw _ _ _ _ _ _ Hhi _ Hw) as [x Hx]. exists x. by apply (Hfw i).
Qed.

(** Shared variables stay as they are. *)
Lemma any_shared C L x k : conf_inv C L -> o x = None -> m !! x = Some k -> wrapper_at K (whole C) (hs x) (WVar x) k (FB x) (FW x).
Proof.
  intros HG Hx Hk. pose proof (held_at K hs _ _ _ _ _ _ Hh Hk) as Ha. split; [apply Ha| |].
  - apply map_subseteq_spec. intros l b Hb. cbn. rewrite (ci_b _ _ _ _ _ _ _ HG); [eapply lookup_weaken; [done|apply Hh]|].
    apply shared_spec. eauto.
  - apply map_subseteq_spec. intros w q Hq. cbn. pose proof (lookup_weaken _ _ _ _ Hq (hd_w _ _ _ _ _ _ Hh x)) as Hqs.
    destruct (frame_dom x w) as [->|(l & j & -> & Hl)]; [by eexists| |].
    + by rewrite (ci_w _ _ _ _ _ _ _ HG).
    + rewrite (ci_wm _ _ _ _ _ _ _ HG); [done|]. apply shared_spec. eauto.
Qed.
(** No exception leaves a program that lets none out. *)
Lemma any_no_escape C L i e tr : conf_inv C L -> c_threads C !! i <> Some (Throw e, tr).
Proof.
  intros HG Hi. destruct (ti_hist _ _ _ _ _ _ _ _ _ _ (ci_thread _ _ _ _ _ _ _ HG _ _ _ Hi)) as (p & u & Hp & Hu). specialize (Hu []).
  rewrite app_nil_r in Hu.
  pose proof (Hsince i p (set_orc u (seen_by i)) _ _ Hp (held_by_orc K hs u _ _ _ _ (seen_held i))) as G. by rewrite Hu in G.
Qed.
End join.

(** The clients of ContractClient.v. *)
Section clients.
Context {E : Env} (T : TP E) (K : Cls E) (HO : Honest T K) (HT : Tidy T K) (HP : Polite T) (HL : Sealed K).
Context (HA : AllocReq E) (HCR : CopyReq E) (Hrefl : forall a, a_eqb E a a = true).
Context (M X : Type) (code : M -> loc -> prog E X) (sem : M -> ty -> c_val K -> X + exn -> c_val K -> Prop).
Context (const : M -> bool).
Context (HM : forall f, Method K (code f) (sem f)) (HMT : forall f, MethodT K (const f) (code f) (sem f)).
Context (hs : nat -> header) (o : nat -> option nat).
Notation vars := (gmap nat (option (ty * c_val K) * eA E)).
Notation held_by := (held_by K hs).
Notation gprog := (gprog T M X code hs).
Notation gexec := (gexec K M X sem hs).
Notation view_of := (view_of K o).
Context (s : store E) (m : vars) (FB : nat -> gmap loc (block E)) (FW : nat -> gmap wl (wrapper E)) (Hh : held_by s m FB FW).
Context (cs : list (gclient (E := E) M X)) (Hcs : gclients_ok K M X sem const hs o m cs).
Notation ps := (gprog <$> cs).
Notation conf_inv := (conf_inv o (shared_blocks K o s m FB) ps (seen_by K o s m FB FW) s).
Notation ex := (fun i z m' => exists c, cs !! i = Some c /\ gexec c (view_of i m) z m').

Lemma clients_mon i p rob s0 FB0 FW0 : ps !! i = Some p -> held_by s0 (view_of i m) FB0 FW0 -> fenced rob (own_of o rob i) s0 ->
  mon rob (own_of o rob i) (fun _ => False) p s0.
Proof.
  rewrite list_lookup_fmap. destruct (cs !! i) as [c|] eqn:Hc; intros [= <-] Hs Hf.
  by eapply (client_mon T K HO HT HP HL HA HCR Hrefl M X code sem const HM HMT hs o); [exact Hs|done|apply Hcs].
Qed.
Lemma clients_tidy i p s0 FB0 FW0 : ps !! i = Some p -> held_by s0 (view_of i m) FB0 FW0 -> tidy p s0.
Proof.
  rewrite list_lookup_fmap. destruct (cs !! i) as [c|] eqn:Hc; intros [= <-] Hs.
  by eapply (client_tidy T K HO HT HP HL HA HCR Hrefl M X code sem const HM HMT hs o i); [exact Hs|apply Hcs].
Qed.
Lemma clients_since i p s0 FB0 FW0 : ps !! i = Some p -> held_by s0 (view_of i m) FB0 FW0 ->
  match run p s0 with
  | ORet z s' => exists m', ex i z m' /\ exists FB' FW', held_by s' m' FB' FW' /\
      forall x, o x <> Some i -> FB' x = FB0 x /\ FW' x = FW0 x /\ m' !! x = view_of i m !! x
  | OTerm => True
  | _ => False
  end.
Proof.
  rewrite list_lookup_fmap. destruct (cs !! i) as [c|] eqn:Hc; intros [= <-] Hs.
  assert (G := client_since T K HO HT HP HL HA HCR Hrefl M X code sem const HM HMT hs o i c (view_of i m) s0 FB0 FW0 Hs (Hcs i c Hc)).
  destruct (run (gprog c) s0) as [z s'|e s'| |]; [|done..]. destruct G as (m' & Hex & G). exists m'. split; [by exists c|done].
Qed.

Lemma gstart_inv : conf_inv (gstart T M X code hs s cs) (seen_by K o s m FB FW).
Proof.
  assert (G := any_inv T K HO HL hs o s m FB FW Hh ps clients_mon clients_tidy).
  unfold start_of in G. by rewrite <- list_fmap_compose in G.
Qed.
Lemma thread_done C L i z tr : conf_inv C L -> c_threads C !! i = Some (Ret z, tr) ->
  exists c m', cs !! i = Some c /\ gexec c (view_of i m) z m' /\
    exists FB' FW', held_by (L i) m' FB' FW' /\
      forall x, o x <> Some i -> FB' x = FBv o FB i x /\ FW' x = FWv o FW i x /\ m' !! x = view_of i m !! x.
Proof.
  intros HG Hi. destruct (any_done T K HO hs o s m FB FW Hh ps ex clients_since C L i z tr HG Hi) as (m' & (c & Hc & Hex) & G). by exists c, m'.
Qed.
Lemma join_held C L : conf_inv C L -> all_done C -> (forall x i, o x = Some i -> i < length cs) ->
  exists (m' : vars) (ms : nat -> vars),
    held K hs (whole C) m' /\
    (forall x, m' !! x = match o x with None => m !! x | Some i => ms i !! x end) /\
    forall i c, cs !! i = Some c -> exists rs tr, c_threads C !! i = Some (Ret rs, tr) /\ gexec c (view_of i m) rs (ms i).
Proof.
  intros HG Hd Ho.
  destruct (any_join T K HO hs o s m FB FW Hh ps ex clients_since C L HG Hd) as (m' & ms & H1 & H2 & H3); [by rewrite fmap_length|].
  exists m', ms. split; [done|]. split; [done|]. intros i c Hc. destruct (H3 i) as (rs & tr & Hi & c' & Hc' & Hex).
  - rewrite fmap_length. by eapply lookup_lt_Some.
  - simplify_eq. eauto.
Qed.
End clients.
