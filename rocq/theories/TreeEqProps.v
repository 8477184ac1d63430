(** * Comparison and hashing of nested values: lemmas. *)

From stdpp Require Import base gmap list.
From Verif Require Import Lang Common Indirect20 Indirect14 Client Spec Rep RunLemmas Headers Hist Compare CompareProps Tree TreeProps TreeAssign TreeMove TreeMoveAssign TreeSub TreePlace TreeObs TreeEq.
Local Open Scope res_scope.

Section run.
Context {E : Env} (Sh : Shape E) (HK : forall i, header_cls (k_hdr Sh (tT E) i) = Ind).
Notation A := (eA E).
Notation V := (eV E).
Notation wst := (option (tree E) * A)%type.
Implicit Types s : store E.
Notation wrap_heap := (wrap_heap Sh).
Notation mem_heap := (mem_heap Sh).

(** What the observers of an operand return. *)
Lemma ref_run n h w k B W s : header_cls h = Ind -> wrap_heap h w k B W -> B ⊆ blocks s -> W ⊆ wraps s ->
  o_valueless (ref Sh s n h w) = VOk (match k.1 with None => true | Some _ => false end) /\
  match k.1 with
  | None => True
  | Some (TNode t v kids) => exists l B1 W1, t = tT E /\ o_deref (ref Sh s n h w) = VOk l /\ load s l = VOk (t, v) /\
      length kids = n_kids Sh t v /\ mem_heap (k_hdr Sh t) (WMem l) 0 kids B1 W1 /\ B1 ⊆ blocks s /\ W1 ⊆ wraps s
  end.
Proof.
  intros Hh Hw HB HW. destruct (wrap_ptr Sh _ _ _ _ _ s Hw HW) as (p & _ & Hws & Hp). split.
  - unfold ref. cbn [o_valueless]. destruct h; try done; unfold node_impl; cbn [hdr_impl i_valueless indirect20 indirect14];
      unfold Indirect20.valueless_after_move, Indirect14.valueless_after_move; cbn; rewrite Hws; cbn;
      (destruct k as [[T|] a]; cbn in Hp; [destruct Hp as [l ->]|subst p]; done).
  - destruct k as [[[t v kids]|] a]; [|done]. cbn [fst].
    apply wrap_inv in Hw as (l & b & B1 & W1 & -> & -> & HBl & HWx & Hok & Hlen & Hm).
    assert (Hb : blocks s !! l = Some b) by (eapply lookup_weaken; [|exact HB]; apply lookup_insert).
    assert (Hw' : wraps s !! w = Some (mkW (PLoc l) a)) by (eapply lookup_weaken; [|exact HW]; apply lookup_insert).
    exists l, B1, W1. split_and!.
    + destruct Hok as (_ & _ & _ & _ & HT). destruct h; try done; by apply HT.
    + unfold ref. cbn [o_deref]. unfold node_impl. by erewrite st_star by done.
    + unfold load. cbn. unfold deref. rewrite Hb. destruct Hok as (_ & -> & _). done.
    + done.
    + done.
    + etrans; [|exact HB]. by apply insert_subseteq.
    + etrans; [|exact HW]. by apply insert_subseteq.
Qed.

Context (d : V -> V -> bool) (c : V -> V -> ordering) (hv : V -> N) (mix : N -> N -> N).


(** A sub-object of class T with its members. *)
Definition node_at s (l : loc) (T : tree E) : Prop :=
  match T with
  | TNode t v kids => exists B W, t = tT E /\ load s l = VOk (t, v) /\ length kids = n_kids Sh t v /\
      mem_heap (k_hdr Sh t) (WMem l) 0 kids B W /\ B ⊆ blocks s /\ W ⊆ wraps s
  end.
Definition wrap_at s (h : header) (w : wl) (k : wst) : Prop :=
  exists B W, wrap_heap h w k B W /\ B ⊆ blocks s /\ W ⊆ wraps s.

Lemma ref_at n h w k s : header_cls h = Ind -> wrap_at s h w k ->
  o_valueless (ref Sh s n h w) = VOk (match k.1 with None => true | Some _ => false end) /\
  forall T, k.1 = Some T -> exists l, o_deref (ref Sh s n h w) = VOk l /\ node_at s l T.
Proof.
  intros Hh (B & W & Hw & HB & HW). destruct (ref_run n h w k B W s Hh Hw HB HW) as [H1 H2]. split; [done|].
  intros [t v kids] HT. rewrite HT in H2. destruct H2 as (l & B1 & W1 & ? & ? & ? & ? & ? & ? & ?).
  exists l. split; [done|]. exists B1, W1. done.
Qed.

Lemma mem_at s hs nm i ks B W : mem_heap hs nm i ks B W -> B ⊆ blocks s -> W ⊆ wraps s ->
  forall j k, ks !! j = Some k -> wrap_at s (hs (i + j)) (nm (i + j)) k.
Proof.
  intros Hm HB HW j k Hj. destruct (mem_focus Sh _ _ _ _ _ _ _ _ Hm Hj) as (B1 & W1 & Hw & HB1 & HW1 & _).
  exists B1, W1. split_and!; [done|by etrans|by etrans].
Qed.

Lemma node_mem s l t v kids i k : node_at s l (TNode t v kids) -> kids !! i = Some k ->
  wrap_at s (k_hdr Sh (tT E) i) (WMem l i) k.
Proof. intros (B & W & -> & _ & _ & Hm & HB & HW) Hi. by apply (mem_at s _ _ 0 _ _ _ Hm HB HW i k). Qed.

Lemma node_load s l t v kids : node_at s l (TNode t v kids) ->
  load s l = VOk (tT E, v) /\ length kids = n_kids Sh (tT E) v.
Proof. by intros (B & W & -> & Hl & Hn & _). Qed.

Ltac refs Hh H1 H2 m :=
  let V1 := fresh "V1" in let D1 := fresh "D1" in let V2 := fresh "V2" in let D2 := fresh "D2" in
  destruct (ref_at m _ _ _ _ Hh H1) as [V1 D1]; destruct (ref_at m _ _ _ _ Hh H2) as [V2 D2].

(** One level. *)
Lemma ind_eq_at s m f b h w w' k k' : header_cls h = Ind -> wrap_at s h w k -> wrap_at s h w' k' ->
  (forall T T' l l', k.1 = Some T -> k'.1 = Some T' -> node_at s l T -> node_at s l' T' -> f l l' = VOk (b T T')) ->
  ind_eq Sh s m f h w w' = VOk (same_opt b k.1 k'.1) /\ ind_ne Sh s m f h w w' = VOk (negb (same_opt b k.1 k'.1)).
Proof.
  intros Hh H1 H2 Hf. refs Hh H1 H2 m.
  destruct k as [[T|] a], k' as [[T'|] a']; cbn [fst] in *;
    try (destruct (D1 T eq_refl) as (l & D & N1)); try (destruct (D2 T' eq_refl) as (l' & D' & N2));
    destruct h; try done; cbn [ind_eq ind_ne]; unfold Compare20.op_ne, Compare20.op_eq, Compare14.op_eq, Compare14.op_ne;
    rewrite V1, V2; cbn -[ref]; rewrite ?D, ?D'; cbn -[ref]; try (rewrite (Hf T T' l l') by done); try done; auto.
Qed.

Lemma ind_tw_at s m f b w w' k k' : wrap_at s HInd20 w k -> wrap_at s HInd20 w' k' ->
  (forall T T' l l', k.1 = Some T -> k'.1 = Some T' -> node_at s l T -> node_at s l' T' -> f l l' = VOk (b T T')) ->
  ind_tw Sh s m f HInd20 w w' = VOk (order_opt b k.1 k'.1).
Proof.
  assert (Hh : header_cls HInd20 = Ind) by done. intros H1 H2 Hf. refs Hh H1 H2 m.
  destruct k as [[T|] a], k' as [[T'|] a']; cbn [fst] in *;
    try (destruct (D1 T eq_refl) as (l & D & N1)); try (destruct (D2 T' eq_refl) as (l' & D' & N2));
    cbn [ind_tw]; unfold Compare20.op_tw;
    rewrite V1, V2; cbn -[ref]; rewrite ?D, ?D'; cbn -[ref]; try (rewrite (Hf T T' l l') by done); try done; auto.
Qed.

Lemma ind_hash_at s m f b h w k : header_cls h = Ind -> wrap_at s h w k ->
  (forall T l, k.1 = Some T -> node_at s l T -> f l = VOk (b T)) ->
  ind_hash Sh s m f h w = VOk (hash_opt b k.1).
Proof.
  intros Hh H1 Hf. destruct (ref_at m _ _ _ _ Hh H1) as [V1 D1].
  destruct k as [[T|] a]; cbn [fst] in *; try (destruct (D1 T eq_refl) as (l & D & N1));
    destruct h; try done; cbn [ind_hash]; unfold Compare20.hash, Compare14.hash;
    rewrite V1; cbn -[ref]; rewrite ?D; cbn -[ref]; try (rewrite (Hf T l) by done); done.
Qed.

Lemma all_eq_at f b (ks ks' : list wst) i : length ks = length ks' ->
  (forall j k k', ks !! j = Some k -> ks' !! j = Some k' -> f (i + j) = VOk (same_opt b k.1 k'.1)) ->
  all_eq f i (length ks) = VOk (same_list b ks ks').
Proof.
  revert ks' i. induction ks as [|k ks IH]; intros [|k' ks'] i Hl Hf; try done. cbn [length all_eq same_list].
  specialize (Hf 0 k k' eq_refl eq_refl) as H0. rewrite Nat.add_0_r in H0. rewrite H0. cbn.
  destruct (same_opt b k.1 k'.1); cbn; [|done]. apply IH; [by injection Hl|].
  intros j k1 k2 H1 H2. rewrite Nat.add_succ_l, <- Nat.add_succ_r. by apply (Hf (S j)).
Qed.

Lemma all_tw_at f b (ks ks' : list wst) i : length ks = length ks' ->
  (forall j k k', ks !! j = Some k -> ks' !! j = Some k' -> f (i + j) = VOk (order_opt b k.1 k'.1)) ->
  all_tw f i (length ks) = VOk (order_list b ks ks').
Proof.
  revert ks' i. induction ks as [|k ks IH]; intros [|k' ks'] i Hl Hf; try done. cbn [length all_tw order_list].
  specialize (Hf 0 k k' eq_refl eq_refl) as H0. rewrite Nat.add_0_r in H0. rewrite H0. cbn.
  destruct (order_opt b k.1 k'.1); cbn; try done. apply IH; [by injection Hl|].
  intros j k1 k2 H1 H2. rewrite Nat.add_succ_l, <- Nat.add_succ_r. by apply (Hf (S j)).
Qed.

Lemma all_hash_at f b (ks : list wst) i acc :
  (forall j k, ks !! j = Some k -> f (i + j) = VOk (hash_opt b k.1)) ->
  all_hash mix f i (length ks) acc = VOk (hash_list mix b ks acc).
Proof.
  revert i acc. induction ks as [|k ks IH]; intros i acc Hf; [done|]. cbn [length all_hash hash_list foldl].
  specialize (Hf 0 k eq_refl) as H0. rewrite Nat.add_0_r in H0. rewrite H0. cbn. apply IH.
  intros j k1 H1. rewrite Nat.add_succ_l, <- Nat.add_succ_r. by apply (Hf (S j)).
Qed.

(** All levels. *)
Section deep.
Context (HF : Fixed Sh) (s : store E).

Lemma kids_len t v kids t' v' kids' l l' :
  node_at s l (TNode t v kids) -> node_at s l' (TNode t' v' kids') -> length kids = length kids'.
Proof. intros [_ H1]%node_load [_ H2]%node_load. rewrite H1, H2. apply HF. Qed.

Lemma node_eq_at n : forall T T' l l', node_at s l T -> node_at s l' T' -> fits n (Some T) -> fits n (Some T') ->
  node_eq Sh s (fun v v' => VOk (d v v')) n l l' = VOk (same d T T').
Proof.
  induction n as [|n IH]; intros [t v kids] [t' v' kids'] l l' H1 H2 F1 F2; [done|].
  pose proof (kids_len _ _ _ _ _ _ _ _ H1 H2) as Hlen.
  destruct (node_load _ _ _ _ _ H1) as [L1 N1]. destruct (node_load _ _ _ _ _ H2) as [L2 N2].
  cbn [node_eq]. rewrite L1, L2. cbn -[all_eq same]. rewrite <- N1. cbn [same]. destruct (d v v'); cbn -[all_eq]; [|done].
  apply all_eq_at; [done|]. intros j k k' K1 K2. cbn [Nat.add].
  refine (proj1 (ind_eq_at _ _ _ _ _ _ _ _ _ (HK j) (node_mem _ _ _ _ _ _ _ H1 K1) (node_mem _ _ _ _ _ _ _ H2 K2) _)).
  intros T T' l1 l2 E1 E2 A1 A2. cbn [fits] in F1, F2. rewrite Forall_lookup in F1, F2.
  apply IH; [done..| |]; [rewrite <- E1; by eapply F1|rewrite <- E2; by eapply F2].
Qed.

Lemma deep_eq_at n h w w' k k' : header_cls h = Ind -> wrap_at s h w k -> wrap_at s h w' k' ->
  fits n k.1 -> fits n k'.1 ->
  deep_eq Sh s (fun v v' => VOk (d v v')) n h w w' = VOk (same_w d k k') /\
  deep_ne Sh s (fun v v' => VOk (d v v')) n h w w' = VOk (negb (same_w d k k')).
Proof.
  intros Hh H1 H2 F1 F2. apply ind_eq_at; [done..|]. intros T T' l l' E1 E2 N1 N2.
  rewrite E1 in F1. rewrite E2 in F2. by apply node_eq_at.
Qed.

Lemma node_hash_at n : forall T l, node_at s l T -> fits n (Some T) ->
  node_hash Sh s (fun v => VOk (hv v)) mix n l = VOk (hash_tree hv mix T).
Proof.
  induction n as [|n IH]; intros [t v kids] l H1 F1; [done|].
  destruct (node_load _ _ _ _ _ H1) as [L1 N1].
  cbn [node_hash]. rewrite L1. cbn -[all_hash hash_list]. rewrite <- N1.
  apply all_hash_at. intros j k K1. cbn [Nat.add].
  apply (ind_hash_at _ _ _ _ _ _ _ (HK j) (node_mem _ _ _ _ _ _ _ H1 K1)).
  intros T l1 E1 A1. cbn [fits] in F1. rewrite Forall_lookup in F1.
  apply IH; [done|]. rewrite <- E1. by eapply F1.
Qed.

Lemma deep_hash_at n h w k : header_cls h = Ind -> wrap_at s h w k -> fits n k.1 ->
  deep_hash Sh s (fun v => VOk (hv v)) mix n h w = VOk (hash_w hv mix k).
Proof.
  intros Hh H1 F1. apply ind_hash_at; [done..|]. intros T l E1 N1. rewrite E1 in F1. by apply node_hash_at.
Qed.

Context (HK20 : forall i, k_hdr Sh (tT E) i = HInd20).
Lemma node_tw_at n : forall T T' l l', node_at s l T -> node_at s l' T' -> fits n (Some T) -> fits n (Some T') ->
  node_tw Sh s (fun v v' => VOk (c v v')) n l l' = VOk (order c T T').
Proof.
  induction n as [|n IH]; intros [t v kids] [t' v' kids'] l l' H1 H2 F1 F2; [done|].
  pose proof (kids_len _ _ _ _ _ _ _ _ H1 H2) as Hlen.
  destruct (node_load _ _ _ _ _ H1) as [L1 N1]. destruct (node_load _ _ _ _ _ H2) as [L2 N2].
  cbn [node_tw]. rewrite L1, L2. cbn -[all_tw order]. rewrite <- N1. cbn [order]. destruct (c v v'); cbn -[all_tw]; try done.
  apply all_tw_at; [done|]. intros j k k' K1 K2. cbn [Nat.add].
  pose proof (node_mem _ _ _ _ _ _ _ H1 K1) as M1. pose proof (node_mem _ _ _ _ _ _ _ H2 K2) as M2.
  rewrite HK20 in M1, M2 |- *. apply (ind_tw_at _ _ _ _ _ _ _ _ M1 M2).
  intros T T' l1 l2 E1 E2 A1 A2. cbn [fits] in F1, F2. rewrite Forall_lookup in F1, F2.
  apply IH; [done..| |]; [rewrite <- E1; by eapply F1|rewrite <- E2; by eapply F2].
Qed.

Lemma deep_tw_at n w w' k k' : wrap_at s HInd20 w k -> wrap_at s HInd20 w' k' ->
  fits n k.1 -> fits n k'.1 ->
  deep_tw Sh s (fun v v' => VOk (c v v')) n HInd20 w w' = VOk (order_w c k k').
Proof.
  intros H1 H2 F1 F2. apply ind_tw_at; [done..|]. intros T T' l l' E1 E2 N1 N2.
  rewrite E1 in F1. rewrite E2 in F2. by apply node_tw_at.
Qed.
End deep.

(** Operators of the data that throw. *)
Section fine.
Context (s : store E) (P : exn -> Prop) (HF : Fixed Sh).
Definition fine {X} (r : res X) : Prop := match r with VOk _ => True | VExn e => P e | VBad => False end.
Context (deq : V -> V -> res bool) (dtw : V -> V -> res ordering) (dhash : V -> res N).
Context (Heq : forall v v', fine (deq v v')) (Htw : forall v v', fine (dtw v v')) (Hhash : forall v, fine (dhash v)).

Lemma ind_eq_fine m f h w w' k k' : header_cls h = Ind -> wrap_at s h w k -> wrap_at s h w' k' ->
  (forall T T' l l', k.1 = Some T -> k'.1 = Some T' -> node_at s l T -> node_at s l' T' -> fine (f l l')) ->
  fine (ind_eq Sh s m f h w w') /\ fine (ind_ne Sh s m f h w w').
Proof.
  intros Hh H1 H2 Hf. refs Hh H1 H2 m.
  destruct k as [[T|] a], k' as [[T'|] a']; cbn [fst] in *;
    try (destruct (D1 T eq_refl) as (l & D & N1)); try (destruct (D2 T' eq_refl) as (l' & D' & N2));
    destruct h; try done; cbn [ind_eq ind_ne]; unfold Compare20.op_ne, Compare20.op_eq, Compare14.op_eq, Compare14.op_ne;
    rewrite V1, V2; cbn -[ref]; rewrite ?D, ?D'; cbn -[ref]; try done;
    (pose proof (Hf T T' l l' eq_refl eq_refl N1 N2) as HH; destruct (f l l'); done).
Qed.

Lemma ind_tw_fine m f w w' k k' : wrap_at s HInd20 w k -> wrap_at s HInd20 w' k' ->
  (forall T T' l l', k.1 = Some T -> k'.1 = Some T' -> node_at s l T -> node_at s l' T' -> fine (f l l')) ->
  fine (ind_tw Sh s m f HInd20 w w').
Proof.
  assert (Hh : header_cls HInd20 = Ind) by done. intros H1 H2 Hf. refs Hh H1 H2 m.
  destruct k as [[T|] a], k' as [[T'|] a']; cbn [fst] in *;
    try (destruct (D1 T eq_refl) as (l & D & N1)); try (destruct (D2 T' eq_refl) as (l' & D' & N2));
    cbn [ind_tw]; unfold Compare20.op_tw;
    rewrite V1, V2; cbn -[ref]; rewrite ?D, ?D'; cbn -[ref]; try done;
    (pose proof (Hf T T' l l' eq_refl eq_refl N1 N2) as HH; destruct (f l l'); done).
Qed.

Lemma ind_hash_fine m f h w k : header_cls h = Ind -> wrap_at s h w k ->
  (forall T l, k.1 = Some T -> node_at s l T -> fine (f l)) -> fine (ind_hash Sh s m f h w).
Proof.
  intros Hh H1 Hf. destruct (ref_at m _ _ _ _ Hh H1) as [V1 D1].
  destruct k as [[T|] a]; cbn [fst] in *; try (destruct (D1 T eq_refl) as (l & D & N1));
    destruct h; try done; cbn [ind_hash]; unfold Compare20.hash, Compare14.hash;
    rewrite V1; cbn -[ref]; rewrite ?D; cbn -[ref]; try done; by apply (Hf T l).
Qed.

Lemma all_eq_fine f i n : (forall j, i <= j < i + n -> fine (f j)) -> fine (all_eq f i n).
Proof.
  revert i. induction n as [|n IH]; intros i Hf; [done|]. cbn. pose proof (Hf i ltac:(lia)) as H0.
  destruct (f i) as [[]| |]; cbn; try done. apply IH. intros j Hj. apply Hf. lia.
Qed.
Lemma all_tw_fine f i n : (forall j, i <= j < i + n -> fine (f j)) -> fine (all_tw f i n).
Proof.
  revert i. induction n as [|n IH]; intros i Hf; [done|]. cbn. pose proof (Hf i ltac:(lia)) as H0.
  destruct (f i) as [[]| |]; cbn; try done. apply IH. intros j Hj. apply Hf. lia.
Qed.
Lemma all_hash_fine f i n acc : (forall j, i <= j < i + n -> fine (f j)) -> fine (all_hash mix f i n acc).
Proof.
  revert i acc. induction n as [|n IH]; intros i acc Hf; [done|]. cbn. pose proof (Hf i ltac:(lia)) as H0.
  destruct (f i); cbn; try done. apply IH. intros j Hj. apply Hf. lia.
Qed.

Lemma node_eq_fine n : forall T T' l l', node_at s l T -> node_at s l' T' -> fits n (Some T) -> fits n (Some T') ->
  fine (node_eq Sh s deq n l l').
Proof.
  induction n as [|n IH]; intros [t v kids] [t' v' kids'] l l' H1 H2 F1 F2; [done|].
  pose proof (kids_len HF s _ _ _ _ _ _ _ _ H1 H2) as Hlen.
  destruct (node_load _ _ _ _ _ H1) as [L1 N1]. destruct (node_load _ _ _ _ _ H2) as [L2 N2].
  cbn [node_eq]. rewrite L1, L2. cbn -[all_eq]. specialize (Heq v v'). destruct (deq v v') as [[]| |]; cbn -[all_eq]; try done.
  apply all_eq_fine. intros j [_ Hj]. cbn in Hj.
  destruct (kids !! j) as [k|] eqn:K1; [|apply lookup_ge_None in K1; lia].
  destruct (kids' !! j) as [k'|] eqn:K2; [|apply lookup_ge_None in K2; lia].
  refine (proj1 (ind_eq_fine _ _ _ _ _ _ _ (HK j) (node_mem _ _ _ _ _ _ _ H1 K1) (node_mem _ _ _ _ _ _ _ H2 K2) _)).
  intros T T' l1 l2 E1 E2 A1 A2. cbn [fits] in F1, F2. rewrite Forall_lookup in F1, F2.
  eapply IH; [done..| |]; [rewrite <- E1; by eapply F1|rewrite <- E2; by eapply F2].
Qed.

Lemma node_hash_fine n : forall T l, node_at s l T -> fits n (Some T) -> fine (node_hash Sh s dhash mix n l).
Proof.
  induction n as [|n IH]; intros [t v kids] l H1 F1; [done|].
  destruct (node_load _ _ _ _ _ H1) as [L1 N1].
  cbn [node_hash]. rewrite L1. cbn -[all_hash]. specialize (Hhash v). destruct (dhash v); cbn -[all_hash]; try done.
  apply all_hash_fine. intros j [_ Hj]. cbn in Hj.
  destruct (kids !! j) as [k|] eqn:K1; [|apply lookup_ge_None in K1; lia].
  apply (ind_hash_fine _ _ _ _ _ (HK j) (node_mem _ _ _ _ _ _ _ H1 K1)).
  intros T l1 E1 A1. cbn [fits] in F1. rewrite Forall_lookup in F1.
  eapply IH; [done|]. rewrite <- E1. by eapply F1.
Qed.

Lemma deep_eq_fine n h w w' k k' : header_cls h = Ind -> wrap_at s h w k -> wrap_at s h w' k' ->
  fits n k.1 -> fits n k'.1 -> fine (deep_eq Sh s deq n h w w') /\ fine (deep_ne Sh s deq n h w w').
Proof.
  intros Hh H1 H2 F1 F2. eapply ind_eq_fine; [done..|]. intros T T' l l' E1 E2 N1 N2.
  rewrite E1 in F1. rewrite E2 in F2. by eapply node_eq_fine.
Qed.

Lemma deep_hash_fine n h w k : header_cls h = Ind -> wrap_at s h w k -> fits n k.1 -> fine (deep_hash Sh s dhash mix n h w).
Proof.
  intros Hh H1 F1. eapply ind_hash_fine; [done..|]. intros T l E1 N1. rewrite E1 in F1. by eapply node_hash_fine.
Qed.

Context (HK20 : forall i, k_hdr Sh (tT E) i = HInd20).
Lemma node_tw_fine n : forall T T' l l', node_at s l T -> node_at s l' T' -> fits n (Some T) -> fits n (Some T') ->
  fine (node_tw Sh s dtw n l l').
Proof.
  induction n as [|n IH]; intros [t v kids] [t' v' kids'] l l' H1 H2 F1 F2; [done|].
  pose proof (kids_len HF s _ _ _ _ _ _ _ _ H1 H2) as Hlen.
  destruct (node_load _ _ _ _ _ H1) as [L1 N1]. destruct (node_load _ _ _ _ _ H2) as [L2 N2].
  cbn [node_tw]. rewrite L1, L2. cbn -[all_tw]. specialize (Htw v v'). destruct (dtw v v') as [[]| |]; cbn -[all_tw]; try done.
  apply all_tw_fine. intros j [_ Hj]. cbn in Hj.
  destruct (kids !! j) as [k|] eqn:K1; [|apply lookup_ge_None in K1; lia].
  destruct (kids' !! j) as [k'|] eqn:K2; [|apply lookup_ge_None in K2; lia].
  pose proof (node_mem _ _ _ _ _ _ _ H1 K1) as M1. pose proof (node_mem _ _ _ _ _ _ _ H2 K2) as M2.
  rewrite HK20 in M1, M2 |- *. eapply (ind_tw_fine _ _ _ _ _ _ M1 M2).
  intros T T' l1 l2 E1 E2 A1 A2. cbn [fits] in F1, F2. rewrite Forall_lookup in F1, F2.
  eapply IH; [done..| |]; [rewrite <- E1; by eapply F1|rewrite <- E2; by eapply F2].
Qed.
Lemma deep_tw_fine n w w' k k' : wrap_at s HInd20 w k -> wrap_at s HInd20 w' k' ->
  fits n k.1 -> fits n k'.1 -> fine (deep_tw Sh s dtw n HInd20 w w').
Proof.
  intros H1 H2 F1 F2. eapply ind_tw_fine; [done..|]. intros T T' l l' E1 E2 N1 N2.
  rewrite E1 in F1. rewrite E2 in F2. by eapply node_tw_fine.
Qed.
End fine.
End run.
