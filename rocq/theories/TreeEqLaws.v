(** * Comparison of nested values, described by paths. *)

From stdpp Require Import base gmap list.
From Verif Require Import Lang Common Client Spec Rep RunLemmas Headers Hist Compare CompareProps Tree TreeProps TreeSub TreeObs TreeEx TreeEq TreeEqProps.

(** Pre-order on paths: a node before its members, members in order of declaration. *)
Inductive before : list nat -> list nat -> Prop :=
  | before_nil i p : before [] (i :: p)
  | before_lt i j p q : i < j -> before (i :: p) (j :: q)
  | before_cons i p q : before p q -> before (i :: p) (i :: q).

Section spec.
Context {E : Env}.
Notation V := (eV E).
Notation seen := (option (option (ty * V))).
(** What is observed at one path of each operand: nothing there, valueless, or an object. *)
Definition agree (d : V -> V -> bool) (o o' : seen) : Prop :=
  match o, o' with
  | None, None | Some None, Some None => True
  | Some (Some (_, v)), Some (Some (_, v')) => d v v' = true
  | _, _ => False
  end.
Definition compare_at (c : V -> V -> ordering) (o o' : seen) : ordering :=
  match o, o' with
  | None, None | Some None, Some None => Equiv
  | Some (Some (_, v)), Some (Some (_, v')) => c v v'
  | None, _ => Less
  | _, None => Greater
  | Some None, _ => Less
  | _, Some None => Greater
  end.
(** The first difference in pre-order decides. *)
Definition first_difference (c : V -> V -> ordering) (f f' : list nat -> seen) (o : ordering) : Prop :=
  match o with
  | Equiv => forall p, compare_at c (f p) (f' p) = Equiv
  | _ => exists p, compare_at c (f p) (f' p) = o /\ forall q, before q p -> compare_at c (f q) (f' q) = Equiv
  end.
End spec.

Section laws.
Context {E : Env} (Sh : Shape E).
Notation A := (eA E).
Notation V := (eV E).
Notation wst := (option (tree E) * A)%type.
Notation seen h k p := (match sub_at_path Sh h k p with Some (_, k') => Some (data <$> k'.1) | None => None end).
Context (d : V -> V -> bool) (c : V -> V -> ordering) (hv : V -> N) (mix : N -> N -> N).

(** What is seen does not depend on the headers of the members. *)
Fixpoint look (k : wst) (p : list nat) : option (option (ty * V)) :=
  match p with
  | [] => Some (data <$> k.1)
  | i :: p' => match k.1 with Some (TNode _ _ kids) => match kids !! i with Some k' => look k' p' | None => None end | None => None end
  end.
Lemma look_seen h k p : seen h k p = look k p.
Proof.
  revert h k. induction p as [|i p IH]; intros h [[[t v kids]|] a]; try done. cbn. destruct (kids !! i); [apply IH|done].
Qed.

Definition look_list (ks : list wst) (p : list nat) : option (option (ty * V)) :=
  match p with [] => None | i :: p' => match ks !! i with Some k' => look k' p' | None => None end end.

Lemma look_node t v kids a p : look (Some (TNode t v kids), a) p = match p with [] => Some (Some (t, v)) | _ => look_list kids p end.
Proof. by destruct p. Qed.
Lemma look_none a p : look (None, a) p = match p with [] => Some None | _ => None end.
Proof. by destruct p. Qed.

(** Equality. *)
Lemma same_list_look n : (forall k k' : wst, fits n k.1 -> fits n k'.1 -> same_w d k k' = true <-> forall p, agree d (look k p) (look k' p)) ->
  forall ks ks' : list wst, Forall (fun k => fits n k.1) ks -> Forall (fun k => fits n k.1) ks' ->
  same_list (same d) ks ks' = true <-> forall p, agree d (look_list ks p) (look_list ks' p).
Proof.
  intros IH. induction ks as [|k ks IHk]; intros ks' F F'; destruct ks' as [|k' ks']; cbn [same_list].
  - split; [|done]. intros _ [|i p]; done.
  - split; [done|]. intros H. specialize (H [0]). cbn in H. by destruct k'.1.
  - split; [done|]. intros H. specialize (H [0]). cbn in H. by destruct k.1 as [[]|].
  - inversion_clear F as [|?? Fk Fs]; inversion_clear F' as [|?? Fk' Fs']. rewrite andb_true_iff.
    change (same_opt (same d) k.1 k'.1) with (same_w d k k'). rewrite (IH k k'), IHk by done. split.
    + intros [H1 H2] [|[|i] p]; [done|apply H1|apply (H2 (i :: p))].
    + intros H. split; [intros p; apply (H (0 :: p))|]. intros [|i p]; [done|]. apply (H (S i :: p)).
Qed.

Lemma same_look n : forall k k' : wst, fits n k.1 -> fits n k'.1 ->
  same_w d k k' = true <-> forall p, agree d (look k p) (look k' p).
Proof.
  induction n as [|n IH]; intros [[[t v kids]|] a] [[[t' v' kids']|] a'] F F'; try done.
  all: try (split; [done|]; intros H; by specialize (H [])).
  all: try (split; [|done]; intros _ [|i p]; done).
  cbn [same_w same_opt fst same]. unfold same_w. cbn [fst same_opt same]. rewrite andb_true_iff.
  rewrite (same_list_look n IH kids kids' F F'). split.
  - intros [H1 H2] [|i p]; [done|]. apply (H2 (i :: p)).
  - intros H. split; [apply (H [])|]. intros [|i p]; [done|]. apply (H (i :: p)).
Qed.

(** Order. *)
Lemma order_list_look n : (forall k k' : wst, fits n k.1 -> fits n k'.1 -> first_difference c (look k) (look k') (order_w c k k')) ->
  forall ks ks' : list wst, Forall (fun k => fits n k.1) ks -> Forall (fun k => fits n k.1) ks' ->
  match order_list (order c) ks ks' with
  | Equiv => forall p, compare_at c (look_list ks p) (look_list ks' p) = Equiv
  | o => exists i p, compare_at c (look_list ks (i :: p)) (look_list ks' (i :: p)) = o /\
      forall q, before q (i :: p) -> compare_at c (look_list ks q) (look_list ks' q) = Equiv
  end.
Proof.
  intros IH. induction ks as [|k ks IHk]; intros ks' F F'; destruct ks' as [|k' ks']; cbn [order_list].
  - by intros [|i p].
  - exists 0, []. cbn. split; [by destruct k'.1|]. intros q Hq. inversion Hq as [| |i p q' Hb]; subst; try done; [lia|inversion Hb].
  - exists 0, []. cbn. split; [by destruct k.1 as [[]|]|]. intros q Hq. inversion Hq as [| |i p q' Hb]; subst; try done; [lia|inversion Hb].
  - inversion_clear F as [|?? Fk Fs]; inversion_clear F' as [|?? Fk' Fs']. specialize (IH k k'). feed specialize IH; [done..|].
    unfold order_w in IH. specialize (IHk ks'). feed specialize IHk; [done..|].
    assert (HN : forall o, o <> Equiv ->
      (exists p, compare_at c (look k p) (look k' p) = o /\ forall q, before q p -> compare_at c (look k q) (look k' q) = Equiv) ->
      exists i p, compare_at c (look_list (k :: ks) (i :: p)) (look_list (k' :: ks') (i :: p)) = o /\
        forall q, before q (i :: p) -> compare_at c (look_list (k :: ks) q) (look_list (k' :: ks') q) = Equiv).
    { intros o _ (p & H1 & H2). exists 0, p. split; [done|]. intros q Hq.
      inversion Hq as [| |i p1 q1 Hb]; subst; [done|lia|]. by apply H2. }
    destruct (order_opt (order c) k.1 k'.1) eqn:Ho; cbn [first_difference] in IH; try by apply HN.
    destruct (order_list (order c) ks ks') eqn:Hl.
    2:{ intros [|[|i] p]; [done|apply IH|apply (IHk (i :: p))]. }
    all: destruct IHk as (i & p & H1' & H2'); exists (S i), p; (split; [done|]); intros [|[|j] q] Hq; [done|apply IH|];
      apply (H2' (j :: q)); inversion Hq; subst; [apply before_lt; lia|by apply before_cons].
Qed.

Lemma order_look n : forall k k' : wst, fits n k.1 -> fits n k'.1 -> first_difference c (look k) (look k') (order_w c k k').
Proof.
  induction n as [|n IH]; intros [[[t v kids]|] a] [[[t' v' kids']|] a'] F F'; try done.
  all: unfold order_w; cbn [fst order_opt first_difference].
  all: try (by intros [|i p]).
  all: try (exists []; split; [done|]; intros q Hq; by inversion Hq).
  cbn [order]. pose proof (order_list_look n IH kids kids' F F') as HL.
  destruct (c v v') eqn:Hc; cbn [first_difference].
  2:{ destruct (order_list (order c) kids kids'); cbn [first_difference].
      2:{ intros [|i p]; [done|]. apply (HL (i :: p)). }
      all: destruct HL as (i & p & H1 & H2); exists (i :: p); (split; [done|]); intros [|j q] Hq; [done|apply (H2 (j :: q) Hq)]. }
  all: exists []; split; [done|]; intros q Hq; by inversion Hq.
Qed.

(** Equal values have equal hashes. *)
Lemma same_hash n : (forall v v', d v v' = true -> hv v = hv v') -> forall k k' : wst, fits n k.1 -> fits n k'.1 ->
  same_w d k k' = true -> hash_w hv mix k = hash_w hv mix k'.
Proof.
  intros Hd. induction n as [|n IH]; intros [[[t v kids]|] a] [[[t' v' kids']|] a'] F F'; try done.
  unfold same_w, hash_w. cbn [fst same_opt same hash_opt hash_tree]. intros [H1 H2]%andb_true_iff. rewrite (Hd _ _ H1).
  cbn in F, F'. clear H1 Hd. generalize (hv v'). revert kids' F' H2. induction kids as [|k ks IHk]; intros [|k' ks'] F' H2 acc; try done.
  cbn [same_list] in H2. apply andb_true_iff in H2 as [H2 H3]. inversion F; inversion F'; subst. cbn [hash_list foldl].
  fold (hash_w hv mix k) (hash_w hv mix k'). unfold hash_list in IHk |- *. rewrite <- (IH k k') by done. by apply IHk.
Qed.

(** Laws of [order]. *)
Lemma order_flip n : (forall v v', c v' v = flip_ord (c v v')) -> forall k k' : wst, fits n k.1 -> fits n k'.1 ->
  order_w c k' k = flip_ord (order_w c k k').
Proof.
  intros Hc. induction n as [|n IH]; intros [[[t v kids]|] a] [[[t' v' kids']|] a'] F F'; try done.
  unfold order_w. cbn [fst order_opt order]. rewrite (Hc v v'). destruct (c v v'); try done. cbn [flip_ord].
  cbn in F, F'. revert kids' F'. induction kids as [|k ks IHk]; intros [|k' ks'] F'; try done.
  inversion_clear F; inversion_clear F'. cbn [order_list]. fold (order_w c k k') (order_w c k' k).
  rewrite (IH k k') by done. destruct (order_w c k k'); try done. by apply IHk.
Qed.

Definition lex (a b : ordering) : ordering := match a with Less => Less | Equiv => b | Greater => Greater | Unordered => Unordered end.
Lemma lex_comp a12 a23 a13 b12 b23 b13 :
  (forall o, comp a12 a23 = Some o -> a13 = o) -> (forall o, comp b12 b23 = Some o -> b13 = o) ->
  forall o, comp (lex a12 b12) (lex a23 b23) = Some o -> lex a13 b13 = o.
Proof.
  intros Ha Hb o. destruct a12, a23; cbn in Ha |- *; try done;
    repeat match goal with H : forall o, Some ?x = Some o -> _ |- _ => specialize (H x eq_refl) end; subst;
    try apply Hb; try (destruct b12); try (destruct b23); cbn; congruence.
Qed.

Lemma order_comp n : (forall u v w o, comp (c u v) (c v w) = Some o -> c u w = o) ->
  forall k1 k2 k3 : wst, fits n k1.1 -> fits n k2.1 -> fits n k3.1 ->
  forall o, comp (order_w c k1 k2) (order_w c k2 k3) = Some o -> order_w c k1 k3 = o.
Proof.
  intros Hc. induction n as [|n IH]; intros [[[t1 v1 kids1]|] a1] [[[t2 v2 kids2]|] a2] [[[t3 v3 kids3]|] a3] F1 F2 F3 o;
    unfold order_w; cbn [fst order_opt order]; try done; try (cbn; congruence);
    try (cbn; destruct (match c _ _ with Equiv => _ | _ => _ end); cbn; congruence).
  apply (lex_comp (c v1 v2) (c v2 v3) (c v1 v3) (order_list (order c) kids1 kids2) (order_list (order c) kids2 kids3) (order_list (order c) kids1 kids3)); [apply Hc|]. clear - F1 F2 F3 IH. cbn in F1, F2, F3.
  revert kids2 kids3 F2 F3. induction kids1 as [|k1 ks1 IHk]; intros [|k2 ks2] [|k3 ks3] F2 F3 o; cbn [order_list]; try done; try (cbn; congruence);
    try (destruct (match order_opt _ _ _ with Equiv => _ | _ => _ end); cbn; congruence).
  inversion_clear F1; inversion_clear F2; inversion_clear F3. apply (lex_comp (order_w c k1 k2) (order_w c k2 k3) (order_w c k1 k3) (order_list (order c) ks1 ks2) (order_list (order c) ks2 ks3) (order_list (order c) ks1 ks3)); [by apply (IH k1 k2 k3)|by apply IHk].
Qed.

(** Equality is an equivalence relation if that of the data is. *)
Lemma same_equiv n :
  (forall v, d v v = true) -> (forall v v', d v v' = true -> d v' v = true) -> (forall u v w, d u v = true -> d v w = true -> d u w = true) ->
  forall k1 k2 k3 : wst, fits n k1.1 -> fits n k2.1 -> fits n k3.1 ->
  same_w d k1 k1 = true /\ (same_w d k1 k2 = true -> same_w d k2 k1 = true) /\
  (same_w d k1 k2 = true -> same_w d k2 k3 = true -> same_w d k1 k3 = true).
Proof.
  intros R S T k1 k2 k3 F1 F2 F3. rewrite !(same_look n) by done. split_and!.
  - intros p. destruct (look k1 p) as [[[]|]|]; cbn; auto.
  - intros H p. specialize (H p). destruct (look k1 p) as [[[]|]|], (look k2 p) as [[[]|]|]; cbn in *; auto.
  - intros H H' p. specialize (H p). specialize (H' p).
    destruct (look k1 p) as [[[]|]|], (look k2 p) as [[[]|]|], (look k3 p) as [[[]|]|]; cbn in *; eauto; done.
Qed.

(** Equal and equivalent coincide if they do for the data. *)
Lemma order_same n : (forall v v', c v v' = Equiv <-> d v v' = true) -> forall k k' : wst, fits n k.1 -> fits n k'.1 ->
  order_w c k k' = Equiv <-> same_w d k k' = true.
Proof using Type.
  intros Hc. induction n as [|n IH]; intros [[[t v kids]|] a] [[[t' v' kids']|] a'] F F'; try done.
  unfold order_w, same_w. cbn [fst order_opt same_opt order same]. rewrite andb_true_iff, <- Hc.
  cbn in F, F'. enough (order_list (order c) kids kids' = Equiv <-> same_list (same d) kids kids' = true) as <-.
  { clear. destruct (c v v'); naive_solver. }
  revert kids' F'. induction kids as [|k ks IHk]; intros [|k' ks'] F'; try done.
  inversion_clear F; inversion_clear F'. cbn [order_list same_list]. rewrite andb_true_iff.
  fold (same_w d k k') (order_w c k k'). rewrite <- (IH k k'), <- (IHk H0 ks') by done.
  clear. destruct (order_w c k k'); naive_solver.
Qed.
End laws.
