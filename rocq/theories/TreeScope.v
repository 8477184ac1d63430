(** * Scopes: clients that destroy their variables, whatever throws.

    Straight-line code whose variables have automatic storage: when an operation throws,
    the variables constructed so far are destroyed, the last constructed first; otherwise
    the next operation runs; at the end the variables are destroyed.  Nothing in /repo is
    modelled in this file. *)

From stdpp Require Import base gmap list.
From Verif Require Import Lang Common Client Spec Rep RunLemmas Headers Hist Tree TreeAssign TreeMove TreeMoveAssign
  TreeClient TreePlace TreeStep.

Section scope.
Context {E : Env} (Sh : Shape E).
Notation A := (eA E).
Notation wst := (option (tree E) * A)%type.
Notation forest := (gmap nat (header * wst)).
Notation top := (top (E := E)).
Notation tclient := (tclient (E := E)).
Implicit Types F : forest.
Implicit Types vs : list (nat * header).

(** The variables in scope after an operation, the last constructed first. *)
Definition after (o : top) vs : list (nat * header) :=
  match o with
  | TMake x h _ _ _ => (x, h) :: vs
  | TCopy x π | TCopyA x _ π | TMove x π | TMoveA x _ π => (x, place_hdr π) :: vs
  | TDestroy x _ => filter (fun p => p.1 <> x) vs
  | _ => vs
  end.
Fixpoint unwind vs : tclient :=
  match vs with [] => TDone | (x, h) :: vs' => TDo (TDestroy x h) (fun _ => unwind vs') end.
Fixpoint scope (ops : list top) vs : tclient :=
  match ops with
  | [] => unwind vs
  | o :: ops' => TDo o (fun r => match r with inl _ => scope ops' (after o vs) | inr _ => unwind vs end)
  end.

(** The operations meet their preconditions if none before has thrown. *)
Fixpoint chain (ops : list top) F : Prop :=
  match ops with
  | [] => True
  | o :: ops' => tpre Sh F o /\ match tok Sh F o with Some (_, F') => chain ops' F' | None => False end
  end.

(** [vs] are the variables of [F]. *)
Definition in_scope vs F : Prop := NoDup vs.*1 /\ forall x, fst <$> F !! x = (list_to_map vs : gmap nat header) !! x.

Lemma scope_put F π k x : fst <$> put_place F π k !! x = fst <$> F !! x.
Proof.
  unfold put_place. destruct (decide (x = pl_var π)) as [->|Hx].
  - rewrite lookup_alter. by destruct (F !! pl_var π) as [[? ?]|].
  - by rewrite lookup_alter_ne.
Qed.
Lemma scope_moved F ws x : fst <$> args_moved F ws !! x = fst <$> F !! x.
Proof.
  induction ws as [|[y|l i] ws IH]; cbn; [done| |done]. fold (args_moved F ws). rewrite <- IH.
  destruct (decide (x = y)) as [->|Hx].
  - rewrite lookup_alter. by destruct (args_moved F ws !! y) as [[? ?]|].
  - by rewrite lookup_alter_ne.
Qed.

Lemma scope_same vs F F' : (forall x, fst <$> F' !! x = fst <$> F !! x) -> in_scope vs F -> in_scope vs F'.
Proof. intros HF [HN H]. split; [done|]. intros x. by rewrite HF. Qed.
Lemma scope_new vs F F' x h k : (forall y, fst <$> F' !! y = fst <$> F !! y) -> F !! x = None ->
  in_scope vs F -> in_scope ((x, h) :: vs) (<[x := (h, k)]> F').
Proof.
  intros HF Hx [HN H]. split.
  - cbn. apply NoDup_cons. split; [|done]. specialize (H x). rewrite Hx in H. cbn in H.
    by apply not_elem_of_list_to_map.
  - intros y. cbn. destruct (decide (y = x)) as [->|Hy]; [by rewrite !lookup_insert|].
    rewrite !lookup_insert_ne by done. by rewrite HF.
Qed.
Lemma scope_gone vs F x : in_scope vs F -> in_scope (filter (fun p => p.1 <> x) vs) (delete x F).
Proof.
  intros [HN H].
  assert (Hsub : forall y, y ∈ (filter (fun p : nat * header => p.1 <> x) vs).*1 <-> y ∈ vs.*1 /\ y <> x).
  { intros y. rewrite !elem_of_list_fmap. setoid_rewrite elem_of_list_filter. naive_solver. }
  assert (HN' : NoDup (filter (fun p : nat * header => p.1 <> x) vs).*1).
  { clear H Hsub. induction vs as [|[y h] vs IH]; [done|]. cbn in HN. apply NoDup_cons in HN as [Hy HN].
    rewrite filter_cons. case_decide; cbn; [|by apply IH]. apply NoDup_cons. split; [|by apply IH].
    rewrite elem_of_list_fmap in Hy |- *. intros (p & -> & Hp). apply Hy. exists p. split; [done|].
    by apply elem_of_list_filter in Hp as [_ Hp]. }
  split; [done|]. intros y. destruct (decide (y = x)) as [->|Hy].
  - rewrite lookup_delete. cbn. symmetry. apply not_elem_of_list_to_map. rewrite Hsub. naive_solver.
  - rewrite lookup_delete_ne by done. rewrite H. apply option_eq. intros h.
    rewrite <- !elem_of_list_to_map by done. rewrite elem_of_list_filter. cbn. naive_solver.
Qed.

Lemma step_scope vs F o r F' : tpre Sh F o -> tstep Sh F o r F' -> in_scope vs F ->
  in_scope (match r with inl _ => after o vs | inr _ => vs end) F'.
Proof.
  intros Hpre Hst H. destruct r as [ob|e]; cbn in Hst.
  - destruct o; cbn in Hst, Hpre; cbn [after].
    all: repeat match type of Hst with
         | context [mbind _ (at_place ?S ?F ?p)] => destruct (at_place S F p) as [?k|]; [cbn in Hst|done]
         | context [match at_place ?S ?F ?p with _ => _ end] => destruct (at_place S F p) as [[[[? ? ?]|] ?]|]; [|done|done]
         end; injection Hst as <- <-.
    + eapply scope_new; [apply scope_moved|apply Hpre|done].
    + by eapply scope_new; [|apply Hpre|done].
    + by eapply scope_new; [|apply Hpre|done].
    + eapply scope_new; [intros; apply scope_put|apply Hpre|done].
    + eapply scope_new; [intros; apply scope_put|apply Hpre|done].
    + by apply scope_gone.
    + eapply scope_same; [|done]. intros. case_decide; [done|]. apply scope_put.
    + eapply scope_same; [|done]. intros. case_decide; [done|]. by rewrite !scope_put.
    + eapply scope_same; [|done]. intros. by rewrite !scope_put.
    + eapply scope_same; [|done]. intros. apply scope_put.
    + done.
    + done.
    + done.
  - destruct o; cbn in Hst; try done; try congruence.
    + destruct Hst as (T & T' & b & _ & _ & _ & ->). eapply scope_same; [|done]. intros. apply scope_put.
    + destruct Hst as (_ & k & k' & d & _ & _ & _ & ->). eapply scope_same; [|done]. intros. apply scope_put.
    + destruct Hst as (k & T & T' & b & _ & _ & _ & _ & _ & ->). eapply scope_same; [|done]. intros. apply scope_put.
Qed.

Lemma scope_cons x h vs F : in_scope ((x, h) :: vs) F -> exists k, F !! x = Some (h, k) /\ in_scope vs (delete x F).
Proof.
  intros H. pose proof (scope_gone _ _ x H) as H'. destruct H as [HN H]. specialize (H x). cbn in H, HN.
  rewrite lookup_insert in H. destruct (F !! x) as [[h' k]|] eqn:Hx; [|done]. cbn in H. simplify_eq. exists k.
  split; [done|]. apply NoDup_cons in HN as [Hnx _]. rewrite filter_cons in H'. case_decide as Hd; [by cbn in Hd|].
  enough (HE : filter (fun p : nat * header => p.1 <> x) vs = vs) by (by rewrite HE in H').
  clear - Hnx. induction vs as [|[y h] vs IH]; [done|]. cbn in Hnx. apply not_elem_of_cons in Hnx as [Hy Hn].
  rewrite filter_cons. case_decide as Hd; [by rewrite IH|]. cbn in Hd. destruct Hd. congruence.
Qed.

Lemma unwind_safe vs F : in_scope vs F -> tsafe Sh (unwind vs) F.
Proof.
  revert F. induction vs as [|[x h] vs IH]; intros F H; cbn; [done|].
  destruct (scope_cons _ _ _ _ H) as (k & Hx & H'). split; [by exists k|].
  intros [ob|e] F' Hst; cbn in Hst; [|done]. injection Hst as <- <-. by apply IH.
Qed.
Lemma unwind_end vs F outs F' : in_scope vs F -> tpath Sh (unwind vs) F outs F' -> F' = ∅.
Proof.
  revert F outs. induction vs as [|[x h] vs IH]; intros F [|r outs] H; cbn; try done.
  - intros ->. destruct H as [_ H]. apply map_eq. intros x. specialize (H x). rewrite lookup_empty in *.
    cbn in H. rewrite lookup_empty in H. by destruct (F !! x).
  - intros (F1 & Hst & Hp). destruct (scope_cons _ _ _ _ H) as (k & Hx & H').
    destruct r as [ob|e]; cbn in Hst; [|done]. injection Hst as <- <-. by eapply IH.
Qed.

Lemma scope_safe ops vs F : in_scope vs F -> chain ops F -> tsafe Sh (scope ops vs) F.
Proof.
  revert vs F. induction ops as [|o ops IH]; intros vs F H; cbn; [intros _; by apply unwind_safe|].
  intros [Hpre Hch]. split; [done|]. intros r F' Hst. pose proof (step_scope vs F o r F' Hpre Hst H) as H'.
  destruct r as [ob|e]; [|by apply unwind_safe]. cbn in Hst. rewrite Hst in Hch. by apply IH.
Qed.
Lemma scope_end ops vs F outs F' : in_scope vs F -> chain ops F -> tpath Sh (scope ops vs) F outs F' -> F' = ∅.
Proof.
  revert vs F outs. induction ops as [|o ops IH]; intros vs F outs H; cbn; [intros _; by apply unwind_end|].
  intros [Hpre Hch]. destruct outs as [|r outs]; [done|]. intros (F1 & Hst & Hp).
  pose proof (step_scope vs F o r F1 Hpre Hst H) as H'.
  destruct r as [ob|e]; [|by eapply unwind_end]. cbn in Hst. rewrite Hst in Hch. by eapply IH.
Qed.

Lemma unwind_most vs m : length vs <= m -> at_most m (unwind vs).
Proof.
  revert m. induction vs as [|[x h] vs IH]; intros m Hm; cbn; [by destruct m|].
  destruct m as [|m]; [cbn in Hm; lia|]. intros r. apply IH. cbn in Hm. lia.
Qed.
Lemma scope_most ops vs m : length vs + 2 * length ops <= m -> at_most m (scope ops vs).
Proof.
  revert vs m. induction ops as [|o ops IH]; intros vs m Hm; cbn; [apply unwind_most; cbn in Hm; lia|].
  cbn in Hm. destruct m as [|m]; [lia|]. intros [ob|e]; [|apply unwind_most; lia]. apply IH.
  enough (length (after o vs) <= S (length vs)) by lia.
  destruct o; cbn; try lia. pose proof (filter_length (fun p : nat * header => p.1 <> x) vs). lia.
Qed.

(** ** Decision procedure for [chain] *)
Definition preb F (o : top) : bool :=
  match o with
  | TMake x h a t c =>
      match F !! x with None => true | Some _ => false end && (match header_cls h with Ind => Nat.eqb t (tT E) | Poly => true end) &&
      Nat.eqb (length (k_args Sh c)) (n_kids Sh t (t_make E t a c)) && bool_decide (NoDup (k_args Sh c)) &&
      forallb (fun iw => match iw.2 with
                         | WVar y => match F !! y with Some (h', _) => bool_decide (h' = k_hdr Sh t iw.1) | None => false end
                         | WMem _ _ => false
                         end) (imap pair (k_args Sh c))
  | TCopy x π | TCopyA x _ π | TMove x π =>
      match F !! x with None => true | Some _ => false end && match at_place Sh F π with Some _ => true | None => false end
  | TMoveA x a π =>
      match F !! x with None => true | Some _ => false end &&
      match at_place Sh F π with
      | Some (v, b) => negb (bool_decide (place_hdr π = HPoly14) && pocca E) || match v with None => true | Some _ => a_eqb E a b end
      | None => false
      end
  | TDestroy x h => match F !! x with Some (h', _) => bool_decide (h' = h) | None => false end
  | TAssignC π ρ =>
      bool_decide (place_hdr π = place_hdr ρ) &&
      match at_place Sh F π, at_place Sh F ρ with
      | Some k, Some k' => bool_decide (π = ρ) || separate π ρ ||
          negb (in_place (header_cls (place_hdr π)) k k') && (inside π ρ || negb (pocca E))
      | _, _ => false
      end
  | TAssignM π ρ =>
      (bool_decide (π = ρ) || separate π ρ) && bool_decide (place_hdr π = place_hdr ρ) &&
      match at_place Sh F π, at_place Sh F ρ with Some _, Some _ => true | _, _ => false end
  | TSwap π ρ =>
      (bool_decide (π = ρ) || separate π ρ) && bool_decide (place_hdr π = place_hdr ρ) &&
      match at_place Sh F π, at_place Sh F ρ with Some k, Some k' => pocs E || a_eqb E k.2 k'.2 | _, _ => false end
  | TMutate π _ | TGet π => match at_place Sh F π with Some (Some _, _) => true | _ => false end
  | TValueless π | TAlloc π => match at_place Sh F π with Some _ => true | None => false end
  end.
Fixpoint chainb (ops : list top) F : bool :=
  match ops with
  | [] => true
  | o :: ops' => preb F o && match tok Sh F o with Some (_, F') => chainb ops' F' | None => false end
  end.

Lemma preb_ok F o : preb F o = true -> tpre Sh F o.
Proof.
  destruct o; cbn; intros H; repeat (apply andb_true_iff in H as [H ?]).
  - split_and!.
    + by destruct (F !! x).
    + intros Hc. rewrite Hc in *. by apply Nat.eqb_eq.
    + by apply Nat.eqb_eq.
    + by eapply bool_decide_eq_true_1.
    + intros i w Hw. rewrite forallb_forall in H0. specialize (H0 (i, w)). feed specialize H0.
      { apply elem_of_list_In, elem_of_list_lookup. exists i. rewrite list_lookup_imap, Hw. done. }
      cbn in H0. destruct w as [y|]; [|done]. destruct (F !! y) as [[h' k]|] eqn:Hy; [|done].
      apply bool_decide_eq_true_1 in H0 as ->. by exists y, k.
  - split; [by destruct (F !! x)|by destruct (at_place Sh F π)].
  - split; [by destruct (F !! x)|by destruct (at_place Sh F π)].
  - split; [by destruct (F !! x)|by destruct (at_place Sh F π)].
  - split; [by destruct (F !! x)|]. destruct (at_place Sh F π) as [[v b]|]; [|done]. exists (v, b). split; [done|].
    intros Hh Hc. rewrite Hc, bool_decide_eq_true_2 in H0 by done. cbn in H0. destruct v; [by right|by left].
  - destruct (F !! x) as [[h' k]|]; [|done]. apply bool_decide_eq_true_1 in H as ->. by exists k.
  - apply bool_decide_eq_true_1 in H. destruct (at_place Sh F π) as [k|], (at_place Sh F ρ) as [k'|]; try done.
    split; [done|]. exists k, k'. split_and!; [done|done|]. apply orb_true_iff in H0 as [[H0|H0]%orb_true_iff|[H1 H2]%andb_prop].
    + left. by apply bool_decide_eq_true_1 in H0.
    + by right; left.
    + right; right. split; [by apply negb_true_iff|]. apply orb_true_iff in H2 as [H2|H2]; [by left|right; by apply negb_true_iff].
  - apply bool_decide_eq_true_1 in H1. apply orb_true_iff in H as [H%bool_decide_eq_true_1|H];
      (split; [by auto|]); by destruct (at_place Sh F π), (at_place Sh F ρ).
  - apply bool_decide_eq_true_1 in H1. assert (π = ρ \/ separate π ρ = true) as Hs.
    { apply orb_true_iff in H as [H%bool_decide_eq_true_1|H]; by auto. }
    destruct (at_place Sh F π) as [k|], (at_place Sh F ρ) as [k'|]; try done.
    split_and!; [done|done|]. exists k, k'. split_and!; [done|done|]. by apply orb_true_iff in H0.
  - destruct (at_place Sh F π) as [[[T|] a]|]; [|done|done]. by exists T, a.
  - destruct (at_place Sh F π) as [[[T|] a]|]; [|done|done]. by exists T, a.
  - by destruct (at_place Sh F π).
  - by destruct (at_place Sh F π).
Qed.
Lemma chainb_ok ops F : chainb ops F = true -> chain ops F.
Proof.
  revert F. induction ops as [|o ops IH]; intros F; cbn; [done|].
  intros H. apply andb_true_iff in H as [H1 H2]. split; [by apply preb_ok|].
  destruct (tok Sh F o) as [[ob F']|]; [|done]. by apply IH.
Qed.
End scope.
