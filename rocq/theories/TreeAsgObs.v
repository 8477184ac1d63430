(** * The value seen at each path after copy assignment. *)

From stdpp Require Import base gmap list.
From Verif Require Import Lang Common Client Spec Rep RunLemmas Headers Hist Tree TreeProps TreeAssign TreeAssignC TreeSub TreeObs TreeEx TreeSubLast.

(** Assigning an object gives an equal one. *)
Definition AssignValue {E : Env} : Prop := forall t v v', (t_asgn E ConstL t t v v').1 = v'.

Section obs.
Context {E : Env} (Sh : Shape E).
Notation A := (eA E).
Notation wst := (option (tree E) * A)%type.
Notation wrap_heap := (wrap_heap Sh).
Notation mem_heap := (mem_heap Sh).
Notation shaped_w := (shaped_w Sh).
Notation shaped_ws := (shaped_ws Sh).

Lemma wrap_shaped h w k B W : wrap_heap h w k B W -> shaped_w h k.
Proof.
  intros H.
  refine (wrap_heap_mind E Sh (fun h w k B W _ => shaped_w h k) (fun hs nm i ks B W _ => shaped_ws hs i ks) _ _ _ _ _ _ _ _ _ H); try done.
  - intros h' w' a l t v kids b B' W' Hok Hlen Hm IH _ _. unfold TreeEx.shaped_w. cbn [fst]. rewrite shaped_eq.
    split_and!; [|done|done]. intros Hc. by apply Hok.
Qed.

Lemma shaped_ws_lookup hs i ks j k : shaped_ws hs i ks -> ks !! j = Some k -> shaped_w (hs (i + j)) k.
Proof.
  revert i j. induction ks as [|k0 ks IH]; intros i j Hs Hj; [done|]. destruct Hs as [H1 H2].
  destruct j as [|j]; cbn in Hj; simplify_eq; [by rewrite Nat.add_0_r|]. rewrite <- Nat.add_succ_comm. by apply IH.
Qed.

Lemma asg_ws_lookup hs i ks ds j : length ds = length ks ->
  asg_ws Sh hs i ks ds !! j =
  match ks !! j, ds !! j with Some k, Some d => Some (asg_w Sh (header_cls (hs (i + j))) d k) | _, _ => None end.
Proof.
  revert i ds j. induction ks as [|k ks IH]; intros i [|d ds] j Hl; try done.
  destruct j as [|j]; cbn; [by rewrite Nat.add_0_r|]. rewrite IH by (by simplify_eq/=). by rewrite Nat.add_succ_comm.
Qed.

Notation seen h k p := (match sub_at_path Sh h k p with Some (_, k') => Some (data <$> k'.1) | None => None end).

Context (HF : Fixed Sh) (HV : CopyValue (E := E)) (HV' : AssignValue (E := E)).

Lemma asg_path p h (d k : wst) : shaped_w h d -> shaped_w h k ->
  seen h (asg_w Sh (header_cls h) d k) p = seen h k p.
Proof.
  revert h d k. induction p as [|i p IH]; intros h d k Hd Hk; (destruct k as [[T|] a]; [|done]);
    cbn [asg_w]; unfold asg_some;
    (destruct (header_cls h) eqn:Hc; [|by apply (sub_copy_path Sh HV _ h _ (Some T, a))]);
    (destruct (t_assignable E); [|by apply (sub_copy_path Sh HV _ h _ (Some T, a))]);
    (destruct d as [[D|] ad]; [|by apply (sub_copy_path Sh HV _ h _ (Some T, a))]);
    cbn [fst snd]; (destruct (a_eqb E ad a); [|by apply (sub_copy_path Sh HV _ h _ (Some T, a))]);
    destruct T as [t v ks], D as [t0 v0 ds]; rewrite asg_to_eq;
    unfold TreeEx.shaped_w in Hd, Hk; cbn [fst] in Hd, Hk; rewrite shaped_eq in Hd, Hk;
    destruct Hd as (Hd1 & Hd2 & Hd3), Hk as (Hk1 & Hk2 & Hk3); rewrite (Hd1 Hc), (Hk1 Hc) in *.
  - cbn. by rewrite HV'.
  - assert (Hl : length ds = length ks) by (rewrite Hd2, Hk2; apply HF).
    cbn [TreeSub.sub_at_path fst]. rewrite asg_ws_lookup by done. cbn [Nat.add].
    destruct (ks !! i) as [k|] eqn:Hki; [|done]. destruct (ds !! i) as [d|] eqn:Hdi.
    + apply IH; [exact (shaped_ws_lookup (k_hdr Sh (tT E)) 0 ds i d Hd3 Hdi)|exact (shaped_ws_lookup (k_hdr Sh (tT E)) 0 ks i k Hk3 Hki)].
    + apply lookup_ge_None in Hdi. apply lookup_lt_Some in Hki. lia.
Qed.

Lemma pop_path p h a t v ds k :
  header_cls h = Ind -> k_hdr Sh (tT E) (length ds) = h -> shaped_w h (Some (TNode t v (ds ++ [k])), a) ->
  seen h (pop_last Sh a (TNode t v (ds ++ [k])), a) p = seen h k p.
Proof.
  intros Hc. revert a t v ds k. induction p as [|i p IH]; intros a t v ds k Hh Hs; rewrite pop_last_eq;
    (destruct k as [[T1|] ak]; [|done]); unfold TreeEx.shaped_w in Hs; cbn [fst] in Hs; rewrite shaped_eq in Hs;
    destruct Hs as (Ht & Hlen & Hks); rewrite (Ht Hc) in *; destruct T1 as [t1 v1 ks1];
    (destruct (_ && _); [|by apply (sub_copy_path Sh HV _ h _ (Some (TNode t1 v1 ks1), ak))]);
    assert (H1 := shaped_ws_lookup _ _ _ (length ds) (Some (TNode t1 v1 ks1), ak) Hks);
    (feed specialize H1; [by rewrite lookup_app_r, Nat.sub_diag|]); cbn [Nat.add] in H1; rewrite Hh in H1; assert (H10 := H1);
    unfold TreeEx.shaped_w in H1; cbn [fst] in H1; rewrite shaped_eq in H1; destruct H1 as (Ht1 & Hlen1 & Hks1); rewrite (Ht1 Hc) in *.
  - cbn. by rewrite HV'.
  - assert (Hl : length ks1 = length ds + 1) by (rewrite Hlen1, (HF _ v1 v), <- Hlen, app_length; done).
    destruct (exists_last (l := ks1)) as (fs & k1 & ->).
    { intros ->. cbn in Hl. lia. }
    rewrite app_length in Hl. cbn in Hl. assert (Hlf : length ds = length fs) by lia. rewrite removelast_last.
    assert (Hla : length (asg_ws Sh (k_hdr Sh (tT E)) 0 fs ds) = length ds).
    { clear - Hlf. generalize 0. revert fs Hlf. induction ds as [|d ds IH]; intros [|k ks] Hl i; try done. cbn. f_equal. apply IH. by simplify_eq/=. }
    cbn [TreeSub.sub_at_path fst]. destruct (decide (i < length ds)) as [Hi|Hi].
    + rewrite !lookup_app_l by lia. rewrite asg_ws_lookup by done. cbn [Nat.add].
      destruct (lookup_lt_is_Some_2 fs i) as [k Hk]; [lia|]. destruct (lookup_lt_is_Some_2 ds i) as [d Hd]; [lia|]. rewrite Hk, Hd.
      apply asg_path.
      * eapply (shaped_ws_lookup (k_hdr Sh (tT E)) 0); [exact Hks|]. by apply lookup_app_l_Some.
      * eapply (shaped_ws_lookup (k_hdr Sh (tT E)) 0); [exact Hks1|]. by apply lookup_app_l_Some.
    + rewrite !lookup_app_r by lia. rewrite Hla, <- Hlf. destruct (decide (i = length ds)) as [->|Hne].
      * rewrite Nat.sub_diag. cbn [lookup list_lookup]. rewrite Hh. apply IH; [by rewrite <- Hlf|done].
      * destruct (i - length ds) as [|m] eqn:Hm; [lia|]. done.
Qed.
End obs.
