(** * Classes whose objects threads may share: proofs. *)

From stdpp Require Import base gmap list.
From Verif Require Import Lang Common Client Spec Rep RunLemmas Headers Hist Draft Tree TreeProps TreeAssign Conc ConcStatic.
From Verif Require Import Contract ContractProps ContractNode ContractUser ContractUserProps ContractTidy ContractTidyProps ContractTidyNode.
From Verif Require Import ContractConc ContractConcNode ContractConcJoin.

Section user.
Context {E : Env}.
Implicit Types s : store E.

Lemma flat_sealed : Sealed (flat_cls E).
Proof. intros t l v x B W (_ & -> & ->). split; intros *; by rewrite lookup_empty. Qed.

Lemma members_sealed K hs nm i ks B W : Sealed (E := E) K -> members K hs nm i ks B W ->
  (forall u l' a, W !! u = Some (mkW (PLoc l') a) -> is_Some (B !! l')) /\
  (forall l' b t' q, B !! l' = Some b -> b_hdr b = HCb t' (Some q) -> is_Some (B !! q)).
Proof.
  intros HL. revert i B W. induction ks as [|k ks IH]; intros i B W.
  - intros [-> ->]. split; intros *; by rewrite lookup_empty.
  - intros (B1 & W1 & B2 & W2 & -> & -> & DB & DW & H1 & H2).
    destruct (wrapped_sealed K HL _ _ _ _ _ H1) as [S1 S2]. destruct (IH _ _ _ H2) as [S3 S4].
    assert (Hu : forall l, is_Some (B1 !! l) \/ is_Some (B2 !! l) -> is_Some ((B1 ∪ B2) !! l)).
    { intros l Hl. apply lookup_union_is_Some. done. }
    split.
    + intros u l' a Hw. apply lookup_union_Some in Hw; [|done]. apply Hu. destruct Hw as [Hw|Hw]; [left|right]; eauto.
    + intros l' b t' q Hb Hq. apply lookup_union_Some in Hb; [|done]. apply Hu. destruct Hb as [Hb|Hb]; [left|right]; eauto.
Qed.
Lemma node_sealed Sh K : Sealed (E := E) K -> Sealed (node_cls Sh K).
Proof. intros HL t l v x B W (_ & _ & _ & Hm). by eapply members_sealed. Qed.

Lemma flat_shareable : copies_const E -> Shareable (flatTP E) (flat_cls E).
Proof.
  intros HC. split; [by apply flat_honest|apply flat_tidy|intros rob own _; apply flat_confined|apply flat_sealed].
Qed.

Lemma node_shareable Sh T K : ShapeReq Sh -> Fixed Sh -> (forall c, k_args Sh c = []) -> AllocReq E -> (forall a, a_eqb E a a = true) ->
  Shareable (E := E) T K -> Shareable (nodeTP_step Sh T) (node_cls Sh K).
Proof.
  intros HS HF HK HA Hr [H1 H2 H3 H4]. split; [by apply node_honest|by apply node_tidy| |by apply node_sealed].
  intros rob own Hmem. apply node_confined; [done|done|by apply H3].
Qed.
Lemma tower_shareable Sh T K n : ShapeReq Sh -> Fixed Sh -> (forall c, k_args Sh c = []) -> AllocReq E -> (forall a, a_eqb E a a = true) ->
  Shareable (E := E) T K -> Shareable (towerTP Sh T n) (tower_cls Sh K n).
Proof. intros HS HF HK HA Hr H. induction n as [|n IH]; [done|]. by apply node_shareable. Qed.

Lemma copy_only_shareable T K : Shareable (E := E) T K -> Shareable (copy_onlyTP T) (copy_only_cls K).
Proof.
  intros [H1 H2 H3 H4]. split; [by apply copy_only_honest|by apply copy_only_tidy| |exact H4].
  intros rob own Hmem. by apply copy_only_confined, H3.
Qed.

Lemma handle_shareable T K h0 t0 : AllocReq E -> (forall a, a_eqb E a a = true) -> pocs E = true ->
  Shareable (E := E) T K -> Shareable (handleTP h0 t0 T) (handle_cls h0 t0 K).
Proof.
  intros HA Hr Hp [H1 H2 H3 H4]. split; [by apply handle_honest|by apply handle_tidy| |].
  - intros rob own Hmem. by apply handle_confined, H3.
  - exact (node_sealed (handle_shape h0) K H4).
Qed.

(** The class that touches what it copies keeps the contract. *)
Lemma touch_same (q : loc) b t v s : blocks s !! q = Some b -> b_obj b = OLive t v ->
  exec (PMutObj (E := E) (RBlk q) (fun v => v)) s = ROk tt s.
Proof.
  intros Hb Ho. cbn [exec deref]. rewrite Hb, Ho. f_equal. destruct s as [bs w x o tr]. cbn in *. unfold set_blocks; cbn. f_equal.
  apply map_eq. intros l. destruct (decide (q = l)) as [<-|Hne]; [|by rewrite lookup_alter_ne].
  rewrite lookup_alter, Hb. cbn. rewrite Ho. destruct b; cbn in *. by subst.
Qed.
Lemma touch_run T K a t l c o bo x B W s : c <> RVal -> object (E := E) K s o bo t x B W ->
  run (tp_cons (touchTP T) a t l (ARef c (RBlk o))) s = run (tp_cons T a t l (ARef c (RBlk o))) s.
Proof.
  intros Hc [(v & Ho & _) Hb _ _]. destruct c; [| |done]; cbn [touchTP tp_cons]; rewrite run_bind;
    cbn [act run]; by rewrite (touch_same o bo t v s Hb Ho).
Qed.
Lemma touch_honest T K : Honest (E := E) T K -> Honest (touchTP T) K.
Proof.
  intros [H1 H2 H3 H4 H5 H6]. split; [exact H1|exact H2| |exact H4|exact H5|exact H6].
  intros a t l b c o bo x B W s Hc HM Hst Hob HBl. rewrite (touch_run T K a t l c o bo x B W s Hc Hob). by eapply H3.
Qed.
Lemma touch_tidy T K : Tidy (E := E) T K -> Tidy (touchTP T) K.
Proof.
  intros [H2 H3 H4 H5 H6]. split; [exact H2| |exact H4|exact H5|exact H6].
  intros a t l b c o bo x B W s Hc HM Hst Hob HBl. pose proof (H3 a t l b c o bo x B W s Hc HM Hst Hob HBl) as H.
  destruct Hob as [(v & Ho & _) Hb _ _]. destruct c; [| |done]; cbn [touchTP tp_cons];
    (apply tidy_bind; [by apply plain_tidy|]); intros [] s1; cbn [act run]; rewrite (touch_same o bo t v s Hb Ho); by intros [= <-].
Qed.
End user.
