(** * Memory resources: what lives where, proofs. *)

From stdpp Require Import base gmap list.
From Verif Require Import Lang Common Client Spec Rep RunLemmas Headers Hist Tree TreeProps TreeAssign
  Contract ContractProps ContractClient ContractClientProps ContractUser Arena ArenaProps.

Section home.
Context {E : Env} (K : Cls E) (R : c_val K -> nat -> Prop) (HK : Keeps K R) (HA : AllocReq E).
Notation A := (eA E).
Notation wv := (option (ty * c_val K) * A)%type.
Notation at_home := (at_home K R).
Notation living_in := (living_in K R).

Lemma wrapped_home h w k B W : wrapped K h w k B W -> at_home k -> forall l b, B !! l = Some b -> a_res E (b_a b) = a_res E k.2.
Proof.
  destruct k as [[[t x]|] a]; cbn.
  - intros (l & b & v & B1 & W1 & -> & -> & _ & (Hb & _) & Hrep) Hk l' b'. rewrite lookup_ins. case_decide; [intros; by simplify_eq|].
    by eapply (ke_rep _ _ HK).
  - intros [-> _] _ l b. by rewrite lookup_empty.
Qed.
Lemma copied_home a k k' : copied K a k k' -> living_in (a_res E a) k'.
Proof.
  unfold copied. destruct k as [[[t x]|] ak]; cbn; [intros (x' & Hx' & ->)|intros ->]; (split; [done|]); [|done].
  by eapply (ke_copy _ _ HK).
Qed.
Lemma moved_home st a k k' ky : (st = true -> a_res E a = a_res E k.2) -> moved K st a k k' ky -> at_home k ->
  living_in (a_res E a) k' /\ living_in (a_res E k.2) ky.
Proof.
  intros Hst. unfold moved, Arena.living_in, Arena.at_home. destruct k as [[[t x]|] ak]; cbn in *; [|by intros [-> ->]].
  destruct st.
  - intros [-> ->] Hx. cbn. by rewrite Hst.
  - intros (x' & y & Hm & -> & ->) Hx. cbn. by destruct (ke_move _ _ HK _ _ _ _ _ _ Hm Hx).
Qed.
Lemma broken_home k ky : move_broken K k ky -> at_home k -> living_in (a_res E k.2) ky.
Proof.
  unfold move_broken, Arena.living_in, Arena.at_home. destruct k as [[[t x]|] ak]; cbn; [|done].
  intros [->|(y & Hy & ->)] Hx; [done|]. cbn. split; [done|]. by eapply (ke_movef _ _ HK).
Qed.
Lemma reuses_res h kx ky : reuses K h kx ky = true -> a_res E kx.2 = a_res E ky.2.
Proof.
  unfold reuses. destruct (header_cls h), kx.1, ky.1; try done. intros [_ Hr]%andb_true_iff. by apply (ar_res _ HA).
Qed.
Lemma assigned_home h kx ky k' : assigned K h kx ky k' -> at_home kx -> at_home ky ->
  living_in (a_res E (kept (E := E) (pocca E) kx.2 ky.2)) k'.
Proof.
  assert (Hr := reuses_res h kx ky).
  unfold assigned, Arena.living_in, Arena.at_home. destruct kx as [[[tx x]|] ax], ky as [[[ty y]|] ay]; cbn [fst snd] in *;
    intros Ha Hx Hy; try by subst k'.
  - destruct (reuses K h _ _).
    + destruct Ha as (d' & Hd & ->). cbn. split; [done|]. specialize (Hr eq_refl).
      eapply (ke_asg _ _ HK); [exact Hd|..]; unfold kept; destruct (pocca E); first [done|by rewrite Hr|by rewrite <- Hr].
    + destruct Ha as (x' & Hx' & ->). split; [done|]. cbn. by eapply (ke_copy _ _ HK).
  - destruct Ha as (x' & Hx' & ->). split; [done|]. cbn. by eapply (ke_copy _ _ HK).
Qed.
Lemma failed_home h kx ky k' : assign_failed K h kx ky k' -> at_home kx -> at_home ky -> living_in (a_res E kx.2) k'.
Proof.
  assert (Hr := reuses_res h kx ky).
  unfold assign_failed, Arena.living_in, Arena.at_home. destruct (reuses K h kx ky); [|by intros ->].
  destruct kx as [[[tx x]|] ax], ky as [[[ty y]|] ay]; cbn [fst snd] in *; try done.
  intros (d' & Hd & ->) Hx Hy. cbn. split; [done|]. eapply (ke_asgf _ _ HK); [exact Hd|done|]. by rewrite Hr.
Qed.

(** ** Programs *)
Section client.
Context (M X : Type) (sem : M -> ty -> c_val K -> X + exn -> c_val K -> Prop).
Context (Hsem : forall f t v r v' q, sem f t v r v' -> R v q -> R v' q).
Context (hs : nat -> header).
Notation vars := (gmap nat wv).
Implicit Types m : vars.
Definition homes m : Prop := forall x k, m !! x = Some k -> at_home k.

Lemma homes_ins m x k : homes m -> at_home k -> homes (<[x := k]> m).
Proof. intros Hm Hk z kz. rewrite lookup_ins. case_decide; [intros; by simplify_eq|apply Hm]. Qed.
Lemma at_home_in r k : living_in r k -> at_home k.
Proof. by intros []. Qed.

Lemma gstep_home m o r m' : gpre K M hs m o -> gstep K M X sem hs m o r m' -> homes m -> homes m'.
Proof.
  intros Hp Hs Hm. destruct o as [x a t c|x y|x a y|x y|x a y|x y|x y|x y|x|x f|x|x]; cbn in Hp, Hs.
  - destruct r; [|by subst]. destruct Hs as (_ & v & Hv & ->). apply homes_ins; [done|]. cbn. by eapply (ke_make _ _ HK).
  - destruct r; [|by subst]. destruct Hs as (_ & k & k' & Hk & Hc & ->). apply homes_ins; [done|]. by eapply at_home_in, copied_home.
  - destruct r; [|by subst]. destruct Hs as (_ & k & k' & Hk & Hc & ->). apply homes_ins; [done|]. by eapply at_home_in, copied_home.
  - destruct Hs as (_ & k & k' & ky & Hk & Hc & ->). destruct (moved_home _ _ _ _ _ (fun _ => eq_refl) Hc (Hm _ _ Hk)).
    apply homes_ins; [apply homes_ins; [done|]|]; by eapply at_home_in.
  - destruct Hs as (k & Hk & Hs). destruct Hp as (_ & _ & k2 & Hk2 & Hst). assert (k2 = k) as -> by congruence. destruct r.
    + destruct Hs as (_ & k' & ky & Hc & ->). destruct (moved_home _ _ _ _ _ Hst Hc (Hm _ _ Hk)).
      apply homes_ins; [apply homes_ins; [done|]|]; by eapply at_home_in.
    + destruct Hs as (_ & ky & Hc & ->). apply homes_ins; [done|]. by eapply at_home_in, broken_home; eauto.
  - case_decide; [by destruct Hs as [_ ->]|]. destruct Hs as (kx & ky & Hx & Hy & Hs). destruct r.
    + destruct Hs as (_ & k' & Hc & ->). apply homes_ins; [done|]. by eapply at_home_in, assigned_home; eauto.
    + destruct Hs as (k' & Hc & ->). apply homes_ins; [done|]. by eapply at_home_in, failed_home; eauto.
  - case_decide; [by destruct Hs as [_ ->]|]. destruct Hs as (kx & ky & Hx & Hy & Hs). destruct r.
    + destruct Hs as (_ & k' & ky' & Hc & ->).
      assert (Hst : a_eqb E kx.2 ky.2 = true -> a_res E (kept (E := E) (pocma E) kx.2 ky.2) = a_res E ky.2).
      { intros Heq. apply (ar_res _ HA) in Heq. unfold kept. by destruct (pocma E). }
      destruct (moved_home _ _ _ _ _ Hst Hc (Hm _ _ Hy)).
      apply homes_ins; [apply homes_ins; [done|]|]; by eapply at_home_in.
    + destruct Hs as (_ & ky' & Hc & ->). apply homes_ins; [done|]. by eapply at_home_in, broken_home; eauto.
  - destruct Hs as [_ Hs]. case_decide; [by subst|]. destruct Hs as (kx & ky & kx' & ky' & Hx & Hy & Hs & ->).
    destruct Hp as (_ & k1 & k2 & H1 & H2 & Hal). assert (k1 = kx) as -> by congruence. assert (k2 = ky) as -> by congruence.
    assert (Gx := Hm _ _ Hx). assert (Gy := Hm _ _ Hy). unfold swapped in Hs. destruct (pocs E).
    + destruct Hs as [-> ->]. by apply homes_ins; [apply homes_ins|].
    + destruct Hs as [-> ->]. specialize (Hal eq_refl). apply (ar_res _ HA) in Hal.
      unfold Arena.at_home in Gx, Gy. rewrite Hal in Gx. rewrite <- Hal in Gy.
      by apply homes_ins; [apply homes_ins|].
  - destruct Hs as [_ ->]. intros z k Hz. rewrite lookup_del in Hz. case_decide; [done|]. by eapply Hm.
  - destruct Hs as (t & v & a & v' & r' & Hx & Hv & -> & ->). apply homes_ins; [done|]. cbn. eapply Hsem; [exact Hv|]. exact (Hm _ _ Hx).
  - by destruct Hs as (k & _ & _ & ->).
  - by destruct Hs as (k & _ & _ & ->).
Qed.
Lemma gexec_home c m rs m' : gsafe K M X sem hs c m -> gexec K M X sem hs c m rs m' -> homes m -> homes m'.
Proof.
  revert m rs. induction c as [|o next IH]; intros m rs Hsafe Hex Hm; [by destruct Hex as [_ ->]|].
  destruct Hex as (r & rs' & m1 & -> & Hst & Hex), Hsafe as [Hp Hn]. eapply IH; [by apply Hn|exact Hex|]. by eapply gstep_home.
Qed.
End client.

(** ** Classes *)
Lemma members_home hs nm i ks B W r : members K hs nm i ks B W -> Forall (living_in r) ks ->
  forall l b, B !! l = Some b -> a_res E (b_a b) = r.
Proof.
  revert i B W. induction ks as [|k ks IH]; intros i B W Hm Hr l b Hb; [by destruct Hm as [-> _]|].
  destruct Hm as (B1 & W1 & B2 & W2 & -> & -> & DB & DW & H1 & H2). inversion Hr as [|?? [Hk1 Hk2] Hr']; subst.
  rewrite lookup_un in Hb. destruct (B1 !! l) eqn:Hl; [simplify_eq; by eapply wrapped_home|]. by eapply IH.
Qed.

Context (Sh : Shape E) (s_arg : Passing E).
Context (HP : forall t i, k_hdr Sh t i = HPoly14 -> pocca E = false).

Lemma scoped_keeps : Keeps (scoped_cls Sh s_arg K) (scoped_res K R).
Proof.
  split; unfold scoped_res.
  - intros t l v x B W r (-> & _ & _ & Hm) Hr. by eapply members_home.
  - intros t a c x (_ & _ & Hm). revert Hm. generalize 0. induction x.2 as [|k ks IH]; intros i Hm; [done|].
    destruct Hm as [(v & Hv & ->) Hm]. constructor; [|by eapply IH]. split; [done|]. cbn. by eapply (ke_make _ _ HK).
  - intros t a x x' (_ & Hc). clear - Hc HK. induction Hc; constructor; [by eapply copied_home|done].
  - intros t a x x' y r (_ & _ & Hm). revert Hm. generalize 0. generalize x'.2, y.2.
    induction x.2 as [|k ks IH]; intros [|k' ks'] [|z zs] i Hm Hr; try done. destruct Hm as [Hm1 Hm2].
    inversion Hr as [|?? [Hk1 Hk2] Hr']; subst. destruct (IH _ _ _ Hm2 Hr').
    destruct (moved_home _ _ _ _ _ (steals_res HA _ a k.2 (HP t i)) Hm1 Hk2). by split; constructor.
  - intros t x y r [[_ ->]|(a & _ & Hm)]; [done|]. revert Hm. generalize 0. generalize y.2.
    induction x.2 as [|k ks IH]; intros [|z zs] i Hm Hr; try done.
    inversion Hr as [|?? [Hk1 Hk2] Hr']; subst. destruct Hm as [[Hb ->]|[[k' Hm1] Hm2]].
    + constructor; [by apply broken_home|done].
    + destruct (moved_home _ _ _ _ _ (steals_res HA _ a k.2 (HP t i)) Hm1 Hk2). constructor; [done|by eapply IH].
  - intros t d x d' r (_ & Ha). revert Ha. generalize 0. generalize x.2, d'.2.
    induction d.2 as [|k ks IH]; intros [|y ys] [|z zs] i Ha Hd Hx; try done. destruct Ha as [Ha1 Ha2].
    inversion Hd as [|?? [Hk1 Hk2] Hd']; inversion Hx as [|?? [Hy1 Hy2] Hx']; subst. constructor; [|by eapply IH].
    assert (G := assigned_home _ _ _ _ Ha1 Hk2 Hy2). unfold kept in G. destruct (pocca E); [by rewrite <- Hy1|done].
  - intros t d x d' r [[_ ->]|(_ & Ha)]; [done|]. revert Ha. generalize 0. generalize x.2, d'.2.
    induction d.2 as [|k ks IH]; intros [|y ys] [|z zs] i Ha Hd Hx; try done.
    inversion Hd as [|?? [Hk1 Hk2] Hd']; inversion Hx as [|?? [Hy1 Hy2] Hx']; subst. destruct Ha as [[Hf ->]|[Ha1 Ha2]].
    + constructor; [by eapply failed_home|done].
    + constructor; [|by eapply IH]. assert (G := assigned_home _ _ _ _ Ha1 Hk2 Hy2). unfold kept in G. destruct (pocca E); [by rewrite <- Hy1|done].
Qed.
End home.

Lemma flat_keeps (E : Env) : Keeps (flat_cls E) (fun _ _ => True).
Proof. split; try done. intros t l v x B W r (_ & -> & _) _ l' b. by rewrite lookup_empty. Qed.

Section towers.
Context {E : Env} (Sh : Shape E) (s_arg : Passing E) (HS : ShapeReq Sh) (HF : Fixed Sh) (HA : AllocReq E).
Context (HP : forall t i, k_hdr Sh t i = HPoly14 -> pocca E = false).
Lemma scoped_tower_honest T K n : Honest T K -> Honest (scopedTP Sh s_arg T n) (scoped_tower Sh s_arg K n).
Proof. intros HO. induction n as [|n IH]; [done|]. by apply scoped_honest. Qed.
Lemma scoped_tower_keeps K R n : Keeps K R -> Keeps (scoped_tower Sh s_arg K n) (tower_res Sh s_arg K R n).
Proof. intros HK. induction n as [|n IH]; [done|]. by apply scoped_keeps. Qed.
End towers.
