(** * Comparison and hashing of wrappers over any value type: proofs. *)

From stdpp Require Import base gmap list.
From Verif Require Import Lang Common Client Spec Rep RunLemmas Headers Hist Compare Tree TreeProps TreeAssign
  Contract ContractProps ContractOps ContractMove ContractNode ContractClient ContractClientProps ContractTidy ContractTidyProps ContractUser ContractUserProps Arena ArenaProps ArenaHome ContractCompare.

(** Programs whose steps need no storage. *)
Class Plain {E : Env} {X} (p : prog E X) : Prop := plainly : plain p.
Global Instance plain_ret' {E : Env} {X} (x : X) : Plain (Ret (E := E) x).
Proof. done. Qed.
Global Instance plain_bind' {E : Env} {X Y} (p : prog E X) (f : X -> prog E Y) : Plain p -> (forall x, Plain (f x)) -> Plain (bind p f).
Proof. apply plain_bind. Qed.
Global Instance plain_if' {E : Env} {X} (b : bool) (p q : prog E X) : Plain p -> Plain q -> Plain (if b then p else q).
Proof. by destruct b. Qed.
Global Instance plain_read' {E : Env} q : Plain (act (PReadObj (E := E) q)).
Proof. done. Qed.
Global Instance plain_valueless' {E : Env} h (T : TP E) w : Plain (i_valueless (hdr_impl h T) w).
Proof. destruct h; cbn; (split; [done|]); intros []; cbn; by repeat split. Qed.
Global Instance plain_star' {E : Env} h (T : TP E) w : Plain (i_star (hdr_impl h T) w).
Proof. destruct h; cbn; (split; [done|]); intros []; cbn; by repeat split. Qed.

Section pure.
Context {E : Env}.
Implicit Types s : store E.

Lemma same_trans s s1 s2 : same s s1 -> same s1 s2 -> same s s2.
Proof. intros [] []. split; congruence. Qed.

Lemma pure_ret {X} (x : X) s (R : X + exn -> Prop) : R (inl x) -> pure (Ret x) s R.
Proof. intros H. split; [split; [done|by split]|done]. Qed.
Lemma pure_look {X} (p : prog E X) `{!Plain p} s x (R : X + exn -> Prop) : run p s = ORet x s -> R (inl x) -> pure p s R.
Proof. intros Hp H. split; [rewrite Hp; split; [done|by split]|by apply plain_tidy]. Qed.

Lemma pure_bind {X Y} (p : prog E X) (f : X -> prog E Y) s (P : X + exn -> Prop) (R : Y + exn -> Prop) :
  pure p s P -> (forall x s', P (inl x) -> same s s' -> pure (f x) s' R) -> (forall e, P (inr e) -> R (inr e)) ->
  pure (bind p f) s R.
Proof.
  unfold pure. intros [Hp Ht] Hf He. split.
  - rewrite run_bind. destruct (run p s) as [x s1|e s1| |]; [| |done|done].
    + destruct Hp as [Hx Hs]. destruct (Hf x s1 Hx Hs) as [Hf' _]. destruct (run (f x) s1) as [y s2|e s2| |]; [| |done|done];
        destruct Hf' as [Hy Hs2]; (split; [done|by eapply same_trans]).
    + destruct Hp as [Hx Hs]. split; [by apply He|done].
  - apply tidy_bind; [done|]. intros x s' Hr. rewrite Hr in Hp. destruct Hp as [Hx Hs]. by destruct (Hf x s' Hx Hs).
Qed.

Lemma pure_imp {X} (p : prog E X) s (P R : X + exn -> Prop) : pure p s P -> (forall r, P r -> R r) -> pure p s R.
Proof.
  unfold pure. intros [Hp Ht] H. split; [|done]. destruct (run p s) as [x s1|e s1| |]; [| |done|done]; destruct Hp; split; auto.
Qed.

Lemma pure_step {X Y} (p : prog E X) `{!Plain p} (f : X -> prog E Y) s x (R : Y + exn -> Prop) :
  run p s = ORet x s -> pure (f x) s R -> pure (bind p f) s R.
Proof.
  intros Hp [Hf Ht]. split; [by rewrite run_bind, Hp|]. apply tidy_bind; [by apply plain_tidy|].
  intros y s' Hr. rewrite Hp in Hr. by simplify_eq.
Qed.

(** [u] of the result. *)
Lemma pure_map {X Y} (p : prog E X) (u : X -> Y) s (P : X + exn -> Prop) :
  pure p s P -> pure (bind p (fun x => Ret (u x))) s (fun r => exists r', P r' /\ r = result_of u r').
Proof.
  intros Hp. eapply pure_bind; [exact Hp| |].
  - intros x s' Hx _. apply pure_ret. by exists (inl x).
  - intros e He. by exists (inr e).
Qed.

Lemma same_mem_ok s s' : same s s' -> mem_ok s -> mem_ok s'.
Proof. intros [H1 H2 H3] HM l i. rewrite H1, H2. apply HM. Qed.
Lemma same_object (K : Cls E) s s' l b t x B W : same s s' -> object K s l b t x B W -> object K s' l b t x B W.
Proof. intros [H1 H2 H3] [O1 O2 O3 O4]. split; [done|by rewrite H1|by rewrite H1|by rewrite H2]. Qed.
Lemma same_at (K : Cls E) s s' h w k B W : same s s' -> wrapper_at K s h w k B W -> wrapper_at K s' h w k B W.
Proof. intros [H1 H2 H3] [O1 O2 O3]. split; [done|by rewrite H1|by rewrite H2]. Qed.
End pure.

Ltac pstep := eapply pure_step; [apply _| |].
Ltac plook := eapply pure_look; [apply _| |].

Section ops.
Context {E : Env} (T : TP E) (K : Cls E) (HO : Honest T K) (C : Cmps E) (S : CmpSpec (c_val K)) (HC : Compares K C S).
Notation A := (eA E).
Notation wv := (option (ty * c_val K) * A)%type.
Implicit Types s : store E.
Implicit Types k : wv.

(** What the observers see. *)
Lemma valueless_run {T' : TP E} s h w k B W : wrapper_at K s h w k B W ->
  run (i_valueless (hdr_impl h T') w) s = ORet (match k.1 with Some _ => false | None => true end) s.
Proof.
  intros H. destruct (wr_ptr _ _ _ _ _ _ _ H) as (p & Hp & Hs & _ & Hk).
  destruct k as [[[t x]|] a]; cbn [fst] in *.
  - destruct Hk as [l ->]. destruct h; cbn; by rewrite Hs.
  - subst p. destruct h; cbn; by rewrite Hs.
Qed.
Lemma star_own {T' : TP E} s h w t x a B W : header_cls h = Ind -> wrapper_at K s h w (Some (t, x), a) B W ->
  exists l b B1 W1, run (i_star (hdr_impl h T') w) s = ORet l s /\ object K s l b (tT E) x B1 W1.
Proof.
  intros Hh H. destruct (wr_own T K HO _ _ _ _ _ _ _ _ H) as (l & b & B1 & W1 & HB & HW & HB1 & HW1 & Hob & Hres & Hty & Hhdr & HT).
  rewrite (HT Hh) in *. exists l, b, B1, W1. split; [|done].
  apply (star_run T' h w l a (tT E) b); [|apply Hob|done].
  apply (lookup_weaken W); [rewrite HW; by rewrite lookup_insert|apply H].
Qed.

(** [synth_three_way] *)
Lemma synth_ok l b x B W q b' y B' W' s : mem_ok s -> object K s l b (tT E) x B W -> object K s q b' (tT E) y B' W' ->
  pure (p_synth C l q) s (ordered S x y).
Proof.
  intros HM H1 H2. unfold p_synth, ordered. assert (G := cm_tw _ _ _ HC). destruct (p_tw C) as [f|], (c_tw S) as [R|]; [|done|done|].
  - by eapply G.
  - eapply pure_bind; [by apply (cm_rel _ _ _ HC RLt _ _ _ _ _ _ _ _ _ _ _ HM H1 H2)| |intros e He; by exists (inr e)].
    intros [] s1 Hb1 Hs1; [apply pure_ret; by exists (inl true)|].
    eapply pure_bind.
    + exact (cm_rel _ _ _ HC RLt _ _ _ _ _ _ _ _ _ _ _ (same_mem_ok _ _ Hs1 HM) (same_object _ _ _ _ _ _ _ _ _ Hs1 H2) (same_object _ _ _ _ _ _ _ _ _ Hs1 H1)).
    + intros b2 s2 Hb2 _. cbn beta. destruct b2; apply pure_ret; exists (inl false); (split; [done|]); [by exists (inl true)|by exists (inl false)].
    + intros e He. exists (inl false). split; [done|]. by exists (inr e).
Qed.

Section two.
Context (h : header) (Hh : header_cls h = Ind).
Notation I := (hdr_impl h T).

(** Both operands are looked at, or the values are compared. *)
Lemma cmp20 x y kx ky B W B' W' s : mem_ok s -> wrapper_at K s h x kx B W -> wrapper_at K s h y ky B' W' ->
  pure (m20_eq I C x y) s (w_related S Cxx20 REq (value_of kx) (value_of ky)).
Proof.
  intros HM Hx Hy. unfold m20_eq. pstep; [by eapply valueless_run|].
  destruct kx as [[[t v]|] a], ky as [[[t' v']|] a']; cbn [fst snd value_of fmap option_fmap option_map w_related].
  - pstep; [by eapply valueless_run|]. cbn [fst].
    destruct (star_own (T' := T) _ _ _ _ _ _ _ _ Hh Hx) as (l & b & B1 & W1 & Hl & Hob).
    destruct (star_own (T' := T) _ _ _ _ _ _ _ _ Hh Hy) as (q & b' & B2 & W2 & Hq & Hob').
    pstep; [exact Hl|]. pstep; [exact Hq|]. by eapply (cm_rel _ _ _ HC REq).
  - pstep; [by eapply valueless_run|]. by apply pure_ret.
  - by plook; [by eapply valueless_run|].
  - by plook; [by eapply valueless_run|].
Qed.

Lemma tw20 x y kx ky B W B' W' s : mem_ok s -> wrapper_at K s h x kx B W -> wrapper_at K s h y ky B' W' ->
  pure (m20_tw I C x y) s (w_ordered S (value_of kx) (value_of ky)).
Proof.
  intros HM Hx Hy. unfold m20_tw, por.
  assert (Vx := valueless_run (T' := T) _ _ _ _ _ _ Hx). assert (Vy := valueless_run (T' := T) _ _ _ _ _ _ Hy).
  destruct kx as [[[t v]|] a], ky as [[[t' v']|] a']; cbn [fst snd value_of fmap option_fmap option_map w_ordered] in *;
    (pstep; [rewrite run_bind, Vx; first [exact Vy|done]|]); cbn beta iota.
  - destruct (star_own (T' := T) _ _ _ _ _ _ _ _ Hh Hx) as (l & b & B1 & W1 & Hl & Hob).
    destruct (star_own (T' := T) _ _ _ _ _ _ _ _ Hh Hy) as (q & b' & B2 & W2 & Hq & Hob').
    pstep; [exact Hl|]. pstep; [exact Hq|]. by eapply synth_ok.
  - pstep; [exact Vx|]. pstep; [exact Vy|]. by apply pure_ret.
  - pstep; [exact Vx|]. pstep; [exact Vy|]. by apply pure_ret.
  - pstep; [exact Vx|]. pstep; [exact Vy|]. by apply pure_ret.
Qed.

Lemma m20_ok r x y kx ky B W B' W' s : mem_ok s -> wrapper_at K s h x kx B W -> wrapper_at K s h y ky B' W' ->
  pure (m20 I C r x y) s (w_related S Cxx20 r (value_of kx) (value_of ky)).
Proof.
  intros HM Hx Hy.
  assert (Ht : match r with REq | RNe => False | _ => True end -> pure (bind (m20_tw I C x y) (fun o => Ret (holds r o))) s
    (w_related S Cxx20 r (value_of kx) (value_of ky))).
  { intros Hr. eapply pure_imp; [apply pure_map; by eapply tw20|]. intros res (o & Ho & ->).
    destruct (value_of kx), (value_of ky); cbn in *; try by subst o. destruct r; try done; by exists o. }
  destruct r; cbn [m20]; [by eapply cmp20| |by apply Ht..].
  eapply pure_imp; [apply pure_map; by eapply cmp20|]. intros res (o & Ho & ->).
  destruct (value_of kx), (value_of ky); cbn in *; try by subst o. by exists o.
Qed.

Lemma m14_ok r x y kx ky B W B' W' s : mem_ok s -> wrapper_at K s h x kx B W -> wrapper_at K s h y ky B' W' ->
  pure (m14 I C r x y) s (w_related S Cxx14 r (value_of kx) (value_of ky)).
Proof.
  intros HM Hx Hy. unfold m14, por, pand, pnot.
  assert (Vx := valueless_run (T' := T) _ _ _ _ _ _ Hx). assert (Vy := valueless_run (T' := T) _ _ _ _ _ _ Hy).
  destruct kx as [[[t v]|] a], ky as [[[t' v']|] a']; cbn [fst snd value_of fmap option_fmap option_map w_related] in *.
  1:{ destruct (star_own (T' := T) _ _ _ _ _ _ _ _ Hh Hx) as (l & b & B1 & W1 & Hl & Hob).
      destruct (star_own (T' := T) _ _ _ _ _ _ _ _ Hh Hy) as (q & b' & B2 & W2 & Hq & Hob').
      assert (G := cm_rel _ _ _ HC r _ _ _ _ _ _ _ _ _ _ _ HM Hob Hob').
      assert (Gi : pure (bind (i_star I x) (fun p => bind (i_star I y) (fun q => p_rel C r p q))) s (c_rel S r v v')).
      { pstep; [exact Hl|]. pstep; [exact Hq|]. exact G. }
      destruct r; repeat (pstep; [repeat (rewrite run_bind || rewrite Vx || rewrite Vy || cbn [run negb]); reflexivity|]; cbn beta iota; cbn [negb]);
        exact Gi. }
  all: destruct r; repeat (pstep; [repeat (rewrite run_bind || rewrite Vx || rewrite Vy || cbn [run negb]); reflexivity|]; cbn beta iota; cbn [negb]);
    first [by apply pure_ret|by plook; [first [exact Vx|exact Vy]|]].
Qed.

Lemma w_rel_ok g r x y kx ky B W B' W' s : mem_ok s -> wrapper_at K s h x kx B W -> wrapper_at K s h y ky B' W' ->
  pure (w_rel I C g r x y) s (w_related S g r (value_of kx) (value_of ky)).
Proof. destruct g; [apply m14_ok|apply m20_ok]. Qed.

(** ** Comparison with values *)
Lemma eqv20 x kx B W q b v B' W' s : mem_ok s -> wrapper_at K s h x kx B W -> object K s q b (tT E) v B' W' ->
  pure (m20_eq_val I C x q) s (w_related S Cxx20 REq (value_of kx) (Some v)).
Proof.
  intros HM Hx Hq. unfold m20_eq_val. pstep; [by eapply valueless_run|].
  destruct kx as [[[t v0]|] a]; cbn [fst snd value_of fmap option_fmap option_map w_related]; [|by apply pure_ret].
  destruct (star_own (T' := T) _ _ _ _ _ _ _ _ Hh Hx) as (l & b' & B1 & W1 & Hl & Hob).
  pstep; [exact Hl|]. by eapply (cm_rel _ _ _ HC REq).
Qed.
Lemma twv20 x kx B W q b v B' W' s : mem_ok s -> wrapper_at K s h x kx B W -> object K s q b (tT E) v B' W' ->
  pure (m20_tw_val I C x q) s (w_ordered S (value_of kx) (Some v)).
Proof.
  intros HM Hx Hq. unfold m20_tw_val. pstep; [by eapply valueless_run|].
  destruct kx as [[[t v0]|] a]; cbn [fst snd value_of fmap option_fmap option_map w_ordered]; [|by apply pure_ret].
  destruct (star_own (T' := T) _ _ _ _ _ _ _ _ Hh Hx) as (l & b' & B1 & W1 & Hl & Hob).
  pstep; [exact Hl|]. by eapply synth_ok.
Qed.
Lemma m20_val_ok r x kx B W q b v B' W' s : mem_ok s -> wrapper_at K s h x kx B W -> object K s q b (tT E) v B' W' ->
  pure (m20_val I C r x q) s (w_related S Cxx20 r (value_of kx) (Some v)).
Proof.
  intros HM Hx Hy.
  assert (Ht : match r with REq | RNe => False | _ => True end -> pure (bind (m20_tw_val I C x q) (fun o => Ret (holds r o))) s
    (w_related S Cxx20 r (value_of kx) (Some v))).
  { intros Hr. eapply pure_imp; [apply pure_map; by eapply twv20|]. intros res (o & Ho & ->).
    destruct (value_of kx); cbn in *; try by subst o. destruct r; try done; by exists o. }
  destruct r; cbn [m20_val]; [by eapply eqv20| |by apply Ht..].
  eapply pure_imp; [apply pure_map; by eapply eqv20|]. intros res (o & Ho & ->).
  destruct (value_of kx); cbn in *; try by subst o. by exists o.
Qed.
Lemma w_rel_val_ok g r x kx B W q b v B' W' s : mem_ok s -> wrapper_at K s h x kx B W -> object K s q b (tT E) v B' W' ->
  pure (w_rel_val I C g r x q) s (w_related S g r (value_of kx) (Some v)).
Proof.
  destruct g; [|apply m20_val_ok]. intros HM Hx Hq. cbn [w_rel_val]. unfold m14_val. pstep; [by eapply valueless_run|].
  destruct kx as [[[t v0]|] a]; cbn [fst snd value_of fmap option_fmap option_map w_related]; [|apply pure_ret; by destruct r].
  destruct (star_own (T' := T) _ _ _ _ _ _ _ _ Hh Hx) as (l & b' & B1 & W1 & Hl & Hob).
  pstep; [exact Hl|]. by eapply (cm_rel _ _ _ HC r).
Qed.
Lemma val_w_rel_ok g r x kx B W q b v B' W' s : mem_ok s -> wrapper_at K s h x kx B W -> object K s q b (tT E) v B' W' ->
  pure (val_w_rel I C g r q x) s (val_w_related S g r v (value_of kx)).
Proof.
  destruct g; [|apply m20_val_ok]. intros HM Hx Hq. cbn [val_w_rel val_w_related]. unfold val_m14. pstep; [by eapply valueless_run|].
  destruct kx as [[[t v0]|] a]; cbn [fst snd value_of fmap option_fmap option_map w_related]; [|apply pure_ret; by destruct r].
  destruct (star_own (T' := T) _ _ _ _ _ _ _ _ Hh Hx) as (l & b' & B1 & W1 & Hl & Hob).
  pstep; [exact Hl|]. by eapply (cm_rel _ _ _ HC r).
Qed.
Lemma hash_ok x kx B W s : mem_ok s -> wrapper_at K s h x kx B W -> pure (m_hash I C x) s (w_hashed S (value_of kx)).
Proof.
  intros HM Hx. unfold m_hash. pstep; [by eapply valueless_run|].
  destruct kx as [[[t v0]|] a]; cbn [fst snd value_of fmap option_fmap option_map w_hashed]; [|by apply pure_ret].
  destruct (star_own (T' := T) _ _ _ _ _ _ _ _ Hh Hx) as (l & b' & B1 & W1 & Hl & Hob).
  pstep; [exact Hl|]. by eapply (cm_hash _ _ _ HC).
Qed.
End two.
End ops.

(** ** Classes with wrapper members *)
Section node.
Context {E : Env} (Sh : Shape E) (T : TP E) (K : Cls E) (HO : Honest T K) (C : Cmps E) (S : CmpSpec (c_val K)) (HC : Compares K C S).
Context (HF : Fixed Sh) (h : header) (Hh : header_cls h = Ind) (Hm : forall i, k_hdr Sh (tT E) i = h).
Context (deq : eV E -> eV E -> bool) (dtw : eV E -> eV E -> ordering) (dhash : eV E -> N) (mix : N -> N -> N).
Notation A := (eA E).
Notation wv := (option (ty * c_val K) * A)%type.
Implicit Types s : store E.
Notation kh := (k_hdr Sh (tT E)).

(** The members of an object. *)
Definition kids s (l : loc) (i : nat) (ks : list wv) : Prop :=
  exists B W, members K kh (WMem l) i ks B W /\ B ⊆ blocks s /\ W ⊆ wraps s.
Lemma kids_same s s' l i ks : same s s' -> kids s l i ks -> kids s' l i ks.
Proof. intros [E1 E2 _] (B & W & H1 & H2 & H3). exists B, W. split; [done|]. by rewrite E1, E2. Qed.
Lemma kids_cons s l i k ks : kids s l i (k :: ks) ->
  (exists B W, wrapper_at K s h (WMem l i) k B W) /\ kids s l (Datatypes.S i) ks.
Proof.
  intros (B & W & (B1 & W1 & B2 & W2 & -> & -> & D1 & D2 & Hw & Hr) & HB & HW). split.
  - exists B1, W1. rewrite Hm in Hw. split; [done| |].
    + etrans; [|exact HB]. by apply map_union_subseteq_l.
    + etrans; [|exact HW]. by apply map_union_subseteq_l.
  - exists B2, W2. split; [done|]. split.
    + etrans; [|exact HB]. by apply map_union_subseteq_r.
    + etrans; [|exact HW]. by apply map_union_subseteq_r.
Qed.

Lemma mem_eq_ok l q ks ks' i s : mem_ok s -> length ks = length ks' -> kids s l i ks -> kids s q i ks' ->
  pure (mem_eq T h C l q i (length ks)) s (same_members h S ks ks').
Proof.
  revert ks' i s. induction ks as [|k ks IH]; intros [|k' ks'] i s HM Hlen H1 H2; cbn [mem_eq length same_members]; [by apply pure_ret|done|done|].
    destruct (kids_cons _ _ _ _ _ H1) as [(B & W & Hw) H1'], (kids_cons _ _ _ _ _ H2) as [(B' & W' & Hw') H2'].
    unfold pand. eapply pure_bind; [by eapply (w_rel_ok T K HO C S HC h Hh)| |].
    + intros [] s' Hr Hs.
      * eapply pure_imp; [apply (IH ks'); [by eapply same_mem_ok|by injection Hlen|by eapply kids_same..]|].
        intros r Hr'. by exists (inl true).
      * apply pure_ret. by exists (inl false).
    + intros e He. by exists (inr e).
Qed.
Lemma mem_tw_ok l q ks ks' i s : mem_ok s -> length ks = length ks' -> kids s l i ks -> kids s q i ks' ->
  pure (mem_tw T h C l q i (length ks)) s (ordered_members S ks ks').
Proof.
  revert ks' i s. induction ks as [|k ks IH]; intros [|k' ks'] i s HM Hlen H1 H2; cbn [mem_tw length ordered_members]; [by apply pure_ret|done|done|].
    destruct (kids_cons _ _ _ _ _ H1) as [(B & W & Hw) H1'], (kids_cons _ _ _ _ _ H2) as [(B' & W' & Hw') H2'].
    eapply pure_bind; [by eapply (tw20 T K HO C S HC h Hh)| |].
    + intros o s' Hr Hs.
      destruct o; [apply pure_ret; by eexists (inl Less)| |apply pure_ret; by eexists (inl Greater)|apply pure_ret; by eexists (inl Unordered)].
      eapply pure_imp; [apply (IH ks'); [by eapply same_mem_ok|by injection Hlen|by eapply kids_same..]|].
      intros r Hr'. by exists (inl Equiv).
    + intros e He. by exists (inr e).
Qed.
Lemma mem_lt_ok l q ks ks' i s : mem_ok s -> length ks = length ks' -> kids s l i ks -> kids s q i ks' ->
  pure (mem_lt T h C l q i (length ks)) s (less_members S ks ks').
Proof.
  revert ks' i s. induction ks as [|k ks IH]; intros [|k' ks'] i s HM Hlen H1 H2; cbn [mem_lt length less_members]; [by apply pure_ret|done|done|].
    destruct (kids_cons _ _ _ _ _ H1) as [(B & W & Hw) H1'], (kids_cons _ _ _ _ _ H2) as [(B' & W' & Hw') H2'].
    eapply pure_bind; [by eapply (m14_ok T K HO C S HC h Hh)| |intros e He; by exists (inr e)].
    intros [] s' Hr Hs; [apply pure_ret; by exists (inl true)|].
    eapply pure_bind; [by eapply (m14_ok T K HO C S HC h Hh RLt _ _ _ _ _ _ _ _ s' (same_mem_ok _ _ Hs HM) (same_at _ _ _ _ _ _ _ _ Hs Hw') (same_at _ _ _ _ _ _ _ _ Hs Hw))| |].
    + intros [] s2 Hr2 Hs2; [apply pure_ret; exists (inl false); split; [done|]; by exists (inl true)|].
      assert (Hs' := same_trans _ _ _ Hs Hs2).
      eapply pure_imp; [apply (IH ks'); [by eapply same_mem_ok|by injection Hlen|by eapply kids_same..]|].
      intros r Hr'. exists (inl false). split; [done|]. by exists (inl false).
    + intros e He. exists (inl false). split; [done|]. by exists (inr e).
Qed.
Lemma mem_hash_ok l ks i acc s : mem_ok s -> kids s l i ks ->
  pure (mem_hash T h mix C l i (length ks) acc) s (hashed_members mix S ks acc).
Proof.
  revert i acc s. induction ks as [|k ks IH]; intros i acc s HM H1; cbn [mem_hash length hashed_members].
  - by apply pure_ret.
  - destruct (kids_cons _ _ _ _ _ H1) as [(B & W & Hw) H1'].
    eapply pure_bind; [by eapply (hash_ok T K HO C S HC h Hh)| |intros e He; by exists (inr e)].
    intros n s' Hr Hs. eapply pure_imp; [apply IH; [by eapply same_mem_ok|by eapply kids_same]|].
    intros r Hr'. by exists (inl n).
Qed.

Lemma node_at s l b x B W : object (node_cls Sh K) s l b (tT E) x B W ->
  run (act (PReadObj (RBlk l))) s = ORet (tT E, x.1) s /\ kids s l 0 x.2 /\ length x.2 = n_kids Sh (tT E) x.1.
Proof.
  intros [(v & Hv & -> & Hlen & HB & Hk) Hl Hb Hw]. split; [|split; [by exists B, W|done]].
  cbn. by rewrite Hl, Hv.
Qed.

Lemma n_eq_ok : Reads2 (node_cls Sh K) (n_eq Sh T h deq C) (same_nodes h deq S).
Proof.
  intros l b x B W q b' y B' W' s HM H1 H2.
  destruct (node_at _ _ _ _ _ _ H1) as (R1 & K1 & L1), (node_at _ _ _ _ _ _ H2) as (R2 & K2 & L2).
  unfold n_eq, same_nodes. pstep; [exact R1|]. pstep; [exact R2|]. cbn [fst snd].
  destruct (deq x.1 y.1); [|by apply pure_ret]. rewrite <- L1. apply mem_eq_ok; try done. rewrite L1, L2. apply HF.
Qed.
Lemma n_tw_ok : Reads2 (node_cls Sh K) (n_tw Sh T h dtw C) (ordered_nodes dtw S).
Proof.
  intros l b x B W q b' y B' W' s HM H1 H2.
  destruct (node_at _ _ _ _ _ _ H1) as (R1 & K1 & L1), (node_at _ _ _ _ _ _ H2) as (R2 & K2 & L2).
  unfold n_tw, ordered_nodes. pstep; [exact R1|]. pstep; [exact R2|]. cbn [fst snd].
  destruct (dtw x.1 y.1); [by apply pure_ret| |by apply pure_ret..]. rewrite <- L1. apply mem_tw_ok; try done. rewrite L1, L2. apply HF.
Qed.
Lemma n_lt_ok : Reads2 (node_cls Sh K) (n_lt Sh T h dtw C) (less_nodes dtw S).
Proof.
  intros l b x B W q b' y B' W' s HM H1 H2.
  destruct (node_at _ _ _ _ _ _ H1) as (R1 & K1 & L1), (node_at _ _ _ _ _ _ H2) as (R2 & K2 & L2).
  unfold n_lt, less_nodes. pstep; [exact R1|]. pstep; [exact R2|]. cbn [fst snd].
  destruct (dtw x.1 y.1); [by apply pure_ret| |by apply pure_ret..]. rewrite <- L1. apply mem_lt_ok; try done. rewrite L1, L2. apply HF.
Qed.

Lemma reads2_map {K' : Cls E} {X Y} (u : X -> Y) f (R : c_val K' -> c_val K' -> X + exn -> Prop) : Reads2 K' f R ->
  Reads2 K' (fun l q => bind (f l q) (fun x => Ret (u x))) (fun x y res => exists r, R x y r /\ res = result_of u r).
Proof. intros H l b x B W q b' y B' W' s HM H1 H2. apply pure_map. by eapply H. Qed.
Lemma reads2_flip {K' : Cls E} {X} f (R : c_val K' -> c_val K' -> X + exn -> Prop) : Reads2 K' f R ->
  Reads2 K' (fun l q => f q l) (fun x y => R y x).
Proof. intros H l b x B W q b' y B' W' s HM H1 H2. by eapply H. Qed.

Lemma node_compares : Compares (node_cls Sh K) (node_cmps Sh T h deq dtw dhash mix C) (node_spec h deq dtw dhash mix S).
Proof.
  assert (HH : Reads (node_cls Sh K) (n_hash Sh T h dhash mix C) (fun x => hashed_members mix S x.2 (dhash x.1))).
  { intros l b x B W s HM H1. destruct (node_at _ _ _ _ _ _ H1) as (R1 & K1 & L1).
    unfold n_hash. pstep; [exact R1|]. cbn [fst snd]. rewrite <- L1. by apply mem_hash_ok. }
  unfold node_cmps, node_spec. destruct (gen_of h); split; cbn [p_rel p_tw p_hash c_rel c_tw c_hash]; try done.
  - intros []; [apply n_eq_ok|exact (reads2_map negb _ _ n_eq_ok)|apply n_lt_ok|exact (reads2_flip _ _ n_lt_ok)|
      exact (reads2_map negb _ _ (reads2_flip _ _ n_lt_ok))|exact (reads2_map negb _ _ n_lt_ok)].
  - intros r. destruct r; [apply n_eq_ok|exact (reads2_map negb _ _ n_eq_ok)|exact (reads2_map _ _ _ n_tw_ok)..].
  - apply n_tw_ok.
Qed.
End node.

Lemma tower_compares {E : Env} (Sh : Shape E) (T : TP E) (K : Cls E) (HO : Honest T K) (C : Cmps E) (S : CmpSpec (c_val K)) (h : header)
    deq dtw dhash mix n :
  Compares K C S -> ShapeReq Sh -> Fixed Sh -> AllocReq E -> (forall a, a_eqb E a a = true) ->
  header_cls h = Ind -> (forall i, k_hdr Sh (tT E) i = h) ->
  Compares (tower_cls Sh K n) (tower_cmps Sh T h deq dtw dhash mix C n) (tower_spec Sh h deq dtw dhash mix K S n).
Proof.
  intros HC HS HF HA Hr Hh Hm. induction n as [|n IH]; [done|]. cbn [tower_cmps tower_spec tower_cls].
  apply node_compares; try done. by apply tower_honest.
Qed.

(** The classes of Arena.v are represented as those of Contract.v. *)
Lemma scoped_same {E : Env} (Sh : Shape E) (s_arg : Passing E) (K : Cls E) C S :
  Compares (node_cls Sh K) C S -> Compares (scoped_cls Sh s_arg K) C S.
Proof.
  assert (HO : forall s l b t x B W, object (scoped_cls Sh s_arg K) s l b t x B W -> object (node_cls Sh K) s l b t x B W).
  { intros s l b t x B W [H1 H2 H3 H4]. by split. }
  destruct S as [sr st sh]. intros [H1 H2 H3]. cbn [c_rel c_tw c_hash] in *. split; cbn [c_rel c_tw c_hash].
  - intros r l b x B W l' b' y B' W' s HM Ho Ho'. apply HO in Ho, Ho'. by eapply H1.
  - destruct (p_tw C) as [f|], st as [R|]; try done.
    intros l b x B W l' b' y B' W' s HM Ho Ho'. apply HO in Ho, Ho'. by eapply H2.
  - intros l b x B W s HM Ho. apply HO in Ho. by eapply H3.
Qed.
Lemma scoped_compares {E : Env} (Sh : Shape E) (s_arg : Passing E) (T : TP E) (K : Cls E) (HO : Honest T K) (C : Cmps E) (S : CmpSpec (c_val K))
    (h : header) deq dtw dhash mix n :
  Compares K C S -> ShapeReq Sh -> Fixed Sh -> AllocReq E -> (forall t i, k_hdr Sh t i = HPoly14 -> pocca E = false) ->
  header_cls h = Ind -> (forall i, k_hdr Sh (tT E) i = h) ->
  Compares (scoped_tower Sh s_arg K n) (scoped_cmps Sh T h deq dtw dhash mix s_arg C n) (scoped_spec Sh h deq dtw dhash mix s_arg K S n).
Proof.
  intros HC HS HF HA HP Hh Hm. induction n as [|n IH]; [done|]. cbn [scoped_cmps scoped_spec scoped_tower].
  apply scoped_same. apply node_compares; try done. by apply scoped_tower_honest.
Qed.

Lemma flat_compares {E : Env} fr ft fh : Compares (flat_cls E) (flat_cmps fr ft fh) (flat_spec fr ft fh).
Proof.
  assert (HR : forall l b x B W (s : store E), object (flat_cls E) s l b (tT E) x B W -> run (act (PReadObj (RBlk l))) s = ORet (tT E, x) s).
  { intros l b x B W s [(v & Hv & -> & _ & _) Hl _ _]. cbn. by rewrite Hl, Hv. }
  assert (HG : forall X (r : X + exn) s, pure (E := E) (give r) s (fun r' => r' = r)).
  { intros X [x|e] s; by (split; [split; [|split]|]). }
  split; cbn [p_rel p_tw p_hash c_rel c_tw c_hash flat_cmps flat_spec].
  - intros r l b x B W q b' y B' W' s HM H1 H2. pstep; [by eapply HR|]. pstep; [by eapply HR|]. apply HG.
  - destruct ft as [f|]; [|done]. intros l b x B W q b' y B' W' s HM H1 H2.
    pstep; [by eapply HR|]. pstep; [by eapply HR|]. apply HG.
  - intros l b x B W s HM H1. pstep; [by eapply HR|]. apply HG.
Qed.

(** ** Orders *)
Definition Total {X} (o : X -> X -> ordering) : Prop := forall x y, o x y <> Unordered /\ o y x = opposite (o x y).

Section means.
Context {X : Type} (S : CmpSpec X) (o : X -> X -> ordering) (HS : Means S o) (Ho : Total o).
Lemma ordered_means x y r : ordered S x y r -> r = inl (o x y).
Proof.
  unfold ordered. destruct (c_tw S) as [R|] eqn:Ht; [by apply (me_tw _ _ HS)|]. intros (r1 & H1 & H2).
  apply (me_rel _ _ HS) in H1 as ->. destruct (Ho x y) as [Hn Hf]. destruct (o x y) eqn:Hxy; cbn in *; try done.
  - destruct H2 as (r2 & H2 & ->). apply (me_rel _ _ HS) in H2 as ->. by rewrite Hf.
  - destruct H2 as (r2 & H2 & ->). apply (me_rel _ _ HS) in H2 as ->. by rewrite Hf.
Qed.
Lemma related_means g r x y res : related S g r x y res -> res = inl (holds r (o x y)).
Proof.
  destruct g; cbn; [apply (me_rel _ _ HS)|].
  destruct r; first [apply (me_rel _ _ HS)|intros (b & Hb & ->)].
  - apply (me_rel _ _ HS) in Hb as ->. cbn. by destruct (o x y).
  - by apply ordered_means in Hb as ->.
  - by apply ordered_means in Hb as ->.
  - by apply ordered_means in Hb as ->.
  - by apply ordered_means in Hb as ->.
Qed.
Lemma w_related_means g r x y res : w_related S g r x y res -> res = inl (holds r (opt_order o x y)).
Proof. destruct x, y; cbn; [apply related_means|done..]. Qed.
Lemma w_ordered_means x y res : w_ordered S x y res -> res = inl (opt_order o x y).
Proof. destruct x, y; cbn; [apply ordered_means|done..]. Qed.
Lemma val_w_related_means g r u x res : val_w_related S g r u x res -> res = inl (holds r (opt_order o (Some u) x)).
Proof.
  destruct g; cbn [val_w_related]; [apply w_related_means|]. intros H%w_related_means. subst res. f_equal.
  destruct x as [v|]; cbn; [|by destruct r]. destruct (Ho u v) as [Hn Hf]. rewrite Hf. by destruct r, (o u v).
Qed.
Lemma opt_total : Total (opt_order o).
Proof. intros [x|] [y|]; cbn; first [apply Ho|done]. Qed.

Section node.
Context {E : Env} (deq : eV E -> eV E -> bool) (dtw : eV E -> eV E -> ordering) (dhash : eV E -> N) (mix : N -> N -> N) (h : header).
Context (Hd : Total dtw) (Hdq : forall x y, deq x y = holds REq (dtw x y)).
Notation wv := (option (ty * X) * eA E)%type.
Lemma same_members_means (ks ks' : list wv) res : same_members h S ks ks' res -> res = inl (holds REq (lex o ks ks')).
Proof.
  revert ks'. induction ks as [|k ks IH]; intros [|k' ks']; cbn [same_members lex]; try done. intros (r & H1 & H2).
  apply w_related_means in H1 as ->. destruct (opt_order _ _ _); cbn in H2; try done. by apply IH.
Qed.
Lemma ordered_members_means (ks ks' : list wv) res : ordered_members S ks ks' res -> res = inl (lex o ks ks').
Proof.
  revert ks'. induction ks as [|k ks IH]; intros [|k' ks']; cbn [ordered_members lex]; try done. intros (r & H1 & H2).
  apply w_ordered_means in H1 as ->. destruct (opt_order _ _ _); cbn in H2; try done. by apply IH.
Qed.
Lemma less_members_means (ks ks' : list wv) res : less_members S ks ks' res -> res = inl (holds RLt (lex o ks ks')).
Proof.
  revert ks'. induction ks as [|k ks IH]; intros [|k' ks']; cbn [less_members lex]; try done. intros (r & H1 & H2).
  apply w_related_means in H1 as ->. destruct (opt_total (value_of k) (value_of k')) as [Hn Hf].
  destruct (opt_order o (value_of k) (value_of k')) eqn:Hk; cbn in H2; try done.
  - destruct H2 as (r & H3 & H4). apply w_related_means in H3 as ->. rewrite Hf in H4. by apply IH.
  - destruct H2 as (r & H3 & H4). apply w_related_means in H3 as ->. by rewrite Hf in H4.
Qed.
Lemma lex_total : Total (lex (E := E) o).
Proof.
  intros ks. induction ks as [|k ks IH]; intros [|k' ks']; cbn [lex]; try done.
  destruct (opt_total (value_of k) (value_of k')) as [Hn Hf]. rewrite Hf. destruct (opt_order _ _ _); try done. apply IH.
Qed.
Lemma node_total : Total (node_order dtw o).
Proof.
  intros x y. unfold node_order. destruct (Hd x.1 y.1) as [Hn Hf]. rewrite Hf. destruct (dtw _ _); try done. apply lex_total.
Qed.
Lemma node_means : Means (node_spec h deq dtw dhash mix S) (node_order dtw o).
Proof.
  assert (HE : forall x y res, same_nodes h deq S x y res -> res = inl (holds REq (node_order dtw o x y))).
  { intros x y res. unfold same_nodes, node_order. rewrite Hdq. destruct (dtw _ _); try done. apply same_members_means. }
  assert (HO : forall x y res, ordered_nodes dtw S x y res -> res = inl (node_order dtw o x y)).
  { intros x y res. unfold ordered_nodes, node_order. destruct (dtw _ _); try done. apply ordered_members_means. }
  assert (HL : forall x y res, less_nodes dtw S x y res -> res = inl (holds RLt (node_order dtw o x y))).
  { intros x y res. unfold less_nodes, node_order. destruct (dtw _ _); try done. apply less_members_means. }
  unfold node_spec. destruct (gen_of h); split; cbn [c_rel c_tw].
  - intros r x y res. destruct (node_total x y) as [Hn Hf].
    destruct r; first [apply HE|apply HL|intros H|intros (b & Hb & ->)].
    + destruct H as (b & Hb%HE & ->). subst b. cbn. by destruct (node_order _ _ x y).
    + apply HL in H as ->. rewrite Hf. by destruct (node_order _ _ x y).
    + destruct H as (b & Hb%HL & ->). subst b. rewrite Hf. cbn. by destruct (node_order _ _ x y).
    + destruct H as (b & Hb%HL & ->). subst b. cbn. by destruct (node_order _ _ x y).
  - done.
  - intros r x y res. destruct r; first [apply HE|intros (b & Hb & ->)]; first [apply HE in Hb as ->|apply HO in Hb as ->]; cbn; by destruct (node_order _ _ x y).
  - intros R x y res [= <-]. apply HO.
Qed.
End node.
End means.

Lemma tower_means {E : Env} (Sh : Shape E) (K : Cls E) (S : CmpSpec (c_val K)) (o : c_val K -> c_val K -> ordering) (h : header) deq dtw dhash mix n :
  Means S o -> Total o -> Total dtw -> (forall x y, deq x y = holds REq (dtw x y)) ->
  Means (tower_spec Sh h deq dtw dhash mix K S n) (tower_order Sh dtw K o n) /\ Total (tower_order Sh dtw K o n).
Proof.
  intros HS Ho Hd Hq. induction n as [|n [IH1 IH2]]; [done|]. cbn [tower_spec tower_order]. split; [by apply node_means|by apply node_total].
Qed.

Lemma scoped_means {E : Env} (Sh : Shape E) (s_arg : Passing E) (K : Cls E) (S : CmpSpec (c_val K)) (o : c_val K -> c_val K -> ordering) (h : header)
    deq dtw dhash mix n :
  Means S o -> Total o -> Total dtw -> (forall x y, deq x y = holds REq (dtw x y)) ->
  Means (scoped_spec Sh h deq dtw dhash mix s_arg K S n) (scoped_order Sh s_arg dtw K o n) /\ Total (scoped_order Sh s_arg dtw K o n).
Proof.
  intros HS Ho Hd Hq. induction n as [|n [IH1 IH2]]; [done|]. cbn [scoped_spec scoped_order]. split; [by apply node_means|by apply node_total].
Qed.

(** ** Programs *)
Section client.
Context {E : Env} (T : TP E) (K : Cls E) (HO : Honest T K) (C : Cmps E) (S : CmpSpec (c_val K)) (HS : Compares K C S).
Context (HA : AllocReq E) (Hrefl : forall a, a_eqb E a a = true).
Context (M X : Type) (code : M -> loc -> prog E X) (sem : M -> ty -> c_val K -> X + exn -> c_val K -> Prop).
Context (HC : forall f, Method K (code f) (sem f)).
Context (hs : nat -> header).
Notation A := (eA E).
Notation wv := (option (ty * c_val K) * A)%type.
Notation vars := (gmap nat wv).
Implicit Types m : vars.
Implicit Types s : store E.
Notation held_by := (held_by K hs).
Notation held := (held K hs).
Notation cstep := (cstep K S M X sem hs).

Definition cstep_ok (o : cop (E := E) M) : Prop := forall m s, held s m -> cpre K M hs m o ->
  match run (cinterp T C M X code hs o) s with
  | ORet r s' => exists m', cstep m o (inl r) m' /\ held s' m'
  | OThrow e s' => exists m', cstep m o (inr e) m' /\ held s' m'
  | OUB _ => False
  | OTerm => cends K M m o
  end.

Lemma cstep_op o : cstep_ok (COp o).
Proof.
  intros m s (FB & FW & H) Hpre. assert (G := step_all T K HO HA Hrefl M X code sem HC hs o m s FB FW H Hpre). cbn [cinterp].
  rewrite run_bind. destruct (run (ginterp _ _ _ _ _ _) s) as [r s'|e s'| |]; [| |done|by destruct o].
  - destruct G as (m' & Hst & Hh%since_held). exists m'. split; [|done]. by exists (inl r).
  - destruct G as (m' & Hst & Hh%since_held). exists m'. split; [|done]. by exists (inr e).
Qed.

Lemma held_pure (Y : Type) (p : prog E Y) s m (R : Y + exn -> Prop) : held s m -> pure p s R ->
  match run p s with
  | ORet r s' => R (inl r) /\ held s' m
  | OThrow e s' => R (inr e) /\ held s' m
  | _ => False
  end.
Proof.
  intros (FB & FW & H) [Hp _].
  destruct (run p s) as [r s'|e s'| |]; [| |done|done]; destruct Hp as [Hr Hs]; (split; [done|]);
    exact (since_held _ _ _ _ _ _ _ _ (held_same _ _ _ _ _ _ _ [] H Hs)).
Qed.

Lemma cstep_all o : cstep_ok o.
Proof.
  destruct o as [o|r x y|r x y|r y x|x]; [apply cstep_op|..]; intros m s Hh Hpre; cbn [cinterp]; unfold bool_res; destruct (Hh) as (FB & FW & H);
    assert (HM : mem_ok s) by (by eapply held_mem_ok).
  - destruct Hpre as (Hi & Hxy & [kx Hx] & [ky Hy]).
    assert (Ax := held_at _ _ _ _ _ _ _ _ H Hx). assert (Ay := held_at _ _ _ _ _ _ _ _ H Hy). rewrite Hxy in Ay.
    assert (G := held_pure _ _ _ _ _ Hh (pure_map _ (fun b => CR (E := E) (X := X) (RBool b)) _ _ (w_rel_ok T K HO C S HS _ Hi (gen_of (hs x)) r _ _ _ _ _ _ _ _ _ HM Ax Ay))).
    destruct (run _ s) as [q s'|e s'| |]; [| |done|done]; destruct G as [(b & Hb & Hr) G]; exists m; (split; [|done]); (split; [done|]); by exists kx, ky, b.
  - destruct Hpre as (Hi & [kx Hx] & v & a & Hy).
    assert (Ax := held_at _ _ _ _ _ _ _ _ H Hx). assert (Ay := held_at _ _ _ _ _ _ _ _ H Hy).
    destruct (wr_own T K HO _ _ _ _ _ _ _ _ Ay) as (l & b & B1 & W1 & HB & HW & HB1 & HW1 & Hob & Hres & Hty & Hhdr & HT).
    assert (Hl : run (i_star (hdr_impl (hs y) T) (WVar y)) s = ORet l s).
    { apply (star_run T _ _ l a (tT E) b); [|apply Hob|done]. apply (lookup_weaken (FW y)); [rewrite HW; by rewrite lookup_insert|apply H]. }
    assert (P : pure (bind (i_star (hdr_impl (hs y) T) (WVar y)) (fun q => w_rel_val (hdr_impl (hs x) T) C (gen_of (hs x)) r (WVar x) q)) s (w_related S (gen_of (hs x)) r (value_of kx) (Some v))).
    { pstep; [exact Hl|]. by eapply (w_rel_val_ok T K HO C S HS). }
    assert (G := held_pure _ _ _ _ _ Hh (pure_map _ (fun b => CR (E := E) (X := X) (RBool b)) _ _ P)). clear Hl P.
    destruct (run _ s) as [q s'|e s'| |]; [| |done|done]; destruct G as [(b' & Hb & Hr) G]; exists m; (split; [|done]); (split; [done|]); by exists kx, v, a, b'.
  - destruct Hpre as (Hi & [kx Hx] & v & a & Hy).
    assert (Ax := held_at _ _ _ _ _ _ _ _ H Hx). assert (Ay := held_at _ _ _ _ _ _ _ _ H Hy).
    destruct (wr_own T K HO _ _ _ _ _ _ _ _ Ay) as (l & b & B1 & W1 & HB & HW & HB1 & HW1 & Hob & Hres & Hty & Hhdr & HT).
    assert (Hl : run (i_star (hdr_impl (hs y) T) (WVar y)) s = ORet l s).
    { apply (star_run T _ _ l a (tT E) b); [|apply Hob|done]. apply (lookup_weaken (FW y)); [rewrite HW; by rewrite lookup_insert|apply H]. }
    assert (P : pure (bind (i_star (hdr_impl (hs y) T) (WVar y)) (fun q => val_w_rel (hdr_impl (hs x) T) C (gen_of (hs x)) r q (WVar x))) s (val_w_related S (gen_of (hs x)) r v (value_of kx))).
    { pstep; [exact Hl|]. by eapply (val_w_rel_ok T K HO C S HS). }
    assert (G := held_pure _ _ _ _ _ Hh (pure_map _ (fun b => CR (E := E) (X := X) (RBool b)) _ _ P)). clear Hl P.
    destruct (run _ s) as [q s'|e s'| |]; [| |done|done]; destruct G as [(b' & Hb & Hr) G]; exists m; (split; [|done]); (split; [done|]); by exists kx, v, a, b'.
  - destruct Hpre as (Hi & [kx Hx]). assert (Ax := held_at _ _ _ _ _ _ _ _ H Hx).
    assert (G := held_pure _ _ _ _ _ Hh (pure_map _ (fun n => CN (E := E) (X := X) n) _ _ (hash_ok T K HO C S HS _ Hi _ _ _ _ _ HM Ax))).
    destruct (run _ s) as [q s'|e s'| |]; [| |done|done]; destruct G as [(b' & Hb & Hr) G]; exists m; (split; [|done]); (split; [done|]); by exists kx, b'.
Qed.

Lemma cclient_run c m s : held s m -> csafe K S M X sem hs c m ->
  match run (cprog T C M X code hs c) s with
  | ORet rs s' => exists m', cexec K S M X sem hs c m rs m' /\ held s' m'
  | OTerm => cterm K S M X sem hs c m
  | _ => False
  end.
Proof.
  revert m s. induction c as [|o next IH]; intros m s Hh Hsafe; cbn [cprog].
  - exists m. done.
  - destruct Hsafe as [Hpre Hnext]. rewrite run_bind, run_catch, run_bind.
    assert (G := cstep_all o m s Hh Hpre).
    destruct (run (cinterp _ _ _ _ _ _ _) s) as [r s1|e s1| |]; [| |done|by left].
    + cbn. destruct G as (m1 & Hst & Hh1). rewrite run_bind.
      specialize (IH (inl r) m1 s1 Hh1 (Hnext _ _ Hst)).
      destruct (run (cprog _ _ _ _ _ _ _) s1) as [rs s2|e s2| |]; [|done|done|].
      * destruct IH as (m2 & Hex & Hh2). exists m2. split; [|done]. by exists (inl r), rs, m1.
      * right. by exists (inl r), m1.
    + cbn. destruct G as (m1 & Hst & Hh1). rewrite run_bind.
      specialize (IH (inr e) m1 s1 Hh1 (Hnext _ _ Hst)).
      destruct (run (cprog _ _ _ _ _ _ _) s1) as [rs s2|e2 s2| |]; [|done|done|].
      * destruct IH as (m2 & Hex & Hh2). exists m2. split; [|done]. by exists (inr e), rs, m1.
      * right. by exists (inr e), m1.
Qed.
End client.

(** ** The operators of Compare.v *)
Section agree.
Context {E : Env} (fr : rel -> eV E -> eV E -> bool + exn) (ft : option (eV E -> eV E -> ordering + exn)) (fh : eV E -> N + exn).
Implicit Types s : store E.
Notation C := (flat_cmps fr ft fh).
Notation CC := (flat_cmp fr ft).

Context (h : header).
Notation I := (hdr_impl h (flatTP E)).

(** Code that only looks. *)
Definition looks {X} (p : prog E X) s : Prop := match run p s with ORet _ s' => s' = s | OUB _ => True | _ => False end.
Lemma lift_looks {X Y} (p : prog E X) (k : X -> prog E Y) s : looks p s ->
  lift (run (bind p k) s) = rbind (lift (run p s)) (fun x => lift (run (k x) s)).
Proof. unfold looks. rewrite run_bind. destruct (run p s); try done. by intros ->. Qed.
Lemma looks_valueless w s : looks (i_valueless I w) s.
Proof. unfold looks. destruct h; cbn; destruct (wraps s !! w) as [[[] a]|]; done. Qed.
Lemma looks_star w s : looks (i_star I w) s.
Proof.
  unfold looks. destruct h; cbn; destruct (wraps s !! w) as [[[] a]|]; try done; cbn; destruct (blocks s !! l) as [b|]; try done; cbn; by destruct (b_hdr b) as [|? []].
Qed.
Lemma looks_read l s : looks (act (PReadObj (RBlk l))) s.
Proof. unfold looks. cbn. destruct (blocks s !! l) as [b|]; try done. by destruct (b_obj b). Qed.
Lemma lift_give {X} (r : X + exn) s : lift (run (give r) s) = res_of r.
Proof. by destruct r. Qed.

Lemma lift_inner {X} (f : eV E -> eV E -> X + exn) x y s :
  lift (run (bind (i_star I x) (fun p => bind (i_star I y) (fun q =>
    bind (act (PReadObj (RBlk p))) (fun o => bind (act (PReadObj (RBlk q))) (fun o' => give (f o.2 o'.2)))))) s) =
  rbind (o_deref (operand_of I s x)) (fun u => rbind (o_deref (operand_of I s y)) (fun v => res_of (f u v))).
Proof.
  unfold operand_of. cbn [o_deref]. rewrite !lift_looks by apply looks_star.
  destruct (lift (run (i_star I x) s)) as [p| |]; cbn [rbind]; try done. rewrite !lift_looks by first [apply looks_star|apply looks_read].
  destruct (lift (run (i_star I y) s)) as [q| |] eqn:Hq; cbn [rbind].
  - rewrite lift_looks by apply looks_read. destruct (lift (run (act (PReadObj (RBlk p))) s)) as [o| |]; cbn [rbind lift run]; try done.
    rewrite !lift_looks by apply looks_read. destruct (lift (run (act (PReadObj (RBlk q))) s)) as [o'| |]; cbn [rbind lift run]; try done. apply lift_give.
  - exfalso. assert (L := looks_star y s). unfold looks in L. by destruct (run (i_star I y) s).
  - by destruct (lift (run (act (PReadObj (RBlk p))) s)) eqn:Hp; cbn; [|exfalso; assert (L := looks_read p s); unfold looks in L; destruct (run (act (PReadObj (RBlk p))) s)|].
Qed.
Lemma lift_synth x y s :
  lift (run (bind (i_star I x) (fun p => bind (i_star I y) (fun q => p_synth C p q))) s) =
  rbind (o_deref (operand_of I s x)) (fun u => rbind (o_deref (operand_of I s y)) (fun v => Compare20.synth_three_way CC CC u v)).
Proof.
  unfold p_synth, Compare20.synth_three_way. destruct ft as [f|]; cbn [p_tw v_tw flat_cmps flat_cmp fmap option_fmap option_map]; [apply lift_inner|].
  pose (F u v := match fr RLt u v with inr e => inr e | inl true => inl Less | inl false =>
    match fr RLt v u with inr e => inr e | inl b => inl (if b : bool then Greater else Equiv) end end).
  transitivity (rbind (o_deref (operand_of I s x)) (fun u => rbind (o_deref (operand_of I s y)) (fun v => res_of (F u v)))).
  - rewrite <- lift_inner. rewrite !lift_looks by apply looks_star.
    destruct (lift (run (i_star I x) s)) as [p| |]; cbn [rbind]; try done. rewrite !lift_looks by apply looks_star.
    destruct (lift (run (i_star I y) s)) as [q| |]; cbn [rbind]; try done. cbn [p_rel flat_cmps].
    rewrite !run_bind. assert (Lp := looks_read p s). assert (Lq := looks_read q s). unfold looks in *.
    destruct (run (act (PReadObj (RBlk p))) s) as [o s1| | |] eqn:Hp; try done. subst s1. rewrite !run_bind.
    destruct (run (act (PReadObj (RBlk q))) s) as [o' s1| | |] eqn:Hq; try done. subst s1. unfold F.
    destruct (fr RLt o.2 o'.2) as [[]|]; cbn [give run]; try done.
    rewrite !run_bind, Hq, !run_bind, Hp. destruct (fr RLt o'.2 o.2) as [[]|]; done.
  - destruct (o_deref (operand_of I s x)) as [u| |]; cbn [rbind]; try done. destruct (o_deref (operand_of I s y)) as [v| |]; cbn [rbind]; try done.
    unfold F. cbn [v_lt flat_cmp]. destruct (fr RLt u v) as [[]|]; cbn; try done. by destruct (fr RLt v u) as [[]|].
Qed.

Lemma lift_map {X Y} (p : prog E X) (u : X -> Y) s :
  lift (run (bind p (fun o => Ret (u o))) s) = rbind (lift (run p s)) (fun o => VOk (u o)).
Proof. rewrite run_bind. by destruct (run p s). Qed.
Lemma rbind_ext {X Y} (m : res X) (f g : X -> res Y) : (forall x, f x = g x) -> rbind m f = rbind m g.
Proof. intros H. destruct m; cbn; auto. Qed.
Lemma lift_val {Y} w (k : bool -> prog E Y) s :
  lift (run (bind (i_valueless I w) k) s) = rbind (o_valueless (operand_of I s w)) (fun b => lift (run (k b) s)).
Proof. apply lift_looks, looks_valueless. Qed.
Lemma looks_bind {X Y} (p : prog E X) (k : X -> prog E Y) s : looks p s -> (forall x, looks (k x) s) -> looks (bind p k) s.
Proof. unfold looks. intros Hp Hk. rewrite run_bind. destruct (run p s); try done. subst. apply Hk. Qed.
Lemma looks_ret {X} (x : X) s : looks (Ret x) s.
Proof. done. Qed.
Lemma lift_por x y {Y} (k : bool -> prog E Y) s :
  lift (run (bind (por (i_valueless I x) (i_valueless I y)) k) s) =
  rbind (ror (o_valueless (operand_of I s x)) (o_valueless (operand_of I s y))) (fun b => lift (run (k b) s)).
Proof.
  rewrite lift_looks by (apply looks_bind; [apply looks_valueless|intros []; [apply looks_ret|apply looks_valueless]]).
  f_equal. unfold por, ror. rewrite lift_val. by apply rbind_ext; intros [].
Qed.
Lemma lift_pnot_val y s : lift (run (pnot (i_valueless I y)) s) = rnot (o_valueless (operand_of I s y)).
Proof. apply lift_map. Qed.
Lemma lift_pand_val x y s : lift (run (pand (i_valueless I x) (i_valueless I y)) s) = rand (o_valueless (operand_of I s x)) (o_valueless (operand_of I s y)).
Proof. unfold pand, rand. rewrite lift_val. by apply rbind_ext; intros []. Qed.
Lemma lift_pand_not {p : prog E bool} y s : lift (run (pand (pnot (i_valueless I y)) p) s) = rand (rnot (o_valueless (operand_of I s y))) (lift (run p s)).
Proof.
  unfold pand at 1, rand at 1. rewrite lift_looks by (apply looks_bind; [apply looks_valueless|intros; apply looks_ret]).
  rewrite lift_pnot_val. by apply rbind_ext; intros [].
Qed.

Lemma agree_eq20 x y s : lift (run (m20_eq I C x y) s) = Compare20.op_eq CC (operand_of I s x) (operand_of I s y).
Proof.
  unfold m20_eq, Compare20.op_eq. rewrite lift_val. apply rbind_ext; intros []; [done|]. rewrite lift_val. apply rbind_ext; intros []; [done|].
  apply (lift_inner (fr REq)).
Qed.
Lemma agree_tw20 x y s : lift (run (m20_tw I C x y) s) = Compare20.op_tw CC CC (operand_of I s x) (operand_of I s y).
Proof.
  unfold m20_tw, Compare20.op_tw. rewrite lift_por. apply rbind_ext; intros []; [|apply lift_synth].
  rewrite lift_val. apply rbind_ext; intros b. rewrite lift_val. by apply rbind_ext; intros b'.
Qed.

Lemma agree g r x y s : lift (run (w_rel I C g r x y) s) = compare g CC CC r (operand_of I s x) (operand_of I s y).
Proof.
  assert (Hi := lift_inner (fr r) x y s). destruct g; cbn [w_rel compare].
  - destruct r; cbn [m14];
      unfold Compare14.op_eq, Compare14.op_ne, Compare14.op_lt, Compare14.op_gt, Compare14.op_le, Compare14.op_ge;
      first [rewrite lift_por|rewrite lift_val]; apply rbind_ext; intros [].
    + apply lift_pand_val.
    + apply Hi.
    + unfold pnot. rewrite lift_map, lift_pand_val. done.
    + apply Hi.
    + apply lift_pnot_val.
    + rewrite lift_pand_not. f_equal. apply Hi.
    + apply lift_pnot_val.
    + rewrite lift_pand_not. f_equal. apply Hi.
    + done.
    + rewrite lift_pand_not. f_equal. apply Hi.
    + done.
    + rewrite lift_pand_not. f_equal. apply Hi.
  - destruct r; cbn [m20]; [apply agree_eq20|..]; unfold pnot; rewrite lift_map; first [rewrite agree_eq20|rewrite agree_tw20];
      unfold Compare20.op_ne, Compare20.op_lt, Compare20.op_gt, Compare20.op_le, Compare20.op_ge, rnot;
      [done|apply rbind_ext; by intros []..].
Qed.
End agree.
