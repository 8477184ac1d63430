(** * Concrete trees, for the examples beside the theorems and for the witnesses of
    refutations: every tree of the right shape can be laid out in memory. *)

From stdpp Require Import base gmap list.
From Verif Require Import Lang Common Client Spec Rep RunLemmas Headers Hist Draft Tree TreeProps TreeAssign TreeSub Ex.

Section tree.
Context {E : Env} (Sh : Shape E).
Notation A := (eA E).
Notation V := (eV E).
Notation wst := (option (tree E) * A)%type.
Notation wrap_heap := (wrap_heap Sh).
Notation mem_heap := (mem_heap Sh).

(** The number of levels. *)
Fixpoint depth (T : tree E) : nat :=
  match T with
  | TNode t v kids => S (foldr (fun k m => match k.1 with Some T' => depth T' `max` m | None => m end) 0 kids)
  end.

Lemma fits_le n m (T : option (tree E)) : n <= m -> fits n T -> fits m T.
Proof. intros Hle. induction Hle; [done|]. intros H. by apply fits_S, IHHle. Qed.

Lemma fits_depth (T : tree E) : fits (depth T) (Some T).
Proof.
  revert T. fix IH 1. intros [t v kids]. cbn [depth fits].
  induction kids as [|[[T|] a] kids IHk]; constructor.
  - cbn. eapply fits_le; [|apply IH]. apply Nat.le_max_l.
  - eapply Forall_impl; [exact IHk|]. intros k Hk. cbn in *. eapply fits_le; [|exact Hk]. apply Nat.le_max_r.
  - cbn. by destruct (foldr _ _ _).
  - done.
Qed.

(** A tree of the classes [Sh]: node types and numbers of members as declared. *)
Fixpoint shaped (h : header) (T : tree E) : Prop :=
  match T with
  | TNode t v kids =>
      (header_cls h = Ind -> t = tT E) /\ length kids = n_kids Sh t v /\
      (fix go (i : nat) (ks : list wst) : Prop :=
         match ks with
         | [] => True
         | k :: ks' => match k.1 with Some T' => shaped (k_hdr Sh t i) T' | None => True end /\ go (S i) ks'
         end) 0 kids
  end.
Definition shaped_w (h : header) (k : wst) : Prop :=
  match k.1 with Some T => shaped h T | None => True end.
Fixpoint shaped_ws (hs : nat -> header) (i : nat) (ks : list wst) : Prop :=
  match ks with [] => True | k :: ks' => shaped_w (hs i) k /\ shaped_ws hs (S i) ks' end.

Lemma shaped_eq h t v kids :
  shaped h (TNode t v kids) <->
  (header_cls h = Ind -> t = tT E) /\ length kids = n_kids Sh t v /\ shaped_ws (k_hdr Sh t) 0 kids.
Proof.
  cbn [shaped]. enough (Hx : forall i, (fix go (i : nat) (ks : list wst) : Prop :=
         match ks with
         | [] => True
         | k :: ks' => match k.1 with Some T' => shaped (k_hdr Sh t i) T' | None => True end /\ go (S i) ks'
         end) i kids <-> shaped_ws (k_hdr Sh t) i kids) by (by rewrite Hx).
  induction kids as [|k kids IH]; intros i; [done|]. cbn. by rewrite IH.
Qed.

(** Blocks from location [N] on; also the next unused location. *)
Definition mem3 : Type := gmap loc (block E) * gmap wl (wrapper E) * nat.
Fixpoint lays (f : header -> wl -> wst -> nat -> mem3) (hs : nat -> header) (nm : nat -> wl) (i : nat) (ks : list wst) (N : nat) : mem3 :=
  match ks with
  | [] => (∅, ∅, N)
  | k :: ks' =>
      let '(B1, W1, M1) := f (hs i) (nm i) k N in
      let '(B2, W2, M2) := lays f hs nm (S i) ks' M1 in
      (B1 ∪ B2, W1 ∪ W2, M2)
  end.
Fixpoint layout (n : nat) (h : header) (w : wl) (k : wst) (N : nat) : mem3 :=
  match n, k with
  | S n', (Some (TNode t v kids), a) =>
      let '(B, W, M) := lays (layout n') (k_hdr Sh t) (WMem N) 0 kids (S N) in
      (<[N := mkB a (kbty (header_cls h) t) (khdr (header_cls h) t N) (OLive t v)]> B, <[w := mkW (PLoc N) a]> W, M)
  | _, (_, a) => (∅, {[ w := mkW PNull a ]}, N)
  end.

Definition below (w : wl) (N : nat) : Prop := match w with WVar _ => True | WMem l _ => l < N end.
Definition within (r : mem3) (N : nat) (roots : wl -> Prop) : Prop :=
  N <= r.2 /\ (forall l : loc, is_Some (r.1.1 !! l) -> N <= l < r.2) /\
  (forall u, is_Some (r.1.2 !! u) -> roots u \/ exists l i, u = WMem l i /\ N <= l < r.2).

Lemma lays_ok (f : header -> wl -> wst -> nat -> mem3) hs nm ks i N :
  (forall k, k ∈ ks -> forall h w N, shaped_w h k -> below w N ->
     wrap_heap h w k (f h w k N).1.1 (f h w k N).1.2 /\ within (f h w k N) N (eq w)) ->
  (forall j j', nm j = nm j' -> j = j') -> (forall j, below (nm j) N) -> shaped_ws hs i ks ->
  mem_heap hs nm i ks (lays f hs nm i ks N).1.1 (lays f hs nm i ks N).1.2 /\
  within (lays f hs nm i ks N) N (fun u => exists j, i <= j < i + length ks /\ u = nm j).
Proof.
  intros Hf Hinj. revert i N. induction ks as [|k ks IH]; intros i N Hb Hs.
  - cbn. split; [constructor|]. split_and!; cbn [fst snd]; [done| |]; intros u [q Hq]; cbn [fst snd] in Hq; by rewrite lookup_empty in Hq.
  - destruct Hs as [Hk Hs]. cbn [lays].
    destruct (Hf k ltac:(left) (hs i) (nm i) N Hk (Hb i)) as (H1 & H2 & H3 & H4).
    destruct (f (hs i) (nm i) k N) as [[B1 W1] M1]. cbn in H1, H2, H3, H4.
    destruct (IH ltac:(intros k' Hk'; apply Hf; by right) (S i) M1) as (G1 & G2 & G3 & G4).
    { intros j. specialize (Hb j). destruct (nm j); cbn in *; lia. }
    { done. }
    destruct (lays f hs nm (S i) ks M1) as [[B2 W2] M2]. cbn in G1, G2, G3, G4. cbn [fst snd]. split.
    + constructor; [done|done| |].
      * apply dis_all. intros l. destruct (B1 !! l) eqn:E1; [|by left]. right.
        destruct (B2 !! l) eqn:E2; [|done]. pose proof (H3 l ltac:(by eexists)). pose proof (G3 l ltac:(by eexists)). lia.
      * apply dis_all. intros u. destruct (W1 !! u) eqn:E1; [|by left]. right.
        destruct (W2 !! u) eqn:E2; [|done]. exfalso.
        destruct (H4 u ltac:(by eexists)) as [<-|(l & j & -> & Hl)].
        -- destruct (G4 (nm i) ltac:(by eexists)) as [(j & Hj & Hjj)|(l & j & Hl & Hlt)].
           ++ apply Hinj in Hjj. lia.
           ++ specialize (Hb i). rewrite Hl in Hb. cbn in Hb. lia.
        -- destruct (G4 (WMem l j) ltac:(by eexists)) as [(j' & Hj & Hjj)|(l' & j' & Hl' & Hlt)].
           ++ specialize (Hb j'). rewrite <- Hjj in Hb. cbn in Hb. lia.
           ++ simplify_eq. lia.
    + split_and!; cbn [fst snd]; [lia| |].
      * intros l [q Hq]. rewrite lookup_un in Hq. destruct (B1 !! l) eqn:E1; rewrite ?E1 in Hq.
        -- pose proof (H3 l ltac:(by eexists)). lia.
        -- pose proof (G3 l ltac:(exists q; exact Hq)). lia.
      * intros u [q Hq]. rewrite lookup_un in Hq. destruct (W1 !! u) eqn:E1; rewrite ?E1 in Hq.
        -- destruct (H4 u ltac:(by eexists)) as [<-|(l & j & -> & Hl)]; [left; exists i; split; [cbn; lia|done]|right; exists l, j; split; [done|lia]].
        -- destruct (G4 u ltac:(exists q; exact Hq)) as [(j & Hj & ->)|(l & j & -> & Hl)];
             [left; exists j; split; [cbn; lia|done]|right; exists l, j; split; [done|lia]].
Qed.

Lemma layout_ok n h w k N :
  fits n k.1 -> shaped_w h k -> below w N ->
  wrap_heap h w k (layout n h w k N).1.1 (layout n h w k N).1.2 /\ within (layout n h w k N) N (eq w).
Proof.
  revert h w k N. induction n as [|n IH]; intros h w [[[t v kids]|] a] N Hf Hs Hb; try done.
  1,3: cbn; split; [constructor|]; split_and!; cbn; [done|intros l [q Hq]; cbn [fst snd] in Hq; by rewrite lookup_empty in Hq|];
    intros u [q Hq]; cbn [fst snd] in Hq; left; destruct (decide (u = w)); [done|]; by rewrite lookup_singleton_ne in Hq.
  unfold shaped_w in Hs. cbn [fst] in Hs. rewrite shaped_eq in Hs. destruct Hs as (HT & Hlen & Hs). cbn [fits fst] in Hf.
  cbn [layout].
  destruct (lays_ok (layout n) (k_hdr Sh t) (WMem N) kids 0 (S N)) as (G1 & G2 & G3 & G4).
  { intros k Hk h' w' N' Hk1 Hk2. apply IH; [|done|done]. rewrite Forall_forall in Hf. by apply Hf. }
  { intros j j' Hj. by simplify_eq. }
  { intros j. cbn. lia. }
  { done. }
  destruct (lays (layout n) (k_hdr Sh t) (WMem N) 0 kids (S N)) as [[B W] M]. cbn in G1, G2, G3, G4. cbn [fst snd]. split.
  - constructor; [|done|done| |].
    + repeat split; done.
    + destruct (B !! N) eqn:HB; [|done]. pose proof (G3 N ltac:(by eexists)). lia.
    + destruct (W !! w) eqn:HW; [|done]. exfalso.
      destruct (G4 w ltac:(by eexists)) as [(j & _ & ->)|(l & j & -> & Hl)]; cbn in Hb; lia.
  - split_and!; cbn [fst snd]; [lia| |].
    + intros l [q Hq]. rewrite lookup_ins in Hq. case_decide; [lia|]. pose proof (G3 l ltac:(exists q; exact Hq)). lia.
    + intros u [q Hq]. rewrite lookup_ins in Hq. case_decide; [by left|].
      destruct (G4 u ltac:(exists q; exact Hq)) as [(j & _ & ->)|(l & j & -> & Hl)]; right.
      * exists N, j. split; [done|lia].
      * exists l, j. split; [done|lia].
Qed.

Lemma mem_bound hs (nm : nat -> nat) i ks B W :
  mem_heap hs (fun j => WVar (nm j)) i ks B W -> forall l j, is_Some (W !! WMem l j) ->
  exists b, B !! l = Some b /\ forall t v, b_obj b = OLive t v -> j < n_kids Sh t v.
Proof.
  revert i B W. induction ks as [|k ks IH]; intros i B W Hm l j [q Hq].
  - apply mem_nil_inv in Hm as [-> ->]. by rewrite lookup_empty in Hq.
  - apply mem_cons_inv in Hm as (B1 & W1 & B2 & W2 & -> & -> & DB & DW & H1 & H2).
    rewrite lookup_un in Hq. destruct (W1 !! WMem l j) eqn:HW1; rewrite ?HW1 in Hq.
    + destruct (heap_bound _ _ _ _ _ _ H1 l j) as (b & Hb & Hi); [by eexists|done|]. exists b. by rewrite lookup_un, Hb.
    + destruct (IH _ _ _ H2 l j) as (b & Hb & Hi); [by eexists|]. exists b. rewrite lookup_un, Hb.
      by destruct (dis_at _ _ l DB) as [->|]; [|congruence].
Qed.

(** The store that holds exactly one tree, owned by the variable [x]. *)
Definition tree_store (n : nat) (h : header) (x : nat) (k : wst) (O : list resp) : store E :=
  let r := layout n h (WVar x) k 0 in mkS r.1.1 r.1.2 ∅ O [].
Definition tree_blocks n h x (k : wst) := (layout n h (WVar x) k 0).1.1.
Definition tree_wraps n h x (k : wst) := (layout n h (WVar x) k 0).1.2.

Lemma tree_store_ok n h x k O :
  fits n k.1 -> shaped_w h k ->
  let s := tree_store n h x k O in
  wrap_heap h (WVar x) k (blocks s) (wraps s) /\ placed_all Sh s /\ mem_ok s.
Proof.
  intros Hf Hs s. destruct (layout_ok n h (WVar x) k 0 Hf Hs) as (H1 & _); [done|].
  assert (HP : placed_all Sh s).
  { intros [m|l i] Hw; [done|]. by apply (heap_bound Sh h (WVar x) k _ _ H1 l i). }
  split_and!; [done|done|]. by apply (placed_mem_ok Sh).
Qed.
End tree.

(** Binary trees of numbers: every node has two members of the same class. *)
Definition exShape (f : flags) (h : header) : Shape (exEnv f) := mkShape (E := exEnv f) (fun _ _ => 2) (fun _ _ => h) (fun _ => []).

Lemma exShape_req f h : ShapeReq (exShape f h).
Proof. by split. Qed.
Lemma exShape_fixed f h : Fixed (exShape f h).
Proof. done. Qed.
Lemma ex_refl f a : a_eqb (exEnv f) a a = true.
Proof. cbn. rewrite Nat.eqb_refl. by destruct (f_ae f). Qed.

Section ex.
Context (f : flags).
Notation T := (tree (exEnv f)).
(** Allocator [a] throughout. *)
Definition nd (a v : nat) (l r : option T) : T := TNode (E := exEnv f) 0 v [(l, a); (r, a)].
Definition lf (a v : nat) : T := nd a v None None.
(** 1 - (2 - (3 - . - 4) - 5) - 6 *)
Definition exT (a : nat) : T := nd a 1 (Some (nd a 2 (Some (nd a 3 None (Some (lf a 4)))) (Some (lf a 5)))) (Some (lf a 6)).
End ex.

Lemma exT_fits f a : fits 4 (Some (exT f a)).
Proof. cbn. repeat constructor. Qed.
Lemma exT_shaped f h a : shaped (exShape f h) h (exT f a).
Proof. cbn. repeat split; done. Qed.
