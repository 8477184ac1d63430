(** * Assigning and moving trees. *)

From stdpp Require Import base gmap list.
From Verif Require Import Lang Common Client Spec Rep RunLemmas Headers Hist Tree TreeProps.
From Verif Require Import Indirect20 Indirect14 Polymorphic20 Polymorphic14.

Section tree.
Context {E : Env} (Sh : Shape E) (HS : ShapeReq Sh).
Notation A := (eA E).
Notation V := (eV E).
Notation wst := (option (tree E) * A)%type.
Implicit Types s : store E.
Notation wrap_heap := (wrap_heap Sh).
Notation mem_heap := (mem_heap Sh).
Notation nodeTP := (nodeTP Sh).
Notation node_impl := (node_impl Sh).

(** [s'] is [s] with [B], [W] replaced by [B'], [W']. *)
Record replaced s s' (B : gmap loc (block E)) (W : gmap wl (wrapper E)) B' W' : Prop := {
  rp_b : blocks s' = B' ∪ (blocks s ∖ B);
  rp_w : wraps s' = W' ∪ (wraps s ∖ W);
  rp_x : exts s' = exts s;
  rp_db : B' ##ₘ blocks s ∖ B;
  rp_dw : W' ##ₘ wraps s ∖ W;
}.

(** A wrapper's place: a variable, or a member of a class that has this member. *)
Definition placed s (w : wl) : Prop :=
  match w with
  | WVar _ => True
  | WMem l i => exists b, blocks s !! l = Some b /\ forall t v, b_obj b = OLive t v -> i < n_kids Sh t v
  end.
Definition placed_all s : Prop := forall w, is_Some (wraps s !! w) -> placed s w.

Lemma placed_home s w : placed s w -> home s w.
Proof. destruct w; [done|]. intros (b & Hb & _). by exists b. Qed.
Lemma placed_mem_ok s : placed_all s -> mem_ok s.
Proof. intros HP l i Hi. by apply (placed_home s (WMem l i)), HP. Qed.

(** Blocks of a heap hold live objects, all of whose members are in the heap, and the root
    is not one of them. *)
Lemma mem_in_gen hs nm i ks B W :
  mem_heap hs nm i ks B W -> forall j, i <= j < i + length ks -> is_Some (W !! nm j).
Proof.
  revert i B W. induction ks as [|k ks IH]; intros i B W Hm j Hj; [simpl in Hj; lia|].
  apply mem_cons_inv in Hm as (B1 & W1 & B2 & W2 & -> & -> & DB & DW & H1 & H2).
  simpl in Hj. destruct (decide (i = j)) as [<-|Hne].
  - apply wrap_inv in H1. assert (is_Some (W1 !! nm i)) as [q Hq].
    { destruct k as [[[t v kids]|] a].
      - destruct H1 as (l & b & B' & W' & -> & -> & _). rewrite lookup_insert. by eexists.
      - destruct H1 as [-> ->]. rewrite lookup_singleton. by eexists. }
    exists q. by apply lookup_union_Some_l.
  - destruct (IH _ _ _ H2 j) as [q Hq]; [lia|]. rewrite lookup_un, Hq. destruct (W1 !! nm j); by eexists.
Qed.

Lemma wrap_in h w k B W : wrap_heap h w k B W -> is_Some (W !! w).
Proof.
  intros H1. apply wrap_inv in H1. destruct k as [[[t v kids]|] a].
  - destruct H1 as (l & b & B' & W' & -> & -> & _). rewrite lookup_insert. by eexists.
  - destruct H1 as [-> ->]. rewrite lookup_singleton. by eexists.
Qed.

Lemma heap_full h w k B W :
  wrap_heap h w k B W -> forall l b, B !! l = Some b ->
  exists t v, b_obj b = OLive t v /\ forall i, i < n_kids Sh t v -> WMem l i <> w /\ is_Some (W !! WMem l i).
Proof.
  intros H.
  refine (wrap_heap_mind E Sh
    (fun h w k B W _ => forall l b, B !! l = Some b ->
      exists t v, b_obj b = OLive t v /\ forall i, i < n_kids Sh t v -> WMem l i <> w /\ is_Some (W !! WMem l i))
    (fun hs nm i ks B W _ => forall l b, B !! l = Some b ->
      exists t v, b_obj b = OLive t v /\ forall j, j < n_kids Sh t v ->
        (forall j', i <= j' < i + length ks -> WMem l j <> nm j') /\ is_Some (W !! WMem l j))
    _ _ _ _ _ _ _ _ _ H).
  - intros h' w' a l b Hb. by rewrite lookup_empty in Hb.
  - intros h' w' a l t v kids b B' W' (_ & Hobj & _) Hlen Hm IH HBl HWw l' b' Hb'. rewrite lookup_ins in Hb'.
    case_decide as Hd.
    + subst l'. simplify_eq. exists t, v. split; [done|]. intros i Hi.
      destruct (mem_in_gen _ _ _ _ _ _ Hm i) as [q Hq]; [lia|]. split; [congruence|].
      rewrite lookup_ins. case_decide; by eexists.
    + destruct (IH _ _ Hb') as (t' & v' & Hobj' & Hall). exists t', v'. split; [done|]. intros i Hi.
      destruct (Hall i Hi) as [_ [q Hq]]. split; [congruence|]. rewrite lookup_ins. case_decide; by eexists.
  - intros hs nm i l b Hb. by rewrite lookup_empty in Hb.
  - intros hs nm i k' ks B1 W1 B2 W2 Hw IH1 Hm IH2 DB DW l b Hb. rewrite lookup_un in Hb.
    destruct (B1 !! l) as [b1|] eqn:HB1; simplify_eq.
    + destruct (IH1 _ _ HB1) as (t & v & Hobj & Hall). exists t, v. split; [done|]. intros j Hj.
      destruct (Hall j Hj) as [Hne [q Hq]]. split; [|exists q; by apply lookup_union_Some_l].
      intros j' Hj' Heq. simpl in Hj'. destruct (decide (j' = i)) as [->|Hji]; [done|].
      destruct (mem_in_gen _ _ _ _ _ _ Hm j') as [q' Hq']; [lia|]. rewrite <- Heq in Hq'.
      destruct (dis_at _ _ (WMem l j) DW); congruence.
    + destruct (IH2 _ _ Hb) as (t & v & Hobj & Hall). exists t, v. split; [done|]. intros j Hj.
      destruct (Hall j Hj) as [Hne [q Hq]]. split.
      * intros j' Hj' Heq. simpl in Hj'. destruct (decide (j' = i)) as [->|Hji]; [|by apply (Hne j'); [lia|]].
        destruct (wrap_in _ _ _ _ _ Hw) as [q' Hq']. rewrite <- Heq in Hq'.
        destruct (dis_at _ _ (WMem l j) DW); congruence.
      * rewrite lookup_un, Hq. destruct (W1 !! WMem l j); by eexists.
Qed.

Lemma heap_bound h w k B W :
  wrap_heap h w k B W -> forall l i, is_Some (W !! WMem l i) -> WMem l i <> w ->
  exists b, B !! l = Some b /\ forall t v, b_obj b = OLive t v -> i < n_kids Sh t v.
Proof.
  intros H.
  refine (wrap_heap_mind E Sh
    (fun h w k B W _ => forall l i, is_Some (W !! WMem l i) -> WMem l i <> w ->
      exists b, B !! l = Some b /\ forall t v, b_obj b = OLive t v -> i < n_kids Sh t v)
    (fun hs nm i ks B W _ => forall l j, is_Some (W !! WMem l j) -> (forall j', i <= j' < i + length ks -> WMem l j <> nm j') ->
      exists b, B !! l = Some b /\ forall t v, b_obj b = OLive t v -> j < n_kids Sh t v)
    _ _ _ _ _ _ _ _ _ H).
  - intros h' w' a l i [q Hq] Hne. rewrite lookup_singleton_ne in Hq; congruence.
  - intros h' w' a l t v kids b B' W' (_ & Hobj & _) Hlen Hm IH HBl HWw l' i' [q Hq] Hne.
    rewrite lookup_insert_ne in Hq by congruence. rewrite lookup_ins. case_decide as Hd.
    + subst l'. exists b. split; [done|]. intros t' v' Hobj'. rewrite Hobj in Hobj'. simplify_eq.
      destruct (decide (i' < n_kids Sh t' v')); [done|].
      destruct (IH l i') as (b' & Hb' & _); [by eexists| |congruence].
      intros j' Hj' Heq. simplify_eq. lia.
    + apply IH; [by eexists|]. intros j' Hj' Heq. simplify_eq.
  - intros hs nm i l j [q Hq]. by rewrite lookup_empty in Hq.
  - intros hs nm i k' ks B1 W1 B2 W2 Hw IH1 Hm IH2 DB DW l j [q Hq] Hne. rewrite lookup_un in Hq.
    destruct (W1 !! WMem l j) as [q1|] eqn:HW1.
    + destruct (IH1 l j) as (b & Hb & Hall); [by eexists|by apply Hne; simpl; lia|].
      exists b. by rewrite lookup_un, Hb.
    + destruct (IH2 l j) as (b & Hb & Hall); [by eexists|intros j' Hj'; apply Hne; simpl; lia|].
      exists b. rewrite lookup_un, Hb. destruct (dis_at _ _ l DB) as [HX|HX]; [by rewrite HX|congruence].
Qed.

(** Places survive the replacement of a heap they are not in. *)
Lemma placed_replaced h x k B W B' W' s s' u :
  wrap_heap h x k B W -> replaced s s' B W B' W' -> B ⊆ blocks s -> placed s u -> (W !! u = None \/ u = x) -> placed s' u.
Proof.
  intros Hh HR HB Hu HWu. destruct u as [m|l i]; [done|]. destruct Hu as (b & Hb & Hi).
  exists b. split; [|done]. rewrite (rp_b _ _ _ _ _ _ HR). assert (HBl : B !! l = None).
  { destruct (B !! l) as [b'|] eqn:HBl; [|done]. exfalso.
    assert (b' = b) as -> by (pose proof (lookup_weaken _ _ _ _ HBl HB); congruence).
    destruct (heap_full _ _ _ _ _ Hh _ _ HBl) as (t & v & Hobj & Hall).
    destruct (Hall i (Hi _ _ Hobj)) as [Hne [q Hq]]. destruct HWu; congruence. }
  assert (D := rp_db _ _ _ _ _ _ HR). apply (fun Q => dis_at _ _ l Q) in D. at_norm. rewrite HBl in *.
  destruct D as [->|D]; congruence.
Qed.

Lemma placed_all_replaced h x k k' B W B' W' s s' :
  wrap_heap h x k B W -> wrap_heap h x k' B' W' -> replaced s s' B W B' W' -> B ⊆ blocks s ->
  placed s x -> placed_all s -> placed_all s'.
Proof.
  intros Hh Hh' HR HB Hx HP u [q Hq]. rewrite (rp_w _ _ _ _ _ _ HR) in Hq. at_norm.
  destruct (decide (u = x)) as [->|Hne]; [by eapply (placed_replaced h x k B W B' W' s s'); auto|].
  destruct (W' !! u) eqn:HW'.
  - destruct u as [m|l i]; [done|]. destruct (heap_bound _ _ _ _ _ Hh' l i) as (b & Hb & Hi); [by eexists|done|].
    exists b. split; [|done]. rewrite (rp_b _ _ _ _ _ _ HR). at_norm. by rewrite Hb.
  - destruct (W !! u) eqn:HW; [done|]. eapply (placed_replaced h x k B W B' W' s s'); auto.
Qed.

Lemma replaced_trans s s1 s2 B1 W1 B1' W1' B2 W2 B2' W2' :
  replaced s s1 B1 W1 B1' W1' -> replaced s1 s2 B2 W2 B2' W2' ->
  B1 ##ₘ B2 -> W1 ##ₘ W2 -> B2 ⊆ blocks s -> W2 ⊆ wraps s ->
  replaced s s2 (B1 ∪ B2) (W1 ∪ W2) (B1' ∪ B2') (W1' ∪ W2') /\ B1' ##ₘ B2' /\ W1' ##ₘ W2'.
Proof.
  intros [R1 R2 R3 R4 R5] [Q1 Q2 Q3 Q4 Q5] D1 D2 S1 S2. rewrite R1 in Q1, Q4. rewrite R2 in Q2, Q5.
  split_and!; [split; [rewrite Q1|rewrite Q2|congruence| |]| |].
  - clear - D1 S1 R4 Q4. map_solve.
  - clear - D2 S2 R5 Q5. map_solve.
  - clear - D1 S1 R4 Q4. map_solve.
  - clear - D2 S2 R5 Q5. map_solve.
  - clear - D1 S1 R4 Q4. map_solve.
  - clear - D2 S2 R5 Q5. map_solve.
Qed.

(** ** Copy assignment *)

(** The allocator of the assigned-to wrapper afterwards. *)
Definition sel (f : bool) (ad ak : A) : A := if f then ak else ad.
Definition na : A -> A -> A := sel (pocca E).

(** What copy assignment makes of a wrapper in state [d]: a copy of the source, except that
    an [indirect] whose value type is assignable, that has a value and an equal allocator,
    assigns to the value it has ([f]). *)
Definition asg_some (c : cls) (f : tree E -> tree E) (T : tree E) (ak : A) (d : wst) : wst :=
  (match c, t_assignable E, d.1 with
   | Ind, true, Some D => if a_eqb E d.2 ak then Some (f D) else Some (copy_tree (na d.2 ak) T)
   | _, _, _ => Some (copy_tree (na d.2 ak) T)
   end, na d.2 ak).

(** Memberwise copy assignment of a node. *)
Fixpoint asg_to (T : tree E) (D : tree E) : tree E :=
  match T, D with
  | TNode t v kids, TNode t0 v0 dkids =>
      TNode t0 (t_asgn E ConstL t0 t v0 v).1
        ((fix go (i : nat) (ks : list wst) (ds : list wst) : list wst :=
            match ks, ds with
            | k :: ks', d :: ds' =>
                match k with
                | (Some T', a) => asg_some (header_cls (k_hdr Sh t0 i)) (asg_to T') T' a d
                | (None, a) => (None, na d.2 a)
                end :: go (S i) ks' ds'
            | _, _ => []
            end) 0 kids dkids)
  end.
Definition asg_w (c : cls) (d k : wst) : wst :=
  match k with
  | (Some T, a) => asg_some c (asg_to T) T a d
  | (None, a) => (None, na d.2 a)
  end.
Fixpoint asg_ws (hs : nat -> header) (i : nat) (ks ds : list wst) : list wst :=
  match ks, ds with
  | k :: ks', d :: ds' => asg_w (header_cls (hs i)) d k :: asg_ws hs (S i) ks' ds'
  | _, _ => []
  end.

Lemma asg_to_eq t v kids t0 v0 dkids :
  asg_to (TNode t v kids) (TNode t0 v0 dkids) =
  TNode t0 (t_asgn E ConstL t0 t v0 v).1 (asg_ws (k_hdr Sh t0) 0 kids dkids).
Proof.
  cbn [asg_to]. f_equal. generalize 0. revert dkids. induction kids as [|k kids IH]; intros [|d ds] i; try done.
  cbn [asg_ws]. f_equal. apply IH.
Qed.

(** Classes with a fixed number of members. *)
Definition Fixed : Prop := forall t v v', n_kids Sh t v = n_kids Sh t v'.
Context (HF : Fixed) (HA : AllocReq E).

(** Is the assignment to the value in place? *)
Definition in_place (c : cls) (d k : wst) : bool :=
  match c, t_assignable E, d.1, k.1 with Ind, true, Some _, Some _ => a_eqb E d.2 k.2 | _, _, _, _ => false end.
(** What a throwing copy assignment leaves: the target as it was, or, if the assignment was
    in place, the value partly assigned: its data was being assigned, or its data and the
    members before one are assigned, that one's assignment threw, and those after it are
    as they were. *)
Inductive casg_failed : cls -> wst -> wst -> wst -> Prop :=
  | cf_same c d k : in_place c d k = false -> casg_failed c d k d
  | cf_part c D ad T ak D' :
      in_place c (Some D, ad) (Some T, ak) = true -> asg_part T D D' ->
      casg_failed c (Some D, ad) (Some T, ak) (Some D', ad)
with asg_part : tree E -> tree E -> tree E -> Prop :=
  | ap_data t v ks v0 ds :
      asg_part (TNode t v ks) (TNode t v0 ds) (TNode t (t_asgn_fail E ConstL t t v0 v).1 ds)
  | ap_kids t v ks v0 ds ds' :
      kids_part (k_hdr Sh t) 0 ks ds ds' ->
      asg_part (TNode t v ks) (TNode t v0 ds) (TNode t (t_asgn E ConstL t t v0 v).1 ds')
with kids_part : (nat -> header) -> nat -> list wst -> list wst -> list wst -> Prop :=
  | kp_here hs i k ks d ds d' :
      casg_failed (header_cls (hs i)) d k d' -> kids_part hs i (k :: ks) (d :: ds) (d' :: ds)
  | kp_there hs i k ks d ds ds' :
      kids_part hs (S i) ks ds ds' ->
      kids_part hs i (k :: ks) (d :: ds) (asg_w (header_cls (hs i)) d k :: ds').

Definition casg_ok (n : nat) : Prop :=
  forall h x y kx ky Bx Wx By Wy s,
    placed_all s -> placed s x ->
    wrap_heap h x kx Bx Wx -> wrap_heap h y ky By Wy -> Bx ##ₘ By -> Wx ##ₘ Wy ->
    Bx ⊆ blocks s -> Wx ⊆ wraps s -> By ⊆ blocks s -> Wy ⊆ wraps s -> fits n kx.1 -> fits n ky.1 ->
    match run (i_copy_assign (node_impl n h) x y) s with
    | ORet _ s' => exists B' W', wrap_heap h x (asg_w (header_cls h) kx ky) B' W' /\ replaced s s' Bx Wx B' W'
    | OThrow _ s' => exists k' B' W', wrap_heap h x k' B' W' /\ fits n k'.1 /\ replaced s s' Bx Wx B' W' /\
        casg_failed (header_cls h) kx ky k'
    | _ => False
    end.

Lemma replaced_refl s B W : B ⊆ blocks s -> W ⊆ wraps s -> replaced s s B W B W.
Proof. intros HB HW. split; [map_solve|map_solve|done|map_solve|map_solve]. Qed.

Lemma same_replaced s s' B W : same s s' -> B ⊆ blocks s -> W ⊆ wraps s -> replaced s s' B W B W.
Proof. intros [S1 S2 S3] HB HW. split; rewrite ?S1, ?S2; [map_solve|map_solve|done|map_solve|map_solve]. Qed.

Lemma wrap_ptr h w k B W s : wrap_heap h w k B W -> W ⊆ wraps s ->
  exists p, p <> PIndet /\ wraps s !! w = Some (mkW p k.2) /\
    match k.1 with None => p = PNull | Some _ => exists l, p = PLoc l end.
Proof.
  intros Hh HW. apply wrap_inv in Hh. destruct k as [[[t v kids]|] a].
  - destruct Hh as (o & bo & B1 & W1 & -> & -> & _). exists (PLoc o). split_and!; [done| |by eexists].
    eapply lookup_weaken; [|exact HW]. apply lookup_insert.
  - destruct Hh as [-> ->]. exists PNull. split_and!; [done| |done].
    eapply lookup_weaken; [|exact HW]. apply lookup_singleton.
Qed.

(** The last part of an assignment: the old value is released and the new one installed. *)
Lemma install f n h x y kx ky T l Bx Wx By Wy B' W' s s1 :
  wrap_heap h x kx Bx Wx -> wrap_heap h y ky By Wy -> Wx ##ₘ Wy -> Bx ⊆ blocks s -> Wx ⊆ wraps s -> Wy ⊆ wraps s ->
  fits n kx.1 ->
  adds s s1 B' W' -> fresh_node Sh (header_cls h) (sel f kx.2 ky.2) T l B' W' ->
  exists s2,
    run (bind (bind (reset_of (header_cls h) (nodeTP n) x) (fun _ => act (PWriteP x (Some l))))
              (fun _ => if f then bind (act (PReadA y)) (fun a => act (PWriteA x a)) else Ret tt)) s1
    = ORet tt s2 /\
    exists W2, wrap_heap h x (Some T, sel f kx.2 ky.2) B' W2 /\ replaced s s2 Bx Wx B' W2.
Proof.
  intros Hx Hy DW HBx HWx HWy Hf [A1 A2 A3 A4 A5] Hnode.
  destruct (reset_all Sh n h x kx Bx Wx s1 Hx Hf) as (s2 & R2 & E1 & E2 & E3).
  { rewrite A1. clear - HBx A4. map_solve. }
  { rewrite A2. clear - HWx A5. map_solve. }
  destruct (wrap_in _ _ _ _ _ Hx) as [wx Hwx].
  destruct (wrap_ptr _ _ _ _ _ s Hy HWy) as (p & _ & Hys & _).
  assert (HyW : Wx !! y = None).
  { destruct (wrap_in _ _ _ _ _ Hy) as [wy Hwy]. destruct (dis_at _ _ y DW); congruence. }
  assert (Hyx : y <> x) by congruence.
  assert (HxW' : W' !! x = None).
  { destruct (dis_at _ _ x A5); [done|]. pose proof (lookup_weaken _ _ _ _ Hwx HWx). congruence. }
  exists (set_wraps (<[x := mkW (PLoc l) (sel f kx.2 ky.2)]> (wraps s2)) s2). split.
  - rewrite !run_bind, R2. cbn [act run exec]. rewrite E2, lookup_insert. cbn [w_a run exec].
    unfold sel. destruct f; [|by rewrite <- E2].
    cbn. rewrite ?E2. rewrite !lookup_insert_ne by done. rewrite lookup_diff, HyW, A2, lookup_un.
    destruct (dis_at _ _ y A5) as [->|]; [|congruence]. rewrite Hys. cbn. rewrite lookup_insert. cbn.
    by rewrite ?E2, !insert_insert.
  - exists (<[x := mkW (PLoc l) (sel f kx.2 ky.2)]> W'). split.
    + destruct T as [t v kids]. destruct Hnode as (b & B1 & -> & HBl & Hok & Hlen & Hm). by constructor.
    + split; cbn; [rewrite E1, A1|rewrite E2, A2|congruence| |].
      * clear - A4 HBx. map_solve.
      * clear - A5 Hwx HWx. map_solve.
      * clear - A4. map_solve.
      * clear - A5 Hwx. map_solve.
Qed.

End tree.
