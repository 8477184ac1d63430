(** * What can be observed of a tree by following members from a wrapper, in the store. *)

From stdpp Require Import base gmap list.
From Verif Require Import Lang Common Client Spec Rep RunLemmas Headers Hist Tree TreeProps TreeAssign TreeMove TreeMoveAssign TreeSub.

Section obs.
Context {E : Env}.
Notation A := (eA E).
Notation V := (eV E).
Implicit Types s : store E.

(** The block owned by the wrapper at path [p] from [x]. *)
Definition addr s (x : wl) (p : list nat) : option loc :=
  match walk s x p with
  | Some w => match wraps s !! w with Some (mkW (PLoc l) _) => Some l | _ => None end
  | None => None
  end.

(** The object at path [p]: [None] if there is no such member, [Some None] if it is
    valueless, otherwise its type and data. *)
Definition obs s (x : wl) (p : list nat) : option (option (ty * V)) :=
  match walk s x p with
  | Some w =>
      match wraps s !! w with
      | Some (mkW PNull _) => Some None
      | Some (mkW (PLoc l) _) =>
          match blocks s !! l with
          | Some b => match b_obj b with OLive t v => Some (Some (t, v)) | _ => None end
          | None => None
          end
      | _ => None
      end
  | None => None
  end.

(** The same value at every path, and no shared block. *)
Definition equal_trees s x s' x' : Prop := forall p, obs s x p = obs s' x' p.
Definition share_nothing s x y : Prop := forall p q l, addr s x p = Some l -> addr s y q <> Some l.

(** Copying an object gives an equal one; so does moving it. *)
Definition CopyValue : Prop := forall t a v, (t_cons E ConstL t t a v).1 = v.
Definition MoveValue : Prop := forall t a v, (t_cons E RVal t t a v).1 = v.
End obs.

Section tree.
Context {E : Env} (Sh : Shape E).
Notation A := (eA E).
Notation V := (eV E).
Notation wst := (option (tree E) * A)%type.
Implicit Types s : store E.
Notation wrap_heap := (wrap_heap Sh).
Notation mem_heap := (mem_heap Sh).
Notation sub_at_path := (sub_at_path Sh).

Definition data (T : tree E) : ty * V := match T with TNode t v _ => (t, v) end.

Lemma walk_none s x p i : wraps s !! x = None -> walk s x (i :: p) = None.
Proof. intros Hx. cbn. by rewrite Hx. Qed.

Lemma obs_none s x p : wraps s !! x = None -> obs s x p = None.
Proof.
  intros Hx. unfold obs. destruct p as [|i p]; [|by rewrite walk_none]. cbn. by rewrite Hx.
Qed.

Lemma obs_cons s x i p l a : wraps s !! x = Some (mkW (PLoc l) a) -> obs s x (i :: p) = obs s (WMem l i) p.
Proof. intros Hx. unfold obs. cbn. by rewrite Hx. Qed.

Lemma obs_heap p h x k B W s :
  placed_all Sh s -> wrap_heap h x k B W -> B ⊆ blocks s -> W ⊆ wraps s ->
  obs s x p = match sub_at_path h k p with Some (_, k') => Some (data <$> k'.1) | None => None end.
Proof.
  intros HP. revert h x k B W. induction p as [|i p IH]; intros h x k B W Hx HB HW.
  - destruct (wrap_ptr _ _ _ _ _ _ s Hx HW) as (q & _ & Hxs & Hq). unfold obs. cbn. rewrite Hxs.
    destruct k as [[T|] a]; cbn in *; [|by subst]. destruct Hq as [l ->]. destruct T as [t v kids].
    apply wrap_inv in Hx as (l' & b & B1 & W1 & -> & -> & HBl & HWx & Hok & Hlen & Hm).
    assert (l' = l) as ->.
    { pose proof (lookup_weaken _ _ x (mkW (PLoc l') a) (lookup_insert _ _ _) HW). congruence. }
    assert (Hb : blocks s !! l = Some b) by (eapply lookup_weaken; [|exact HB]; apply lookup_insert).
    rewrite Hb. destruct Hok as (_ & -> & _). done.
  - destruct k as [[[t v kids]|] a]; cbn [TreeSub.sub_at_path fst].
    2:{ destruct (wrap_ptr _ _ _ _ _ _ s Hx HW) as (q & _ & Hxs & ->). unfold obs. cbn. by rewrite Hxs. }
    apply wrap_inv in Hx as (l & b & B1 & W1 & -> & -> & HBl & HWx & Hok & Hlen & Hm).
    assert (Hxs : wraps s !! x = Some (mkW (PLoc l) a)) by (eapply lookup_weaken; [|exact HW]; apply lookup_insert).
    assert (Hb : blocks s !! l = Some b) by (eapply lookup_weaken; [|exact HB]; apply lookup_insert).
    rewrite (obs_cons _ _ _ _ _ _ Hxs).
    destruct (kids !! i) as [k|] eqn:Hi.
    + destruct (mem_focus Sh _ _ _ _ _ _ i k Hm Hi) as (B2 & W2 & H2 & S1 & S2 & _).
      apply (IH (k_hdr Sh t i) (WMem l i) k B2 W2 H2); [clear - HB HBl S1; map_solve|clear - HW HWx S2; map_solve].
    + apply obs_none. destruct (wraps s !! WMem l i) as [q|] eqn:Hq; [|done]. exfalso.
      destruct (HP (WMem l i) ltac:(by eexists)) as (b' & Hb' & Hlt). simplify_eq.
      destruct Hok as (_ & Hobj & _). specialize (Hlt _ _ Hobj). apply lookup_ge_None in Hi. lia.
Qed.

Lemma addr_heap p h x k B W s l :
  placed_all Sh s -> wrap_heap h x k B W -> B ⊆ blocks s -> W ⊆ wraps s -> addr s x p = Some l -> is_Some (B !! l).
Proof.
  intros HP. revert h x k B W. induction p as [|i p IH]; intros h x k B W Hx HB HW Ha.
  - unfold addr in Ha. cbn in Ha. destruct k as [[[t v kids]|] a].
    + apply wrap_inv in Hx as (l' & b & B1 & W1 & -> & -> & HBl & HWx & Hok & Hlen & Hm).
      rewrite (lookup_weaken _ _ x (mkW (PLoc l') a) (lookup_insert _ _ _) HW) in Ha. simplify_eq.
      rewrite lookup_insert. by eexists.
    + apply wrap_inv in Hx as [-> ->].
      by rewrite (lookup_weaken _ _ x (mkW PNull a) (lookup_singleton _ _) HW) in Ha.
  - unfold addr in Ha. cbn in Ha. destruct k as [[[t v kids]|] a].
    + apply wrap_inv in Hx as (l' & b & B1 & W1 & -> & -> & HBl & HWx & Hok & Hlen & Hm).
      rewrite (lookup_weaken _ _ x (mkW (PLoc l') a) (lookup_insert _ _ _) HW) in Ha.
      assert (Hb : blocks s !! l' = Some b) by (eapply lookup_weaken; [|exact HB]; apply lookup_insert).
      destruct (kids !! i) as [k|] eqn:Hi.
      * destruct (mem_focus Sh _ _ _ _ _ _ i k Hm Hi) as (B2 & W2 & H2 & S1 & S2 & _).
        destruct (IH (k_hdr Sh t i) (WMem l' i) k B2 W2 H2) as [q Hq]; [clear - HB HBl S1; map_solve|clear - HW HWx S2; map_solve|done|].
        rewrite lookup_ins. case_decide; [by eexists|]. exists q. by eapply lookup_weaken.
      * exfalso. assert (Hnone : wraps s !! WMem l' i = None).
        { destruct (wraps s !! WMem l' i) as [q|] eqn:Hq; [|done]. exfalso.
          destruct (HP (WMem l' i) ltac:(by eexists)) as (b' & Hb' & Hlt). simplify_eq.
          destruct Hok as (_ & Hobj & _). specialize (Hlt _ _ Hobj). apply lookup_ge_None in Hi. lia. }
        destruct p as [|j p]; [cbn in Ha; by rewrite Hnone in Ha|]. by rewrite walk_none in Ha.
    + apply wrap_inv in Hx as [-> ->].
      by rewrite (lookup_weaken _ _ x (mkW PNull a) (lookup_singleton _ _) HW) in Ha.
Qed.

(** The value of a copy. *)
Lemma sub_copy_path (HV : CopyValue (E := E)) p h a k :
  match sub_at_path h (copy_as a k) p with Some (_, k') => Some (data <$> k'.1) | None => None end =
  match sub_at_path h k p with Some (_, k') => Some (data <$> k'.1) | None => None end.
Proof.
  revert h a k. induction p as [|i p IH]; intros h a [[[t v kids]|] a0]; try done.
  - cbn. by rewrite HV.
  - unfold copy_as. cbn [fst snd fmap option_fmap option_map]. rewrite copy_tree_eq. cbn [TreeSub.sub_at_path fst].
    rewrite list_lookup_fmap. destruct (kids !! i) as [k|]; [|done]. cbn. apply IH.
Qed.

Lemma moved_path (HV : MoveValue (E := E)) p h a a0 (T : tree E) :
  match sub_at_path h (Some (moved_to a T), a) p with Some (_, k') => Some (data <$> k'.1) | None => None end =
  match sub_at_path h (Some T, a0) p with Some (_, k') => Some (data <$> k'.1) | None => None end.
Proof. destruct T as [t v kids], p as [|i p]; cbn; [by rewrite HV|done]. Qed.

(** Places after a heap is added. *)
Lemma placed_all_adds h x k B W s s' :
  wrap_heap h x k B W -> adds s s' B W -> home s x -> (forall l i, x <> WMem l i) -> placed_all Sh s -> placed_all Sh s'.
Proof.
  intros Hx [A1 A2 A3 A4 A5] Hh Hv HP u [q Hq]. rewrite A2 in Hq. rewrite lookup_un in Hq.
  destruct u as [m|l i]; [done|].
  destruct (W !! WMem l i) eqn:HWu; rewrite ?HWu in Hq.
  - destruct (heap_bound _ _ _ _ _ _ Hx l i) as (b & Hb & Hi); [by eexists|by intros ?; eapply Hv|].
    exists b. split; [|done]. rewrite A1. at_norm. by rewrite Hb.
  - destruct (HP (WMem l i) ltac:(by eexists)) as (b & Hb & Hi). exists b. split; [|done]. rewrite A1.
    rewrite lookup_un. destruct (dis_at _ _ l A4) as [->|]; [done|congruence].
Qed.
End tree.
