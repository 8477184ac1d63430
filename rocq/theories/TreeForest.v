(** * Places in forests: taking one or two wrappers out of memory and putting back others. *)

From stdpp Require Import base gmap list.
From Verif Require Import Lang Common Client Spec Rep RunLemmas Headers Hist Tree TreeProps TreeAssign TreeAssignC.
From Verif Require Import TreeMove TreeMoveAssign TreeSub TreeClient TreePlace.

Section tree.
Context {E : Env} (Sh : Shape E).
Notation A := (eA E).
Notation V := (eV E).
Notation wst := (option (tree E) * A)%type.
Notation forest := (gmap nat (header * wst)).
Implicit Types s : store E.
Implicit Types F : forest.
Notation wrap_heap := (wrap_heap Sh).
Notation mem_heap := (mem_heap Sh).
Notation nodeTP := (nodeTP Sh).
Notation node_impl := (node_impl Sh).
Notation forest_heap := (forest_heap Sh).
Notation at_path := (at_path Sh).
Notation at_place := (at_place Sh).

(** ** Forests *)
Lemma forest_take F B W x h k :
  forest_heap F B W -> F !! x = Some (h, k) ->
  exists B1 W1 R S, wrap_heap h (WVar x) k B1 W1 /\ forest_heap (delete x F) R S /\
    B = B1 ∪ R /\ W = W1 ∪ S /\ B1 ##ₘ R /\ W1 ##ₘ S.
Proof.
  induction 1 as [|x' h' k' F B1 W1 B2 W2 Hx' Hw HF IH DB DW]; intros Hx; [by rewrite lookup_empty in Hx|].
  destruct (decide (x' = x)) as [->|Hne].
  - rewrite lookup_insert in Hx. simplify_eq. exists B1, W1, B2, W2. rewrite delete_insert by done. done.
  - rewrite lookup_insert_ne in Hx by done.
    destruct (IH Hx) as (B3 & W3 & R & S & H3 & HF' & -> & -> & D1 & D2).
    exists B3, W3, (B1 ∪ R), (W1 ∪ S). rewrite delete_insert_ne by done. split_and!; [done| | | | |].
    + constructor; [by rewrite lookup_delete_ne|done|done|clear - DB D1; map_solve|clear - DW D2; map_solve].
    + clear - DB. map_solve.
    + clear - DW. map_solve.
    + clear - DB D1. map_solve.
    + clear - DW D2. map_solve.
Qed.

Lemma forest_put F R S x h k B1 W1 :
  forest_heap (delete x F) R S -> wrap_heap h (WVar x) k B1 W1 -> B1 ##ₘ R -> W1 ##ₘ S ->
  forest_heap (<[x := (h, k)]> F) (B1 ∪ R) (W1 ∪ S).
Proof.
  intros HF Hw DB DW. rewrite <- insert_delete_insert. constructor; try done. apply lookup_delete.
Qed.

Lemma put_place_eq F π h k k' :
  F !! pl_var π = Some (h, k) -> put_place F π k' = <[pl_var π := (h, put k (pl_path π) k')]> F.
Proof.
  intros Hx. unfold put_place. apply map_eq. intros i. destruct (decide (pl_var π = i)) as [<-|Hne].
  - by rewrite lookup_alter, Hx, lookup_insert.
  - by rewrite lookup_alter_ne, lookup_insert_ne.
Qed.

Lemma at_place_inv F π k : at_place F π = Some k ->
  exists k0, F !! pl_var π = Some (pl_hdr π, k0) /\ at_path k0 (pl_path π) = Some k.
Proof.
  unfold TreeClient.at_place. destruct (F !! pl_var π) as [[h k0]|]; [|done]. case_decide as Hh; [|done]. subst. eauto.
Qed.

Lemma place_take F B W π k :
  forest_heap F B W -> at_place F π = Some k ->
  exists y By Wy R S, wrap_heap (place_hdr π) y k By Wy /\ B = By ∪ R /\ W = Wy ∪ S /\ By ##ₘ R /\ Wy ##ₘ S /\
    (forall n s, B ⊆ blocks s -> W ⊆ wraps s -> run (find Sh n π) s = ORet y s) /\
    forall k' B' W', wrap_heap (place_hdr π) y k' B' W' -> B' ##ₘ R -> W' ##ₘ S ->
      forest_heap (put_place F π k') (B' ∪ R) (W' ∪ S).
Proof.
  intros HF Hp. apply at_place_inv in Hp as (k0 & Hx & Hp).
  destruct (forest_take _ _ _ _ _ _ HF Hx) as (B1 & W1 & R & S & H1 & HR & -> & -> & D1 & D2).
  destruct (path_take Sh _ _ _ _ _ _ _ H1 Hp) as (y & By & Wy & R2 & S2 & Hy & -> & -> & X1 & X2 & Hr & _ & Hrec).
  exists y, By, Wy, (R2 ∪ R), (S2 ∪ S). split_and!; [done| | | | | |].
  - by rewrite (assoc_L (∪)).
  - by rewrite (assoc_L (∪)).
  - clear - D1 X1. map_solve.
  - clear - D2 X2. map_solve.
  - intros n s HB HW. apply Hr; [clear - HB; map_solve|clear - HW; map_solve].
  - intros k' B' W' Hk' Y1 Y2. rewrite (put_place_eq _ _ _ _ _ Hx), !(assoc_L (∪)). apply forest_put; [done|..].
    + apply Hrec; [done|clear - Y1; map_solve|clear - Y2; map_solve].
    + clear - Y1 D1. map_solve.
    + clear - Y2 D2. map_solve.
Qed.

Lemma place_take2 F B W π ρ k k2 :
  forest_heap F B W -> at_place F π = Some k -> at_place F ρ = Some k2 -> separate π ρ = true ->
  exists y By Wy z Bz Wz R S, wrap_heap (place_hdr π) y k By Wy /\ wrap_heap (place_hdr ρ) z k2 Bz Wz /\
    B = By ∪ (Bz ∪ R) /\ W = Wy ∪ (Wz ∪ S) /\ By ##ₘ Bz /\ By ##ₘ R /\ Bz ##ₘ R /\ Wy ##ₘ Wz /\ Wy ##ₘ S /\ Wz ##ₘ S /\
    (forall n s, B ⊆ blocks s -> W ⊆ wraps s -> run (find Sh n π) s = ORet y s /\ run (find Sh n ρ) s = ORet z s) /\
    forall k' B' W' k2' B2' W2', wrap_heap (place_hdr π) y k' B' W' -> wrap_heap (place_hdr ρ) z k2' B2' W2' ->
      B' ##ₘ B2' -> B' ##ₘ R -> B2' ##ₘ R -> W' ##ₘ W2' -> W' ##ₘ S -> W2' ##ₘ S ->
      forest_heap (put_place (put_place F π k') ρ k2') (B' ∪ (B2' ∪ R)) (W' ∪ (W2' ∪ S)).
Proof.
  intros HF Hp Hq Hs. apply at_place_inv in Hp as (k0 & Hx & Hp). apply at_place_inv in Hq as (k02 & Hx2 & Hq).
  destruct (forest_take _ _ _ _ _ _ HF Hx) as (B1 & W1 & R & S & H1 & HR & -> & -> & D1 & D2).
  unfold separate in Hs. destruct (decide (pl_var π = pl_var ρ)) as [He|Hne].
  - rewrite <- He, Nat.eqb_refl in Hs. cbn in Hs. rewrite <- He, Hx in Hx2. injection Hx2 as H0 <-.
    destruct (path_take2 Sh _ _ _ _ _ _ _ _ _ H1 Hp ltac:(exact Hq) Hs)
      as (y & By & Wy & z & Bz & Wz & R2 & S2 & Hy & Hz & -> & -> & X1 & X2 & X3 & X4 & X5 & X6 & Hr1 & Hr2 & Hrec).
    exists y, By, Wy, z, Bz, Wz, (R2 ∪ R), (S2 ∪ S). unfold place_hdr in *. rewrite <- H0 in *. split_and!; try done.
    + by rewrite !(assoc_L (∪)).
    + by rewrite !(assoc_L (∪)).
    + clear - D1 X2. map_solve.
    + clear - D1 X3. map_solve.
    + clear - D2 X5. map_solve.
    + clear - D2 X6. map_solve.
    + intros n s HB HW. unfold find. rewrite <- He, <- H0. split; [apply Hr1|apply Hr2]; first [clear - HB; map_solve|clear - HW; map_solve].
    + intros k' B' W' k2' B2' W2' Hk' Hk2' Y1 Y2 Y3 Y4 Y5 Y6.
      rewrite (put_place_eq _ _ _ _ _ Hx). erewrite (put_place_eq _ ρ) by (rewrite <- He; apply lookup_insert).
      rewrite <- He, insert_insert.
      replace (B' ∪ (B2' ∪ (R2 ∪ R))) with ((B' ∪ (B2' ∪ R2)) ∪ R) by (by rewrite !(assoc_L (∪))).
      replace (W' ∪ (W2' ∪ (S2 ∪ S))) with ((W' ∪ (W2' ∪ S2)) ∪ S) by (by rewrite !(assoc_L (∪))).
      apply forest_put; [done|..].
      * apply Hrec; try done; [clear - Y2|clear - Y3|clear - Y5|clear - Y6]; map_solve.
      * clear - Y2 Y3 D1. map_solve.
      * clear - Y5 Y6 D2. map_solve.
  - destruct (forest_take (delete (pl_var π) F) R S (pl_var ρ) (pl_hdr ρ) k02 HR) as (B2 & W2 & R' & S' & H2 & HR' & -> & -> & D3 & D4).
    { by rewrite lookup_delete_ne. }
    destruct (path_take Sh _ _ _ _ _ _ _ H1 Hp) as (y & By & Wy & R2 & S2 & Hy & -> & -> & X1 & X2 & Hr1 & _ & Hrec1).
    destruct (path_take Sh _ _ _ _ _ _ _ H2 Hq) as (z & Bz & Wz & R3 & S3 & Hz & -> & -> & X3 & X4 & Hr2 & _ & Hrec2).
    exists y, By, Wy, z, Bz, Wz, (R2 ∪ (R3 ∪ R')), (S2 ∪ (S3 ∪ S')). split_and!; try done.
    + clear - X1 X3 D1 D3. map_solve.
    + clear - X2 X4 D2 D4. map_solve.
    + clear - D1. map_solve.
    + clear - D1 X1. map_solve.
    + clear - D1 D3 X3. map_solve.
    + clear - D2. map_solve.
    + clear - D2 X2. map_solve.
    + clear - D2 D4 X4. map_solve.
    + intros n s HB HW. split; [apply Hr1|apply Hr2]; first [clear - HB D1; map_solve|clear - HW D2; map_solve].
    + intros k' B' W' k2' B2' W2' Hk' Hk2' Y1 Y2 Y3 Y4 Y5 Y6.
      rewrite (put_place_eq _ _ _ _ _ Hx). erewrite (put_place_eq _ ρ) by (rewrite lookup_insert_ne by done; apply Hx2).
      rewrite insert_commute by done.
      replace (B' ∪ (B2' ∪ (R2 ∪ (R3 ∪ R')))) with ((B' ∪ R2) ∪ ((B2' ∪ R3) ∪ R')) by (clear - Y3; map_solve).
      replace (W' ∪ (W2' ∪ (S2 ∪ (S3 ∪ S')))) with ((W' ∪ S2) ∪ ((W2' ∪ S3) ∪ S')) by (clear - Y6; map_solve).
      apply forest_put; [|apply Hrec1; [done|clear - Y2; map_solve|clear - Y5; map_solve]|..].
      * rewrite delete_insert_ne by done. apply forest_put; [done|apply Hrec2; [done|clear - Y3; map_solve|clear - Y6; map_solve]|..].
        -- clear - Y3 D3. map_solve.
        -- clear - Y6 D4. map_solve.
      * clear - Y1 Y2 Y3 D1. map_solve.
      * clear - Y4 Y5 Y6 D2. map_solve.
Qed.

(** One place inside the other. *)
Lemma at_app p q k : at_path k (p ++ q) = match at_path k p with Some k1 => at_path k1 q | None => None end.
Proof.
  revert k. induction p as [|[i h] p IH]; intros k; [done|]. cbn. destruct k as [[[t v ks]|] a]; [|done]. cbn.
  case_decide; [|done]. destruct (ks !! i); [apply IH|done].
Qed.
Lemma put_app p q k k1 k' : at_path k p = Some k1 -> put k (p ++ q) k' = put k p (put k1 q k').
Proof.
  revert k. induction p as [|[i h] p IH]; intros k; cbn; [by intros [= ->]|].
  destruct k as [[[t v ks]|] a]; [|done]. cbn. case_decide; [|done]. destruct (ks !! i) as [ki|] eqn:Hi; [|done]. intros Hp.
  do 3 f_equal. rewrite !(alter_insert_list _ _ _ _ Hi). f_equal. by apply IH.
Qed.
Lemma end_app p q h : end_hdr h (p ++ q) = end_hdr (end_hdr h p) q.
Proof. revert h. induction p as [|[i h'] p IH]; intros h; [done|apply IH]. Qed.
Lemma locate_app p q T w h s : run (locate T w h (p ++ q)) s =
  match run (locate T w h p) s with ORet y s' => run (locate T y (end_hdr h p) q) s' | OThrow e s' => OThrow e s' | OUB u => OUB u | OTerm => OTerm end.
Proof.
  revert w h s. induction p as [|[i h'] p IH]; intros w h s; [done|]. cbn [app locate end_hdr]. rewrite !run_bind.
  destruct (run (i_star _ w) s); [apply IH|done|done|done].
Qed.

(** [q] continues [p], with the classes that the members have. *)
Lemma below_app p q k k1 k2 : at_path k p = Some k1 -> at_path k q = Some k2 -> below p q = true -> exists r, r <> [] /\ p = q ++ r.
Proof.
  revert p k. induction q as [|[j h] q IH]; intros [|[i h'] p] k; cbn; try done.
  - intros _ _ _. eexists. split; [|done]. done.
  - destruct k as [[[t v ks]|] a]; [|done]. cbn. case_decide as E1; [|done]. case_decide as E2; [|done].
    intros Hp Hq [Hij Hb]%andb_prop. apply Nat.eqb_eq in Hij as ->. destruct (ks !! j) as [kj|]; [|done].
    destruct (IH p kj Hp Hq Hb) as (r & Hr & ->). exists r. by subst.
Qed.
Lemma nested p q k k1 k2 : at_path k p = Some k1 -> at_path k q = Some k2 -> apart p q = false ->
  p = q \/ below p q = true \/ below q p = true.
Proof.
  revert q k. induction p as [|[i h] p IH]; intros [|[j h'] q] k; cbn; [by left|by right; right|by right; left|].
  destruct k as [[[t v ks]|] a]; [|done]. cbn. case_decide as E1; [|done]. case_decide as E2; [|done].
  intros Hp Hq [Hij Hb]%orb_false_elim. apply negb_false_iff, Nat.eqb_eq in Hij as ->. rewrite Nat.eqb_refl. cbn.
  destruct (ks !! j) as [kj|]; [|done]. destruct (IH q kj Hp Hq Hb) as [->|?]; [left; by subst|by right].
Qed.
Lemma nested_places F π ρ k k' : at_place F π = Some k -> at_place F ρ = Some k' -> separate π ρ = false ->
  π = ρ \/ inside π ρ = true \/ inside ρ π = true.
Proof.
  intros (k0 & H0 & Hp)%at_place_inv (k1 & H1 & Hq)%at_place_inv. unfold separate, inside.
  intros [Hv Ha]%orb_false_elim. apply negb_false_iff, Nat.eqb_eq in Hv. rewrite Hv, Nat.eqb_refl in *. cbn. rewrite H0 in H1. simplify_eq.
  destruct (nested _ _ _ _ _ Hp Hq Ha) as [He|?]; [|by right]. left. destruct π, ρ. cbn in *. by subst.
Qed.

Lemma place_nest F B W π ρ k k2 :
  forest_heap F B W -> at_place F π = Some k -> at_place F ρ = Some k2 -> inside π ρ = true ->
  exists y By Wy z Bz Wz R S R2 S2, wrap_heap (place_hdr π) y k By Wy /\ wrap_heap (place_hdr ρ) z k2 Bz Wz /\ Wy !! z = None /\
    Bz = By ∪ R2 /\ Wz = Wy ∪ S2 /\ By ##ₘ R2 /\ Wy ##ₘ S2 /\ B = Bz ∪ R /\ W = Wz ∪ S /\ Bz ##ₘ R /\ Wz ##ₘ S /\
    (forall n s, B ⊆ blocks s -> W ⊆ wraps s -> run (find Sh n π) s = ORet y s /\ run (find Sh n ρ) s = ORet z s) /\
    (forall k' B' W', wrap_heap (place_hdr ρ) z k' B' W' -> B' ##ₘ R -> W' ##ₘ S -> forest_heap (put_place F ρ k') (B' ∪ R) (W' ∪ S)) /\
    (forall k' B' W', wrap_heap (place_hdr π) y k' B' W' -> B' ##ₘ R2 ∪ R -> W' ##ₘ S2 ∪ S ->
      forest_heap (put_place F π k') (B' ∪ (R2 ∪ R)) (W' ∪ (S2 ∪ S))) /\
    exists T, k2.1 = Some T.
Proof.
  intros HF Hp0 Hq0 Hin. destruct (at_place_inv _ _ _ Hp0) as (k0 & H0 & Hp). destruct (at_place_inv _ _ _ Hq0) as (k1 & H1 & Hq).
  apply andb_prop in Hin as [Hv Hb]. apply Nat.eqb_eq in Hv. rewrite <- Hv, H0 in H1. injection H1 as Hh <-.
  destruct (below_app _ _ _ _ _ Hp Hq Hb) as (r & Hr & Hpq).
  destruct (place_take F B W ρ k2 HF Hq0) as (z & Bz & Wz & R & S & Hz & -> & -> & D1 & D2 & Hfind & Hput).
  rewrite Hpq, at_app, Hq in Hp.
  destruct (path_take Sh r _ z k2 Bz Wz k Hz Hp) as (y & By & Wy & R2 & S2 & Hy & -> & -> & D3 & D4 & Hrun & Hzy & Hrec).
  assert (Hend : end_hdr (place_hdr ρ) r = place_hdr π) by (unfold place_hdr; by rewrite Hpq, end_app, Hh).
  rewrite Hend in *.
  exists y, By, Wy, z, (By ∪ R2), (Wy ∪ S2), R, S, R2, S2. split_and!; try done; [by apply Hzy| | |].
  - intros n s HB HW. split; [|by apply Hfind]. unfold find. rewrite Hpq, locate_app, Hh.
    assert (Hf := Hfind n s HB HW). unfold find in Hf. rewrite Hv, Hf.
    apply Hrun; [clear - HB; map_solve|clear - HW; map_solve].
  - intros k' B' W' Hy' X1 X2.
    replace (put_place F π k') with (put_place F ρ (put k2 r k')).
    2:{ rewrite (put_place_eq F ρ _ _ _ ltac:(by rewrite <- Hv)), (put_place_eq F π _ _ _ H0). rewrite Hpq, (put_app _ _ _ _ _ Hq). by rewrite Hv. }
    rewrite !(assoc_L (∪)). apply Hput; [apply Hrec; [done|clear - X1; map_solve|clear - X2; map_solve]| |].
    + clear - X1 D1. map_solve.
    + clear - X2 D2. map_solve.
  - destruct r as [|[i h] r]; [done|]. cbn in Hp. destruct k2 as [[T|] a]; [by exists T|done].
Qed.

(** Every wrapper is a variable or a member of an object that has it. *)
Lemma forest_placed F B W s :
  forest_heap F B W -> B ⊆ blocks s -> W ⊆ wraps s -> wraps s ⊆ W -> placed_all Sh s.
Proof.
  intros HF HB HW HW' u [q Hq]. destruct u as [m|l i]; [done|].
  assert (is_Some (W !! WMem l i)) as HWl by (exists q; by eapply lookup_weaken).
  clear Hq HW HW'. induction HF as [|x h k F B1 W1 B2 W2 Hx Hw HF IH DB DW].
  - rewrite lookup_empty in HWl. by destruct HWl.
  - destruct HWl as [w Hl]. rewrite lookup_un in Hl. destruct (W1 !! WMem l i) as [w1|] eqn:H1.
    + destruct (heap_bound _ _ _ _ _ _ Hw l i) as (b & Hb & Hall); [by eexists|done|].
      exists b. split; [|done]. eapply lookup_weaken; [|exact HB]. by apply lookup_union_Some_l.
    + apply IH; [clear - HB DB; map_solve|by eexists].
Qed.
Lemma holds_placed F s : holds Sh F s -> placed_all Sh s.
Proof. intros H. by eapply forest_placed. Qed.
End tree.
