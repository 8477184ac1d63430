(** * Copy assignment of a wrapper from a wrapper at any depth of its own value: exactly when it
    is defined, and what it then does. *)

From stdpp Require Import base gmap list.
From Verif Require Import Lang Common Client Spec Rep RunLemmas Headers Hist Tree TreeProps TreeAssign TreeAssignC TreeMove TreeMoveAssign TreeSub TreeSubUB TreeObs TreeSubMem TreeEx TreeAsgObs.
From Verif Require Import Indirect20 Indirect14 Polymorphic20 Polymorphic14.

Section sub.
Context {E : Env} (Sh : Shape E).
Notation A := (eA E).
Notation V := (eV E).
Notation wst := (option (tree E) * A)%type.
Implicit Types s : store E.
Notation wrap_heap := (wrap_heap Sh).
Notation mem_heap := (mem_heap Sh).
Notation nodeTP := (nodeTP Sh).
Notation node_impl := (node_impl Sh).
Notation placed := (placed Sh).
Notation placed_all := (placed_all Sh).
Notation hs := (k_hdr Sh (tT E)).
Notation seen h k p := (match sub_at_path Sh h k p with Some (_, k') => Some (data <$> k'.1) | None => None end).

(** Assignment of [k] from the wrapper at [p] of its own value is done in place. *)
Definition in_place_from (h : header) (k : wst) (p : list nat) : bool :=
  match header_cls h, sub_at_path Sh h k p with
  | Ind, Some (_, (Some _, ay)) => t_assignable E && a_eqb E k.2 ay
  | _, _ => false
  end.

(** Assigning [k = k->p] in place assigns its members in turn; the member [i] that leads to the
    source is itself assigned from a wrapper of its own value, at the rest of [p] followed by
    [i].  These are the members through which the assignment descends in this way. *)
Fixpoint descends (n : nat) (h : header) (k : wst) (p : list nat) : list nat :=
  match n, k.1, p with
  | S n', Some (TNode t v kids), i :: p' =>
      if in_place_from h k p then
        match kids !! i with Some k' => i :: descends n' (k_hdr Sh t i) k' (p' ++ [i]) | None => [] end
      else []
  | _, _, _ => []
  end.

(** The last member of a node. *)
Definition is_last (i : nat) : Prop := forall v, n_kids Sh (tT E) v = S i.

Lemma walk_mono s s' x p y : wraps s ⊆ wraps s' -> walk s x p = Some y -> walk s' x p = Some y.
Proof.
  intros HW. revert x. induction p as [|i p IH]; intros x Hw; [done|]. cbn in *.
  destruct (wraps s !! x) as [[[] a]|] eqn:Hx; try done. rewrite (lookup_weaken _ _ _ _ Hx HW). by apply IH.
Qed.

Lemma walk_app s x p q : walk s x (p ++ q) = match walk s x p with Some w => walk s w q | None => None end.
Proof.
  revert x. induction p as [|i p IH]; intros x; [done|]. cbn. destruct (wraps s !! x) as [[[] a]|]; try done.
Qed.

Lemma sub_app h k p q : sub_at_path Sh h k (p ++ q) =
  match sub_at_path Sh h k p with Some (h', k') => sub_at_path Sh h' k' q | None => None end.
Proof.
  revert h k. induction p as [|i p IH]; intros h k; [done|]. cbn. destruct k as [[[t v kids]|] a]; [|done]. cbn.
  destruct (kids !! i); [|done]. apply IH.
Qed.

(** The wrapper at a path is determined by the heap of the tree. *)
Lemma focus_in p h x kx Bx Wx h' ky :
  wrap_heap h x kx Bx Wx -> sub_at_path Sh h kx p = Some (h', ky) ->
  exists y By Wy, wrap_heap h' y ky By Wy /\ By ⊆ Bx /\ Wy ⊆ Wx /\ (p <> [] -> Wy !! x = None) /\
    forall s, Wx ⊆ wraps s -> walk s x p = Some y.
Proof.
  intros Hx Hp. set (s0 := mkS Bx Wx ∅ [] [] : store E).
  destruct (focus Sh p h x kx Bx Wx s0 h' ky Hx) as (y & By & Wy & Hwalk & Hy & SB & SW & HyW & _); [done|done|].
  exists y, By, Wy. split_and!; [done..|]. intros s HW. eapply walk_mono; [|exact Hwalk]. exact HW.
Qed.

Lemma descends_last n h k p j i :
  Forall is_last (descends n h k p) -> p !! j = Some i -> j < length (descends n h k p) -> is_last i.
Proof.
  revert h k p j. induction n as [|n IH]; intros h k p j HL Hp Hj; [cbn in Hj; lia|].
  destruct k as [[[t v kids]|] a]; [|cbn in Hj; lia]. destruct p as [|i0 p]; [done|]. cbn [descends fst] in HL, Hj.
  destruct (in_place_from _ _ _); [|cbn in Hj; lia]. destruct (kids !! i0) as [k|]; [|cbn in Hj; lia].
  apply Forall_cons in HL as [H1 H2]. destruct j as [|j]; [cbn in Hp; by simplify_eq|].
  cbn in Hp, Hj. eapply (IH (k_hdr Sh t i0) k (p ++ [i0]) j H2); [by apply lookup_app_l_Some|lia].
Qed.

Context (HS : ShapeReq Sh) (HF : Fixed Sh) (HA : AllocReq E).

Lemma descends_members n h k p B W x :
  wrap_heap h x k B W -> Forall (fun i => forall v, i < n_kids Sh (tT E) v) (descends n h k p).
Proof.
  revert h k p B W x. induction n as [|n IH]; intros h k p B W x Hx; [constructor|].
  destruct k as [[[t v kids]|] a]; [|constructor]. destruct p as [|i p]; [constructor|]. cbn [descends fst].
  destruct (in_place_from _ _ _) eqn:Hip; [|constructor]. destruct (kids !! i) as [k|] eqn:Hi; [|constructor].
  apply wrap_inv in Hx as (l & b & B1 & W1 & _ & _ & _ & _ & Hok & Hlen & Hm).
  assert (t = tT E) as ->. { apply Hok. unfold in_place_from in Hip. by destruct (header_cls h). }
  destruct (mem_focus Sh _ _ _ _ _ _ i k Hm Hi) as (B2 & W2 & H2 & _). constructor; [|by eapply IH].
  intros v'. rewrite (HF _ v' v), <- Hlen. by eapply lookup_lt_Some.
Qed.

Lemma in_place_run_any n h x y a l ak o v v1 b bo s :
  header_cls h = Ind -> t_assignable E = true -> a_eqb E a ak = true ->
  wraps s !! x = Some (mkW (PLoc l) a) -> wraps s !! y = Some (mkW (PLoc o) ak) -> x <> y ->
  blocks s !! l = Some b -> b_obj b = OLive (tT E) v -> blocks s !! o = Some bo -> b_obj bo = OLive (tT E) v1 ->
  run (i_copy_assign (node_impl (S n) h) x y) s =
  run (bind (bind (act_thr (PAsgn (tT E) l (ARef ConstL (RBlk o)))) (fun _ =>
          assign_members (fun j => i_copy_assign (node_impl n (hs j)) (WMem l j) (WMem o j)) 0 (n_kids Sh (tT E) v)))
        (fun _ => if pocca E then bind (act (PReadA y)) (fun a => act (PWriteA x a)) else Ret tt)) s.
Proof.
  intros Hcls Hasg Ha Hxs Hys Hxy Hb Hobj Hbo Hobjo.
  unfold Tree.node_impl at 1. rewrite cassign_eq, Hcls. cbn [cassign]. unfold Indirect20.copy_assign.
  rewrite decide_False by done. erewrite st_valueless by done. cbv beta iota.
  rewrite run_bind. rewrite Hasg.
  rewrite (run_bind (bind (Indirect20.valueless_after_move x) _)).
  erewrite st_valueless by done. cbv beta. cbn [negb]. erewrite st_readA by done. cbv beta.
  erewrite st_readA by done. cbv beta. rewrite Ha. cbn [run].
  erewrite st_deref by done. cbv beta. unfold Indirect20.op_star. erewrite st_deref by done. cbv beta.
  assert (Hro : forall l b t v X (f : ty * V -> prog E X) s, blocks s !! l = Some b -> b_obj b = OLive t v ->
    run (bind (act (PReadObj (RBlk l))) f) s = run (f (t, v)) s).
  { intros. cbn. by rewrite H, H0. }
  assert (R0 : run (tp_asgn (nodeTP (S n)) (tT E) l (ARef ConstL (RBlk o))) s =
    run (bind (act_thr (PAsgn (tT E) l (ARef ConstL (RBlk o)))) (fun _ =>
      assign_members (fun j => i_copy_assign (node_impl n (hs j)) (WMem l j) (WMem o j)) 0 (n_kids Sh (tT E) v))) s).
  { cbn [Tree.nodeTP nodeTP_step tp_asgn].
    erewrite Hro by done; cbv beta; erewrite Hro by done; cbv beta; cbn [snd].
    by rewrite (HF (tT E) v1 v), Nat.eqb_refl. }
  rewrite R0. by rewrite (run_bind (bind (act_thr _) _)).
Qed.

Lemma asg_ws_len hs' i ks ds : length ds = length ks -> length (asg_ws Sh hs' i ks ds) = length ds.
Proof.
  revert i ds. induction ks as [|k ks IH]; intros i [|d ds] Hl; try done. cbn. f_equal. apply IH. by simplify_eq/=.
Qed.

Definition values_kept := CopyValue (E := E) /\ AssignValue (E := E).

Lemma deep n : forall p h x y kx ky Bx Wx s,
  placed_all s -> placed s x -> p <> [] -> wrap_heap h x kx Bx Wx -> Bx ⊆ blocks s -> Wx ⊆ wraps s -> fits n kx.1 ->
  sub_at_path Sh h kx p = Some (h, ky) -> walk s x p = Some y ->
  match run (i_copy_assign (node_impl n h) x y) s with
  | ORet _ s' => pocca E = false /\ Forall is_last (descends n h kx p) /\
      exists k' B' W', wrap_heap h x (k', kx.2) B' W' /\ replaced s s' Bx Wx B' W' /\
        (forall q w l0 a0, length (descends n h kx p) <= length q -> q `prefix_of` p -> walk s x q = Some w ->
           wraps s !! w = Some (mkW (PLoc l0) a0) -> B' !! l0 = None) /\
        (values_kept -> forall q, seen h (k', kx.2) q = seen h ky q)
  | OThrow _ s' => exists k' B' W', wrap_heap h x (k', kx.2) B' W' /\ replaced s s' Bx Wx B' W'
  | OUB u => u = UBBadWrapper /\ (pocca E = true \/ ~ Forall is_last (descends n h kx p))
  | OTerm => False
  end.
Proof.
  induction n as [|n IH]; intros p h x y kx ky Bx Wx s HP Hpx Hp Hx HB HW Hfit Hsub Hwalk.
  { destruct p as [|i p]; [done|]. cbn in Hsub. destruct kx as [[[]|] a]; [|done]. done. }
  destruct (focus_in p h x kx Bx Wx h ky Hx Hsub) as (y' & By & Wy & Hy & SB & SW & HxWy & Hwk).
  assert (y' = y) as ->. { specialize (Hwk s HW). congruence. }
  specialize (HxWy Hp). assert (Hxy : x <> y) by (destruct (wrap_in _ _ _ _ _ _ Hy); congruence).
  assert (Hfy := sub_fits _ _ _ _ _ _ _ Hsub Hfit).
  destruct p as [|i p]; [done|]. clear Hp.
  destruct kx as [[[t v kids]|] a]; [|done].
  assert (Hx0 := Hx). assert (Hfit0 := Hfit). assert (Hy0 := Hy).
  destruct (in_place_from h (Some (TNode t v kids), a) (i :: p)) eqn:Hip.
  2:{ (* a copy is made *)
    assert (Hd : descends (S n) h (Some (TNode t v kids), a) (i :: p) = []).
    { cbn [descends fst]. by rewrite Hip. }
    rewrite Hd. cbn [length snd].
    assert (Hcase : header_cls h = Poly \/ t_assignable E = false \/ a_eqb E a ky.2 = false \/ ky.1 = None).
    { unfold in_place_from in Hip. rewrite Hsub in Hip. destruct (header_cls h); [|tauto]. destruct ky as [[T|] ay]; [|tauto].
      apply andb_false_iff in Hip. cbn in Hip |- *. tauto. }
    destruct (pocca E) eqn:Hca.
    - assert (HC := sub_copy_ub Sh HS (S n) h x y _ ky _ _ By Wy s Hca (placed_mem_ok _ _ HP) Hxy Hx0 Hy SB SW HB HW Hfit Hfy Hcase).
      destruct (run _ s) as [u s'|e s'|u|]; [done| |auto|done].
      eexists _, _, _. split; [exact Hx0|]. by apply same_replaced.
    - assert (HC := sub_copy Sh HS (S n) h x y _ ky _ _ By Wy s Hca (placed_mem_ok _ _ HP) Hxy Hx0 Hy SB SW HB HW Hfit Hfy Hcase).
      destruct (run _ s) as [u s'|e s'|u|]; [| |done|done].
      + destruct HC as (B' & W' & Hw & DB' & R). split_and!; [done|constructor|].
        cbn [snd] in Hw. destruct (copy_as a ky) as [k' a'] eqn:Hcp.
        assert (a' = a) as -> by (by destruct ky as [[]]; unfold copy_as in Hcp; simplify_eq/=).
        exists k', B', W'. split_and!; [done|done| |].
        * intros q w l0 a0 _ [q' Hq'] Hw0 Hl0.
          assert (exists hw kw, sub_at_path Sh h (Some (TNode t v kids), a) q = Some (hw, kw)) as (hw & kw & Hkw).
          { rewrite Hq', sub_app in Hsub. destruct (sub_at_path _ _ _ q) as [[]|]; [eauto|done]. }
          destruct (focus_in q h x _ Bx Wx hw kw Hx0 Hkw) as (w' & Bw & Ww & Hhw & SBw & SWw & _ & Hwkw).
          assert (w' = w) as ->. { specialize (Hwkw s HW). congruence. }
          assert (HWw : Ww ⊆ wraps s) by (by etrans).
          destruct (wrap_ptr _ _ _ _ _ _ s Hhw HWw) as (pw & _ & Hpw & Hpk). rewrite Hl0 in Hpw. injection Hpw as <- Ha0.
          destruct kw as [[[tw vw kw]|] aw]; cbn [fst] in Hpk; [|done].
          apply wrap_inv in Hhw as (l' & b & B1 & W1 & -> & -> & _ & _ & _).
          assert (l' = l0) as ->. { assert (HX := lookup_weaken _ _ w _ (lookup_insert _ _ _) HWw). congruence. }
          destruct (dis_at _ _ l0 DB') as [|HX]; [done|].
          assert (HX2 := lookup_weaken _ _ l0 _ (lookup_insert _ _ _) SBw). congruence.
        * intros [HV _] q. rewrite <- Hcp. by apply sub_copy_path.
      + eexists _, _, _. split; [exact Hx0|]. by apply same_replaced. }
  (* in place *)
  assert (Hip0 := Hip). unfold in_place_from in Hip. rewrite Hsub in Hip.
  destruct (header_cls h) eqn:Hcls; [|done]. destruct ky as [[[t1 v1 ks1]|] ay]; [|done].
  apply andb_true_iff in Hip as [Hasg Ha]. cbn [snd] in Ha.
  cbn [sub_at_path fst] in Hsub. destruct (kids !! i) as [k|] eqn:Hki; [|done].
  assert (Hd : descends (S n) h (Some (TNode t v kids), a) (i :: p) = i :: descends n (k_hdr Sh t i) k (p ++ [i])).
  { cbn [descends fst]. by rewrite Hip0, Hki. }
  rewrite Hd. clear Hd Hip0. cbn [snd].
  apply wrap_inv in Hx as (l & b & B1 & W1 & -> & -> & HBl & HWx & Hok & Hlen & Hm). rewrite Hcls in Hok.
  assert (t = tT E) as -> by (by apply Hok).
  assert (Hxs : wraps s !! x = Some (mkW (PLoc l) a)) by (eapply lookup_weaken; [|exact HW]; apply lookup_insert).
  assert (Hb : blocks s !! l = Some b) by (eapply lookup_weaken; [|exact HB]; apply lookup_insert).
  assert (HB1 : B1 ⊆ blocks s) by (clear - HB HBl; map_solve).
  assert (HW1 : W1 ⊆ wraps s) by (clear - HW HWx; map_solve).
  assert (Hil := lookup_lt_Some _ _ _ Hki).
  assert (Hkids : kids = take i kids ++ k :: drop (S i) kids) by (by rewrite take_drop_middle).
  assert (Hds : length (take i kids) = i) by (rewrite take_length; lia).
  set (ds := take i kids) in *. set (es := drop (S i) kids) in *. clearbody ds es. subst kids. clear Hki Hil.
  cbn [fits] in Hfit. apply Forall_app in Hfit as [Hfd Hfr]. apply Forall_cons in Hfr as [Hfk Hfe].
  apply mem_app_inv in Hm as (Bd & Wd & Br & Wr & -> & -> & DB & DW & Hd & Hr). cbn [Nat.add] in Hr. assert (Hr0 := Hr).
  apply mem_cons_inv in Hr as (Bk & Wk & Be & We & -> & -> & DBe & DWe & Hk & He). rewrite Hds in Hk, He.
  (* the source, below member i *)
  destruct (focus_in p _ _ _ _ _ _ _ Hk Hsub) as (y' & By' & Wy' & Hy' & SB' & SW' & _ & Hwk').
  assert (HBk : Bk ⊆ blocks s) by (clear - HB1 DB DBe; map_solve).
  assert (HWk : Wk ⊆ wraps s) by (clear - HW1 DW DWe; map_solve).
  assert (y' = y) as ->.
  { specialize (Hwk' s HWk). cbn [walk] in Hwalk. rewrite Hxs in Hwalk. congruence. }
  clear By Wy Hy Hy0 SB SW HxWy Hwk.
  apply wrap_inv in Hy' as (o & bo & B2 & W2 & -> & -> & HBo & HWy & Hoko & Hlen1 & Hm1). rewrite Hcls in Hoko.
  assert (Hoko' := Hoko). destruct Hoko' as (_ & Hobjo & _ & _ & HT1). rewrite (HT1 eq_refl) in *. clear t1 HT1.
  assert (Hok' := Hok). destruct Hok' as (_ & Hobj & _).
  assert (Hys : wraps s !! y = Some (mkW (PLoc o) ay)).
  { eapply lookup_weaken; [|exact HWk]. eapply lookup_weaken; [|exact SW']. apply lookup_insert. }
  assert (HoBk : Bk !! o = Some bo) by (eapply lookup_weaken; [|exact SB']; apply lookup_insert).
  assert (Hbo : blocks s !! o = Some bo) by (by eapply lookup_weaken).
  assert (Hol : o <> l).
  { intros ->. clear - HBl HoBk DB. rewrite !lookup_un in HBl. rewrite HoBk in HBl. by destruct (Bd !! l). }
  erewrite in_place_run_any by done. rewrite run_bind.
  assert (Hlk : length ks1 = i + S (length es)).
  { rewrite Hlen1, (HF _ v1 v), <- Hlen, app_length, Hds. done. }
  destruct (lookup_lt_is_Some_2 ks1 i) as [k1 Hk1]; [lia|].
  assert (Hks1 : ks1 = take i ks1 ++ k1 :: drop (S i) ks1) by (by rewrite take_drop_middle).
  assert (Hti : length (take i ks1) = i) by (rewrite take_length; lia).
  set (fs := take i ks1) in *. set (gs := drop (S i) ks1) in *. clearbody fs gs. subst ks1.
  assert (Hgs : length gs = length es) by (rewrite app_length in Hlk; cbn in Hlk; lia). clear Hlk.
  assert (Hff : Forall (fun k => fits n k.1) fs).
  { cbn [fits fst] in Hfy. by apply Forall_app in Hfy as [? _]. }
  assert (Hm10 := Hm1).
  apply mem_app_inv in Hm1 as (Bf & Wf & Bg & Wg & -> & -> & DBf & DWf & Hf & Hg). cbn [Nat.add] in Hg. rewrite Hti in Hg.
  rewrite <- Hlen, app_length, Hds. cbn [length]. rewrite front_app, run_bind.
  assert (HFr := front Sh HS HF HA h Hcls n x a l o v v1 ds (k :: es) fs b bo Bd Wd _ _ Bf Wf s
    HP Hpx Hxs Hb Hok Hlen Hd Hr0 DB DW HBl HWx HB1 HW1 Hol Hbo Hobjo).
  feed specialize HFr; [by rewrite Hds, Hti|exact Hf| | |done|done|].
  { clear - DBf HBo SB'. etrans; [|etrans; [exact SB'|]]; map_solve. }
  { clear - DWf HWy SW'. etrans; [|etrans; [exact SW'|]]; map_solve. }
  rewrite Hds in HFr.
  assert (HBkl : Bk !! l = None) by (clear - HBl; at_norm; destruct (Bd !! l), (Bk !! l); done).
  assert (HBel : Be !! l = None) by (clear - HBl; at_norm; destruct (Bd !! l), (Bk !! l); done).
  assert (HWkx : Wk !! x = None) by (clear - HWx; at_norm; destruct (Wd !! x), (Wk !! x); done).
  assert (HWex : We !! x = None) by (clear - HWx; at_norm; destruct (Wd !! x), (Wk !! x); done).
  assert (HWdx : Wd !! x = None) by (clear - HWx; at_norm; destruct (Wd !! x); done).
  assert (HBdl : Bd !! l = None) by (clear - HBl; at_norm; destruct (Bd !! l); done).
  assert (D1 : <[l := b]> Bd ##ₘ Bk) by (clear - DB HBkl; map_solve).
  assert (D2 : Wd ##ₘ Wk) by (clear - DW; map_solve).
  assert (D3 : <[l := b]> Bd ##ₘ Be) by (clear - DB HBel; map_solve).
  assert (D4 : Wd ##ₘ We) by (clear - DW; map_solve).
  assert (HBe : Be ⊆ blocks s) by (clear - HB1 DB DBe; map_solve).
  assert (HWe : We ⊆ wraps s) by (clear - HW1 DW DWe; map_solve).
  (* putting the pieces together *)
  assert (Hput : forall s3 v' ds' k' b' Bd' Wd' B' W', length ds' = i ->
     mem_heap hs (WMem l) 0 ds' Bd' Wd' -> wrap_heap (hs i) (WMem l i) k' B' W' -> block_ok Ind l (tT E) v' a b' ->
     Bd' !! l = None -> Wd' !! x = None ->
     replaced s s3 (<[l := b]> Bd ∪ Bk) (Wd ∪ Wk) (<[l := b']> Bd' ∪ B') (Wd' ∪ W') ->
     <[l := b']> Bd' ##ₘ B' -> Wd' ##ₘ W' ->
     wrap_heap h x (Some (TNode (tT E) v' (ds' ++ k' :: es)), a) (<[l := b']> (Bd' ∪ (B' ∪ Be))) (<[x := mkW (PLoc l) a]> (Wd' ∪ (W' ∪ We))) /\
       replaced s s3 (<[l := b]> (Bd ∪ (Bk ∪ Be))) (<[x := mkW (PLoc l) a]> (Wd ∪ (Wk ∪ We)))
         (<[l := b']> (Bd' ∪ (B' ∪ Be))) (<[x := mkW (PLoc l) a]> (Wd' ∪ (W' ∪ We)))).
  { intros s3 v' ds' k' b' Bd' Wd' B' W' Hl' Hm' Hw' Hob' HBl' HWx' RR DD1 DD2.
    destruct (replaced_frame _ _ _ _ _ _ Be We RR) as (RF & DE1 & DE2 & _); [|by apply map_disjoint_union_l|done|done|].
    { by apply map_disjoint_union_l. }
    assert (HB'l : B' !! l = None) by (destruct (dis_at _ _ l DD1) as [HX|]; [by rewrite lookup_insert in HX|done]).
    destruct RF as [Q1 Q2 Q3 Q4 Q5].
    assert (HW'x : W' !! x = None).
    { apply (fun Q => dis_at _ _ x Q) in Q5. rewrite !lookup_un, lookup_diff, !lookup_un, HWdx, HWkx, HWex, HWx', Hxs in Q5. destruct (W' !! x); [by destruct Q5|done]. }
    split.
    - constructor; [by rewrite Hcls| | | |].
      + rewrite (HF _ v' v), <- Hlen, !app_length, Hl', Hds. done.
      + apply mem_app; [done| |clear - DD1 DE1 HBl'; map_solve|clear - DD2 DE2; map_solve].
        cbn [Nat.add]. rewrite Hl'. constructor; [done|done|clear - DE1; map_solve|clear - DE2; map_solve].
      + by rewrite !lookup_un, HBl', HB'l, HBel.
      + by rewrite !lookup_un, HWx', HW'x, HWex.
    - split; [rewrite Q1|rewrite Q2|done| |].
      + clear. map_solve.
      + clear - HWx' HW'x HWdx HWkx HWex Hxs. map_solve.
      + clear - Q4. map_solve.
      + clear - Q5 HWx' HW'x HWex. map_solve. }
  destruct (run (bind (act_thr _) _) s) as [u s2|e s2| |]; [| |done|done].
  2:{ destruct HFr as (v' & ds' & b' & Bd' & Wd' & Hm' & Hl' & Hob' & HBl' & HWx' & R).
      destruct (replaced_frame _ _ _ _ _ _ Bk Wk R D1 D2 HBk HWk) as (RF & DD1 & DD2 & _).
      destruct (Hput s2 v' ds' _ b' Bd' Wd' Bk Wk Hl' Hm' Hk Hob' HBl' HWx' RF DD1 DD2) as (H3 & R3).
      eexists _, _, _. split; [exact H3|exact R3]. }
  destruct HFr as (b' & Bd' & Wd' & Hd' & Hob' & HBl' & HWx' & HP2 & R).
  destruct (replaced_frame _ _ _ _ _ _ Bk Wk R D1 D2 HBk HWk) as (_ & DDk1 & _ & HBk2 & HWk2).
  assert (Hla : length (asg_ws Sh hs 0 fs ds) = i) by (rewrite asg_ws_len; [done|by rewrite Hds, Hti]).
  assert (HsubI : sub_at_path Sh (hs i) k (p ++ [i]) = Some (hs i, k1)).
  { rewrite sub_app, Hsub. cbn. by rewrite Hk1. }
  assert (Hys2 : wraps s2 !! y = Some (mkW (PLoc o) ay)).
  { eapply lookup_weaken; [|exact HWk2]. eapply lookup_weaken; [|exact SW']. apply lookup_insert. }
  assert (HwalkI : walk s2 (WMem l i) (p ++ [i]) = Some (WMem o i)).
  { rewrite walk_app, (Hwk' s2 HWk2). cbn. by rewrite Hys2. }
  assert (Hpy : placed s2 (WMem l i)).
  { apply HP2. destruct (wrap_in _ _ _ _ _ _ Hk) as [wk Hwk]. exists wk. by eapply lookup_weaken. }
  assert (HI := IH (p ++ [i]) (hs i) (WMem l i) (WMem o i) k k1 Bk Wk s2 HP2 Hpy).
  feed specialize HI; [by destruct p|done|done|done|done|done|done|].
  cbn [assign_members]. rewrite run_bind.
  destruct (run (i_copy_assign _ _ _) s2) as [u3 s3|e s3|u3|]; [| | |done].
  - (* the member is assigned *)
    destruct HI as (Hca & HL & k' & B' & W' & Hw' & R' & Hgone & Hval).
    destruct es as [|ke es].
    + (* it is the last *)
      destruct gs; [|done]. rewrite app_length, Hds in Hlen. cbn [length] in Hlen.
      assert (Hlast : is_last i). { intros v'. rewrite (HF _ v' v), <- Hlen. lia. }
      cbn [assign_members run length]. rewrite Hca. cbn [run].
      destruct (replaced_trans _ _ _ _ _ _ _ _ _ _ _ R R' D1 D2 HBk HWk) as (RT & DD1 & DD2).
      destruct (Hput s3 _ _ _ b' Bd' Wd' B' W' Hla Hd' Hw' Hob' HBl' HWx' RT DD1 DD2) as (H3 & R3).
      split_and!; [done|by constructor|]. eexists _, _, _. split_and!; [exact H3|exact R3| |].
      * intros q w l0 a0 Hq Hpre Hww Hl0. destruct q as [|i0 q]; [cbn in Hq; lia|].
        apply prefix_cons_inv_1 in Hpre as Hi0. apply prefix_cons_inv_2 in Hpre. subst i0.
        cbn [walk] in Hww. rewrite Hxs in Hww.
        assert (exists hw kw, sub_at_path Sh (hs i) k q = Some (hw, kw)) as (hw & kw & Hkw).
        { destruct Hpre as [q' ->]. rewrite sub_app in Hsub. destruct (sub_at_path _ _ _ q) as [[]|]; [eauto|done]. }
        destruct (focus_in q _ _ _ Bk Wk hw kw Hk Hkw) as (w' & Bw & Ww & Hhw & SBw & SWw & _ & Hwkw).
        assert (w' = w) as ->. { specialize (Hwkw s HWk). congruence. }
        destruct (wrap_in _ _ _ _ _ _ Hhw) as [ww Hww'].
        assert (HWkw := lookup_weaken _ _ _ _ Hww' SWw).
        assert (ww = mkW (PLoc l0) a0) as ->. { assert (HX := lookup_weaken _ _ _ _ HWkw HWk). congruence. }
        assert (HG := Hgone q w l0 a0). feed specialize HG; [cbn in Hq; lia| |by apply Hwkw|exact (lookup_weaken _ _ _ _ HWkw HWk2)|].
        { etrans; [exact Hpre|]. by apply prefix_app_r. }
        assert (Hl0k : is_Some (Bk !! l0)).
        { destruct kw as [[[tw vw kkw]|] aw].
          - apply wrap_inv in Hhw as (l' & b0 & B5 & W5 & -> & -> & _). rewrite lookup_insert in Hww'. simplify_eq.
            exists b0. eapply lookup_weaken; [|exact SBw]. apply lookup_insert.
          - apply wrap_inv in Hhw as [-> ->]. rewrite lookup_singleton in Hww'. done. }
        destruct Hl0k as [b0 Hb0]. destruct (dis_at _ _ l0 DDk1) as [HX|HX]; [|congruence].
        rewrite lookup_insert_None in HX. destruct HX as [HX1 HX2].
        rewrite lookup_insert_ne by done. rewrite !lookup_un, HX1, HG. destruct (dis_at _ _ l0 DBe); congruence.
      * intros HV q. destruct q as [|j q]; [cbn; by rewrite (proj2 HV)|].
        cbn [sub_at_path fst]. destruct (decide (j < i)) as [Hj|Hj].
        -- rewrite !lookup_app_l by lia. rewrite asg_ws_lookup by (by rewrite Hds, Hti). cbn [Nat.add].
           destruct (lookup_lt_is_Some_2 fs j) as [kf Hkf]; [lia|]. destruct (lookup_lt_is_Some_2 ds j) as [kd Hkd]; [lia|]. rewrite Hkf, Hkd.
           destruct (mem_focus Sh _ _ _ _ _ _ j kd Hd Hkd) as (? & ? & Hwd & _). destruct (mem_focus Sh _ _ _ _ _ _ j kf Hf Hkf) as (? & ? & Hwf & _).
           cbn [Nat.add] in Hwd, Hwf. apply wrap_shaped in Hwd, Hwf. destruct HV as [HV HV']. by apply asg_path.
        -- rewrite !lookup_app_r by lia. rewrite Hla, Hti. destruct (j - i) as [|m] eqn:Hm; [|done].
           assert (j = i) as -> by lia. cbn [lookup list_lookup]. by apply Hval.
    + (* it is not *)
      cbn [length assign_members]. rewrite run_bind, casg_gone; [| |].
      * split; [done|]. right. intros HL'. apply Forall_cons in HL' as [Hi _]. specialize (Hi v). rewrite <- Hlen, app_length, Hds in Hi. cbn in Hi. lia.
      * intros HX. by simplify_eq.
      * assert (HWo : is_Some (Wk !! WMem o (S i))).
        { destruct (mem_in_gen _ _ _ _ _ _ _ Hg (S i)) as [q Hq]; [destruct gs; [done|cbn; lia]|].
          exists q. eapply lookup_weaken; [|exact SW']. rewrite lookup_ins. case_decide as HX; [|].
          - subst y. clear - HWy Hq DWf. rewrite lookup_un, Hq in HWy. destruct (Wf !! WMem o (S i)); done.
          - rewrite lookup_un. destruct (dis_at _ _ (WMem o (S i)) DWf) as [HX'|HX']; [by rewrite HX', Hq|congruence]. }
        destruct HWo as [q Hq]. rewrite (rp_w _ _ _ _ _ _ R'), lookup_un, lookup_diff, Hq.
        destruct (W' !! WMem o (S i)) eqn:Hbad; [|done]. exfalso.
        destruct (heap_bound _ _ _ _ _ _ Hw' o (S i)) as (b3 & Hb3 & _); [by eexists|congruence|].
        assert (HG : B' !! o = None); [|congruence].
        eapply (Hgone p y o ay); [|by apply prefix_app_r|by apply Hwk'|done].
        destruct (decide (length (descends n (hs i) k (p ++ [i])) <= length p)) as [|Hgt]; [done|]. exfalso.
        assert (Hi : is_last i).
        { eapply (descends_last _ _ _ _ (length p) i HL); [|lia]. rewrite lookup_app_r, Nat.sub_diag by done. done. }
        specialize (Hi v). rewrite <- Hlen, app_length, Hds in Hi. cbn in Hi. lia.
  - destruct HI as (k' & B' & W' & Hw' & R').
    destruct (replaced_trans _ _ _ _ _ _ _ _ _ _ _ R R' D1 D2 HBk HWk) as (RT & DD1 & DD2).
    destruct (Hput s3 _ _ _ b' Bd' Wd' B' W' Hla Hd' Hw' Hob' HBl' HWx' RT DD1 DD2) as (H3 & R3).
    eexists _, _, _. split; [exact H3|exact R3].
  - destruct HI as [-> HI]. split; [done|]. destruct HI as [HI|HI]; [by left|right]. intros HL. apply HI. by apply Forall_cons in HL as [_ ?].
Qed.
End sub.
